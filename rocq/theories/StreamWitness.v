(** Frames for examples of sessions. *)
From Coq Require Import ZifyBool ZifyNat ZifyN.
From Verif Require Import GoBase JsonSpec Frame FrameSpec StreamSpec.

(** A message shorter than 65536 bytes with its header *)
Definition ex_frame (m : str) : str := let n := N.of_nat (length m) in map ascii_of_N [n mod 256; n / 256; 0; 0]%N ++ m.
Lemma ex_framed ms : Forall (fun m => N.of_nat (length m) < 65536)%N ms -> is_stream (concat (map ex_frame ms)) ms.
Proof.
  induction 1 as [|m ms L _ IH]; [constructor|]. cbn [map concat]. constructor; [|exact IH]. unfold ex_frame. eexists. split; [|reflexivity].
  pose proof (N.mod_upper_bound (N.of_nat (length m)) 256 ltac:(discriminate)) as M.
  assert (Q : (N.of_nat (length m) / 256 < 256)%N) by (apply N.div_lt_upper_bound; [discriminate|exact L]). pose proof (N.div_mod (N.of_nat (length m)) 256 ltac:(discriminate)) as D.
  do 4 eexists. split; [reflexivity|]. rewrite !N_ascii_embedding by (assumption || reflexivity). lia.
Qed.
Lemma ex_empty w : space w -> object_text (b "{" ++ w ++ b "}").
Proof. intros W. exists [], 1, (w ++ b "}"). split; [constructor|]. split; [apply (gt_obj0 0), W|]. split; [cbn; lia|reflexivity]. Qed.
