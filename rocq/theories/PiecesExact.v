(** Bytes of characters of a string. *)
From Coq Require Import ZifyBool ZifyNat ZifyN.
From Verif Require Import GoBase Utf8 Utf8Proofs Utf8Dec Regex Pieces.
Local Open Scope N_scope.
Local Ltac Zify.zify_post_hook ::= Z.div_mod_to_equations.

Lemma decode1_encode1 r s b0 s1 : valid_rune r = true -> b0 :: s1 = encode1 r ++ s -> decode1 b0 s1 = (r, s).
Proof.
  unfold valid_rune, encode1. intros H.
  apply orb_true_iff in H. rewrite inr_true, N.ltb_lt in H. unfold decode1.
  destruct (N.ltb_spec r 128) as [H1|H1].
  { cbn [app]. intros E. cons_inj E. destruct (N.ltb_spec r 128); [reflexivity|lia]. }
  destruct (N.ltb_spec r 2048) as [H2|H2].
  { cbn [app]. intros E. cons_inj E. destruct (N.ltb_spec (192 + r / 64) 128); [lia|].
    inr_case 194 223 (192 + r / 64).
    unfold cont. inr_case 128 191 (128 + r mod 64).
    f_equal. lia. }
  destruct (N.ltb_spec r 65536) as [H3|H3].
  { cbn [app]. intros E. cons_inj E. destruct (N.ltb_spec (224 + r / 4096) 128); [lia|].
    inr_case 194 223 (224 + r / 4096). inr_case 224 239 (224 + r / 4096).
    assert (second3 (224 + r / 4096) (128 + (r / 64) mod 64) = true) as ->.
    { unfold second3, cont.
      destruct (N.eqb_spec (224 + r / 4096) 224); [apply inr_true; lia|].
      destruct (N.eqb_spec (224 + r / 4096) 237); apply inr_true; lia. }
    unfold cont. inr_case 128 191 (128 + r mod 64). cbn [andb].
    f_equal. lia. }
  cbn [app]. intros E. cons_inj E. destruct (N.ltb_spec (240 + r / 262144) 128); [lia|].
  inr_case 194 223 (240 + r / 262144). inr_case 224 239 (240 + r / 262144).
  inr_case 240 244 (240 + r / 262144).
  assert (second4 (240 + r / 262144) (128 + (r / 4096) mod 64) = true) as ->.
  { unfold second4, cont.
    destruct (N.eqb_spec (240 + r / 262144) 240); [apply inr_true; lia|].
    destruct (N.eqb_spec (240 + r / 262144) 244); apply inr_true; lia. }
  unfold cont. inr_case 128 191 (128 + r mod 64). inr_case 128 191 (128 + (r / 64) mod 64).
  cbn [andb]. f_equal. lia.
Qed.
Lemma decode1_cases b0 s1 : Forall (fun x => x < 256) (b0 :: s1) ->
  (exists r s', valid_rune r = true /\ b0 :: s1 = encode1 r ++ s' /\ decode1 b0 s1 = (r, s')) \/ decode1 b0 s1 = (rune_error, s1).
Proof.
  intros F. destruct (decode_step b0 s1 F) as [(r & s' & V & E & _)|(B & D & N)].
  { left. exists r, s'. split; [exact V|]. split; [exact E|]. exact (decode1_encode1 _ _ _ _ V E). }
  right. rewrite decodeN_step in D. injection D as D _. unfold decode1 in *. destruct (N.ltb_spec b0 128) as [A|A]; [lia|].
  unfold rune_error in *.
  destruct (inr 194 223 b0) eqn:I.
  { destruct s1 as [|b1 s2]; [reflexivity|]. destruct (cont b1) eqn:C; [|reflexivity]. cbn [fst] in D. apply cont_ge in C. apply inr_true in I. exfalso. lia. }
  destruct (inr 224 239 b0) eqn:I3.
  { destruct s1 as [|b1 [|b2 s3]]; try reflexivity. destruct (second3 b0 b1 && cont b2) eqn:C; [|reflexivity]. cbn [fst] in D. exfalso.
    apply andb_true_iff in C. destruct C as [C1 C2]. pose proof (second3_ge _ _ C1). unfold cont in C2. apply inr_true in C2. apply inr_true in I3.
    assert (b1 <= 191). { unfold second3, cont in C1. destruct (b0 =? 224), (b0 =? 237); apply inr_true in C1; lia. }
    assert (b0 = 239) by lia. assert (b1 = 191) by lia. assert (b2 = 189) by lia. subst. apply (N 65533 s3); [reflexivity|]. vm_compute. reflexivity. }
  destruct (inr 240 244 b0) eqn:I4; [|reflexivity].
  destruct s1 as [|b1 [|b2 [|b3 s4]]]; try reflexivity. destruct (second4 b0 b1 && cont b2 && cont b3) eqn:C; [|reflexivity]. exfalso. cbn [fst] in D.
  apply andb_true_iff in C. destruct C as [C C3]. apply andb_true_iff in C. destruct C as [C1 C2]. pose proof (second4_ge _ _ C1). apply cont_ge in C2. apply cont_ge in C3. apply inr_true in I4.
  destruct (N.eq_dec b0 240) as [->|]; [apply second4_240 in C1|]; lia.
Qed.
Lemma pl_exact s : Forall (fun x => x < 256) s ->
  Forall (fun p => valid_rune (fst p) = true /\ (snd p = encode1 (fst p) \/ (fst p = rune_error /\ length (snd p) = 1%nat))) (pl s).
Proof.
  remember (length s) as n eqn:E. revert s E. induction n as [n IH] using lt_wf_ind. intros [|b0 s1] -> F; [constructor|].
  rewrite pl_cons. constructor.
  2:{ pose proof (decode1_short b0 s1). eapply IH; [|reflexivity|]; [cbn [length]; lia|].
      inversion F as [|? ? F0 F1]. destruct (decode1_rest b0 s1) as (p & E). rewrite E in F1. apply Forall_app in F1. apply F1. }
  destruct (decode1_cases b0 s1 F) as [(r & s' & V & E & ->)| ->]; cbn [fst snd].
  - split; [exact V|]. left. assert (L : length (b0 :: s1) = (length (encode1 r) + length s')%nat) by (rewrite E; apply app_length). cbn [length] in L.
    rewrite L, E. rewrite Nat.add_sub, firstn_app, Nat.sub_diag, firstn_all, firstn_O. apply app_nil_r.
  - split; [reflexivity|]. right. split; [reflexivity|]. replace (S (length s1) - length s1)%nat with 1%nat by lia. reflexivity.
Qed.
Lemma pieces_exact s : Forall (fun p => valid_rune (fst p) = true /\ (snd p = strN (encode1 (fst p)) \/ (fst p = rune_error /\ length (snd p) = 1%nat))) (pieces s).
Proof.
  rewrite pieces_pl. apply Forall_map. eapply Forall_impl; [|apply pl_exact, bytesN_bound]. intros [r bs] [V [H|[H1 H2]]]; cbn [fst snd] in *.
  - split; [exact V|]. left. rewrite H. reflexivity.
  - split; [exact V|]. right. split; [exact H1|]. unfold strN. rewrite map_length. exact H2.
Qed.
