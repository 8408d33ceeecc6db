(** Tests of executions of a connected client and server. *)
From Verif Require Import GoBase LinkTypes Emacs Backend BackendSpec ReplySpec Server ServerSpec ServerMain ServerLive ServerWitness Unmarshal EndSpec EndProofs.

Definition replies_of (tr : list slabel) : list Backend.reply := flat_map (fun l => match l with VBack _ (LReply r) => [r] | _ => [] end) tr.
Lemma replies_in tr i r : In (VBack i (LReply r)) tr -> In r (replies_of tr).
Proof. intros I. apply in_flat_map. exists (VBack i (LReply r)). split; [exact I|left; reflexivity]. Qed.
Definition fit1 (c : config) (tr : list slabel) : bool :=
  forallb (fun p => match readRequest (c_dec c) p with Ok _ => true | Err _ => false end &&
    forallb (fun r => match response (pid p) (answer_of (c_text c) r) with Done t => N.ltb (N.of_nat (length t)) (2 ^ 32) | Panic => true end) (replies_of tr)) (received tr).
Lemma fit1_ok c tr : fit1 c tr = true -> fit c tr.
Proof.
  intros H k p a t N A R. unfold fit1 in H. rewrite forallb_forall in H. specialize (H p (nth_error_In _ _ N)). apply andb_true_iff in H. destruct H as [H1 H2]. destruct A as [e M|q i o r M T P].
  - rewrite (meaning_ok _ _ _ M) in H1. discriminate H1.
  - rewrite forallb_forall in H2. specialize (H2 r (replies_in _ _ _ (inner_in _ _ _ P))). rewrite R in H2. apply N.ltb_lt, H2.
Qed.
Definition shallow1 (tr : list slabel) : bool := forallb (fun r => match r with PMentions c => N.leb (N.of_nat (levels c)) 4998 | _ => true end) (replies_of tr).
Lemma shallow1_ok tr : shallow1 tr = true -> shallow tr.
Proof. intros H i c I. unfold shallow1 in H. rewrite forallb_forall in H. specialize (H _ (replies_in _ _ _ I)). apply N.leb_le, H. Qed.
Lemma existsb_close tr : existsb is_close tr = true -> In VClose tr.
Proof. intros H. apply existsb_exists in H. destruct H as (l & I & E). destruct l; try discriminate E. exact I. Qed.
