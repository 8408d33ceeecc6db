(** Objects of RFC 8259 are among texts that are accepted. *)
From Coq Require Import ZifyBool ZifyNat ZifyN.
From Verif Require Import GoBase Utf8 Utf8Proofs JsonSpec CompactProofs StreamSpec StreamProofs.

Lemma utf8_plain r t : valid_rune r = true -> (32 <= r)%N -> r <> 34%N -> r <> 92%N -> gchars t -> gchars (utf8 r ++ t).
Proof.
  intros V L Q B G. assert (F : Forall (fun c => 32 <= N_of_ascii c /\ c <> quote /\ c <> backslash)%N (utf8 r)).
  { destruct (N.lt_ge_cases r 128) as [S|K].
    - assert (E : utf8 r = [ascii_of_N r]). { unfold utf8, encode1. destruct (N.ltb_spec r 128); [reflexivity|lia]. } rewrite E. repeat constructor; [rewrite N_ascii_embedding by lia; assumption| |]; intros H; apply (f_equal N_of_ascii) in H; rewrite N_ascii_embedding in H by lia; [apply Q|apply B]; exact H.
    - destruct (utf8_bytes r V K) as (c & x & -> & Lc & Ft & _). assert (Z : forall a, (128 <= N_of_ascii a)%N -> (32 <= N_of_ascii a)%N /\ a <> quote /\ a <> backslash).
      { intros a La. split; [lia|]. split; intros ->; vm_compute in La; apply La; reflexivity. }
      constructor; [apply Z; lia|]. eapply Forall_impl; [|exact Ft]. intros a Ha. apply Z. cbn in Ha. lia. }
  induction F as [|c x (A & D & E) F IH]; [exact G|]. apply gc_plain; assumption.
Qed.
Lemma rfc_chars rs t : jchars rs t -> gchars t.
Proof.
  induction 1 as [|r rs t V L Q B J IH|c r rs t I J IH|h n rs t H S J IH|h1 h2 n1 n2 rs t H1 H2 L1 L2 J IH].
  - constructor.
  - apply utf8_plain; assumption.
  - apply gc_escape; [change c with (fst (c, r)); apply in_map, I|exact IH].
  - destruct H as (c1 & c2 & c3 & c4 & k1 & k2 & k3 & k4 & -> & A1 & A2 & A3 & A4 & _). apply gc_code; try (eexists; eassumption). exact IH.
  - destruct H1 as (c1 & c2 & c3 & c4 & k1 & k2 & k3 & k4 & -> & A1 & A2 & A3 & A4 & _). destruct H2 as (d1 & d2 & d3 & d4 & m1 & m2 & m3 & m4 & -> & B1 & B2 & B3 & B4 & _).
    apply gc_code; try (eexists; eassumption). apply gc_code; try (eexists; eassumption). exact IH.
Qed.
Lemma rfc_string rs t : jstring rs t -> gstring t.
Proof. intros (x & J & ->). exists x. split; [eapply rfc_chars, J|reflexivity]. Qed.
Definition lnest (l : list value) : nat := fold_right (fun x n => Nat.max (nesting x) n) 0 l.
Definition mnest (l : list (list rune * value)) : nat := fold_right (fun x n => Nat.max (nesting (snd x)) n) 0 l.
Lemma rfc_text :
  (forall v t, jtext v t -> forall n, nesting v <= n -> gtext n t) /\ (forall l t, jitems l t -> forall n, lnest l <= n -> gitems n t) /\ (forall l t, jmembers l t -> forall n, mnest l <= n -> gmembers n t).
Proof.
  apply json_mind.
  - intros n _. apply gt_word. cbn. auto.
  - intros n _. apply gt_word. cbn. auto.
  - intros n _. apply gt_word. cbn. auto.
  - intros t J n _. apply gt_num, J.
  - intros s t J n _. eapply gt_str, rfc_string, J.
  - intros w W n L. cbn [nesting fold_right] in L. destruct n; [lia|]. apply gt_arr0, W.
  - intros l t _ IH n L. cbn [nesting] in L. fold (lnest l) in L. destruct n; [lia|]. apply gt_arr, IH. lia.
  - intros w W n L. cbn [nesting fold_right] in L. destruct n; [lia|]. apply gt_obj0, W.
  - intros l t _ IH n L. cbn [nesting] in L. fold (mnest l) in L. destruct n; [lia|]. apply gt_obj, IH. lia.
  - intros w1 w2 v t W1 W2 _ IH n L. cbn [lnest fold_right] in L. apply gi_one; try assumption. apply IH. lia.
  - intros w1 w2 v t l x W1 W2 _ IH _ IHl n L. cbn [lnest fold_right] in L. fold (lnest l) in L. apply gi_more; try assumption; [apply IH; lia|apply IHl; lia].
  - intros w1 w2 w3 w4 k kt v t W1 W2 W3 W4 Jk _ IH n L. cbn [mnest fold_right snd] in L. apply gm_one; try assumption; [eapply rfc_string, Jk|apply IH; lia].
  - intros w1 w2 w3 w4 k kt v t l x W1 W2 W3 W4 Jk _ IH _ IHl n L. cbn [mnest fold_right snd] in L. fold (mnest l) in L. apply gm_more; try assumption; [eapply rfc_string, Jk|apply IH; lia|apply IHl; lia].
Qed.
Lemma rfc_object w l x : space w -> jtext (VObj l) x -> (N.of_nat (nesting (VObj l)) <= 10000)%N -> object_text (w ++ x).
Proof.
  intros W J L. pose proof (proj1 rfc_text _ _ J _ (le_n _)) as G. assert (E : exists y, x = "{"%char :: y) by (inversion J; subst; eexists; reflexivity). destruct E as (y & ->).
  exists w, (nesting (VObj l)), y. auto.
Qed.
