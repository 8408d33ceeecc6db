(** The heap keeps the best links. *)
From Verif Require Import GoBase GoSlice Utf8 Utf8Dec Regex Pieces Fuzzy FuzzySpec FuzzyDist FuzzyMain.
From Coq Require Import Lia ZifyBool ZifyNat ZifyN Permutation Sorted.
Local Open Scope nat_scope.

(** ** Order *)
Lemma ascii_N_inj a c : N_of_ascii a = N_of_ascii c -> a = c.
Proof. intros H. rewrite <- (ascii_N_embedding a), H. apply ascii_N_embedding. Qed.

Lemma str_ltb_lt x : forall y, str_ltb x y = true <-> str_lt x y.
Proof.
  induction x as [|a x IH]; intros [|c y]; cbn [str_ltb].
  - split; [discriminate|inversion 1].
  - split; [constructor|reflexivity].
  - split; [discriminate|inversion 1].
  - rewrite orb_true_iff, andb_true_iff, IH, N.ltb_lt, N.eqb_eq. split.
    + intros [H|[H1 H2]]; [apply lt_head; exact H|]. apply ascii_N_inj in H1. subst. apply lt_tail. exact H2.
    + inversion 1; subst; auto.
Qed.
Lemma str_lt_irrefl x : ~ str_lt x x.
Proof. induction x as [|a x IH]; inversion 1; subst; [lia|contradiction]. Qed.
Lemma str_lt_trans x : forall y z, str_lt x y -> str_lt y z -> str_lt x z.
Proof.
  induction x as [|a x IH]; intros y z H1 H2.
  - inversion H1; subst. inversion H2; subst; constructor.
  - inversion H1; subst; inversion H2; subst.
    + apply lt_head. lia.
    + apply lt_head. lia.
    + apply lt_head. lia.
    + apply lt_tail. eauto.
Qed.
Lemma str_lt_total x : forall y, str_lt x y \/ x = y \/ str_lt y x.
Proof.
  induction x as [|a x IH]; intros [|c y].
  - auto.
  - left. constructor.
  - right. right. constructor.
  - destruct (N.lt_total (N_of_ascii a) (N_of_ascii c)) as [H|[H|H]].
    + left. apply lt_head. exact H.
    + apply ascii_N_inj in H. subst c. destruct (IH y) as [H|[->|H]]; [left; apply lt_tail; exact H|auto|right; right; apply lt_tail; exact H].
    + right. right. apply lt_head. exact H.
Qed.

Lemma wLess_better a c : wLess a c = true <-> better a c.
Proof.
  unfold wLess, better. destruct (Z.eqb_spec (Weight a) (Weight c)) as [E|E]; cbn [negb].
  - destruct (Nat.eqb_spec (length (Word a)) (length (Word c))) as [E2|E2]; cbn [negb].
    + rewrite str_ltb_lt. split; [intros H; right; auto|]. intros [H|(_ & [H|(_ & H)])]; [lia|lia|exact H].
    + rewrite Nat.ltb_lt. split; [intros H; right; auto|]. intros [H|(_ & [H|(H & _)])]; [lia|exact H|contradiction].
  - rewrite Z.ltb_lt. split; [auto|]. intros [H|(H & _)]; [exact H|contradiction].
Qed.
Lemma better_irrefl a : ~ better a a.
Proof. unfold better. intros [H|(_ & [H|(_ & H)])]; try lia. exact (str_lt_irrefl _ H). Qed.
Lemma better_trans a c d : better a c -> better c d -> better a d.
Proof.
  unfold better. intros [H1|(E1 & H1)] [H2|(E2 & H2)]; try (left; lia).
  right. split; [congruence|].
  destruct H1 as [H1|(F1 & H1)]; destruct H2 as [H2|(F2 & H2)]; try (left; lia).
  right. split; [congruence|]. eapply str_lt_trans; eauto.
Qed.
Lemma better_total a c : better a c \/ a = c \/ better c a.
Proof.
  unfold better. destruct (Z.lt_total (Weight a) (Weight c)) as [H|[H|H]]; [auto| |auto].
  destruct (Nat.lt_total (length (Word a)) (length (Word c))) as [L|[L|L]]; [auto 6| |right; right; right; auto].
  destruct (str_lt_total (Word a) (Word c)) as [S|[S|S]]; [auto 6| |right; right; right; auto].
  right. left. destruct a, c. cbn in *. congruence.
Qed.
Lemma no_worse_refl a : no_worse a a.
Proof. right. reflexivity. Qed.
Lemma no_worse_trans a c d : no_worse a c -> no_worse c d -> no_worse a d.
Proof. unfold no_worse. intros [H1|<-] [H2|<-]; auto. left. eapply better_trans; eauto. Qed.
Lemma no_worse_antisym a c : no_worse a c -> no_worse c a -> a = c.
Proof. unfold no_worse. intros [H1|<-] [H2|H2]; auto. exfalso. exact (better_irrefl _ (better_trans _ _ _ H1 H2)). Qed.
Lemma not_less a c : wLess a c = false <-> no_worse c a.
Proof.
  unfold no_worse. destruct (wLess a c) eqn:E.
  - apply wLess_better in E. split; [discriminate|]. intros [H|H].
    + exfalso. exact (better_irrefl _ (better_trans _ _ _ E H)).
    + subst. exfalso. exact (better_irrefl _ E).
  - split; [|reflexivity]. intros _. destruct (better_total a c) as [H|[H|H]]; auto. apply wLess_better in H. congruence.
Qed.

(** ** Swap *)
Definition swapped (h : list weighted) (i j : nat) (h' : list weighted) : Prop :=
  length h' = length h /\ forall k, nth_error h' k = nth_error h (if k =? i then j else if k =? j then i else k).

Lemma swap_ok h i j : i < length h -> j < length h ->
  exists h', hSwap h i j = Done h' /\ swapped h i j h' /\ Permutation h h'.
Proof.
  intros Hi Hj. unfold hSwap.
  destruct (nth_error h i) as [a|] eqn:Ei; [|apply nth_error_None in Ei; lia].
  destruct (nth_error h j) as [c|] eqn:Ej; [|apply nth_error_None in Ej; lia].
  unfold get at 1. rewrite Ei. cbn [obind]. unfold get at 1. rewrite Ej. cbn [obind].
  rewrite set_done by exact Hi. cbn [obind]. rewrite set_done by (rewrite replace_at_length; exact Hj).
  eexists. split; [reflexivity|].
  assert (SW : swapped h i j (replace_at (replace_at h i c) j a)).
  { split; [rewrite !replace_at_length; reflexivity|]. intros k.
    destruct (Nat.eq_dec k j) as [->|Nj].
    - rewrite replace_at_same by (rewrite replace_at_length; exact Hj).
      destruct (Nat.eqb_spec j i) as [->|]; [congruence|]. rewrite Nat.eqb_refl. congruence.
    - rewrite replace_at_other by lia. destruct (Nat.eqb_spec k i) as [->|].
      + rewrite replace_at_same by exact Hi. congruence.
      + rewrite replace_at_other by lia. destruct (Nat.eqb_spec k j); [lia|]. reflexivity. }
  split; [exact SW|]. destruct SW as (L & N).
  apply Permutation_nth_error. split; [symmetry; exact L|].
  exists (fun k => if k =? i then j else if k =? j then i else k). split; [|exact N].
  intros x y Hxy. cbn beta in Hxy.
  destruct (Nat.eqb_spec x i), (Nat.eqb_spec y i), (Nat.eqb_spec x j), (Nat.eqb_spec y j); lia.
Qed.

Lemma hLess_ok h i j a c : nth_error h i = Some a -> nth_error h j = Some c -> hLess h i j = Done (wLess c a).
Proof. intros Hi Hj. unfold hLess, get. rewrite Hi, Hj. reflexivity. Qed.

(** ** Heap property: the root is the worst *)
Definition parent (j : nat) : nat := (j - 1) / 2.
Definition edge (h : list weighted) (j : nat) : Prop :=
  forall a c, nth_error h j = Some a -> nth_error h (parent j) = Some c -> no_worse a c.
Definition heap (h : list weighted) : Prop := forall j, 0 < j -> edge h j.

Lemma parent_lt j : 0 < j -> parent j < j.
Proof. intros H. unfold parent. apply Nat.div_lt_upper_bound; lia. Qed.
Lemma parent_eq j i : 0 < j -> (parent j = i <-> j = 2 * i + 1 \/ j = 2 * i + 2).
Proof.
  intros H. unfold parent. split.
  - intros <-. pose proof (Nat.div_mod (j - 1) 2 ltac:(lia)) as D. pose proof (Nat.mod_upper_bound (j - 1) 2 ltac:(lia)). lia.
  - intros [->| ->].
    + replace (2 * i + 1 - 1) with (i * 2) by lia. apply Nat.div_mul. lia.
    + replace (2 * i + 2 - 1) with (1 + i * 2) by lia. rewrite Nat.div_add by lia. reflexivity.
Qed.

(** everything is in order except the edge from [j] up *)
Definition up_inv (h : list weighted) (j : nat) : Prop :=
  (forall k, 0 < k -> k <> j -> edge h k) /\
  (0 < j -> forall k a c, 0 < k -> parent k = j -> nth_error h k = Some a -> nth_error h (parent j) = Some c -> no_worse a c).

Lemma up_ok : forall fuel h j, j < fuel -> j < length h -> up_inv h j ->
  exists h', heap_up fuel h j = Done h' /\ Permutation h h' /\ heap h'.
Proof.
  induction fuel as [|fuel IH]; intros h j Hf Hj (I1 & I2); [lia|]. cbn [heap_up].
  fold (parent j). destruct (Nat.eqb_spec (parent j) j) as [E|E].
  - exists h. split; [reflexivity|]. split; [reflexivity|]. intros k Hk. apply I1; [exact Hk|]. intros ->.
    pose proof (parent_lt j Hk). lia.
  - assert (J0 : 0 < j) by (destruct j; [exfalso; apply E; reflexivity|lia]).
    pose proof (parent_lt j J0) as PL. set (i := parent j) in *.
    destruct (nth_error h j) as [a|] eqn:Ej; [|apply nth_error_None in Ej; lia].
    destruct (nth_error h i) as [c|] eqn:Ei; [|apply nth_error_None in Ei; lia].
    rewrite (hLess_ok h j i a c Ej Ei). cbn [obind]. destruct (wLess c a) eqn:W; cbn [negb].
    + destruct (swap_ok h i j ltac:(lia) Hj) as (h1 & S1 & (L1 & N1) & P1). rewrite S1. cbn [obind].
      destruct (IH h1 i ltac:(lia) ltac:(lia)) as (h2 & E2 & P2 & H2).
      * assert (Na : nth_error h1 i = Some a) by (rewrite N1, Nat.eqb_refl; exact Ej).
        assert (Nc : nth_error h1 j = Some c).
        { rewrite N1. destruct (Nat.eqb_spec j i); [lia|]. rewrite Nat.eqb_refl. exact Ei. }
        assert (No : forall k, k <> i -> k <> j -> nth_error h1 k = nth_error h k).
        { intros k K1 K2. rewrite N1. destruct (Nat.eqb_spec k i); [lia|]. destruct (Nat.eqb_spec k j); [lia|]. reflexivity. }
        assert (CA : no_worse c a) by (left; apply wLess_better; exact W).
        split.
        -- intros k Hk Hki x y Hx Hy.
           destruct (Nat.eq_dec k j) as [->|Kj].
           ++ fold i in Hy. rewrite Nc in Hx. rewrite Na in Hy. inversion Hx; inversion Hy; subst. exact CA.
           ++ rewrite No in Hx by assumption.
              destruct (Nat.eq_dec (parent k) i) as [Pi|Pi].
              ** rewrite Pi, Na in Hy. injection Hy as <-. eapply no_worse_trans; [|exact CA].
                 apply (I1 k Hk Kj x c Hx). rewrite Pi. exact Ei.
              ** destruct (Nat.eq_dec (parent k) j) as [Pj|Pj].
                 --- rewrite Pj, Nc in Hy. injection Hy as <-. apply (I2 J0 k x c Hk Pj Hx). reflexivity.
                 --- rewrite No in Hy by assumption. apply (I1 k Hk Kj x y Hx Hy).
        -- intros I0 k x y Hk Pk Hx Hy.
           assert (PPi : parent i < i) by (apply parent_lt; exact I0).
           rewrite No in Hy by lia.
           assert (Ec : no_worse c y) by (apply (I1 i I0 ltac:(lia) c y Ei Hy)).
           destruct (Nat.eq_dec k j) as [->|Kj].
           ++ rewrite Nc in Hx. inversion Hx; subst. exact Ec.
           ++ rewrite No in Hx; [|pose proof (parent_lt k Hk); lia|exact Kj].
              eapply no_worse_trans; [|exact Ec]. apply (I1 k Hk Kj x c Hx). rewrite Pk. exact Ei.
      * exists h2. split; [exact E2|]. split; [eapply perm_trans; eauto|exact H2].
    + exists h. split; [reflexivity|]. split; [reflexivity|]. intros k Hk.
      destruct (Nat.eq_dec k j) as [->|Kj]; [|apply I1; assumption].
      intros x y Hx Hy. fold i in Hy. rewrite Ej in Hx. rewrite Ei in Hy. inversion Hx; inversion Hy; subst.
      apply not_less. exact W.
Qed.

(** everything is in order except edges from children of [i] *)
Definition down_inv (h : list weighted) (i : nat) : Prop :=
  (forall k, 0 < k -> parent k <> i -> edge h k) /\
  (0 < i -> forall k a c, 0 < k -> parent k = i -> nth_error h k = Some a -> nth_error h (parent i) = Some c -> no_worse a c).

Lemma down_ok : forall fuel h i, length h < fuel + i -> i < length h -> down_inv h i ->
  exists h' i', heap_down fuel h i (length h) = Done (h', i') /\ Permutation h h' /\ heap h' /\ i <= i'.
Proof.
  induction fuel as [|fuel IH]; intros h i Hf Hi (I1 & I2); [lia|]. cbn [heap_down].
  destruct (Nat.leb_spec (length h) (2 * i + 1)) as [Hlast|Hj1].
  - exists h, i. split; [reflexivity|]. split; [reflexivity|]. split; [|lia]. intros k Hk.
    destruct (Nat.eq_dec (parent k) i) as [Pk|Pk]; [|apply I1; assumption].
    intros x y Hx Hy. apply parent_eq in Pk; [|exact Hk].
    assert (k < length h) by (apply nth_error_Some; congruence). lia.
  - set (j1 := 2 * i + 1) in *.
    destruct (nth_error h i) as [ai|] eqn:Ei; [|apply nth_error_None in Ei; lia].
    destruct (nth_error h j1) as [a1|] eqn:E1; [|apply nth_error_None in E1; lia].
    (* the worst of children *)
    assert (K : exists j aj, (let! second := (if j1 + 1 <? length h then hLess h (j1 + 1) j1 else Done false) in
                 Done (if second then j1 + 1 else j1)) = Done j /\ nth_error h j = Some aj /\
               (j = j1 \/ j = j1 + 1) /\
               (forall k a, (k = j1 \/ k = j1 + 1) -> nth_error h k = Some a -> no_worse a aj)).
    { destruct (Nat.ltb_spec (j1 + 1) (length h)) as [H2|H2].
      - destruct (nth_error h (j1 + 1)) as [a2|] eqn:E2; [|apply nth_error_None in E2; lia].
        rewrite (hLess_ok h (j1 + 1) j1 a2 a1 E2 E1). cbn [obind]. destruct (wLess a1 a2) eqn:W.
        + exists (j1 + 1), a2. split; [reflexivity|]. split; [exact E2|]. split; [auto|].
          intros k x [->| ->] Hx; [|rewrite E2 in Hx; inversion Hx; apply no_worse_refl].
          rewrite E1 in Hx. inversion Hx; subst. left. apply wLess_better. exact W.
        + exists j1, a1. split; [reflexivity|]. split; [exact E1|]. split; [auto|].
          intros k x [->| ->] Hx; [rewrite E1 in Hx; inversion Hx; apply no_worse_refl|].
          rewrite E2 in Hx. inversion Hx; subst. apply not_less. exact W.
      - exists j1, a1. split; [reflexivity|]. split; [exact E1|]. split; [auto|].
        intros k x [->| ->] Hx; [rewrite E1 in Hx; inversion Hx; apply no_worse_refl|].
        assert (j1 + 1 < length h) by (apply nth_error_Some; congruence). lia. }
    destruct K as (j & aj & EJ & Ej & Hj & Hworst).
    assert (Lj : j < length h) by (apply nth_error_Some; congruence).
    assert (Pj : parent j = i) by (apply parent_eq; lia).
    match goal with |- context [obind ?sec _] => destruct sec as [second|] eqn:Es; [|cbn in EJ; discriminate] end.
    cbn [obind] in EJ |- *. inversion EJ as [EJ']. rewrite EJ'. clear EJ.
    rewrite (hLess_ok h j i aj ai Ej Ei). cbn [obind]. destruct (wLess ai aj) eqn:W; cbn [negb].
    + destruct (swap_ok h i j Hi Lj) as (h1 & S1 & (L1 & N1) & P1). rewrite S1. cbn [obind].
      assert (Na : nth_error h1 i = Some aj) by (rewrite N1, Nat.eqb_refl; exact Ej).
      assert (Nc : nth_error h1 j = Some ai).
      { rewrite N1. destruct (Nat.eqb_spec j i); [lia|]. rewrite Nat.eqb_refl. exact Ei. }
      assert (No : forall k, k <> i -> k <> j -> nth_error h1 k = nth_error h k).
      { intros k K1 K2. rewrite N1. destruct (Nat.eqb_spec k i); [lia|]. destruct (Nat.eqb_spec k j); [lia|]. reflexivity. }
      assert (WA : no_worse ai aj) by (left; apply wLess_better; exact W).
      rewrite <- L1.
      destruct (IH h1 j ltac:(lia) ltac:(lia)) as (h2 & i2 & E2 & P2 & H2 & G2).
      * split.
        -- intros k Hk Pk x y Hx Hy.
           destruct (Nat.eq_dec k i) as [->|Ki].
           ++ (* the edge from i up *)
              pose proof (parent_lt i Hk) as PL. rewrite No in Hy by lia. rewrite Na in Hx. injection Hx as <-.
              apply (I2 Hk j aj y ltac:(lia) Pj Ej Hy).
           ++ destruct (Nat.eq_dec k j) as [->|Kj].
              ** rewrite Pj, Na in Hy. rewrite Nc in Hx. injection Hx as <-. injection Hy as <-. exact WA.
              ** rewrite No in Hx by assumption.
                 destruct (Nat.eq_dec (parent k) i) as [Pi|Pi].
                 --- rewrite Pi, Na in Hy. injection Hy as <-. apply (Hworst k x); [|exact Hx].
                     apply parent_eq in Pi; [|exact Hk]. unfold j1. lia.
                 --- rewrite No in Hy by assumption. apply (I1 k Hk Pi x y Hx Hy).
        -- intros J0 k x y Hk Pk Hx Hy. rewrite Pj, Na in Hy. injection Hy as <-.
           assert (Kj : j < k) by (apply parent_eq in Pk; lia).
           rewrite No in Hx by lia. apply (I1 k Hk ltac:(lia) x aj Hx). rewrite Pk. exact Ej.
      * exists h2, i2. split; [exact E2|]. split; [eapply perm_trans; eauto|]. split; [exact H2|lia].
    + exists h, i. split; [reflexivity|]. split; [reflexivity|]. split; [|lia]. intros k Hk.
      destruct (Nat.eq_dec (parent k) i) as [Pk|Pk]; [|apply I1; assumption].
      intros x y Hx Hy. rewrite Pk, Ei in Hy. inversion Hy; subst y.
      eapply no_worse_trans; [|apply not_less; exact W]. apply (Hworst k x); [|exact Hx].
      apply parent_eq in Pk; [|exact Hk]. unfold j1. lia.
Qed.

Lemma root_worst h r : heap h -> nth_error h 0 = Some r -> forall x, In x h -> no_worse x r.
Proof.
  intros HH Hr x Hx. apply In_nth_error in Hx. destruct Hx as (j & Hj). revert x Hj.
  induction j as [j IH] using lt_wf_ind. intros x Hj.
  destruct j as [|j]; [rewrite Hr in Hj; inversion Hj; apply no_worse_refl|].
  pose proof (parent_lt (S j) ltac:(lia)) as PL.
  destruct (nth_error h (parent (S j))) as [y|] eqn:Ey.
  - eapply no_worse_trans; [exact (HH (S j) ltac:(lia) x y Hj Ey)|]. eapply IH; eauto.
  - apply nth_error_None in Ey. assert (S j < length h) by (apply nth_error_Some; congruence). lia.
Qed.

Lemma push_ok h x : heap h -> exists h', heap_Push h x = Done h' /\ Permutation (x :: h) h' /\ heap h'.
Proof.
  intros HH. unfold heap_Push. rewrite app_length. cbn [length].
  destruct (up_ok (length h + 1) (h ++ [x]) (length h + 1 - 1)) as (h' & E & P & H'); [lia|rewrite app_length; cbn; lia| |].
  - replace (length h + 1 - 1) with (length h) by lia. split.
    + intros k Hk Kn a c Ha Hc.
      assert (k < length (h ++ [x])) by (apply nth_error_Some; congruence). rewrite app_length in H. cbn in H.
      pose proof (parent_lt k Hk). rewrite nth_error_app1 in Ha by lia. rewrite nth_error_app1 in Hc by lia.
      exact (HH k Hk a c Ha Hc).
    + intros L0 k a c Hk Pk Ha Hc. pose proof (parent_lt k Hk).
      assert (k < length (h ++ [x])) by (apply nth_error_Some; congruence). rewrite app_length in *. cbn in *. lia.
  - exists h'. split; [exact E|]. split; [|exact H']. eapply perm_trans; [|exact P].
    change (x :: h) with ([x] ++ h). apply Permutation_app_comm.
Qed.

Lemma fix_root_ok r t x : heap (r :: t) -> exists h', heap_Fix (x :: t) 0 = Done h' /\ Permutation (x :: t) h' /\ heap h'.
Proof.
  intros HH. unfold heap_Fix.
  destruct (down_ok (S (length (x :: t))) (x :: t) 0) as (h' & i' & E & P & H' & _); [lia|cbn; lia| |].
  - split; [|lia]. intros k Hk Pk a c Ha Hc. apply (HH k Hk a c).
    + destruct k; [lia|exact Ha].
    + destruct (parent k); [congruence|exact Hc].
  - rewrite E. cbn [obind]. destruct (0 <? i'); [exists h'; auto|]. cbn [heap_up Nat.sub Nat.div]. exists h'. auto.
Qed.

(** ** Sorted lists *)
Notation sorted := (StronglySorted no_worse).

Fixpoint ins (x : weighted) (l : list weighted) : list weighted :=
  match l with
  | [] => [x]
  | y :: l' => if wLess y x then y :: ins x l' else x :: l
  end.
Lemma ins_perm x l : Permutation (x :: l) (ins x l).
Proof.
  induction l as [|y l IH]; cbn; [reflexivity|]. destruct (wLess y x); [|reflexivity].
  rewrite perm_swap. constructor. exact IH.
Qed.
Lemma Forall_perm {A} (P : A -> Prop) l l' : Permutation l l' -> Forall P l -> Forall P l'.
Proof. intros HP HF. rewrite Forall_forall in *. intros x Hx. apply HF. eapply Permutation_in; [|exact Hx]. symmetry. exact HP. Qed.
Lemma ins_sorted x l : sorted l -> sorted (ins x l).
Proof.
  induction 1 as [|y l Hl IH HF]; cbn.
  - repeat constructor.
  - destruct (wLess y x) eqn:W.
    + constructor; [exact IH|]. eapply Forall_perm; [apply ins_perm|]. constructor; [left; apply wLess_better; exact W|exact HF].
    + apply not_less in W. constructor; [constructor; assumption|]. constructor; [exact W|].
      eapply Forall_impl; [|exact HF]. intros z Hz. eapply no_worse_trans; eauto.
Qed.
Lemma sorted_app l1 l2 : sorted l1 -> sorted l2 -> (forall x y, In x l1 -> In y l2 -> no_worse x y) -> sorted (l1 ++ l2).
Proof.
  induction 1 as [|x l Hl IH HF]; intros H2 HX; cbn; [exact H2|]. constructor.
  - apply IH; [exact H2|]. intros; apply HX; cbn; auto.
  - apply Forall_app. split; [exact HF|]. apply Forall_forall. intros y Hy. apply HX; cbn; auto.
Qed.
Lemma sorted_app_inv l1 l2 : sorted (l1 ++ l2) -> sorted l1 /\ sorted l2 /\ (forall x y, In x l1 -> In y l2 -> no_worse x y).
Proof.
  induction l1 as [|x l1 IH]; cbn; intros H.
  - repeat split; [constructor|exact H|contradiction].
  - inversion H as [|? ? H1 H2]; subst. destruct (IH H1) as (A & B & C). apply Forall_app in H2. destruct H2 as [H2 H3].
    repeat split; [constructor; auto|exact B|]. intros y z [<-|Hy] Hz; [|auto]. rewrite Forall_forall in H3. auto.
Qed.
Lemma sorted_unique l : forall l', Permutation l l' -> sorted l -> sorted l' -> l = l'.
Proof.
  induction l as [|x l IH]; intros l' HP H1 H2.
  - apply Permutation_nil in HP. congruence.
  - destruct l' as [|y l']; [apply Permutation_sym, Permutation_nil in HP; discriminate|].
    inversion H1 as [|? ? A1 B1]; subst. inversion H2 as [|? ? A2 B2]; subst. rewrite Forall_forall in B1, B2.
    assert (E : x = y).
    { apply no_worse_antisym.
      - assert (I : In y (x :: l)) by (eapply Permutation_in; [symmetry; exact HP|left; reflexivity]).
        destruct I as [->|I]; [apply no_worse_refl|auto].
      - assert (I : In x (y :: l')) by (eapply Permutation_in; [exact HP|left; reflexivity]).
        destruct I as [->|I]; [apply no_worse_refl|auto]. }
    subst y. f_equal. apply IH; auto. eapply Permutation_cons_inv; exact HP.
Qed.
Lemma exists_sorted l : exists s, Permutation l s /\ sorted s.
Proof.
  induction l as [|x l (s & P & S)]; [exists []; split; constructor|].
  exists (ins x s). split; [|apply ins_sorted; exact S]. rewrite <- ins_perm. constructor. exact P.
Qed.

(** ** Loop *)
Definition keeps (k : nat) (acc h : list weighted) : Prop :=
  heap h /\ exists s, Permutation acc s /\ sorted s /\ Permutation h (firstn k s).

Lemma add_ok k acc h x : 1 <= k -> keeps k acc h ->
  exists h', hAdd h x (Z.of_nat k) = Done h' /\ keeps k (x :: acc) h'.
Proof.
  intros Hk (HH & s & HP & HS & HF). unfold hAdd.
  assert (Lh : length h = Nat.min k (length s)) by (rewrite (Permutation_length HF); apply firstn_length).
  destruct (Z.ltb_spec (Z.of_nat (length h)) (Z.of_nat k)) as [Hlt|Hge].
  - destruct (push_ok h x HH) as (h' & E & P & H'). exists h'. split; [exact E|]. split; [exact H'|].
    exists (ins x s). split; [rewrite <- ins_perm; constructor; exact HP|]. split; [apply ins_sorted; exact HS|].
    rewrite firstn_all2 in HF by lia.
    rewrite firstn_all2 by (rewrite <- (Permutation_length (ins_perm x s)); cbn; lia).
    rewrite <- P, <- ins_perm. constructor. exact HF.
  - destruct h as [|r t]; [cbn [length] in *; lia|]. unfold get. cbn [nth_error obind].
    assert (Lf : length (firstn k s) = k) by (rewrite firstn_length; lia).
    destruct (exists_last (l := firstn k s)) as (s1 & z & Es); [intros E; rewrite E in Lf; cbn in Lf; lia|].
    assert (Ls1 : length s1 = k - 1) by (rewrite Es, app_length in Lf; cbn in Lf; lia).
    assert (Ss : s = s1 ++ z :: skipn k s).
    { rewrite <- (firstn_skipn k s) at 1. rewrite Es, <- app_assoc. reflexivity. }
    set (s2 := skipn k s) in *.
    rewrite Ss in HS. destruct (sorted_app_inv _ _ HS) as (S1 & S2 & S12). pose proof (StronglySorted_inv S2) as [S2' S2F].
    assert (Er : r = z).
    { rewrite Es in HF. apply no_worse_antisym.
      - assert (I : In r (s1 ++ [z])) by (eapply Permutation_in; [exact HF|left; reflexivity]).
        apply in_app_iff in I. destruct I as [I|[<-|[]]]; [|apply no_worse_refl]. apply S12; [exact I|left; reflexivity].
      - apply (root_worst (r :: t) r HH eq_refl). eapply Permutation_in; [symmetry; exact HF|]. apply in_app_iff. right. left. reflexivity. }
    subst z.
    assert (Pt : Permutation t s1).
    { rewrite Es in HF. apply (Permutation_cons_inv (a := r)). rewrite HF. change (r :: s1) with ([r] ++ s1). apply Permutation_app_comm. }
    destruct (wLess x r) eqn:W.
    + unfold set. cbn [length]. destruct (Nat.ltb_spec 0 (S (length t))); [|lia]. cbn [obind replace_at].
      destruct (fix_root_ok r t x HH) as (h' & E & P & H'). exists h'. split; [exact E|]. split; [exact H'|].
      assert (Li : length (ins x s1) = k) by (rewrite <- (Permutation_length (ins_perm x s1)); cbn; lia).
      assert (XR : no_worse x r) by (left; apply wLess_better; exact W).
      exists (ins x s1 ++ r :: s2). split; [|split].
      * rewrite HP, Ss. rewrite <- (ins_perm x s1). reflexivity.
      * apply sorted_app; [apply ins_sorted; exact S1|exact S2|]. intros a c Ia Ic.
        assert (Iq : In a (x :: s1)) by (eapply Permutation_in; [symmetry; apply ins_perm|exact Ia]).
        destruct Iq as [<-|Iq]; [|apply S12; assumption]. destruct Ic as [<-|Ic]; [exact XR|].
        eapply no_worse_trans; [exact XR|]. rewrite Forall_forall in S2F. apply S2F. exact Ic.
      * rewrite firstn_app, Li, Nat.sub_diag, firstn_O, app_nil_r. rewrite firstn_all2 by lia.
        rewrite <- P, <- ins_perm. constructor. exact Pt.
    + apply not_less in W. exists (r :: t). split; [reflexivity|]. split; [exact HH|].
      exists (s1 ++ r :: ins x s2). split; [|split].
      * rewrite HP, Ss. transitivity (s1 ++ x :: r :: s2); [apply Permutation_middle|].
        apply Permutation_app_head. rewrite perm_swap. constructor. apply ins_perm.
      * apply sorted_app; [exact S1|constructor; [apply ins_sorted; exact S2'|]|].
        -- eapply Forall_perm; [apply ins_perm|]. constructor; assumption.
        -- intros a c Ia [<-|Ic]; [apply S12; [exact Ia|left; reflexivity]|].
           assert (Iq : In c (x :: s2)) by (eapply Permutation_in; [symmetry; apply ins_perm|exact Ic]).
           destruct Iq as [<-|Iq]; [|apply S12; [exact Ia|right; exact Iq]].
           eapply no_worse_trans; [|exact W]. apply S12; [exact Ia|left; reflexivity].
      * replace k with (length (s1 ++ [r])) at 1 by (rewrite app_length; cbn; lia).
        replace (s1 ++ r :: ins x s2) with ((s1 ++ [r]) ++ ins x s2) by (rewrite <- app_assoc; reflexivity).
        rewrite firstn_app, Nat.sub_diag, firstn_all, firstn_O, app_nil_r. rewrite Es in HF. exact HF.
Qed.

Lemma source_ok u qs tol k : 1 <= k -> (0 <= tol)%Z -> Forall (fun q => q <> []) qs ->
  forall links acc h, Forall (fun l => l <> []) links -> keeps k acc h ->
  exists r h', accepted u qs tol links r /\
    source_loop u (MakeSubqueryLimit qs tol) tol (Z.of_nat k) links h = Done h' /\ keeps k (rev r ++ acc) h'.
Proof.
  intros Hk Ht Hq. induction links as [|l links IH]; intros acc h HL HK; cbn [source_loop].
  - exists [], h. split; [constructor|]. split; [reflexivity|exact HK].
  - inversion HL; subst. destruct (accepted_within u qs l tol H1 Hq Ht) as (ok & d & E & _). rewrite E. cbn [obind].
    destruct ok.
    + destruct (add_ok k acc h (mkW d l) Hk HK) as (h1 & E1 & K1). rewrite E1. cbn [obind].
      destruct (IH _ h1 H2 K1) as (r & h2 & A & E2 & K2). exists (mkW d l :: r), h2. split; [apply acc_yes; assumption|].
      split; [exact E2|]. cbn [rev]. rewrite <- app_assoc. exact K2.
    + cbn [obind]. destruct (IH acc h H2 HK) as (r & h2 & A & E2 & K2). exists r, h2. split; [eapply acc_no; eassumption|].
      split; assumption.
Qed.

Definition worse_first : list weighted -> Prop := StronglySorted (fun a c => no_worse c a).
Lemma h_insert_perm x l : Permutation (x :: l) (h_insert x l).
Proof.
  induction l as [|y l IH]; cbn; [reflexivity|]. destruct (wLess x y); [|reflexivity].
  rewrite perm_swap. constructor. exact IH.
Qed.
Lemma h_sort_perm l : Permutation l (h_sort l).
Proof. induction l as [|x l IH]; cbn; [reflexivity|]. rewrite <- h_insert_perm. constructor. exact IH. Qed.
Lemma h_insert_sorted x s : worse_first s -> worse_first (h_insert x s).
Proof.
  unfold worse_first. induction s as [|y s IHs]; intros H; cbn [h_insert].
  - constructor; constructor.
  - destruct (StronglySorted_inv H) as [Hs HF]. destruct (wLess x y) eqn:W.
    + constructor; [exact (IHs Hs)|]. apply (Forall_perm _ (x :: s)); [apply h_insert_perm|].
      constructor; [|exact HF]. left. apply wLess_better. exact W.
    + apply not_less in W. constructor; [exact H|]. constructor; [exact W|].
      rewrite Forall_forall in *. intros z Hz. apply (no_worse_trans z y x); [apply HF; exact Hz|exact W].
Qed.
Lemma h_sort_sorted l : worse_first (h_sort l).
Proof. induction l as [|x l IH]; [constructor|]. apply (h_insert_sorted x (h_sort l) IH). Qed.
Lemma worse_first_rev l : worse_first l -> sorted (rev l).
Proof.
  induction 1 as [|x l Hl IH HF]; cbn; [constructor|]. apply sorted_app; [exact IH|repeat constructor|].
  intros a c Ha [<-|[]]. rewrite Forall_forall in HF. apply HF. apply in_rev. exact Ha.
Qed.
Lemma sorted_firstn k s : sorted s -> sorted (firstn k s).
Proof. intros H. rewrite <- (firstn_skipn k s) in H. apply sorted_app_inv in H. tauto. Qed.

Lemma search_best0 u query links limit tolerance :
  Forall (fun q => q <> []) (Fields query) -> Forall (fun l => l <> []) links ->
  (match limit with Some l => (1 <= l < 100)%Z | None => True end) ->
  (match tolerance with Some t => (0 <= t)%Z | None => True end) ->
  let k := Z.to_nat (match limit with Some l => l | None => 10%Z end) in
  let tol := match tolerance with Some t => t | None => 5%Z end in
  exists acc r, accepted u (Fields query) tol links acc /\ best_of k acc r /\
    Search u query links limit tolerance = Done (Some (map Word r)).
Proof.
  intros Hq Hl HL HT k tol. unfold Search. fold tol.
  assert (E1 : (match limit with Some l => (l <=? 0)%Z || (100 <=? l)%Z | None => false end) = false) by (destruct limit; lia).
  rewrite E1. assert (T0 : (0 <= tol)%Z) by (unfold tol; destruct tolerance; lia).
  replace (tol <? 0)%Z with false by lia. unfold ProcessUrlSource.
  assert (Hk : 1 <= k) by (unfold k; destruct limit; lia).
  assert (Ek : (match limit with Some l => l | None => 10%Z end) = Z.of_nat k) by (unfold k; destruct limit; lia).
  rewrite Ek.
  destruct (source_ok u (Fields query) tol k Hk T0 Hq links [] [] Hl) as (acc & h & A & E & (HH & s & P & S & F)).
  { split; [intros j _ a c Ha; destruct j; discriminate|]. exists []. repeat split; try constructor. rewrite firstn_nil. reflexivity. }
  rewrite E. cbn [obind]. exists acc, (firstn k s). split; [exact A|]. split.
  - exists s. split; [|split; [exact S|reflexivity]]. rewrite app_nil_r in P. rewrite <- P. apply Permutation_rev.
  - rewrite <- map_rev. do 3 f_equal. apply sorted_unique.
    + rewrite <- Permutation_rev, <- h_sort_perm. exact F.
    + apply worse_first_rev, h_sort_sorted.
    + apply sorted_firstn. exact S.
Qed.

Lemma search_errors u query links limit tolerance :
  (match limit with Some l => (l <= 0 \/ 100 <= l)%Z | None => False end) \/
  (match tolerance with Some t => (t < 0)%Z | None => False end) ->
  Search u query links limit tolerance = Done None.
Proof.
  intros H. unfold Search. destruct limit as [l|], tolerance as [t|]; cbn in *; try tauto.
  - destruct ((l <=? 0)%Z || (100 <=? l)%Z) eqn:E; [reflexivity|]. replace (t <? 0)%Z with true by lia. reflexivity.
  - replace ((l <=? 0)%Z || (100 <=? l)%Z) with true by lia. reflexivity.
  - replace (t <? 0)%Z with true by lia. reflexivity.
Qed.

Lemma limits_unused u q1 q2 w limit : map sq_query q1 = map sq_query q2 ->
  QueryDistance u q1 w limit = QueryDistance u q2 w limit.
Proof.
  unfold QueryDistance. generalize 0%Z. revert q2. induction q1 as [|a q1 IH]; intros [|c q2] acc H; cbn in H; try discriminate; [reflexivity|].
  inversion H as [[E1 E2]]. cbn [query_loop]. rewrite E1. destruct (GetSubqueryDistance u (sq_query c) w (limit - acc)); [|reflexivity].
  cbn [obind]. destruct (limit <? acc + a0)%Z; [reflexivity|]. apply IH. exact E2.
Qed.

Lemma best_unique k l r r' : best_of k l r -> best_of k l r' -> r = r'.
Proof.
  intros (s & P & S & ->) (s' & P' & S' & ->). f_equal. apply sorted_unique; auto. rewrite <- P. exact P'.
Qed.

(** ** Words of the query *)
Lemma IsSpace_white r : IsSpace r = true <-> white r.
Proof. unfold IsSpace, white, inr. cbn [In]. lia. Qed.
Lemma IsSpace_not r : IsSpace r = false <-> ~ white r.
Proof. rewrite <- IsSpace_white. destruct (IsSpace r); split; congruence. Qed.

Definition bytes_of (w : list (rune * str)) : str := concat (map snd w).
Lemma bytes_of_app x y : bytes_of (x ++ y) = bytes_of x ++ bytes_of y.
Proof. unfold bytes_of. rewrite map_app, concat_app. reflexivity. Qed.
Lemma bytes_of_nil w : Forall (fun p : rune * str => snd p <> []) w -> bytes_of w = [] -> w = [].
Proof. destruct 1 as [|p w H _]; [reflexivity|]. unfold bytes_of. cbn. intros E. apply app_eq_nil in E. tauto. Qed.

Lemma fields_loop_ok ps : forall w, Forall (fun p : rune * str => snd p <> []) ps -> Forall (fun p : rune * str => snd p <> []) w ->
  Forall (fun p => ~ white (fst p)) w ->
  exists ws, words_of (fun p => white (fst p)) (w ++ ps) ws /\ fields_loop ps (bytes_of w) = map bytes_of ws.
Proof.
  induction ps as [|[r bs] ps IH]; intros w HP HN HW; cbn [fields_loop].
  - rewrite app_nil_r. destruct w as [|p w].
    + exists []. split; [constructor|reflexivity].
    + exists [p :: w]. split; [apply words_last; [discriminate|exact HW]|].
      destruct (bytes_of (p :: w)) eqn:E; [apply bytes_of_nil in E; [discriminate|exact HN]|]. rewrite <- E. reflexivity.
  - inversion HP; subst. cbn [snd] in *. destruct (IsSpace r) eqn:S.
    + destruct (IH [] H2 ltac:(constructor) ltac:(constructor)) as (ws & W & E). cbn [app] in W.
      change (bytes_of []) with (@nil ascii) in E. apply IsSpace_white in S. destruct w as [|p w].
      * exists ws. split; [apply words_space; [exact S|exact W]|exact E].
      * exists ((p :: w) :: ws). split; [apply words_word; [discriminate|exact HW|exact S|exact W]|].
        destruct (bytes_of (p :: w)) eqn:E2; [apply bytes_of_nil in E2; [discriminate|exact HN]|].
        rewrite E, <- E2. reflexivity.
    + apply IsSpace_not in S.
      assert (A : Forall (fun p : rune * str => snd p <> []) (w ++ [(r, bs)])) by (apply Forall_app; split; [exact HN|constructor; [assumption|constructor]]).
      assert (B : Forall (fun p : rune * str => ~ white (fst p)) (w ++ [(r, bs)])) by (apply Forall_app; split; [exact HW|constructor; [exact S|constructor]]).
      destruct (IH (w ++ [(r, bs)]) H2 A B) as (ws & W & E). rewrite <- app_assoc in W. exists ws. split; [exact W|].
      rewrite <- E, bytes_of_app. unfold bytes_of at 3. cbn [map concat snd]. rewrite app_nil_r. reflexivity.
Qed.

Lemma characters_pieces s : characters s (pieces s).
Proof.
  destruct (pieces_ok s) as (A & B & _). split; [exact A|]. split; [exact B|]. apply Forall_forall. intros p I. apply in_split in I. destruct I as (x & z & E).
  pose proof (pieces_part s x [p] z E) as P. unfold text_of in P. cbn [map concat] in P. rewrite app_nil_r in P. rewrite <- fst_pieces, P. reflexivity.
Qed.
Lemma fields_words s : exists chars ws, characters s chars /\ words_of (fun p => white (fst p)) chars ws /\
  Fields s = map (fun w => concat (map snd w)) ws.
Proof.
  destruct (pieces_ok s) as (A & B & C). destruct (fields_loop_ok (pieces s) [] C ltac:(constructor) ltac:(constructor)) as (ws & W & E).
  exists (pieces s), ws. split; [apply characters_pieces|]. split; [exact W|exact E].
Qed.

Lemma fields_loop_nonempty ps : forall w, Forall (fun x => x <> []) (fields_loop ps w).
Proof.
  induction ps as [|[r bs] ps IH]; intros w; cbn [fields_loop].
  - destruct w; [constructor|]. constructor; [discriminate|constructor].
  - destruct (IsSpace r); [|apply IH]. destruct w; [apply IH|]. constructor; [discriminate|apply IH].
Qed.
Lemma fields_nonempty s : Forall (fun x => x <> []) (Fields s).
Proof. apply fields_loop_nonempty. Qed.

Lemma words_parts {A} (space : A -> Prop) s ws : words_of space s ws -> Forall (fun w => incl w s) ws.
Proof.
  induction 1 as [|a s ws _ _ IH|w _ _|w a s ws _ _ _ _ IH].
  - constructor.
  - eapply Forall_impl; [|exact IH]. intros w Hw x Hx. right. apply Hw. exact Hx.
  - constructor; [apply incl_refl|constructor].
  - constructor; [intros x Hx; apply in_app_iff; auto|]. eapply Forall_impl; [|exact IH]. intros v Hv x Hx.
    apply in_app_iff. right. right. apply Hv. exact Hx.
Qed.
Lemma fields_part s : Forall (fun w => incl w s) (Fields s).
Proof.
  destruct (fields_words s) as (chars & ws & (_ & E & _) & W & ->). apply Forall_map. eapply Forall_impl; [|exact (words_parts _ _ _ W)].
  intros w Hw x Hx. apply in_concat in Hx. destruct Hx as (y & Hy & Hx). apply in_map_iff in Hy. destruct Hy as (p & <- & Hp).
  rewrite <- E. apply in_concat. exists (snd p). split; [|exact Hx]. apply in_map. apply Hw. exact Hp.
Qed.
Lemma fields_length s : Forall (fun w => length w <= length s) (Fields s).
Proof.
  destruct (fields_words s) as (chars & ws & (_ & E & _) & W & ->). apply Forall_map. rewrite <- E. clear E.
  set (len := fun c : list (rune * str) => length (concat (map snd c))).
  assert (LA : forall x y, len (x ++ y) = len x + len y) by (intros; unfold len; rewrite map_app, concat_app, app_length; reflexivity).
  change (Forall (fun w => len w <= len chars) ws).
  induction W as [|a s' ws _ _ IH|w _ _|w a s' ws _ _ _ _ IH].
  - constructor.
  - change (a :: s') with ([a] ++ s'). rewrite LA. eapply Forall_impl; [|exact IH]. cbn beta. intros; lia.
  - constructor; [lia|constructor].
  - change (a :: s') with ([a] ++ s'). rewrite !LA. constructor; [lia|]. eapply Forall_impl; [|exact IH]. cbn beta. intros; lia.
Qed.

Lemma search_best u query links limit tolerance :
  Forall (fun l => l <> []) links ->
  (match limit with Some l => (1 <= l < 100)%Z | None => True end) ->
  (match tolerance with Some t => (0 <= t)%Z | None => True end) ->
  let k := Z.to_nat (match limit with Some l => l | None => 10%Z end) in
  let tol := match tolerance with Some t => t | None => 5%Z end in
  exists acc r, accepted u (Fields query) tol links acc /\ best_of k acc r /\
    Search u query links limit tolerance = Done (Some (map Word r)).
Proof. apply search_best0, fields_nonempty. Qed.

Lemma accepted_close u qs tol : (0 <= tol)%Z -> Forall (fun q => q <> [] /\ plain q /\ (Z.of_nat (length q) <= 32767)%Z) qs ->
  forall links acc, Forall (fun l => l <> [] /\ plain l) links -> accepted u qs tol links acc -> close qs tol links acc.
Proof.
  intros Ht Hq links acc HL HA. induction HA as [|l links d r E _ IH|l links d r E _ IH].
  - constructor.
  - inversion HL; subst. destruct H1 as [Hn Hp]. destruct (plain_accept u qs l tol Hp Hn Ht Hq) as (t & ok & d' & D & E' & Iff & Ed).
    rewrite E in E'. inversion E'; subst. rewrite Ed by reflexivity. apply close_yes; [exact D|apply Iff; reflexivity|auto].
  - inversion HL; subst. destruct H1 as [Hn Hp]. destruct (plain_accept u qs l tol Hp Hn Ht Hq) as (t & ok & d' & D & E' & Iff & Ed).
    rewrite E in E'. inversion E'; subst. apply (close_no _ _ _ _ t); [exact D| |auto].
    destruct (Z.le_gt_cases t tol) as [H|H]; [apply Iff in H; discriminate|lia].
Qed.

Lemma search_close u query links limit tolerance :
  plain query -> (Z.of_nat (length query) <= 32767)%Z -> Forall (fun l => l <> [] /\ plain l) links ->
  (match limit with Some l => (1 <= l < 100)%Z | None => True end) ->
  (match tolerance with Some t => (0 <= t)%Z | None => True end) ->
  let k := Z.to_nat (match limit with Some l => l | None => 10%Z end) in
  let tol := match tolerance with Some t => t | None => 5%Z end in
  exists acc r, close (Fields query) tol links acc /\ best_of k acc r /\
    Search u query links limit tolerance = Done (Some (map Word r)).
Proof.
  intros Hp Hlen HL H1 H2 k tol.
  destruct (search_best u query links limit tolerance) as (acc & r & A & Bst & E).
  { eapply Forall_impl; [|exact HL]. cbn. tauto. } { exact H1. } { exact H2. }
  exists acc, r. split; [|split; assumption]. apply (accepted_close u); [unfold tol; destruct tolerance; lia| |exact HL|exact A].
  pose proof (fields_nonempty query) as F1. pose proof (fields_part query) as F2. pose proof (fields_length query) as F3.
  rewrite Forall_forall in *. intros q Hq. split; [exact (F1 q Hq)|]. split.
  - unfold plain in *. rewrite Forall_forall in *. intros a Ha. apply Hp. apply (F2 q Hq). exact Ha.
  - specialize (F3 q Hq). cbn beta in F3. lia.
Qed.
