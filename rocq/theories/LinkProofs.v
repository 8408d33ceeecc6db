(** Lemmas about counting and limiting of links. *)
From Verif Require Import GoBase LinkTypes LinkTree LinkSpec.
From Coq Require Import Lia ZifyBool ZifyNat Permutation Sorted.
Local Open Scope Z_scope.


Lemma wrap64_nonneg z : 0 <= z <= maxint -> wrap64 z = z.
Proof. intros H. apply wrap64_id. unfold maxint in H. lia. Qed.

(** ** Division of slots *)
Definition sum2 (l : list (nat * Z)) : Z := fold_right (fun x s => snd x + s) 0 l.

Definition asc (x y : nat * Z) : Prop := snd x <= snd y.

Lemma asc_sum c l : Forall (fun x => c <= snd x) l -> c * Z.of_nat (length l) <= sum2 l.
Proof.
  induction 1 as [|x l Hx Hl IH]; [cbn; lia|].
  unfold sum2 in *; cbn [fold_right length]. nia.
Qed.

Lemma sum2_nonneg l : Forall (fun x => 1 <= snd x) l -> Z.of_nat (length l) <= sum2 l.
Proof. intros H. apply asc_sum in H. lia. Qed.

Lemma share_ok l : forall T,
  StronglySorted asc l -> Forall (fun x => 1 <= snd x) l ->
  Z.of_nat (length l) <= T -> sum2 l * T <= maxint ->
  exists r, share l (sum2 l) T = Done r /\ map fst r = map fst l /\
    Forall (fun x => 1 <= snd x) r /\ (l <> [] -> sum2 r = T) /\
    (sum2 l <= T -> Forall2 (fun x y => snd x <= snd y) l r).
Proof.
  induction l as [|(i, c) l IH]; intros T HS HP HT HM.
  - exists []. cbn. repeat split; auto. congruence.
  - inversion HS as [|? ? HS' HA]; subst. inversion HP as [|? ? Hc HP']; subst.
    cbn [snd] in Hc. unfold asc in HA; cbn [snd] in HA.
    pose proof (sum2_nonneg l HP') as HN.
    assert (Hsum : sum2 ((i, c) :: l) = c + sum2 l) by reflexivity.
    rewrite Hsum in *. set (s := c + sum2 l) in *. cbn [length] in HT.
    assert (Hs : 1 <= s) by lia. assert (HT1 : 1 <= T) by lia.
    assert (HcT : 0 <= c * T <= maxint) by nia.
    cbn [share]. destruct (Z.eqb_spec s 0) as [E|_]; [lia|].
    rewrite (wrap64_nonneg (c * T) HcT).
    rewrite Z.quot_div_nonneg by lia. set (q := c * T / s).
    assert (Hq1 : q * s <= c * T) by (unfold q; rewrite Z.mul_comm; apply Z.mul_div_le; lia).
    assert (Hq2 : c * T < (q + 1) * s).
    { unfold q. pose proof (Z.mul_succ_div_gt (c * T) s ltac:(lia)). lia. }
    assert (Hq0 : 0 <= q) by (unfold q; apply Z.div_pos; lia).
    set (item := if q =? 0 then 1 else q).
    assert (Hcn : c * Z.of_nat (S (length l)) <= s).
    { pose proof (asc_sum c l HA). unfold s. nia. }
    assert (Hitem : 1 <= item /\ Z.of_nat (length l) <= T - item).
    { unfold item. destruct (Z.eqb_spec q 0); [lia|].
      split; [lia|].
      assert (q * (c * Z.of_nat (S (length l))) <= c * T) by nia.
      assert (q * Z.of_nat (S (length l)) <= T) by nia. nia. }
    destruct Hitem as [Hi1 Hi2].
    assert (Ws : wrap64 (s - c) = sum2 l).
    { rewrite wrap64_nonneg; [unfold s; lia|]. nia. }
    assert (Wt : wrap64 (T - item) = T - item) by (apply wrap64_nonneg; nia).
    rewrite Ws, Wt.
    destruct (IH (T - item) HS' HP' Hi2) as (r & E & F & G & H & K); [nia|].
    rewrite E. cbn [obind]. exists ((i, item) :: r). split; [reflexivity|].
    split; [cbn; congruence|]. split; [constructor; assumption|]. split.
    + intros _. unfold sum2; cbn [fold_right snd]. fold (sum2 r).
      destruct l as [|y l0].
      * assert (r = []) by (destruct r; [reflexivity|discriminate]). subst r. cbn.
        assert (sum2 [] = 0) by reflexivity. assert (s = c) by lia.
        assert (q = T) by nia. unfold item. destruct (Z.eqb_spec q 0); lia.
      * rewrite H by discriminate. lia.
    + intros HsT. constructor.
      * cbn [snd]. unfold item. destruct (Z.eqb_spec q 0); nia.
      * apply K. unfold item. destruct (Z.eqb_spec q 0); nia.
Qed.

(** ** Stable sort *)
Definition gtR (x y : nat * Z) : Prop := snd y < snd x \/ (snd y = snd x /\ (fst x < fst y)%nat).

Lemma insert_perm x l : Permutation (x :: l) (insert x l).
Proof.
  induction l as [|y l IH]; cbn; [reflexivity|].
  destruct (snd y <=? snd x); [reflexivity|].
  rewrite perm_swap. constructor. exact IH.
Qed.

Lemma sort_perm l : Permutation l (stable_sort l).
Proof.
  induction l as [|x l IH]; cbn; [reflexivity|].
  rewrite <- insert_perm. constructor. exact IH.
Qed.

Lemma insert_sorted x l :
  Forall (fun y => (fst x < fst y)%nat) l -> StronglySorted gtR l -> StronglySorted gtR (insert x l).
Proof.
  induction l as [|y l IH]; intros HF HS; cbn.
  - repeat constructor.
  - inversion HF as [|? ? Hf HF']; subst. inversion HS as [|? ? HS' HA]; subst.
    destruct (Z.leb_spec (snd y) (snd x)).
    + constructor; [assumption|]. constructor.
      * unfold gtR. lia.
      * rewrite Forall_forall in *. intros z Hz. specialize (HA z Hz). specialize (HF' z Hz).
        unfold gtR in *. lia.
    + constructor; [apply IH; assumption|].
      rewrite Forall_forall in *. intros z Hz.
      apply (Permutation_in _ (Permutation_sym (insert_perm x l))) in Hz.
      destruct Hz as [<-|Hz]; [unfold gtR; lia|auto].
Qed.

Lemma sort_sorted l :
  StronglySorted (fun x y => (fst x < fst y)%nat) l -> StronglySorted gtR (stable_sort l).
Proof.
  induction 1 as [|x l HS IH HF]; cbn; [constructor|].
  apply insert_sorted; [|assumption].
  rewrite Forall_forall in *. intros y Hy. apply HF.
  apply (Permutation_in _ (Permutation_sym (sort_perm l))). exact Hy.
Qed.

Lemma combine_fst_seq (counts : list Z) a :
  map fst (combine (seq a (length counts)) counts) = seq a (length counts).
Proof.
  revert a; induction counts as [|c counts IH]; intros a; cbn; [reflexivity|]. rewrite IH. reflexivity.
Qed.
Lemma combine_snd_seq (counts : list Z) a :
  map snd (combine (seq a (length counts)) counts) = counts.
Proof.
  revert a; induction counts as [|c counts IH]; intros a; cbn; [reflexivity|]. rewrite IH. reflexivity.
Qed.
Lemma combine_sorted (counts : list Z) a :
  StronglySorted (fun x y : nat * Z => (fst x < fst y)%nat) (combine (seq a (length counts)) counts).
Proof.
  revert a; induction counts as [|c counts IH]; intros a; cbn; constructor; auto.
  rewrite Forall_forall. intros (i, v) Hi. apply in_combine_l in Hi. apply in_seq in Hi. cbn. lia.
Qed.
Lemma in_combine_nth (counts : list Z) a i v :
  In (i, v) (combine (seq a (length counts)) counts) -> v = nth (i - a) counts 0.
Proof.
  revert a; induction counts as [|c counts IH]; intros a H; cbn in H; [contradiction|].
  destruct H as [H|H].
  - injection H as <- <-. rewrite Nat.sub_diag. reflexivity.
  - pose proof (in_combine_l _ _ _ _ H) as L. apply in_seq in L.
    apply IH in H. replace (i - a)%nat with (S (i - S a)) by lia. exact H.
Qed.

Lemma sorted_app {A} (R : A -> A -> Prop) l1 l2 :
  StronglySorted R (l1 ++ l2) ->
  StronglySorted R l1 /\ StronglySorted R l2 /\ (forall x y, In x l1 -> In y l2 -> R x y).
Proof.
  induction l1 as [|a l1 IH]; cbn; intros H.
  - split; [constructor|]. split; [assumption|]. contradiction.
  - inversion H as [|? ? H1 H2]; subst. destruct (IH H1) as (A1 & A2 & A3).
    apply Forall_app in H2. destruct H2 as [H2 H3].
    split; [constructor; assumption|]. split; [assumption|].
    intros x y [<-|Hx] Hy; [rewrite Forall_forall in H3; auto|auto].
Qed.

Lemma sorted_rev (l : list (nat * Z)) : StronglySorted gtR l -> StronglySorted asc (rev l).
Proof.
  induction 1 as [|x l HS IH HF]; cbn; [constructor|].
  assert (forall y, In y (rev l) -> asc y x).
  { intros y Hy. apply in_rev in Hy. rewrite Forall_forall in HF. specialize (HF y Hy).
    unfold gtR in HF. unfold asc. lia. }
  clear HF. induction (rev l) as [|z m IHm]; cbn.
  - repeat constructor.
  - inversion IH as [|? ? I1 I2]; subst. constructor.
    + apply IHm; [assumption|]. intros; apply H; right; assumption.
    + apply Forall_app; split; [assumption|]. constructor; [|constructor]. apply H. left; reflexivity.
Qed.

Lemma take_positive_id l : Forall (fun x => 1 <= snd x) l -> take_positive l = l.
Proof.
  induction 1 as [|x l Hx Hl IH]; cbn; [reflexivity|].
  destruct (Z.ltb_spec 0 (snd x)); [congruence|lia].
Qed.

Lemma NoDup_app_l {A} (l l' : list A) : NoDup (l ++ l') -> NoDup l.
Proof.
  induction l as [|x l IH]; cbn; intros H; constructor; inversion H; subst; auto.
  rewrite in_app_iff in *. tauto.
Qed.

(** ** Lookup of slots *)
Lemma lookup_none i r : ~ In i (map fst r) -> lookup i r = None.
Proof.
  induction r as [|(j, v) r IH]; cbn; [reflexivity|].
  intros H. destruct (Nat.eqb_spec i j); [subst; tauto|]. apply IH. tauto.
Qed.
Lemma lookup_some i r v : lookup i r = Some v -> In (i, v) r.
Proof.
  induction r as [|(j, w) r IH]; cbn; [discriminate|].
  destruct (Nat.eqb_spec i j); [intros [= ->]; subst; auto|auto].
Qed.
Lemma lookup_none_inv i r : lookup i r = None -> ~ In i (map fst r).
Proof.
  induction r as [|(j, v) r IH]; cbn; [tauto|].
  destruct (Nat.eqb_spec i j); [discriminate|]. intros H [E|E]; [congruence|]. exact (IH H E).
Qed.
Lemma lookup_in i v r : NoDup (map fst r) -> In (i, v) r -> lookup i r = Some v.
Proof.
  induction r as [|(j, w) r IH]; cbn; [contradiction|].
  intros N [E|E].
  - injection E as -> ->. rewrite Nat.eqb_refl. reflexivity.
  - inversion N; subst. destruct (Nat.eqb_spec i j).
    + subst. exfalso. apply H1. change j with (fst (j, v)). apply in_map. exact E.
    + auto.
Qed.

Definition zsum {A} (g : A -> Z) (l : list A) : Z := fold_right (fun x s => g x + s) 0 l.

Lemma zsum_cons {A} (g : A -> Z) x l : zsum g (x :: l) = g x + zsum g l.
Proof. reflexivity. Qed.

Lemma zsum_ext {A} (g h : A -> Z) l : (forall x, In x l -> g x = h x) -> zsum g l = zsum h l.
Proof.
  induction l as [|x l IH]; intros H; [reflexivity|]. rewrite !zsum_cons.
  rewrite (H x (or_introl eq_refl)). rewrite IH; [reflexivity|]. intros; apply H; right; assumption.
Qed.

Lemma zsum_change (g h : nat -> Z) j d l : NoDup l -> In j l ->
  (forall i, i <> j -> h i = g i) -> h j = g j + d -> zsum h l = zsum g l + d.
Proof.
  induction l as [|x l IH]; intros N I E D; [contradiction|].
  inversion N; subst. rewrite !zsum_cons. destruct I as [->|I].
  - rewrite D. rewrite (zsum_ext h g l). { lia. }
    intros y Hy. apply E. intros ->. contradiction.
  - rewrite IH by assumption. rewrite (E x) by (intros ->; contradiction). lia.
Qed.

Lemma zsum_lookup (g : option Z -> Z) r : forall l, g None = 0 -> NoDup l -> NoDup (map fst r) ->
  (forall i, In i (map fst r) -> In i l) ->
  zsum (fun i => g (lookup i r)) l = zsum (fun x => g (Some (snd x))) r.
Proof.
  induction r as [|(j, v) r IH]; intros l G N N2 I.
  - induction l as [|x l IHl]; [reflexivity|]. rewrite zsum_cons.
    inversion N; subst. rewrite IHl; cbn [lookup]; [rewrite G|..]; [reflexivity|assumption|]. cbn; tauto.
  - cbn in N2. inversion N2; subst. rewrite zsum_cons. cbn [snd lookup].
    rewrite <- (IH l G N H2) by (intros i Hi; apply I; cbn; auto).
    rewrite (zsum_change (fun i => g (lookup i r)) _ j (g (Some v)) l N).
    + lia.
    + apply I. cbn. auto.
    + intros i Hi. destruct (Nat.eqb_spec i j); [contradiction|reflexivity].
    + rewrite Nat.eqb_refl, (lookup_none j r H1), G. lia.
Qed.

Lemma slot_sum_map h l : slot_sum (map h l) = zsum (fun i : nat => match h i with Some v => v | None => 0 end) l.
Proof.
  induction l as [|x l IH]; [reflexivity|]. rewrite zsum_cons, <- IH. reflexivity.
Qed.

Lemma kept_map h l : Z.of_nat (kept (map h l)) = zsum (fun i : nat => match h i with Some v => 1 | None => 0 end) l.
Proof.
  unfold kept. induction l as [|x l IH]; [reflexivity|]. rewrite zsum_cons.
  cbn [map filter]. destruct (h x); cbn [length]; lia.
Qed.

Lemma nth_error_seq n i : (i < n)%nat -> nth_error (seq 0 n) i = Some i.
Proof.
  intros H. assert (forall a k, (k < n - 0)%nat -> nth_error (seq a n) k = Some (a + k)%nat) as G.
  { clear. induction n as [|n IH]; intros a k H; [lia|].
    destruct k; cbn; [f_equal; lia|]. rewrite IH by lia. f_equal. lia. }
  rewrite G by lia. reflexivity.
Qed.

Lemma Forall_map_snd (P : Z -> Prop) (l : list (nat * Z)) : Forall P (map snd l) <-> Forall (fun x => P (snd x)) l.
Proof. rewrite Forall_map. reflexivity. Qed.

Definition zsumc (counts : list Z) : Z := fold_right Z.add 0 counts.

Lemma sum2_perm l l' : Permutation l l' -> sum2 l = sum2 l'.
Proof. induction 1; unfold sum2 in *; cbn [fold_right] in *; lia. Qed.

Lemma sum2_app l l' : sum2 (l ++ l') = sum2 l + sum2 l'.
Proof. induction l as [|x l IH]; unfold sum2 in *; cbn [app fold_right]; lia. Qed.

Lemma sum2_snd l : sum2 l = zsumc (map snd l).
Proof. induction l as [|x l IH]; [reflexivity|]. unfold zsumc, sum2 in *. cbn [map fold_right]. rewrite IH. reflexivity. Qed.

Lemma limit_children_ok counts target :
  counts <> [] -> Forall (fun c => 1 <= c) counts -> 1 <= target ->
  zsumc counts * target <= maxint ->
  exists slots, limit_children counts target = Done slots /\ fair_share counts target slots /\
    (zsumc counts <= target -> Forall2 (fun c s => exists v, s = Some v /\ c <= v) counts slots).
Proof.
  intros Hne Hpos Ht HM. unfold limit_children.
  set (items := combine (seq 0 (length counts)) counts).
  set (n := length counts).
  assert (Hlen : length items = n).
  { unfold items, n. rewrite combine_length, seq_length. lia. }
  set (srt := stable_sort items).
  pose proof (sort_perm items) as HPm. fold srt in HPm.
  assert (Hsl : length srt = n) by (rewrite <- Hlen; apply Permutation_length, Permutation_sym, HPm).
  pose proof (sort_sorted items (combine_sorted counts 0)) as HSS. fold srt in HSS.
  set (k := if target <? Z.of_nat n then Z.to_nat target else n).
  assert (Hk : (k <= n)%nat /\ Z.of_nat k = Z.min target (Z.of_nat n)).
  { unfold k. destruct (Z.ltb_spec target (Z.of_nat n)); lia. }
  set (s := firstn k srt). set (d := skipn k srt).
  assert (Hsd : srt = s ++ d) by (symmetry; apply firstn_skipn).
  assert (Hs_len : length s = k) by (unfold s; rewrite firstn_length; lia).
  rewrite Hsl.
  assert (E1 : (if target <? Z.of_nat n then if target <? 0 then Panic else Done (firstn (Z.to_nat target) srt)
               else Done srt) = Done s).
  { unfold s, k. destruct (Z.ltb_spec target (Z.of_nat n)).
    - destruct (Z.ltb_spec target 0); [lia|reflexivity].
    - rewrite firstn_all2 by lia. reflexivity. }
  rewrite E1. cbn [obind]. clear E1.
  assert (Hposs : Forall (fun x => 1 <= snd x) srt).
  { assert (Forall (fun x => 1 <= snd x) items).
    { apply (Forall_map_snd (fun c => 1 <= c)). unfold items. rewrite combine_snd_seq. exact Hpos. }
    rewrite Forall_forall in *. intros x Hx. apply H.
    apply (Permutation_in _ (Permutation_sym HPm)). exact Hx. }
  rewrite Hsd in Hposs. apply Forall_app in Hposs. destruct Hposs as [Hps Hpd].
  rewrite take_positive_id by exact Hps.
  rewrite Hsd in HSS. apply sorted_app in HSS. destruct HSS as (HSs & _ & Hcross).
  assert (Hsum_all : sum2 srt = zsumc counts).
  { rewrite <- (sum2_perm _ _ HPm), sum2_snd. unfold items. rewrite combine_snd_seq. reflexivity. }
  assert (Hsum_s : sum2 s + sum2 d = zsumc counts) by (rewrite <- Hsum_all, Hsd, sum2_app; reflexivity).
  pose proof (sum2_nonneg d Hpd) as Hd0. pose proof (sum2_nonneg s Hps) as Hs0.
  assert (Hrev_sum : sum2 (rev s) = sum2 s) by (apply sum2_perm, Permutation_sym, Permutation_rev).
  fold (sum2 s). rewrite <- Hrev_sum.
  destruct (share_ok (rev s) target) as (r & Er & Fr & Gr & Hr & Kr).
  { apply sorted_rev. exact HSs. }
  { apply Forall_rev. exact Hps. }
  { rewrite rev_length. lia. }
  { rewrite Hrev_sum. nia. }
  rewrite Er. cbn [obind].
  (* keys *)
  assert (Nsrt : NoDup (map fst srt)).
  { apply (Permutation_NoDup (Permutation_map fst HPm)). unfold items. rewrite combine_fst_seq. apply seq_NoDup. }
  assert (Ndr : NoDup (map fst r)).
  { rewrite Fr, map_rev. apply NoDup_rev. rewrite Hsd, map_app in Nsrt.
    apply NoDup_app_l in Nsrt. exact Nsrt. }
  assert (Kin : forall i, In i (map fst r) <-> In i (map fst s)).
  { intros i. rewrite Fr, map_rev. symmetry. apply in_rev. }
  assert (Kseq : forall i, In i (map fst srt) <-> (i < n)%nat).
  { intros i. rewrite <- (Permutation_in' eq_refl (Permutation_map fst HPm)).
    unfold items. rewrite combine_fst_seq, in_seq. fold n. lia. }
  assert (Kr_n : forall i, In i (map fst r) -> In i (seq 0 n)).
  { intros i Hi. apply Kin in Hi. apply in_seq. cbn. split; [lia|]. apply Kseq.
    rewrite Hsd, map_app, in_app_iff. auto. }
  assert (Hn : (1 <= n)%nat) by (unfold n; destruct counts; [congruence|cbn; lia]).
  exists (map (fun i => lookup i r) (seq 0 n)). split; [reflexivity|].
  assert (Hnth : forall i o, nth_error (map (fun i => lookup i r) (seq 0 n)) i = Some o -> (i < n)%nat /\ lookup i r = o).
  { intros i o Hi. assert (Hin : (i < n)%nat).
    { rewrite <- (seq_length n 0), <- (map_length (fun i => lookup i r)). apply nth_error_Some. congruence. }
    split; [assumption|]. rewrite nth_error_map, nth_error_seq in Hi by assumption. cbn in Hi. congruence. }
  assert (Hitem : forall i v, In (i, v) srt -> v = nth i counts 0).
  { intros i v Hi. apply (Permutation_in _ (Permutation_sym HPm)) in Hi.
    unfold items in Hi. apply in_combine_nth in Hi. rewrite Nat.sub_0_r in Hi. exact Hi. }
  split.
  - repeat split.
    + rewrite map_length, seq_length. reflexivity.
    + rewrite kept_map.
      rewrite (zsum_lookup (fun o => match o with Some _ => 1 | None => 0 end) r (seq 0 n) eq_refl (seq_NoDup _ _) Ndr Kr_n).
      destruct Hk as [_ Hk]. fold n. rewrite <- Hk. rewrite <- Hs_len, <- (rev_length s), <- (map_length fst), <- Fr, map_length.
      clear. induction r as [|x r IH]; [reflexivity|]. rewrite zsum_cons, IH. cbn [length]. lia.
    + rewrite slot_sum_map.
      rewrite (zsum_lookup (fun o => match o with Some v => v | None => 0 end) r (seq 0 n) eq_refl (seq_NoDup _ _) Ndr Kr_n).
      rewrite <- Hr; [reflexivity|]. intros E. apply (f_equal (@length _)) in E. rewrite rev_length in E. cbn in E. lia.
    + intros i v Hi. apply Hnth in Hi. destruct Hi as [_ Hi]. apply lookup_some in Hi.
      rewrite Forall_forall in Gr. apply (Gr _ Hi).
    + intros i j v Hi Hj. apply Hnth in Hi. apply Hnth in Hj. destruct Hi as [Hin Hi], Hj as [Hjn Hj].
      apply lookup_some in Hi. apply (in_map fst) in Hi. cbn in Hi. apply Kin in Hi.
      apply lookup_none_inv in Hj. rewrite Kin in Hj.
      apply Kseq in Hjn. rewrite Hsd, map_app, in_app_iff in Hjn. destruct Hjn as [Hjn|Hjn]; [contradiction|].
      apply in_map_iff in Hi. destruct Hi as ((i', vi) & Ei & Hi). cbn in Ei; subst i'.
      apply in_map_iff in Hjn. destruct Hjn as ((j', vj) & Ej & Hjn). cbn in Ej; subst j'.
      pose proof (Hcross _ _ Hi Hjn) as C. unfold gtR in C; cbn [fst snd] in C. unfold better.
      rewrite (Hitem i vi) in C by (rewrite Hsd, in_app_iff; auto).
      rewrite (Hitem j vj) in C by (rewrite Hsd, in_app_iff; auto). exact C.
  - intros Hle.
    assert (Hcn : Z.of_nat n <= zsumc counts).
    { rewrite <- Hsum_all, <- Hsl. apply sum2_nonneg. rewrite Hsd. apply Forall_app; auto. }
    assert (Hkn : k = n) by lia.
    assert (Hall : s = srt) by (unfold s; apply firstn_all2; lia).
    assert (Hfit : Forall2 (fun x y => snd x <= snd y) (rev s) r).
    { apply Kr. rewrite Hrev_sum, Hall, Hsum_all. exact Hle. }
    assert (Hl : forall i, (i < n)%nat -> exists v, lookup i r = Some v /\ nth i counts 0 <= v).
    { intros i Hin. apply Kseq in Hin. rewrite <- Hall in Hin.
      assert (Hin' : In i (map fst (rev s))) by (rewrite map_rev; apply -> in_rev; exact Hin).
      assert (exists v c, In (i, v) r /\ In (i, c) (rev s) /\ c <= v) as (v & c & Hv & Hc & Hcv).
      { clear - Fr Hfit Hin'. revert Fr Hin'. induction Hfit as [|(a, x) (a', y) l1 l2 HR Hrest IH]; intros F I; cbn in *; [contradiction|].
        injection F as Fa F. subst a'. destruct I as [<-|I].
        - exists y, x. auto.
        - destruct (IH F I) as (v & c & A & B & C). exists v, c. auto. }
      exists v. split; [apply lookup_in; assumption|].
      apply in_rev in Hc. rewrite Hall in Hc. rewrite <- (Hitem i c Hc). exact Hcv. }
    assert (forall a l, (forall i, (i < length l)%nat -> exists v, lookup (a + i) r = Some v /\ nth i l 0 <= v) ->
      Forall2 (fun c s0 => exists v, s0 = Some v /\ c <= v) l (map (fun i => lookup i r) (seq a (length l)))) as G.
    { clear. intros a l; revert a; induction l as [|c l IH]; intros a H; cbn; constructor.
      - destruct (H 0%nat) as (v & E & L); [cbn; lia|]. rewrite Nat.add_0_r in E. exists v. auto.
      - apply IH. intros i Hi. destruct (H (S i)) as (v & E & L); [cbn; lia|].
        exists v. rewrite Nat.add_succ_r in E. auto. }
    apply G. exact Hl.
Qed.
