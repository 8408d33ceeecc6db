(** The heap algorithms compute the trees of LinkTree.v. *)
From Verif Require Import GoBase LinkTypes LinkTree LinkSpec LinkProofs LinkMain LinkHeap LinkHeapSpec.
From Coq Require Import Lia ZifyBool ZifyNat.
Local Open Scope nat_scope.

(** ** Updates *)
Lemma upd_length {A} (l : list A) i x : length (upd l i x) = length l.
Proof. revert i; induction l as [|y l IH]; intros [|i]; cbn; auto. Qed.
Lemma upd_same {A} (l : list A) i x : i < length l -> nth_error (upd l i x) i = Some x.
Proof. revert i; induction l as [|y l IH]; intros [|i] H; cbn in *; try lia; auto. apply IH; lia. Qed.
Lemma upd_other {A} (l : list A) i j x : i <> j -> nth_error (upd l i x) j = nth_error l j.
Proof.
  revert i j; induction l as [|y l IH]; intros [|i] [|j] H; cbn; auto; try congruence.
Qed.
Lemma nth_some_lt {A} (l : list A) i x : nth_error l i = Some x -> i < length l.
Proof. intros H. apply nth_error_Some. congruence. Qed.
Lemma nth_app_l {A} (l l' : list A) i : i < length l -> nth_error (l ++ l') i = nth_error l i.
Proof. apply nth_error_app1. Qed.

Scheme rep_c_mut := Induction for rep_c Sort Prop
  with rep_cs_mut := Induction for rep_cs Sort Prop.
Combined Scheme rep_c_both from rep_c_mut, rep_cs_mut.

Lemma rep_frame h :
  (forall a c F, rep_c h a c F -> forall h', (forall x, In x F -> nth_error h' x = nth_error h x) -> rep_c h' a c F) /\
  (forall ch cs F, rep_cs h ch cs F -> forall h', (forall x, In x F -> nth_error h' x = nth_error h x) -> rep_cs h' ch cs F).
Proof.
  apply rep_c_both; intros.
  - constructor; rewrite H; cbn; auto.
  - econstructor; [rewrite H0; cbn; eauto|rewrite H0; cbn; eauto|].
    apply H. intros x Hx. apply H0. cbn; auto.
  - constructor.
  - constructor; [apply H|apply H0]; intros x Hx; apply H1; apply in_app_iff; auto.
Qed.
Lemma rep_c_frame h h' a c F : rep_c h a c F ->
  (forall x, In x F -> nth_error h' x = nth_error h x) -> rep_c h' a c F.
Proof. intros H E. exact (proj1 (rep_frame h) _ _ _ H h' E). Qed.
Lemma rep_cs_frame h h' a c F : rep_cs h a c F ->
  (forall x, In x F -> nth_error h' x = nth_error h x) -> rep_cs h' a c F.
Proof. intros H E. exact (proj2 (rep_frame h) _ _ _ H h' E). Qed.

Lemma rep_bound h :
  (forall a c F, rep_c h a c F -> forall x, In x F -> x < length h) /\
  (forall ch cs F, rep_cs h ch cs F -> forall x, In x F -> x < length h).
Proof.
  apply rep_c_both; intros.
  - destruct H as [<-|[<-|[]]]; eapply nth_some_lt; eauto.
  - destruct H0 as [<-|[<-|Hx]]; [eapply nth_some_lt; eauto..|auto].
  - contradiction.
  - apply in_app_iff in H1. destruct H1; auto.
Qed.
Lemma rep_c_bound h a c F x : rep_c h a c F -> In x F -> x < length h.
Proof. intros H. exact (proj1 (rep_bound h) _ _ _ H x). Qed.

Lemma rep_cs_app h ch1 cs1 F1 ch2 cs2 F2 :
  rep_cs h ch1 cs1 F1 -> rep_cs h ch2 cs2 F2 -> rep_cs h (ch1 ++ ch2) (cs1 ++ cs2) (F1 ++ F2).
Proof.
  intros H1 H2. induction H1; cbn; [assumption|]. rewrite <- app_assoc. constructor; assumption.
Qed.
Lemma rep_cs_one h a c F : rep_c h a c F -> rep_cs h [a] [c] F.
Proof. intros H. rewrite <- (app_nil_r F). constructor; [assumption|constructor]. Qed.

Definition pres (h0 h : heap) : Prop := forall x o, nth_error h0 x = Some o -> nth_error h x = Some o.

(** ** CountDescendants *)
Definition attached (f : link -> bool) (t : node) : list cnode := attach (count_rec f t) [].

Lemma counted_cons f t ts : counted_children f (t :: ts) = attached f t ++ counted_children f ts.
Proof.
  unfold counted_children, attached. cbn [map fold_right]. destruct (count_rec f t) as [c|]; cbn; [|reflexivity].
  destruct (0 <? ccount c)%Z; reflexivity.
Qed.
Lemma sumc_app a c : sumc (a ++ c) = (sumc a + sumc c)%Z.
Proof. unfold sumc. induction a as [|x a IH]; cbn [app fold_right]; lia. Qed.

Definition count_goal (f : link -> bool) (h0 : heap) (ts : list node) (steps : nat) (todo : queue) : Prop :=
  forall h q pa st k tg p cs F,
  pres h0 h -> rep_c h pa (CInner k tg p cs) F -> NoDup F -> (forall x, In x F -> length h0 <= x) ->
  exists h' F',
    (forall fuel, count_run f (steps + fuel) h (todo ++ q) (Some pa :: st) = count_run f fuel h' q (Some pa :: st)) /\
    rep_c h' pa (CInner (k + sumc (counted_children f ts)) tg p (cs ++ counted_children f ts)) F' /\
    NoDup F' /\ (forall x, In x F' -> length h0 <= x) /\
    (forall x, In x F' -> In x F \/ length h <= x) /\
    length h <= length h' /\
    (forall x, x < length h -> ~ In x F -> nth_error h' x = nth_error h x).

Lemma goal_pres h0 h h' F :
  pres h0 h -> length h0 <= length h -> (forall x, In x F -> length h0 <= x) ->
  (forall x, x < length h -> ~ In x F -> nth_error h' x = nth_error h x) -> pres h0 h'.
Proof.
  intros P L HF Fr x o E. pose proof (nth_some_lt _ _ _ E) as B.
  rewrite Fr; [apply P; exact E|lia|]. intros X. apply HF in X. lia.
Qed.

Lemma pres_length h0 h : pres h0 h -> length h0 <= length h.
Proof.
  intros P. destruct (length h0) as [|n] eqn:E; [lia|].
  destruct (nth_error h0 n) as [o|] eqn:En.
  - apply P in En. apply nth_some_lt in En. exact En.
  - apply nth_error_None in En. lia.
Qed.

Lemma size_list_ok f h0 ch ts :
  Forall2 (fun a t => count_goal f h0 [t] (2 * size t) [(a, false)]) ch ts ->
  count_goal f h0 ts (2 * fold_right (fun c n => size c + n) 0 ts) (map (fun a => (a, false)) ch).
Proof.
  induction 1 as [|a t ch ts Ht Hts IH]; unfold count_goal; intros h q pa st k tg p cs F HP HR HN HF.
  - exists h, F. cbn. rewrite app_nil_r, Z.add_0_r. repeat split; auto.
  - cbn [map app fold_right].
    destruct (Ht h (map (fun a => (a, false)) ch ++ q) pa st k tg p cs F HP HR HN HF)
      as (h1 & F1 & R1 & A1 & B1 & C1 & D1 & E1 & G1).
    assert (HP1 : pres h0 h1) by exact (goal_pres h0 h h1 F HP (pres_length _ _ HP) HF G1).
    destruct (IH h1 q pa st _ tg p _ F1 HP1 A1 B1 C1) as (h2 & F2 & R2 & A2 & B2 & C2 & D2 & E2 & G2).
    exists h2, F2. repeat split; auto.
    + intros fuel. rewrite <- R2.
      replace (2 * (size t + fold_right (fun c n => size c + n) 0 ts) + fuel)
        with (2 * size t + (2 * fold_right (fun c n => size c + n) 0 ts + fuel)) by lia.
      cbn [app] in R1. apply R1.
    + rewrite counted_cons, sumc_app, Z.add_assoc, app_assoc.
      rewrite counted_cons, app_nil_r in A2. exact A2.
    + intros x Hx. destruct (D2 x Hx) as [Hx1|Hx1]; [destruct (D1 x Hx1); auto|right; lia].
    + lia.
    + intros x Hx NX. rewrite G2; [apply G1; assumption|lia|].
      intros X. destruct (D1 x X); [contradiction|lia].
Qed.

(** Attaching of a finished child to its parent. *)
Lemma attach_step f h q a na c Fc pa st k tg p cs F :
  rep_c h na c Fc -> rep_c h pa (CInner k tg p cs) F -> NoDup (F ++ Fc) ->
  exists h', (forall fuel, count_run f (S fuel) h ((a, true) :: q) (Some na :: Some pa :: st) = count_run f fuel h' q (Some pa :: st)) /\
   (exists F', rep_c h' pa (CInner (k + sumc (attach (Some c) [])) tg p (cs ++ attach (Some c) [])) F' /\
     NoDup F' /\ (forall x, In x F' -> In x F \/ In x Fc)) /\
   length h' = length h /\
   (forall x, ~ In x F -> nth_error h' x = nth_error h x).
Proof.
  intros HC HP HN.
  assert (Hna : exists t nd, nth_error h na = Some (OCnt (ccount c) t nd)) by (inversion HC; subst; cbn; eauto).
  destruct Hna as (t & nd & Hna). cbn [attach].
  destruct (Z.ltb_spec 0 (ccount c)) as [Hpos|Hz].
  - inversion HP as [|a0 k0 t0 ndp p0 ch cs0 G E1 E2 E3]; subst.
    cbn [app] in HN. inversion HN as [|? ? N1 N2]; subst. inversion N2 as [|? ? N3 N4]; subst.
    assert (Hne : pa <> ndp) by (intros ->; apply N1; left; reflexivity).
    set (h1 := upd h pa (OCnt (k + ccount c) tg ndp)). assert (E2' : nth_error h1 ndp = Some (OInner p ch)).
    { unfold h1. rewrite upd_other by assumption. exact E2. }
    set (h2 := upd h1 ndp (OInner p (ch ++ [na]))). exists h2. split.
    { intros fuel. cbn [count_run]. rewrite Hna. destruct (Z.ltb_spec 0 (ccount c)); [|lia].
      rewrite E1. fold h1. rewrite E2'. reflexivity. }
    assert (B1 : pa < length h) by (eapply nth_some_lt; eauto).
    assert (B2 : ndp < length h) by (eapply nth_some_lt; eauto).
    assert (Fr : forall x, x <> pa -> x <> ndp -> nth_error h2 x = nth_error h x).
    { intros x X1 X2. unfold h2, h1. rewrite !upd_other by congruence. reflexivity. }
    split.
    + exists (pa :: ndp :: G ++ Fc). split; [|split].
      * cbn [sumc fold_right]. rewrite Z.add_0_r. econstructor.
        -- unfold h2. rewrite upd_other by congruence. unfold h1. apply upd_same. exact B1.
        -- unfold h2. apply upd_same. unfold h1. rewrite upd_length. exact B2.
        -- apply rep_cs_app.
           ++ eapply rep_cs_frame; [exact E3|]. intros x Hx. apply Fr; intros ->.
              ** apply N1. right. apply in_app_iff; auto.
              ** apply N3. apply in_app_iff; auto.
           ++ apply rep_cs_one. eapply rep_c_frame; [exact HC|]. intros x Hx. apply Fr; intros ->.
              ** apply N1. right. apply in_app_iff; auto.
              ** apply N3. apply in_app_iff; auto.
      * exact HN.
      * intros x [<-|[<-|Hx]]; [cbn; auto..|]. apply in_app_iff in Hx. cbn. tauto.
    + split; [unfold h2, h1; rewrite !upd_length; reflexivity|].
      intros x Hx. apply Fr; intros ->; apply Hx; cbn; auto.
  - exists h. split.
    { intros fuel. cbn [count_run]. rewrite Hna. destruct (Z.ltb_spec 0 (ccount c)); [lia|]. reflexivity. }
    split.
    + exists F. cbn [sumc fold_right]. rewrite Z.add_0_r, app_nil_r. split; [assumption|].
      split; [|auto]. apply NoDup_app_l in HN. assumption.
    + split; [reflexivity|]. auto.
Qed.

Lemma NoDup_app_intro {A} (l l' : list A) :
  NoDup l -> NoDup l' -> (forall x, In x l -> ~ In x l') -> NoDup (l ++ l').
Proof.
  induction 1 as [|x l Hx Hl IH]; cbn; intros N D; [assumption|]. constructor.
  - rewrite in_app_iff. intros [X|X]; [contradiction|]. apply (D x); auto.
  - apply IH; auto.
Qed.

(** Counting of a node together with its subtree: after the visit of all descendants. *)
Definition inner_goal f h0 p ts a ch : Prop :=
  forall h q st, pres h0 h ->
  nth_error h0 a = Some (OInner p ch) ->
  exists h' F',
   (forall fuel, count_run f (S (2 * fold_right (fun c n => size c + n) 0 ts + fuel)) h ((a, false) :: q) st =
      count_run f fuel h' ((a, true) :: q) (Some (S (length h)) :: st)) /\
   rep_c h' (S (length h)) (CInner (sumc (counted_children f ts)) 0 p (counted_children f ts)) F' /\
   NoDup F' /\ (forall x, In x F' -> length h <= x) /\ length h <= length h' /\
   (forall x, x < length h -> nth_error h' x = nth_error h x).

Lemma inner_step f h0 p ts a ch :
  count_goal f h0 ts (2 * fold_right (fun c n => size c + n) 0 ts) (map (fun a => (a, false)) ch) ->
  inner_goal f h0 p ts a ch.
Proof.
  intros HG h q st HP Ha. cbn [count_run]. rewrite (HP _ _ Ha). unfold push_reversed.
  set (h1 := h ++ _).
  assert (A1 : nth_error h1 (length h) = Some (OInner p [])).
  { unfold h1. rewrite nth_error_app2 by lia. rewrite Nat.sub_diag. reflexivity. }
  assert (A2 : nth_error h1 (S (length h)) = Some (OCnt 0 0 (length h))).
  { unfold h1. rewrite nth_error_app2 by lia. replace (S (length h) - length h) with 1 by lia. reflexivity. }
  assert (HP1 : pres h0 h1).
  { intros x o E. apply HP in E. unfold h1. rewrite nth_app_l; [assumption|]. eapply nth_some_lt; eauto. }
  assert (HR1 : rep_c h1 (S (length h)) (CInner 0 0 p []) [S (length h); length h]).
  { econstructor; eauto. constructor. }
  assert (HN1 : NoDup [S (length h); length h]) by (repeat constructor; cbn; lia).
  pose proof (pres_length _ _ HP) as L0.
  destruct (HG h1 ((a, true) :: q) (S (length h)) st _ _ _ _ _ HP1 HR1 HN1) as (h2 & F2 & R2 & B2 & C2 & D2 & E2 & G2 & K2).
  { intros x [<-|[<-|[]]]; lia. }
  exists h2, F2. cbn [app] in B2. rewrite Z.add_0_l in B2. split; [exact R2|]. split; [exact B2|]. split; [exact C2|].
  assert (L1 : length h1 = length h + 2) by (unfold h1; rewrite app_length; reflexivity).
  split; [intros x Hx; destruct (E2 x Hx) as [[<-|[<-|[]]]|X]; lia|]. split; [lia|].
  intros x Hx. rewrite K2.
  - unfold h1. apply nth_app_l. exact Hx.
  - lia.
  - cbn. lia.
Qed.

Lemma leaf_step f h a ls q st fuel : nth_error h a = Some (OLeaf ls) ->
  count_run f (S fuel) h ((a, false) :: q) st =
  match filter f ls with
  | [] => count_run f fuel h ((a, true) :: q) (None :: st)
  | ls' => count_run f fuel (h ++ [OLeaf ls'; OCnt (Z.of_nat (length ls')) 0 (length h)])
             ((a, true) :: q) (Some (S (length h)) :: st)
  end.
Proof. intros E. cbn [count_run]. rewrite E. reflexivity. Qed.

Lemma count_one f t : counted_children f [t] = attached f t.
Proof. rewrite counted_cons. unfold counted_children. cbn [map fold_right]. apply app_nil_r. Qed.

Lemma count_node f h0 t : forall a, rep_node h0 a t -> count_goal f h0 [t] (2 * size t) [(a, false)].
Proof.
  induction t as [ls|p ts IH] using node_ind'; intros a HR; unfold count_goal;
    intros h q pa st k tg p0 cs F HP HRp HN HF;
    pose proof (pres_length _ _ HP) as L0; rewrite count_one; unfold attached.
  - inversion HR as [a0 ls0 Ea|]; subst. cbn [size app].
    cbn [count_rec]. destruct (filter f ls) as [|l0 ls0] eqn:Ef.
    + exists h, F. cbn [attach sumc fold_right]. rewrite app_nil_r, Z.add_0_r.
      repeat split; auto. intros fuel. change (2 * 1 + fuel) with (S (S fuel)).
      rewrite (leaf_step _ _ _ _ _ _ _ (HP _ _ Ea)), Ef. reflexivity.
    + rewrite <- Ef. set (ls' := filter f ls) in *. set (h1 := h ++ [OLeaf ls'; OCnt (Z.of_nat (length ls')) 0 (length h)]).
      assert (HC : rep_c h1 (S (length h)) (CLeaf (Z.of_nat (length ls')) 0 ls') [S (length h); length h]).
      { constructor; unfold h1; rewrite nth_error_app2 by lia.
        - replace (S (length h) - length h) with 1 by lia. reflexivity.
        - rewrite Nat.sub_diag. reflexivity. }
      assert (HRp1 : rep_c h1 pa (CInner k tg p0 cs) F).
      { eapply rep_c_frame; [exact HRp|]. intros x Hx. unfold h1. apply nth_app_l. eapply rep_c_bound; eauto. }
      assert (HN1 : NoDup (F ++ [S (length h); length h])).
      { apply NoDup_app_intro; [assumption|repeat constructor; cbn; lia|].
        intros x Hx [<-|[<-|[]]]; pose proof (rep_c_bound _ _ _ _ _ HRp Hx); lia. }
      assert (L1 : length h1 = length h + 2) by (unfold h1; rewrite app_length; reflexivity).
      destruct (attach_step f h1 q a _ _ _ pa st k tg p0 cs F HC HRp1 HN1) as (h2 & R2 & (F2 & X1 & X2 & X3) & L2 & K2).
      exists h2, F2. split; [|split; [|split; [|split; [|split; [|split]]]]].
      * intros fuel. change (2 * 1 + fuel) with (S (S fuel)).
        rewrite (leaf_step _ _ _ _ _ _ _ (HP _ _ Ea)). fold ls'. rewrite Ef. rewrite <- Ef. fold h1. apply R2.
      * exact X1.
      * exact X2.
      * intros x Hx. destruct (X3 x Hx) as [X|[<-|[<-|[]]]]; [auto|lia|lia].
      * intros x Hx. destruct (X3 x Hx) as [X|[<-|[<-|[]]]]; [auto|lia|lia].
      * lia.
      * intros x Hx NX. rewrite K2 by assumption. unfold h1. apply nth_app_l. exact Hx.
  - inversion HR as [|a0 p1 ch ts0 Ea HF2]; subst.
    assert (HL : count_goal f h0 ts (2 * fold_right (fun c n => size c + n) 0 ts) (map (fun a => (a, false)) ch)).
    { apply size_list_ok. clear Ea HR. induction HF2; [constructor|]. inversion IH; subst. constructor; auto. }
    destruct (inner_step f h0 p ts a ch HL h q (Some pa :: st) HP Ea) as (h1 & Fc & R1 & A1 & B1 & C1 & D1 & E1).
    assert (HRp1 : rep_c h1 pa (CInner k tg p0 cs) F).
    { eapply rep_c_frame; [exact HRp|]. intros x Hx. apply E1. eapply rep_c_bound; eauto. }
    assert (HN1 : NoDup (F ++ Fc)).
    { apply NoDup_app_intro; auto. intros x Hx Hy. apply C1 in Hy. pose proof (rep_c_bound _ _ _ _ _ HRp Hx). lia. }
    destruct (attach_step f h1 q a _ _ _ pa st k tg p0 cs F A1 HRp1 HN1) as (h2 & R2 & (F2 & X1 & X2 & X3) & L2 & K2).
    exists h2, F2. split; [|split; [|split; [|split; [|split; [|split]]]]].
    + intros fuel. cbn [size app]. set (n := fold_right _ _ _) in *.
      replace (2 * S n + fuel) with (S (2 * n + S fuel)) by lia. rewrite R1. apply R2.
    + exact X1.
    + exact X2.
    + intros x Hx. destruct (X3 x Hx) as [X|X]; [auto|]. apply C1 in X. lia.
    + intros x Hx. destruct (X3 x Hx) as [X|X]; [auto|]. apply C1 in X. lia.
    + lia.
    + intros x Hx NX. rewrite K2 by assumption. apply E1. exact Hx.
Qed.

(** CountDescendants for a tree whose root is not a leaf. *)
Lemma count_root f h0 a p ts : rep_node h0 a (Inner p ts) ->
  exists h1 r F c, count_rec f (Inner p ts) = Some c /\
    (forall fuel, CountDescendants f (2 * size (Inner p ts) + fuel) h0 a = MDone (h1, Some r)) /\
    rep_c h1 r c F /\ NoDup F /\ (forall x, In x F -> length h0 <= x) /\ length h0 <= length h1 /\
    (forall x, x < length h0 -> nth_error h1 x = nth_error h0 x).
Proof.
  intros HR. inversion HR as [|a0 p1 ch ts0 Ea HF2]; subst.
  assert (HL : count_goal f h0 ts (2 * fold_right (fun c n => size c + n) 0 ts) (map (fun a => (a, false)) ch)).
  { apply size_list_ok. clear Ea HR. induction HF2; constructor; auto. apply count_node; assumption. }
  destruct (inner_step f h0 p ts a ch HL h0 [] [] (fun x o H => H) Ea) as (h1 & Fc & R1 & A1 & B1 & C1 & D1 & E1).
  exists h1, (S (length h0)), Fc. eexists. split; [reflexivity|]. split; [|split; [exact A1|repeat split; auto]].
  intros fuel. unfold CountDescendants. cbn [size]. set (n := fold_right _ _ _) in *.
  replace (2 * S n + fuel) with (S (2 * n + S fuel)) by lia. rewrite R1. reflexivity.
Qed.

(** ** FilterChildrenCount *)
Fixpoint csize (c : cnode) : nat :=
  match c with
  | CLeaf _ _ _ => 1
  | CInner _ _ _ ch => S (fold_right (fun c n => csize c + n) 0 ch)
  end.
Definition csizes (cs : list cnode) : nat := fold_right (fun c n => csize c + n) 0 cs.

Definition with_target (c : cnode) (v : Z) : cnode :=
  match c with
  | CLeaf k _ ls => CLeaf k v ls
  | CInner k _ p ch => CInner k v p ch
  end.

Fixpoint retarget (cs : list cnode) (slots : list (option Z)) : list cnode :=
  match cs, slots with
  | c :: cs', Some v :: s' => with_target c v :: retarget cs' s'
  | _ :: cs', None :: s' => retarget cs' s'
  | _, _ => []
  end.

Fixpoint filter_all (cs : list cnode) : outcome (list cnode) :=
  match cs with
  | [] => Done []
  | c :: cs' => obind (filter_count c (ctarget c)) (fun c' => obind (filter_all cs') (fun r => Done (c' :: r)))
  end.

Lemma filter_with_target c v t : filter_count (with_target c v) t = filter_count c t.
Proof. destruct c; reflexivity. Qed.
Lemma ctarget_with c v : ctarget (with_target c v) = v.
Proof. destruct c; reflexivity. Qed.
Lemma csize_with c v : csize (with_target c v) = csize c.
Proof. destruct c; reflexivity. Qed.
Lemma with_with c v w : with_target (with_target c v) w = with_target c w.
Proof. destruct c; reflexivity. Qed.
Lemma with_self c : with_target c (ctarget c) = c.
Proof. destruct c; reflexivity. Qed.

Lemma go_retarget cs : forall slots, go cs slots = filter_all (retarget cs slots).
Proof.
  induction cs as [|c cs IH]; intros [|[v|] slots]; cbn [retarget]; try reflexivity.
  - cbn [go filter_all]. fold go. rewrite IH, ctarget_with, filter_with_target. reflexivity.
  - cbn [go]. fold go. apply IH.
Qed.
Lemma retarget_size cs : forall slots, csizes (retarget cs slots) <= csizes cs.
Proof.
  unfold csizes. induction cs as [|c cs IH]; intros [|[v|] slots]; cbn [retarget fold_right]; try lia.
  - rewrite csize_with. specialize (IH slots). lia.
  - specialize (IH slots). lia.
Qed.

Definition filter_goal (c : cnode) : Prop :=
  forall h a F q, rep_c h a c F -> NoDup F ->
  match filter_count c (ctarget c) with
  | Done c' => exists n h' F', n <= 2 * csize c /\
      (forall fuel, filter_run (n + fuel) h ((a, false) :: q) = filter_run fuel h' q) /\
      rep_c h' a c' F' /\ NoDup F' /\ incl F' F /\ length h' = length h /\
      (forall x, ~ In x F -> nth_error h' x = nth_error h x)
  | Panic => exists n, n <= 2 * csize c /\ forall fuel, filter_run (n + fuel) h ((a, false) :: q) = MPanic
  end.

Lemma NoDup_app_inv {A} (l l' : list A) :
  NoDup (l ++ l') -> NoDup l /\ NoDup l' /\ (forall x, In x l -> ~ In x l').
Proof.
  induction l as [|x l IH]; cbn; intros H.
  - split; [constructor|]. split; [assumption|]. contradiction.
  - inversion H; subst. destruct (IH H3) as (A1 & A2 & A3). rewrite in_app_iff in H2.
    split; [constructor; tauto|]. split; [assumption|]. intros y [<-|Hy]; [tauto|auto].
Qed.

Lemma filter_list cs : Forall filter_goal cs -> forall h ch F q, rep_cs h ch cs F -> NoDup F ->
  match filter_all cs with
  | Done cs' => exists n h' F', n <= 2 * csizes cs /\
      (forall fuel, filter_run (n + fuel) h (rev (map (fun a => (a, false)) ch) ++ q) = filter_run fuel h' q) /\
      rep_cs h' ch cs' F' /\ NoDup F' /\ incl F' F /\ length h' = length h /\
      (forall x, ~ In x F -> nth_error h' x = nth_error h x)
  | Panic => exists n, n <= 2 * csizes cs /\
      forall fuel, filter_run (n + fuel) h (rev (map (fun a => (a, false)) ch) ++ q) = MPanic
  end.
Proof.
  induction 1 as [|c cs Hc Hcs IH]; intros h ch F q HR HN.
  - inversion HR; subst. cbn. exists 0, h, []. repeat split; auto; try constructor. intros x [].
  - inversion HR as [|a c0 F1 ch' cs0 G R1 R2]; subst.
    apply NoDup_app_inv in HN. destruct HN as (N1 & N2 & ND).
    cbn [filter_all map rev]. unfold csizes; cbn [fold_right]; fold (csizes cs).
    assert (Eq : (rev (map (fun a => (a, false)) ch') ++ [(a, false)]) ++ q = rev (map (fun a => (a, false)) ch') ++ (a, false) :: q)
      by (rewrite <- app_assoc; reflexivity).
    rewrite Eq. clear Eq.
    specialize (IH h ch' G ((a, false) :: q) R2 N2).
    destruct (filter_all cs) as [cs'|].
    + destruct IH as (n & h1 & G' & Hn & Hrun & A & B & C & D & E).
      assert (R1' : rep_c h1 a c F1).
      { eapply rep_c_frame; [exact R1|]. intros x Hx. apply E. auto. }
      specialize (Hc h1 a F1 q R1' N1).
      destruct (filter_count c (ctarget c)) as [c'|]; cbn [obind].
      * destruct Hc as (m & h2 & F1' & Hm & Hrun2 & A2 & B2 & C2 & D2 & E2).
        exists (n + m), h2, (F1' ++ G'). split; [lia|]. split.
        { intros fuel. rewrite <- Nat.add_assoc, Hrun. apply Hrun2. }
        split.
        { constructor; [assumption|]. eapply rep_cs_frame; [exact A|]. intros x Hx. apply E2.
          intros X. apply (ND x X). apply C. exact Hx. }
        split.
        { apply NoDup_app_intro; auto. intros x X Y. apply (ND x); auto. }
        split.
        { intros x Hx. apply in_app_iff in Hx. apply in_app_iff. destruct Hx; auto. }
        split; [congruence|].
        intros x Hx. rewrite in_app_iff in Hx. rewrite E2, E; tauto.
      * destruct Hc as (m & Hm & Hrun2). exists (n + m). split; [lia|].
        intros fuel. rewrite <- Nat.add_assoc, Hrun. apply Hrun2.
    + destruct IH as (n & Hn & Hrun).
      assert (X : obind (filter_count c (ctarget c)) (fun c' => obind (@Panic (list cnode)) (fun r => Done (c' :: r))) = Panic)
        by (destruct (filter_count c (ctarget c)); reflexivity).
      rewrite X. exists n. split; [lia|exact Hrun].
Qed.

Lemma set_targets_ok ch : forall h cs F slots, rep_cs h ch cs F -> NoDup F ->
  exists F', rep_cs (set_targets h ch slots) (keep_children ch slots) (retarget cs slots) F' /\
    NoDup F' /\ incl F' F /\ length (set_targets h ch slots) = length h /\
    (forall x, ~ In x F -> nth_error (set_targets h ch slots) x = nth_error h x).
Proof.
  induction ch as [|a ch IH]; intros h cs F slots HR HN; inversion HR as [|a0 c F1 ch0 cs0 G R1 R2]; subst.
  - exists []. cbn [set_targets keep_children retarget]. repeat split; auto; try constructor. intros x [].
  - apply NoDup_app_inv in HN. destruct HN as (N1 & N2 & ND).
    cbn [set_targets keep_children retarget]. destruct slots as [|[v|] slots].
    + exists []. repeat split; auto; try constructor. intros x [].
    + assert (Ha : In a F1) by (inversion R1; subst; cbn; auto).
      set (h1 := set_target h a v).
      assert (Fr : forall x, x <> a -> nth_error h1 x = nth_error h x).
      { intros x Hx. unfold h1, set_target. destruct (nth_error h a) as [[| |]|]; auto. apply upd_other. congruence. }
      assert (Lh : length h1 = length h).
      { unfold h1, set_target. destruct (nth_error h a) as [[| |]|]; auto. apply upd_length. }
      assert (R1' : rep_c h1 a (with_target c v) F1).
      { inversion R1 as [a1 k t nd ls E1 E2|a1 k t nd p ch1 cs1 F2 E1 E2 E3]; subst; cbn [with_target];
          inversion N1 as [|? ? X1 X2]; subst.
        - constructor.
          + unfold h1, set_target. rewrite E1. apply upd_same. eapply nth_some_lt; eauto.
          + rewrite Fr; [assumption|]. intros ->. apply X1. cbn; auto.
        - econstructor.
          + unfold h1, set_target. rewrite E1. apply upd_same. eapply nth_some_lt; eauto.
          + rewrite Fr; [eassumption|]. intros ->. apply X1. cbn; auto.
          + eapply rep_cs_frame; [exact E3|]. intros x Hx. apply Fr. intros ->. apply X1. cbn; auto. }
      assert (R2' : rep_cs h1 ch cs0 G).
      { eapply rep_cs_frame; [exact R2|]. intros x Hx. apply Fr. intros ->. exact (ND a Ha Hx). }
      destruct (IH h1 cs0 G slots R2' N2) as (G' & A & B & C & D & E).
      exists (F1 ++ G'). repeat split.
      * constructor; [|exact A]. eapply rep_c_frame; [exact R1'|]. intros x Hx. apply E. auto.
      * apply NoDup_app_intro; auto. intros x X Y. apply (ND x); auto.
      * intros x Hx. apply in_app_iff in Hx. apply in_app_iff. destruct Hx; auto.
      * congruence.
      * intros x Hx. rewrite in_app_iff in Hx. rewrite E by tauto. apply Fr. intros ->. tauto.
    + destruct (IH h cs0 G slots R2 N2) as (G' & A & B & C & D & E).
      exists G'. repeat split; auto.
      * intros x Hx. apply in_app_iff. right. apply C. exact Hx.
      * intros x Hx. rewrite in_app_iff in Hx. apply E. tauto.
Qed.

Lemma child_counts_ok h ch cs F : rep_cs h ch cs F -> child_counts h ch = Some (map ccount cs).
Proof.
  induction 1 as [|a c F ch cs G R1 R2 IH]; cbn; [reflexivity|].
  rewrite IH. inversion R1; subst; rewrite H; reflexivity.
Qed.
Lemma child_targets_ok h ch cs F : rep_cs h ch cs F -> child_targets h ch = Some (sumt cs).
Proof.
  induction 1 as [|a c F ch cs G R1 R2 IH]; cbn; [reflexivity|].
  rewrite IH. inversion R1; subst; rewrite H; reflexivity.
Qed.

Lemma filter_any c : forall v, filter_goal (with_target c v).
Proof.
  induction c as [k t ls|k t p cs IH] using cnode_ind'; intros v h a F q HR HN; cbn [with_target ctarget csize] in *.
  - inversion HR as [a0 k0 t0 nd ls0 E1 E2|]; subst.
    inversion HN as [|? ? X1 X2]; subst.
    cbn [filter_count]. destruct (leaf_limit ls v) as [ls'|] eqn:El; cbn [obind].
    + set (h1 := upd h nd (OLeaf ls')). set (h2 := upd h1 a (OCnt k (Z.of_nat (length ls')) nd)).
      assert (Hne : a <> nd) by (intros ->; apply X1; cbn; auto).
      assert (Ba : a < length h) by (eapply nth_some_lt; eauto).
      assert (Bn : nd < length h) by (eapply nth_some_lt; eauto).
      assert (Ea1 : nth_error h1 a = Some (OCnt k v nd)) by (unfold h1; rewrite upd_other by congruence; exact E1).
      assert (En1 : nth_error h1 nd = Some (OLeaf ls')) by (unfold h1; apply upd_same; exact Bn).
      exists 2, h2, [a; nd]. split; [lia|]. split.
      { intros fuel. change (2 + fuel) with (S (S fuel)). cbn [filter_run]. rewrite E1, E2, El.
        cbn [filter_run]. fold h1. rewrite Ea1, En1. reflexivity. }
      split.
      { constructor.
        - unfold h2. apply upd_same. unfold h1. rewrite upd_length. exact Ba.
        - unfold h2. rewrite upd_other by congruence. exact En1. }
      split; [assumption|]. split; [intros x Hx; exact Hx|].
      split; [unfold h2, h1; rewrite !upd_length; reflexivity|].
      intros x Hx. unfold h2, h1. rewrite !upd_other; [reflexivity|..]; intros ->; apply Hx; cbn; auto.
    + exists 1. split; [lia|]. intros fuel. change (1 + fuel) with (S fuel). cbn [filter_run]. rewrite E1, E2, El. reflexivity.
  - inversion HR as [|a0 k0 t0 nd p0 ch cs0 G E1 E2 E3]; subst.
    inversion HN as [|? ? X1 X2]; subst. inversion X2 as [|? ? X3 X4]; subst.
    assert (Hne : a <> nd) by (intros ->; apply X1; cbn; auto).
    assert (Ba : a < length h) by (eapply nth_some_lt; eauto).
    assert (Bn : nd < length h) by (eapply nth_some_lt; eauto).
    destruct cs as [|c0 cs0].
    + inversion E3; subst. cbn [filter_count].
      exists 2, (upd h a (OCnt k 0 nd)), [a; nd]. split; [cbn; lia|]. split.
      { intros fuel. change (2 + fuel) with (S (S fuel)). cbn [filter_run]. rewrite E1, E2. reflexivity. }
      split.
      { econstructor; [apply upd_same; exact Ba|rewrite upd_other by congruence; exact E2|constructor]. }
      split; [repeat constructor; cbn in *; tauto|]. split; [intros x Hx; exact Hx|].
      split; [apply upd_length|]. intros x Hx. rewrite upd_other; [reflexivity|]. intros ->. apply Hx. cbn; auto.
    + rewrite filter_count_inner by discriminate. set (cs := c0 :: cs0) in *.
      assert (Hch : ch <> []) by (inversion E3; discriminate).
      assert (Step : forall fuel, filter_run (S fuel) h ((a, false) :: q) =
        match limit_children (map ccount cs) v with
        | Panic => MPanic
        | Done slots => filter_run fuel (upd (set_targets h ch slots) nd (OInner p (keep_children ch slots)))
                                (push_direct (keep_children ch slots) ((a, true) :: q))
        end).
      { intros fuel. cbn [filter_run]. rewrite E1, E2. destruct ch as [|a1 ch1] eqn:Ec; [congruence|]. rewrite <- Ec in *.
        rewrite (child_counts_ok _ _ _ _ E3). reflexivity. }
      destruct (limit_children (map ccount cs) v) as [slots|] eqn:El; cbn [obind].
      2:{ exists 1. split; [lia|]. intros fuel. apply (Step fuel). }
      destruct (set_targets_ok ch h cs G slots E3 X4) as (G1 & A & B & C & D & E).
      set (hs := set_targets h ch slots) in *. set (ch' := keep_children ch slots) in *.
      set (h1 := upd hs nd (OInner p ch')).
      assert (Ba' : a < length hs) by lia. assert (Bn' : nd < length hs) by lia.
      assert (R1 : rep_cs h1 ch' (retarget cs slots) G1).
      { eapply rep_cs_frame; [exact A|]. intros x Hx. unfold h1. apply upd_other. intros <-. apply X3. apply C. exact Hx. }
      assert (IH1 : Forall filter_goal (retarget cs slots)).
      { clear - IH. clearbody cs. revert slots. induction IH as [|c cs Hc _ IHc]; intros [|[w|] slots]; cbn [retarget]; first [apply IHc | constructor; auto; fail | constructor].  }
      assert (NaG : ~ In a G) by (intros Y; apply X1; cbn; auto).
      pose proof (filter_list _ IH1 h1 ch' G1 ((a, true) :: q) R1 B) as FL.
      rewrite go_retarget. pose proof (retarget_size cs slots) as Hsz. fold (csizes cs).
      destruct (filter_all (retarget cs slots)) as [cs'|]; cbn [obind].
      * destruct FL as (n & h2 & G2 & Hn & Hrun & A2 & B2 & C2 & D2 & F2).
        assert (Ea2 : nth_error h2 a = Some (OCnt k v nd)).
        { rewrite F2 by (intros Y; apply NaG, C; exact Y). unfold h1. rewrite upd_other by congruence.
          unfold hs in *. rewrite E by exact NaG. exact E1. }
        assert (En2 : nth_error h2 nd = Some (OInner p ch')).
        { rewrite F2 by (intros Y; apply X3, C; exact Y). unfold h1. apply upd_same. exact Bn'. }
        set (h3 := upd h2 a (OCnt k (sumt cs') nd)).
        exists (S (n + 1)), h3, (a :: nd :: G2). split; [lia|]. split.
        { intros fuel. change (S (n + 1) + fuel) with (S ((n + 1) + fuel)). rewrite Step.
          unfold push_direct. fold h1. rewrite <- Nat.add_assoc, Hrun. change (1 + fuel) with (S fuel).
          cbn [filter_run]. rewrite Ea2, En2, (child_targets_ok _ _ _ _ A2). reflexivity. }
        assert (L3 : length h3 = length h).
        { unfold h3. rewrite upd_length, D2. unfold h1. rewrite upd_length. exact D. }
        assert (NaG2 : ~ In a G2) by (intros Y; apply NaG, C, C2; exact Y).
        assert (NnG2 : ~ In nd G2) by (intros Y; apply X3, C, C2; exact Y).
        split.
        { fold (sumt cs'). econstructor.
          - unfold h3. apply upd_same. rewrite D2. unfold h1. rewrite upd_length. exact Ba'.
          - unfold h3. rewrite upd_other by congruence. exact En2.
          - eapply rep_cs_frame; [exact A2|]. intros x Hx. unfold h3. apply upd_other. intros <-. contradiction. }
        split.
        { constructor; [|constructor; auto]. cbn. intros [Y|Y]; [congruence|contradiction]. }
        split.
        { intros x [<-|[<-|Hx]]; cbn; auto using in_eq. }
        split; [exact L3|].
        intros x Hx. cbn in Hx. unfold h3. rewrite upd_other by tauto. rewrite F2 by (intros Y; apply C in Y; tauto).
        unfold h1. rewrite upd_other by tauto. apply E. tauto.
      * destruct FL as (n & Hn & Hrun). exists (S n). split; [lia|].
        intros fuel. change (S n + fuel) with (S (n + fuel)). rewrite Step. unfold push_direct. fold h1. apply Hrun.
Qed.

(** ** Both steps *)
Definition nodes_bound (t : node) : nat := 2 * size t.

Lemma count_rec_size f t : match count_rec f t with Some c => csize c <= size t | None => True end.
Proof.
  induction t as [ls|p ch IH] using node_ind'.
  - cbn [count_rec]. destruct (filter f ls); cbn; auto.
  - cbn [count_rec csize size]. apply le_n_S.
    induction IH as [|t ch H _ IHc]; cbn [map fold_right]; [lia|].
    destruct (count_rec f t) as [c|]; cbn [attach].
    + destruct (0 <? ccount c)%Z; cbn [fold_right]; lia.
    + lia.
Qed.

Lemma heap_correct f h0 a p ts limit : rep_node h0 a (Inner p ts) ->
  match limited f (Inner p ts) limit with
  | Some (Done c) => exists h r F,
       (forall fuel, 2 * size (Inner p ts) < fuel -> count_and_limit f fuel h0 a limit = MDone (h, r)) /\
       rep_c h r c F /\ NoDup F /\ (forall x, In x F -> length h0 <= x) /\
       (forall x, x < length h0 -> nth_error h x = nth_error h0 x)
  | Some Panic => forall fuel, 2 * size (Inner p ts) < fuel -> count_and_limit f fuel h0 a limit = MPanic
  | None => False
  end.
Proof.
  intros HR.
  destruct (count_root f h0 a p ts HR) as (h1 & r & F & c & Ec & Run & A & B & C & D & E).
  unfold limited. pose proof (count_rec_size f (Inner p ts)) as Sz. rewrite Ec in *. cbn [option_map].
  unfold count_and_limit.
  assert (RunF : forall fuel, 2 * size (Inner p ts) < fuel -> CountDescendants f fuel h0 a = MDone (h1, Some r)).
  { intros fuel Hf. replace fuel with (2 * size (Inner p ts) + (fuel - 2 * size (Inner p ts))) by lia. apply Run. }
  unfold FilterChildrenCount.
  assert (Hr : exists t nd, nth_error h1 r = Some (OCnt (ccount c) t nd)) by (inversion A; subst; cbn; eauto).
  destruct Hr as (t & nd & Hr).
  destruct (set_targets_ok [r] h1 [c] F [Some limit] (rep_cs_one _ _ _ _ A) B) as (F1 & A1 & B1 & C1 & D1 & E1).
  cbn [set_targets keep_children retarget] in A1, D1, E1.
  inversion A1 as [|r0 c0 F2 ch2 cs2 G2 R1 R2]; subst. inversion R2; subst. rewrite app_nil_r in *.
  set (h2 := set_target h1 r limit) in *.
  pose proof (filter_any c limit h2 r F2 [] R1 B1) as FA.
  rewrite filter_with_target, ctarget_with, csize_with in FA.
  destruct (filter_count c limit) as [c'|].
  - destruct FA as (n & h3 & F3 & Hn & Hrun & A3 & B3 & C3 & D3 & E3).
    exists h3, r, F3. split.
    + intros fuel Hf. rewrite RunF, Hr by exact Hf. fold h2. replace fuel with (n + S (fuel - n - 1)) by lia.
      rewrite Hrun. reflexivity.
    + split; [exact A3|]. split; [exact B3|].
      assert (Hge : forall x, In x F2 -> length h0 <= x) by (intros x Hx; apply C, C1; exact Hx).
      split; [intros x Hx; apply Hge, C3; exact Hx|].
      intros x Hx. rewrite E3 by (intros Y; apply Hge in Y; lia).
      rewrite E1 by (intros Y; apply C in Y; lia). apply E. exact Hx.
  - destruct FA as (n & Hn & Hrun). intros fuel Hf. rewrite RunF, Hr by exact Hf. fold h2.
    replace fuel with (n + (fuel - n)) by lia. rewrite Hrun. reflexivity.
Qed.

(** ** ForEachLink *)
Definition prepend (called : list link * bool) (r : mres (list link)) : mres (list link) :=
  if snd called then match r with MDone r => MDone (fst called ++ r) | x => x end else MDone (fst called).

Lemma call_until_app cb l1 l2 :
  call_until cb (l1 ++ l2) =
  if snd (call_until cb l1) then (fst (call_until cb l1) ++ fst (call_until cb l2), snd (call_until cb l2))
  else call_until cb l1.
Proof.
  induction l1 as [|x l1 IH]; cbn [app call_until].
  - destruct (call_until cb l2); reflexivity.
  - destruct (cb x); [|reflexivity]. rewrite IH. destruct (call_until cb l1) as [r [|]]; cbn; [|reflexivity].
    destruct (call_until cb l2); reflexivity.
Qed.
Lemma prepend_app cb l1 l2 r :
  prepend (call_until cb (l1 ++ l2)) r = prepend (call_until cb l1) (prepend (call_until cb l2) r).
Proof.
  rewrite call_until_app. unfold prepend. destruct (snd (call_until cb l1)) eqn:E; cbn [fst snd]; [|rewrite E; reflexivity].
  destruct (snd (call_until cb l2)); [|reflexivity]. destruct r; try reflexivity. rewrite app_assoc. reflexivity.
Qed.

Lemma foreach_node cb h t : forall a, rep_node h a t ->
  exists n, n <= 2 * size t /\ forall fuel q, foreach_run cb (n + fuel) h ((a, false) :: q) =
    prepend (call_until cb (all_links t)) (foreach_run cb fuel h q).
Proof.
  induction t as [ls|p ts IH] using node_ind'; intros a HR; inversion HR as [a0 ls0 E|a0 p0 ch ts0 E HF]; subst.
  - exists 2. split; [cbn; lia|]. intros fuel q. change (2 + fuel) with (S (S fuel)). cbn [foreach_run all_links].
    rewrite E. unfold prepend. destruct (call_until cb ls) as [r [|]]; cbn; [destruct (foreach_run cb fuel h q); reflexivity|reflexivity].
  - assert (HL : exists n, n <= 2 * fold_right (fun c n => size c + n) 0 ts /\
       forall fuel q, foreach_run cb (n + fuel) h (map (fun a => (a, false)) ch ++ q) =
         prepend (call_until cb (flat_map all_links ts)) (foreach_run cb fuel h q)).
    { clear E HR. induction HF as [|b t ch ts Hb HF IHF].
      - exists 0. split; [lia|]. intros fuel q. cbn. unfold prepend; cbn. destruct (foreach_run cb fuel h q); reflexivity.
      - inversion IH as [|? ? H1 H2]; subst. destruct (H1 b Hb) as (n & Hn & Rn). destruct (IHF H2) as (m & Hm & Rm).
        exists (n + m). split; [cbn [fold_right]; lia|]. intros fuel q. cbn [map app flat_map].
        rewrite <- Nat.add_assoc, Rn, Rm. rewrite prepend_app. reflexivity. }
    destruct HL as (n & Hn & Rn). exists (S (n + 1)). split; [cbn [size]; lia|].
    intros fuel q. change (S (n + 1) + fuel) with (S (n + 1 + fuel)). cbn [foreach_run all_links]. rewrite E.
    unfold push_reversed. rewrite <- Nat.add_assoc, Rn. reflexivity.
Qed.

Lemma foreach_ok cb h a t fuel : rep_node h a t -> 2 * size t < fuel ->
  ForEachLink cb fuel h a = MDone (fst (call_until cb (all_links t))).
Proof.
  intros HR Hf. destruct (foreach_node cb h t a HR) as (n & Hn & Rn). unfold ForEachLink.
  replace fuel with (n + S (fuel - n - 1)) by lia. rewrite Rn. unfold prepend. cbn [foreach_run].
  rewrite app_nil_r. destruct (snd (call_until cb (all_links t))); reflexivity.
Qed.

Lemma call_until_spec cb ls :
  (Forall (fun l => cb l = true) ls /\ fst (call_until cb ls) = ls) \/
  (exists pre l post, ls = pre ++ l :: post /\ Forall (fun l => cb l = true) pre /\ cb l = false /\
     fst (call_until cb ls) = pre ++ [l]).
Proof.
  induction ls as [|x ls IH]; cbn [call_until]; [left; auto|].
  destruct (cb x) eqn:E.
  - destruct IH as [[H1 H2]|(pre & l & post & H1 & H2 & H3 & H4)].
    + left. split; [constructor; auto|]. destruct (call_until cb ls). cbn in *. congruence.
    + right. exists (x :: pre), l, post. subst ls. repeat split; auto. destruct (call_until cb _). cbn in *. congruence.
  - right. exists [], x, ls. repeat split; auto.
Qed.

(** ** Answers *)
Lemma rep_c_fun h : forall c a F c' F', rep_c h a c F -> rep_c h a c' F' -> c = c'.
Proof.
  induction c as [k t ls|k t p cs IH] using cnode_ind'; intros a F c' F' H1 H2.
  - inversion H1; subst. inversion H2; subst; congruence.
  - inversion H1 as [|a0 k0 t0 nd p0 ch cs0 G E1 E2 E3]; subst.
    inversion H2 as [a0 k0 t0 nd0 ls A1 A2|a0 k0 t0 nd0 p0 ch0 cs0 G0 A1 A2 A3]; subst; [congruence|].
    rewrite E1 in A1; inversion A1; subst. rewrite E2 in A2; inversion A2; subst. f_equal.
    clear - IH E3 A3. revert ch0 G E3 cs0 G0 A3.
    induction IH as [|c cs Hc _ IHc]; intros ch G E3 cs0 G0 A3; inversion E3; subst; inversion A3; subst; auto.
    f_equal; eauto.
Qed.

Lemma answer_unique f h0 a limit h c h' c' :
  answer f h0 a limit h c -> answer f h0 a limit h' c' -> h = h' /\ c = c'.
Proof.
  intros (r & F & n & R & H) (r' & F' & n' & R' & H').
  specialize (H (n + n') ltac:(lia)). specialize (H' (n + n') ltac:(lia)). rewrite H in H'. inversion H'; subst.
  split; [reflexivity|]. eapply rep_c_fun; eauto.
Qed.

Lemma answer_limited f h0 a p ts limit h c : rep_node h0 a (Inner p ts) -> answer f h0 a limit h c ->
  limited f (Inner p ts) limit = Some (Done c) /\
  (forall x, x < length h0 -> nth_error h x = nth_error h0 x) /\
  (exists r F, rep_c h r c F /\ NoDup F /\ forall x, In x F -> length h0 <= x).
Proof.
  intros HR (r & F & n & R & H).
  set (fuel := n + S (2 * size (Inner p ts))).
  pose proof (heap_correct f h0 a p ts limit HR) as HC.
  specialize (H fuel ltac:(lia)).
  destruct (limited f (Inner p ts) limit) as [[c1|]|]; [|rewrite HC in H by lia; discriminate|contradiction].
  destruct HC as (h1 & r1 & F1 & E & R1 & N1 & G1 & P1). rewrite E in H by lia. inversion H; subst.
  pose proof (rep_c_fun _ _ _ _ _ _ R1 R) as Q; subst c1. repeat split; eauto 6.
Qed.

Lemma answer_intro f h0 a p ts limit c : rep_node h0 a (Inner p ts) ->
  limited f (Inner p ts) limit = Some (Done c) -> exists h, answer f h0 a limit h c.
Proof.
  intros HR E.
  pose proof (heap_correct f h0 a p ts limit HR) as HC. rewrite E in HC.
  destruct HC as (h1 & r1 & F1 & E1 & R1 & N1 & G1 & P1).
  exists h1, r1, F1, (S (2 * size (Inner p ts))). split; [assumption|]. intros fuel Hf. apply E1. lia.
Qed.
Lemma crash_intro f h0 a p ts limit : rep_node h0 a (Inner p ts) ->
  limited f (Inner p ts) limit = Some Panic -> crash f h0 a limit.
Proof.
  intros HR E.
  pose proof (heap_correct f h0 a p ts limit HR) as HC. rewrite E in HC.
  exists (S (2 * size (Inner p ts))). intros fuel Hf. apply HC. lia.
Qed.

Lemma answer_or_crash f h0 a p ts limit : rep_node h0 a (Inner p ts) ->
  (exists h c, answer f h0 a limit h c) \/ crash f h0 a limit.
Proof.
  intros HR. destruct (limited f (Inner p ts) limit) as [[c|]|] eqn:E.
  - left. destruct (answer_intro _ _ _ _ _ _ _ HR E) as (h & H). eauto.
  - right. eapply crash_intro; eauto.
  - discriminate.
Qed.

Lemma answer_ok f h0 a p ts limit h c : rep_node h0 a (Inner p ts) ->
  (0 <= limit)%Z -> (nmatches f (Inner p ts) * limit <= maxint)%Z ->
  answer f h0 a limit h c ->
    pruned (reply_node f) (Inner p ts) c /\
    (nlinks c <= limit)%Z /\
    (1 <= limit -> 0 < nmatches f (Inner p ts) -> 1 <= nlinks c)%Z /\
    ((1 <= limit)%Z -> (nmatches f (Inner p ts) <= limit)%Z -> complete f (Inner p ts) c).
Proof.
  intros HR H1 H2 HA. destruct (answer_limited _ _ _ _ _ _ _ _ HR HA) as (E & _).
  destruct (root_ok f p ts limit H1 H2) as (c' & E' & R). rewrite E in E'. inversion E'; subst. exact R.
Qed.

Lemma pruned_impl (P Q : node -> cnode -> Prop) : (forall t c, P t c -> Q t c) ->
  forall t c, pruned P t c -> pruned Q t c.
Proof.
  intros HPQ. induction t as [ls|p ts IH] using node_ind'; intros c H; inversion H; subst; constructor; auto.
  match goal with S : sublist2 _ _ _ |- _ => rename S into HS end. clear H H4.
  induction HS; [constructor|..]; inversion IH; subst; [apply sub2_skip|apply sub2_keep]; auto.
Qed.

Lemma answer_exists f h0 a p ts limit : rep_node h0 a (Inner p ts) ->
  (0 <= limit)%Z -> (nmatches f (Inner p ts) * limit <= maxint)%Z -> exists h c, answer f h0 a limit h c.
Proof.
  intros HR H1 H2. destruct (root_ok f p ts limit H1 H2) as (c & E & _).
  destruct (answer_intro _ _ _ _ _ _ _ HR E) as (h & H). eauto.
Qed.

Lemma rep_node_mono h h' : (forall x, x < length h -> nth_error h' x = nth_error h x) ->
  forall t a, rep_node h a t -> rep_node h' a t.
Proof.
  intros HP. induction t as [ls|p ts IH] using node_ind'; intros a HR; inversion HR as [? ? E|? ? ch ? E HF]; subst.
  - constructor. rewrite HP; eauto using nth_some_lt.
  - econstructor; [rewrite HP; eauto using nth_some_lt|]. clear - IH HF.
    induction HF; constructor; inversion IH; auto.
Qed.

(** Totals *)
Definition totals_exact f (t : node) (c : cnode) : Prop := ccount c = nmatches f t.
