(** What holds for answers whatever is the limit. *)
From Verif Require Import GoBase LinkTypes LinkTree LinkSpec LinkProofs LinkMain LinkHeap LinkHeapSpec LinkHeapProofs.
From Coq Require Import Lia ZifyBool ZifyNat.
Local Open Scope Z_scope.

Definition any_node (f : link -> bool) (t : node) (c : cnode) : Prop :=
  ccount c = nmatches f t /\ ctarget c = nlinks c /\ ctarget c <= ccount c /\
  Forall (fun l => f l = true) (call_links c) /\
  match c with
  | CInner _ _ _ ch => Forall (fun c => 0 < ccount c) ch
  | CLeaf _ _ ls => NoDup (map URL ls)
  end.

Lemma leaf_loop_any target : forall ls n seen,
  sublist (leaf_loop n seen ls target) ls /\ NoDup (map URL (leaf_loop n seen ls target)) /\
  (forall u, In u (map URL (leaf_loop n seen ls target)) -> ~ In u seen).
Proof.
  induction ls as [|l ls IH]; intros n seen; cbn [leaf_loop].
  - repeat split; constructor || (intros u []).
  - destruct (existsb (str_eqb (URL l)) seen) eqn:E.
    + destruct (IH n seen) as (A & B & C). repeat split; auto. apply sub_skip. assumption.
    + assert (NS : ~ In (URL l) seen) by (intros X; apply existsb_seen in X; congruence).
      destruct (target <=? n + 1).
      * repeat split; [apply sub_keep, sublist_nil|cbn; repeat constructor; intros []|].
        cbn. intros u [<-|[]]. exact NS.
      * destruct (IH (n + 1) (URL l :: seen)) as (A & B & C). repeat split.
        -- apply sub_keep. assumption.
        -- cbn [map]. constructor; [|assumption]. intros X. apply (C _ X). cbn; auto.
        -- cbn [map]. intros u [<-|X]; [exact NS|]. intros Y. apply (C _ X). cbn; auto.
Qed.

Lemma sublist_Forall {A} (P : A -> Prop) x y : sublist x y -> Forall P y -> Forall P x.
Proof. induction 1; intros HF; [constructor|inversion HF; auto|inversion HF; constructor; auto]. Qed.

Definition any_goal f t : Prop := forall c target c', count_rec f t = Some c -> filter_count c target = Done c' ->
  pruned (any_node f) t c' /\ ccount c' = ccount c.

Lemma any_children f ch : Forall (any_goal f) ch -> forall slots ch',
  go (counted_children f ch) slots = Done ch' ->
  sublist2 (pruned (any_node f)) ch ch' /\ Forall (fun c => 0 < ccount c) ch' /\
  sumt ch' = sumn ch' /\ sumt ch' <= summ f ch /\ Forall (fun l => f l = true) (flat_map call_links ch').
Proof.
  assert (Nil : forall ch, sublist2 (pruned (any_node f)) ch []).
  { induction ch0; [constructor|apply sub2_skip; assumption]. }
  assert (NN : forall ch, 0 <= summ f ch).
  { induction ch0 as [|t ch0 IH]; cbn; [lia|]. pose proof (nmatches_nonneg f t). unfold summ in *. lia. }
  induction 1 as [|t ch Ht Hch IH]; intros slots ch' HG.
  - cbn in HG. destruct slots; inversion HG; subst; cbn; repeat split; try constructor; lia.
  - unfold counted_children in HG. cbn [map fold_right] in HG. fold (counted_children f ch) in HG.
    pose proof (count_rec_spec f t) as Sp. cbn [summ fold_right]. fold (summ f ch).
    pose proof (nmatches_nonneg f t) as Nn.
    assert (Skip : forall slots, go (counted_children f ch) slots = Done ch' ->
       sublist2 (pruned (any_node f)) (t :: ch) ch' /\ Forall (fun c => 0 < ccount c) ch' /\
       sumt ch' = sumn ch' /\ sumt ch' <= nmatches f t + summ f ch /\ Forall (fun l => f l = true) (flat_map call_links ch')).
    { intros sl E. destruct (IH _ _ E) as (A & B & C & D & G). repeat split; auto; [apply sub2_skip; assumption|lia]. }
    destruct (count_rec f t) as [c|] eqn:Ec; cbn [attach] in HG; [|eapply Skip; eauto].
    destruct (Z.ltb_spec 0 (ccount c)) as [Hpos|Hz]; [|eapply Skip; eauto].
    destruct slots as [|[v|] slots]; cbn [go] in HG; fold go in HG.
    + inversion HG; subst. cbn. specialize (NN ch). repeat split; try constructor; auto; lia.
    + destruct (filter_count c v) as [c'|] eqn:Ef; cbn [obind] in HG; [|discriminate].
      destruct (go (counted_children f ch) slots) as [r|] eqn:Eg; cbn [obind] in HG; [|discriminate].
      inversion HG; subst. destruct (Ht c v c' Ec Ef) as (P & Q). destruct (IH _ _ Eg) as (A & B & C & D & G).
      pose proof (pruned_top _ _ _ P) as (P1 & P2 & P3 & P4 & P5).
      unfold sumt, sumn in *. cbn [fold_right flat_map]. repeat split.
      * apply sub2_keep; assumption.
      * constructor; [lia|assumption].
      * lia.
      * lia.
      * apply Forall_app; auto.
    + eapply Skip; eauto.
Qed.

Lemma any_tree f t : any_goal f t.
Proof.
  induction t as [ls|p ch IH] using node_ind'; intros c target c' Ec Ef.
  - cbn [count_rec] in Ec. pose proof (count_rec_spec f (Leaf ls)) as Sp. cbn [count_rec] in Sp.
    destruct (filter f ls) as [|l0 ls0] eqn:El; [discriminate|]. rewrite <- El in *. inversion Ec; subst.
    cbn [ccount] in Sp. cbn [filter_count] in Ef. unfold leaf_limit in Ef. rewrite El in Ef. rewrite <- El in Ef.
    set (tg := if Z.of_nat (length (filter f ls)) <? target then Z.of_nat (length (filter f ls)) else target) in *.
    destruct (tg <? 0); cbn [obind] in Ef; [discriminate|]. inversion Ef; subst. clear Ef.
    destruct (leaf_loop_any tg (filter f ls) 0 []) as (A & B & C).
    assert (HF : Forall (fun l => f l = true) (filter f ls)).
    { apply Forall_forall. intros x Hx. apply filter_In in Hx. tauto. }
    split; [|reflexivity]. constructor.
    + eapply sublist_trans; [exact A|apply sublist_filter].
    + unfold any_node, nlinks. cbn [ccount ctarget call_links]. pose proof (sublist_length _ _ A). repeat split; auto; try lia.
      eapply sublist_Forall; eauto.
  - pose proof (count_rec_spec f (Inner p ch)) as Sp. cbn [count_rec] in Ec, Sp. inversion Ec; subst. clear Ec.
    fold (counted_children f ch) in *. cbn [ccount] in Sp.
    assert (K : exists slots ch', go (counted_children f ch) slots = Done ch' /\
      c' = CInner (fold_right (fun c s => ccount c + s) 0 (counted_children f ch)) (sumt ch') p ch').
    { destruct (counted_children f ch) as [|c0 cs0] eqn:Ecs.
      - cbn in Ef. inversion Ef; subst. exists [], []. split; reflexivity.
      - rewrite <- Ecs in *. rewrite filter_count_inner in Ef by (rewrite Ecs; discriminate).
        destruct (limit_children _ _) as [slots|] in Ef; cbn [obind] in Ef; [|discriminate].
        destruct (go _ slots) as [ch'|] eqn:Eg in Ef; cbn [obind] in Ef; [|discriminate]. inversion Ef. exists slots, ch'.
        split; [assumption|reflexivity]. }
    destruct K as (slots & ch' & Eg & ->). split; [|reflexivity].
    destruct (any_children f ch IH _ _ Eg) as (A & B & C & D & G).
    constructor; [assumption|]. rewrite nmatches_inner in Sp. unfold any_node. rewrite nlinks_inner, nmatches_inner.
    cbn [ccount ctarget call_links]. repeat split; auto; lia.
Qed.

Lemma answer_any f h0 a p ts limit h c : rep_node h0 a (Inner p ts) -> answer f h0 a limit h c ->
  pruned (any_node f) (Inner p ts) c.
Proof.
  intros HR HA. destruct (answer_limited _ _ _ _ _ _ _ _ HR HA) as (E & _). unfold limited in E.
  destruct (count_rec f (Inner p ts)) as [c0|] eqn:E0; [|discriminate]. cbn in E. inversion E as [E1].
  apply (any_tree f (Inner p ts) c0 limit c E0 E1).
Qed.

(** ** Lemmas for properties *)
Lemma totals f h0 a p ts limit h c : rep_node h0 a (Inner p ts) -> answer f h0 a limit h c ->
  pruned (fun t c => ccount c = nmatches f t /\
     match c with CInner _ _ _ ch => Forall (fun c => 0 < ccount c) ch | CLeaf _ _ _ => True end) (Inner p ts) c.
Proof.
  intros HR HA. eapply pruned_impl; [|eapply answer_any; eauto]. intros t [k tg ls|k tg q ch] (A & B & C & D & E); auto.
Qed.
Lemma filtered f h0 a p ts limit h c : rep_node h0 a (Inner p ts) -> answer f h0 a limit h c ->
  pruned (fun t c => ctarget c = nlinks c /\ ctarget c <= ccount c) (Inner p ts) c.
Proof.
  intros HR HA. eapply pruned_impl; [|eapply answer_any; eauto]. intros t c' (A & B & C & D & E); auto.
Qed.
Lemma pruned_copy f h0 a p ts limit h c : rep_node h0 a (Inner p ts) -> answer f h0 a limit h c ->
  pruned (fun t c => True) (Inner p ts) c /\ Forall (fun l => f l = true) (call_links c) /\
  pruned (fun t c => match c with CLeaf _ _ ls => NoDup (map URL ls) | CInner _ _ _ _ => True end) (Inner p ts) c.
Proof.
  intros HR HA. pose proof (answer_any _ _ _ _ _ _ _ _ HR HA) as H.
  split; [eapply pruned_impl; [|exact H]; auto|]. split.
  - destruct (pruned_top _ _ _ H) as (_ & _ & _ & X & _). exact X.
  - eapply pruned_impl; [|exact H]. intros t [k tg ls|k tg q ch] (A & B & C & D & E); auto.
Qed.
Lemma at_most f h0 a p ts limit h c : rep_node h0 a (Inner p ts) ->
  0 <= limit -> nmatches f (Inner p ts) * limit <= maxint -> answer f h0 a limit h c ->
  nlinks c <= limit /\ (1 <= limit -> 0 < nmatches f (Inner p ts) -> 1 <= nlinks c).
Proof.
  intros HR H1 H2 HA. destruct (answer_ok _ _ _ _ _ _ _ _ HR H1 H2 HA) as (A & B & C & D). auto.
Qed.
Lemma nothing_lost f h0 a p ts limit h c : rep_node h0 a (Inner p ts) ->
  1 <= limit -> nmatches f (Inner p ts) <= limit -> nmatches f (Inner p ts) * limit <= maxint ->
  answer f h0 a limit h c -> complete f (Inner p ts) c.
Proof.
  intros HR H1 H2 H3 HA. assert (H0 : 0 <= limit) by lia. destruct (answer_ok _ _ _ _ _ _ _ _ HR H0 H3 HA) as (A & B & C & D). auto.
Qed.

Lemma crash_negative f h0 a p ts limit : rep_node h0 a (Inner p ts) ->
  limit < 0 -> 0 < nmatches f (Inner p ts) -> crash f h0 a limit.
Proof. intros HR H1 H2. eapply crash_intro; eauto. apply root_negative; assumption. Qed.
Lemma no_match f h0 a p ts limit : rep_node h0 a (Inner p ts) ->
  nmatches f (Inner p ts) = 0 -> exists h, answer f h0 a limit h (CInner 0 0 p []).
Proof. intros HR H. eapply answer_intro; eauto. apply root_no_match; assumption. Qed.

Lemma not_crash f h0 a limit h c : answer f h0 a limit h c -> ~ crash f h0 a limit.
Proof.
  intros (r & F & n & R & H) (m & H'). specialize (H (n + m)%nat ltac:(lia)). specialize (H' (n + m)%nat ltac:(lia)). congruence.
Qed.

Lemma no_crash f h0 a p ts limit : rep_node h0 a (Inner p ts) ->
  0 <= limit -> nmatches f (Inner p ts) * limit <= maxint ->
  ~ crash f h0 a limit /\ exists h c, answer f h0 a limit h c.
Proof.
  intros HR H1 H2. destruct (answer_exists _ _ _ _ _ _ HR H1 H2) as (h & c & HA).
  split; [eapply not_crash; eauto|eauto].
Qed.

(** Division of a limit *)
Lemma fair counts target :
  counts <> [] -> Forall (fun c => 1 <= c) counts -> 1 <= target ->
  fold_right Z.add 0 counts * target <= maxint ->
  exists slots, limit_children counts target = Done slots /\ fair_share counts target slots.
Proof. intros H1 H2 H3 H4. destruct (limit_children_ok counts target H1 H2 H3 H4) as (s & A & B & _). eauto. Qed.

Lemma foreach_prefix cb h a t : rep_node h a t ->
  exists called fuel0, (forall fuel, (fuel0 <= fuel)%nat -> ForEachLink cb fuel h a = MDone called) /\
  ((Forall (fun l => cb l = true) (all_links t) /\ called = all_links t) \/
   (exists pre l post, all_links t = pre ++ l :: post /\ Forall (fun l => cb l = true) pre /\ cb l = false /\
      called = pre ++ [l])).
Proof.
  intros HR. exists (fst (call_until cb (all_links t))), (S (2 * size t)). split.
  - intros fuel Hf. apply foreach_ok; [assumption|lia].
  - apply call_until_spec.
Qed.

Lemma heap_grows f h0 a p ts limit h c : rep_node h0 a (Inner p ts) -> answer f h0 a limit h c -> (length h0 <= length h)%nat.
Proof.
  intros HR HA. destruct (answer_limited _ _ _ _ _ _ _ _ HR HA) as (_ & E & _).
  destruct (Nat.le_gt_cases (length h0) (length h)) as [|L]; [assumption|].
  specialize (E (length h) L). rewrite (proj2 (nth_error_None h (length h))) in E by lia.
  symmetry in E. apply nth_error_None in E. lia.
Qed.

Lemma requests_ok a p ts h0 rs h : rep_node h0 a (Inner p ts) -> requests a h0 rs h ->
  (forall x, (x < length h0)%nat -> nth_error h x = nth_error h0 x) /\ rep_node h a (Inner p ts) /\
  Forall (fun '(f, limit, c) => exists h', answer f h0 a limit h' c) rs.
Proof.
  intros HR H. assert (HR0 := HR).
  assert (K : forall h00, (forall x, (x < length h00)%nat -> nth_error h0 x = nth_error h00 x) -> (length h00 <= length h0)%nat ->
     rep_node h00 a (Inner p ts) ->
     (forall x, (x < length h00)%nat -> nth_error h x = nth_error h00 x) /\ rep_node h a (Inner p ts) /\
     Forall (fun '(f, limit, c) => exists h', answer f h00 a limit h' c) rs).
  { clear HR0. revert HR. induction H as [h|h f limit c h1 rs h2 HA HRs IH]; intros HR h00 E L HR00.
    - repeat split; auto.
    - destruct (answer_limited _ _ _ _ _ _ _ _ HR HA) as (El & E1 & _).
      pose proof (heap_grows _ _ _ _ _ _ _ _ HR HA) as G.
      assert (HR1 : rep_node h1 a (Inner p ts)) by (eapply rep_node_mono; eauto).
      destruct (IH HR1 h00) as (A & B & C); auto; [|lia|].
      { intros x Hx. rewrite E1 by lia. auto. }
      repeat split; auto. constructor; [|assumption]. eapply answer_intro; eauto. }
  apply K; auto.
Qed.

Lemma answer_new f h0 a p ts limit h c : rep_node h0 a (Inner p ts) -> answer f h0 a limit h c ->
  exists r F, rep_c h r c F /\ NoDup F /\ forall x, In x F -> (length h0 <= x)%nat.
Proof. intros HR HA. exact (proj2 (proj2 (answer_limited _ _ _ _ _ _ _ _ HR HA))). Qed.

Lemma overflow_crash : exists f h0 a p ts limit, rep_node h0 a (Inner p ts) /\
  0 <= limit <= maxint /\ crash f h0 a limit.
Proof.
  exists (fun _ => true), [OLeaf [mkLink (b "a:b") [] 1; mkLink (b "a:c") [] 2]; OInner PFileGroup [0%nat]], 1%nat, PFileGroup,
    [Leaf [mkLink (b "a:b") [] 1; mkLink (b "a:c") [] 2]], 4611686018427387904.
  assert (R : rep_node [OLeaf [mkLink (b "a:b") [] 1; mkLink (b "a:c") [] 2]; OInner PFileGroup [0%nat]] 1
     (Inner PFileGroup [Leaf [mkLink (b "a:b") [] 1; mkLink (b "a:c") [] 2]]))
    by (repeat (econstructor; try reflexivity)).
  split; [exact R|]. split; [unfold maxint; lia|]. eapply crash_intro; [exact R|]. vm_compute. reflexivity.
Qed.
