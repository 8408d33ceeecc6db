(** Counting and limiting of links in trees. *)
From Verif Require Import GoBase LinkTypes LinkTree LinkSpec LinkProofs.
From Coq Require Import Lia ZifyBool ZifyNat.
Local Open Scope Z_scope.

(** ** Leaves *)
Lemma sublist_refl {A} (l : list A) : sublist l l.
Proof. induction l; [constructor|apply sub_keep; auto]. Qed.
Lemma sublist_nil {A} (l : list A) : sublist [] l.
Proof. induction l; constructor; auto. Qed.
Lemma sublist_in {A} (x y : list A) a : sublist x y -> In a x -> In a y.
Proof. induction 1; cbn; tauto. Qed.
Lemma sublist_filter {A} (f : A -> bool) l : sublist (filter f l) l.
Proof. induction l as [|x l IH]; cbn; [constructor|]. destruct (f x); [apply sub_keep|apply sub_skip]; auto. Qed.
Lemma sublist_trans {A} (x y z : list A) : sublist x y -> sublist y z -> sublist x z.
Proof.
  intros H1 H2; revert x H1; induction H2; intros x0 H1; auto.
  - constructor; auto.
  - inversion H1; subst; [apply sub_skip|apply sub_keep]; auto.
Qed.
Lemma sublist_length {A} (x y : list A) : sublist x y -> (length x <= length y)%nat.
Proof. induction 1; cbn; lia. Qed.

Lemma existsb_seen u seen : existsb (str_eqb u) seen = true <-> In u seen.
Proof.
  rewrite existsb_exists. split.
  - intros (x & H & E). apply str_eqb_eq in E. subst; auto.
  - intros H. exists u. split; [assumption|apply str_eqb_refl].
Qed.

Lemma leaf_loop_ok target : forall ls n seen, n < target ->
  let r := leaf_loop n seen ls target in
  sublist r ls /\ Z.of_nat (length r) <= target - n /\ NoDup (map URL r) /\
  (forall u, In u (map URL r) -> ~ In u seen) /\
  (Z.of_nat (length ls) <= target - n -> forall l, In l ls -> In (URL l) seen \/ In (URL l) (map URL r)).
Proof.
  induction ls as [|l ls IH]; intros n seen Hn; cbn zeta; cbn [leaf_loop].
  - repeat split; try constructor; try (cbn; lia); cbn; tauto.
  - destruct (existsb (str_eqb (URL l)) seen) eqn:E.
    + apply existsb_seen in E. destruct (IH n seen Hn) as (A & B & C & D & F).
      repeat split; auto; [constructor; auto|].
      intros L l' [<-|Hl]; [auto|]. apply F; [cbn in L; lia|assumption].
    + assert (NE : ~ In (URL l) seen) by (intros X; apply existsb_seen in X; congruence).
      destruct (Z.leb_spec target (n + 1)).
      * repeat split.
        -- apply sub_keep. apply sublist_nil.
        -- cbn. lia.
        -- repeat constructor. cbn; tauto.
        -- cbn. intros u [<-|[]]. assumption.
        -- intros L l' Hl. assert (ls = []) by (destruct ls; [reflexivity|cbn in L; lia]). subst ls.
           destruct Hl as [<-|[]]. cbn. auto.
      * destruct (IH (n + 1) (URL l :: seen) ltac:(lia)) as (A & B & C & D & F).
        repeat split.
        -- apply sub_keep. assumption.
        -- cbn [length]. lia.
        -- cbn [map]. constructor; [|assumption]. intros X. apply (D _ X). left; reflexivity.
        -- cbn [map]. intros u [<-|Hu]; [assumption|]. intros X. apply (D _ Hu). right; assumption.
        -- intros L l' [<-|Hl]; [cbn; auto|]. cbn [length] in L.
           destruct (F ltac:(lia) l' Hl) as [[G|G]|G]; cbn; auto.
Qed.

Lemma leaf_limit_ok ls target : ls <> [] -> 1 <= target ->
  exists r, leaf_limit ls target = Done r /\ sublist r ls /\ 1 <= Z.of_nat (length r) <= target /\
    NoDup (map URL r) /\
    (Z.of_nat (length ls) <= target -> forall l, In l ls -> In (URL l) (map URL r)).
Proof.
  intros Hne Ht. unfold leaf_limit. destruct ls as [|l0 ls0] eqn:El; [congruence|]. rewrite <- El in *.
  set (len := Z.of_nat (length ls)). assert (Hl : 1 <= len) by (unfold len; rewrite El; cbn; lia).
  set (t := if len <? target then len else target).
  assert (Htt : 1 <= t <= target) by (unfold t; destruct (Z.ltb_spec len target); lia).
  assert (Hsel : len <= target -> len <= t) by (unfold t; destruct (Z.ltb_spec len target); lia).
  destruct (Z.ltb_spec t 0); [lia|].
  destruct (leaf_loop_ok t ls 0 [] ltac:(lia)) as (A & B & C & D & F).
  exists (leaf_loop 0 [] ls t). split; [reflexivity|]. split; [assumption|]. split.
  - split; [|lia]. rewrite El. cbn [leaf_loop existsb]. cbn [length]. lia.
  - split; [assumption|]. intros L l Hl'. destruct (F ltac:(fold len; lia) l Hl'); [contradiction|assumption].
Qed.

(** ** Counts *)
Lemma filter_flat_map {A B} (f : B -> bool) (g : A -> list B) l :
  filter f (flat_map g l) = flat_map (fun x => filter f (g x)) l.
Proof. induction l as [|x l IH]; cbn; [reflexivity|]. rewrite filter_app, IH. reflexivity. Qed.

Definition summ (f : link -> bool) (ch : list node) : Z := fold_right (fun t s => nmatches f t + s) 0 ch.

Lemma nmatches_inner f p ch : nmatches f (Inner p ch) = summ f ch.
Proof.
  unfold nmatches, matches, summ. cbn [all_links]. rewrite filter_flat_map.
  induction ch as [|t ch IH]; cbn [flat_map fold_right length]; [reflexivity|].
  rewrite app_length, Nat2Z.inj_add, IH. reflexivity.
Qed.

Definition sumc (cs : list cnode) : Z := fold_right (fun c s => ccount c + s) 0 cs.

Lemma count_rec_spec f t :
  match count_rec f t with
  | None => nmatches f t = 0
  | Some c => ccount c = nmatches f t
  end.
Proof.
  induction t as [ls|p ch IH] using node_ind'.
  - cbn [count_rec]. unfold nmatches, matches. cbn [all_links].
    destruct (filter f ls) eqn:E; reflexivity.
  - cbn [count_rec ccount]. rewrite nmatches_inner. unfold summ.
    induction IH as [|t ch H _ IHc]; [reflexivity|].
    cbn [map fold_right attach]. rewrite <- IHc. clear IHc.
    destruct (count_rec f t) as [c|]; cbn [attach].
    + assert (0 <= nmatches f t) by (unfold nmatches; lia).
      destruct (Z.ltb_spec 0 (ccount c)); cbn [fold_right]; lia.
    + lia.
Qed.

Lemma nmatches_0 f t : nmatches f t = 0 <-> matches f t = [].
Proof.
  unfold nmatches. destruct (matches f t); cbn [length]; split; intros; try reflexivity; try discriminate; lia.
Qed.
Lemma nmatches_nonneg f t : 0 <= nmatches f t.
Proof. unfold nmatches; lia. Qed.

(** ** The main induction *)
(** What holds at each node of a reply: the total, the number of links present, and
    children of the node are not void. *)
Definition reply_node (f : link -> bool) (t : node) (c : cnode) : Prop :=
  ccount c = nmatches f t /\ ctarget c = nlinks c /\ ctarget c <= ccount c /\
  Forall (fun l => f l = true) (call_links c) /\
  match c with
  | CInner _ _ _ ch => Forall (fun c => 0 < ctarget c) ch
  | CLeaf _ _ ls => NoDup (map URL ls)
  end.

Definition go := fix go (l : list cnode) (s : list (option Z)) : outcome (list cnode) :=
  match l, s with
  | c :: l', Some t :: s' => obind (filter_count c t) (fun c' => obind (go l' s') (fun r => Done (c' :: r)))
  | _ :: l', None :: s' => go l' s'
  | _, _ => Done []
  end.

Lemma filter_count_inner k t0 p ch target : ch <> [] ->
  filter_count (CInner k t0 p ch) target =
  obind (limit_children (map ccount ch) target)
    (fun slots => obind (go ch slots)
       (fun ch' => Done (CInner k (fold_right (fun c s => ctarget c + s) 0 ch') p ch'))).
Proof. destruct ch; [congruence|]. reflexivity. Qed.

Definition sumt (cs : list cnode) : Z := fold_right (fun c s => ctarget c + s) 0 cs.
Definition sumn (cs : list cnode) : Z := fold_right (fun c s => nlinks c + s) 0 cs.

Lemma nlinks_inner k t p ch : nlinks (CInner k t p ch) = sumn ch.
Proof.
  unfold nlinks, sumn. cbn [call_links]. induction ch as [|c ch IH]; [reflexivity|].
  cbn [flat_map fold_right]. rewrite app_length, Nat2Z.inj_add, IH. reflexivity.
Qed.

Definition slot_ok (c : cnode) (s : option Z) : Prop :=
  match s with Some v => 1 <= v /\ ccount c * v <= maxint | None => True end.

Definition tree_ok (f : link -> bool) (t : node) : Prop :=
  forall c target, count_rec f t = Some c -> 0 < ccount c -> 1 <= target -> ccount c * target <= maxint ->
  exists c', filter_count c target = Done c' /\ pruned (reply_node f) t c' /\
    ccount c' = ccount c /\ 1 <= ctarget c' <= target /\ (ccount c <= target -> complete f t c').

Definition counted_children f ch : list cnode := fold_right attach [] (map (count_rec f) ch).

Lemma pruned_top P t c : pruned P t c -> P t c.
Proof. destruct 1; assumption. Qed.

Lemma children_ok f ch : Forall (tree_ok f) ch -> forall slots,
  Forall2 slot_ok (counted_children f ch) slots ->
  exists ch', go (counted_children f ch) slots = Done ch' /\
    sublist2 (pruned (reply_node f)) ch ch' /\
    Forall (fun c => 0 < ctarget c) ch' /\
    sumt ch' <= slot_sum slots /\ sumt ch' = sumn ch' /\ sumt ch' <= summ f ch /\
    (kept slots <> 0%nat -> ch' <> []) /\
    Forall (fun l => f l = true) (flat_map call_links ch') /\
    (Forall2 (fun c s => exists v, s = Some v /\ ccount c <= v) (counted_children f ch) slots -> complete_list f ch ch').
Proof.
  induction 1 as [|t ch Ht Hch IH]; intros slots HS.
  - inversion HS; subst. exists []. cbn. repeat split; try constructor; try lia; tauto.
  - unfold counted_children in HS |- *. cbn [map fold_right] in HS |- *.
    fold (counted_children f ch) in HS |- *.
    pose proof (count_rec_spec f t) as Sp.
    cbn [summ fold_right]. fold (summ f ch).
    pose proof (nmatches_nonneg f t) as Nn.
    destruct (count_rec f t) as [c|] eqn:Ec; cbn [attach] in HS |- *.
    + destruct (Z.ltb_spec 0 (ccount c)) as [Hpos|Hz].
      * inversion HS as [|c0 s cs ss Hs HS']; subst.
        destruct (IH ss HS') as (ch' & A & B & C & D & E & F & G & H & K).
        assert (Mne : matches f t <> []) by (intros X; apply nmatches_0 in X; lia).
        cbn [go]. destruct s as [v|].
        -- destruct Hs as [Hv HM].
           destruct (Ht c v Ec Hpos Hv HM) as (c' & X1 & X2 & X3 & X4 & X5).
           fold go. rewrite X1. cbn [obind]. rewrite A. cbn [obind].
           exists (c' :: ch'). split; [reflexivity|].
           pose proof (pruned_top _ _ _ X2) as (P1 & P2 & P3 & P4 & P5).
           unfold sumt, sumn, slot_sum, kept in *.
           cbn [fold_right flat_map filter length]. repeat split.
           ++ constructor; assumption.
           ++ constructor; [lia|assumption].
           ++ lia.
           ++ lia.
           ++ lia.
           ++ discriminate.
           ++ apply Forall_app; auto.
           ++ intros HF. inversion HF as [|? ? ? ? (v' & Ev & Hle) HF']; subst. injection Ev as <-.
              apply cl_keep; auto.
        -- fold go. rewrite A. exists ch'. split; [reflexivity|].
           unfold sumt, slot_sum, kept in *. cbn [fold_right filter].
           repeat split; auto; try lia.
           ++ constructor; assumption.
           ++ intros HF. inversion HF as [|? ? ? ? (v' & Ev & _) _]; subst. discriminate.
      * destruct (IH slots HS) as (ch' & A & B & C & D & E & F & G & H & K).
        exists ch'. rewrite A. repeat split; auto; try lia.
        -- constructor; assumption.
        -- intros HF. apply cl_skip; [apply nmatches_0; lia|auto].
    + destruct (IH slots HS) as (ch' & A & B & C & D & E & F & G & H & K).
      exists ch'. rewrite A. repeat split; auto; try lia.
      -- constructor; assumption.
      -- intros HF. apply cl_skip; [apply nmatches_0; lia|auto].
Qed.

Lemma counted_children_pos f ch : Forall (fun c => 1 <= ccount c) (counted_children f ch).
Proof.
  unfold counted_children. induction ch as [|t ch IH]; cbn; [constructor|].
  destruct (count_rec f t) as [c|]; cbn [attach]; [|assumption].
  destruct (Z.ltb_spec 0 (ccount c)); [constructor; [lia|assumption]|assumption].
Qed.

Lemma sumc_zsumc cs : sumc cs = zsumc (map ccount cs).
Proof. induction cs as [|c cs IH]; [reflexivity|]. unfold sumc, zsumc in *. cbn [map fold_right]. lia. Qed.

Lemma zsumc_in cs c : Forall (fun c => 1 <= c) cs -> In c cs -> c <= zsumc cs.
Proof.
  intros H; induction H as [|x cs Hx Hcs IH]; intros I; [contradiction|].
  unfold zsumc in *; cbn [fold_right]. destruct I as [->|I].
  - assert (0 <= fold_right Z.add 0 cs). { clear - Hcs. induction Hcs; cbn; lia. } lia.
  - specialize (IH I). lia.
Qed.

Lemma slot_le slots i v :
  (forall i v, nth_error slots i = Some (Some v) -> 1 <= v) ->
  nth_error slots i = Some (Some v) -> v <= slot_sum slots.
Proof.
  revert i; induction slots as [|s slots IH]; intros i H E; [destruct i; discriminate|].
  assert (H' : forall i v, nth_error slots i = Some (Some v) -> 1 <= v) by (intros j w X; apply (H (S j) w X)).
  assert (0 <= slot_sum slots).
  { clear - H'. induction slots as [|s slots IH]; [cbn; lia|].
    unfold slot_sum in *; cbn [fold_right].
    assert (0 <= fold_right (fun (s0 : option Z) (acc : Z) => match s0 with Some v => v | None => 0 end + acc) 0 slots).
    { apply IH. intros i v X. apply (H' (S i) v X). }
    destruct s as [w|]; [pose proof (H' 0%nat w eq_refl)|]; lia. }
  unfold slot_sum in *; cbn [fold_right]. destruct i as [|i].
  - cbn in E. injection E as ->. lia.
  - specialize (IH i H' E). destruct s as [w|]; [pose proof (H 0%nat w eq_refl)|]; lia.
Qed.

Lemma Forall2_nth {A B} (P : A -> B -> Prop) l1 l2 : length l1 = length l2 ->
  (forall i a b, nth_error l1 i = Some a -> nth_error l2 i = Some b -> P a b) -> Forall2 P l1 l2.
Proof.
  revert l2; induction l1 as [|a l1 IH]; intros [|b' l2] L H; try discriminate; constructor.
  - apply (H 0%nat); reflexivity.
  - apply IH; [injection L; auto|]. intros i x y Hx Hy. apply (H (S i)); assumption.
Qed.

Lemma inner_ok f p ch target : Forall (tree_ok f) ch ->
  0 <= target -> nmatches f (Inner p ch) * target <= maxint ->
  exists c', (forall t0, filter_count (CInner (nmatches f (Inner p ch)) t0 p (counted_children f ch)) target = Done c') /\
    pruned (reply_node f) (Inner p ch) c' /\
    ccount c' = nmatches f (Inner p ch) /\ 0 <= ctarget c' <= target /\
    (1 <= target -> 0 < nmatches f (Inner p ch) -> 1 <= ctarget c') /\
    (1 <= target -> nmatches f (Inner p ch) <= target -> complete f (Inner p ch) c').
Proof.
  intros Hch H0 HM.
  set (k := nmatches f (Inner p ch)) in *.
  assert (Hk : k = sumc (counted_children f ch)).
  { pose proof (count_rec_spec f (Inner p ch)) as S. cbn [count_rec ccount] in S. unfold k. rewrite <- S. reflexivity. }
  pose proof (counted_children_pos f ch) as Hpos.
  destruct (counted_children f ch) as [|c0 cs0] eqn:Ecs.
  - (* no match *)
    exists (CInner k 0 p []). split; [reflexivity|].
    assert (Hk0 : k = 0) by (rewrite Hk; reflexivity).
    destruct (children_ok f ch Hch []) as (ch' & A & B & C & D & E & F & G & H & K).
    { rewrite Ecs. constructor. }
    rewrite Ecs in A, K. cbn in A. injection A as <-.
    repeat split; try (cbn; lia).
    + constructor; [assumption|]. repeat split; cbn; try lia; constructor.
    + intros _ _. constructor. apply K. constructor.
  - rewrite <- Ecs in *.
    assert (Hne : counted_children f ch <> []) by (rewrite Ecs; discriminate).
    assert (Hcs : map ccount (counted_children f ch) <> []) by (intros X; apply map_eq_nil in X; congruence).
    assert (Hpos' : Forall (fun c => 1 <= c) (map ccount (counted_children f ch))) by (apply Forall_map; exact Hpos).
    assert (Hz : zsumc (map ccount (counted_children f ch)) = k) by (rewrite <- sumc_zsumc; auto).
    assert (Hslots : exists slots, limit_children (map ccount (counted_children f ch)) target = Done slots /\
       Forall2 slot_ok (counted_children f ch) slots /\ slot_sum slots = target /\
       (1 <= target -> kept slots <> 0%nat) /\
       (1 <= target -> k <= target -> Forall2 (fun c s => exists v, s = Some v /\ c <= v) (map ccount (counted_children f ch)) slots)).
    { destruct (Z.eq_dec target 0) as [->|Hn0].
      - unfold limit_children. set (srt := stable_sort _).
        assert (0 <? Z.of_nat (length srt) = true) as ->.
        { unfold srt. pose proof (Permutation.Permutation_length (sort_perm (combine (seq 0 (length (map ccount (counted_children f ch)))) (map ccount (counted_children f ch))))) as L.
          rewrite combine_length, seq_length, Nat.min_id in L. rewrite <- L.
          destruct (map ccount (counted_children f ch)); [congruence|]. cbn [length]. lia. }
        cbn [Z.ltb Z.compare Z.to_nat firstn obind take_positive rev share].
        eexists. split; [reflexivity|]. rewrite map_length. cbn [lookup].
        assert (forall (l : list cnode) a, Forall2 slot_ok l (map (fun _ : nat => @None Z) (seq a (length l))) /\
                slot_sum (map (fun _ : nat => @None Z) (seq a (length l))) = 0) as G.
        { clear. induction l as [|c l IH]; intros a; cbn; [split; [constructor|reflexivity]|].
          destruct (IH (S a)) as [I1 I2]. split; [constructor; [exact I|exact I1]|]. unfold slot_sum in I2. rewrite I2. reflexivity. }
        destruct (G (counted_children f ch) 0%nat) as [G1 G2].
        repeat split; auto; lia.
      - destruct (limit_children_ok (map ccount (counted_children f ch)) target Hcs Hpos' ltac:(lia) ltac:(rewrite Hz; exact HM))
          as (slots & E & (F1 & F2 & F3 & F4 & F5) & Full).
        exists slots. split; [exact E|]. split; [|split; [exact F3|split]].
        + apply Forall2_nth; [rewrite map_length in F1; congruence|].
          intros i c s Hc Hs. destruct s as [v|]; [|exact I].
          split; [exact (F4 _ _ Hs)|].
          pose proof (slot_le slots i v F4 Hs) as Hv. rewrite F3 in Hv.
          pose proof (F4 _ _ Hs) as Hv1.
          assert (Hcc : 1 <= ccount c <= k).
          { apply nth_error_In in Hc. split.
            - rewrite Forall_forall in Hpos. auto.
            - rewrite <- Hz. apply zsumc_in; [assumption|]. apply in_map. exact Hc. }
          nia.
        + intros _. assert (1 <= Z.of_nat (kept slots)); [|lia]. rewrite F2.
          destruct (map ccount (counted_children f ch)); [congruence|]. cbn [length]. lia.
        + intros _ L. apply Full. lia. }
    destruct Hslots as (slots & E & Sok & Ssum & Skept & Sfull).
    destruct (children_ok f ch Hch slots Sok) as (ch' & A & B & C & D & E' & F & G & H & K).
    exists (CInner k (sumt ch') p ch'). split; [|split; [|split; [reflexivity|split; [|split]]]].
    + intros t0. rewrite filter_count_inner by exact Hne. rewrite E. cbn [obind]. rewrite A. reflexivity.
    + constructor; [exact B|]. unfold reply_node. rewrite nlinks_inner. cbn [ccount ctarget call_links].
      repeat split; auto. unfold k. rewrite nmatches_inner. exact F.
    + cbn [ctarget]. split; [|lia]. rewrite E'. unfold sumn. clear. induction ch' as [|c ch' IH]; cbn [fold_right]; [lia|]. unfold nlinks at 1. lia.
    + intros Ht _. cbn [ctarget]. specialize (G (Skept Ht)). destruct ch' as [|c ch']; [congruence|].
      inversion C as [|? ? Hc Hrest]; subst. unfold sumt; cbn [fold_right].
      assert (0 <= fold_right (fun c s => ctarget c + s) 0 ch') by (clear - Hrest; induction Hrest; cbn [fold_right]; lia). lia.
    + intros Ht Hle. constructor. apply K.
      specialize (Sfull Ht Hle). clear - Sfull. remember (map ccount (counted_children f ch)) as m.
      revert Heqm. generalize (counted_children f ch). induction Sfull; intros l0 Em; destruct l0; try discriminate; constructor.
      * injection Em as -> _. assumption.
      * apply IHSfull. injection Em as _ ->. reflexivity.
Qed.

Lemma tree_all_ok f t : tree_ok f t.
Proof.
  induction t as [ls|p ch IH] using node_ind'; unfold tree_ok; intros c target Hc Hpos Ht HM.
  - cbn [count_rec] in Hc. destruct (filter f ls) as [|l0 ls0] eqn:E; [discriminate|].
    rewrite <- E in *. injection Hc as <-. cbn [ccount] in *.
    destruct (leaf_limit_ok (filter f ls) target) as (r & A & B & C & D & F); [congruence|lia|].
    cbn [filter_count]. rewrite A. cbn [obind]. eexists; split; [reflexivity|].
    assert (B' : sublist r ls) by (eapply sublist_trans; [exact B|apply sublist_filter]).
    split; [|split; [reflexivity|split; [exact C|]]].
    + constructor; [exact B'|]. repeat split; auto.
      * cbn [ctarget ccount]. apply sublist_length in B. lia.
      * cbn [call_links]. rewrite Forall_forall. intros l Hl.
        eapply sublist_in in Hl; [|exact B]. apply filter_In in Hl. tauto.
    + intros L. constructor; auto. intros l Hl Hf. apply F; [exact L|]. apply filter_In; auto.
  - pose proof (count_rec_spec f (Inner p ch)) as S. rewrite Hc in S.
    cbn [count_rec] in Hc. injection Hc as <-. fold (counted_children f ch) in *. cbn [ccount] in *.
    rewrite S in *.
    destruct (inner_ok f p ch target IH ltac:(lia) HM) as (c' & A & B & C & D & E & F).
    exists c'. rewrite A. repeat split; auto; try lia.
Qed.

(** ** Reply of urlMentions for a tree whose root is a group of files *)
Definition limited (f : link -> bool) (t : node) (limit : Z) : option (outcome cnode) :=
  option_map (fun c => filter_count c limit) (count_rec f t).

Lemma root_ok f p ch limit : 0 <= limit -> nmatches f (Inner p ch) * limit <= maxint ->
  exists c', limited f (Inner p ch) limit = Some (Done c') /\
    pruned (reply_node f) (Inner p ch) c' /\
    nlinks c' <= limit /\
    (1 <= limit -> 0 < nmatches f (Inner p ch) -> 1 <= nlinks c') /\
    (1 <= limit -> nmatches f (Inner p ch) <= limit -> complete f (Inner p ch) c').
Proof.
  intros H0 HM.
  assert (IH : Forall (tree_ok f) ch) by (apply Forall_forall; intros; apply tree_all_ok).
  destruct (inner_ok f p ch limit IH H0 HM) as (c' & A & B & C & D & E & F).
  exists c'. pose proof (count_rec_spec f (Inner p ch)) as S. cbn [count_rec ccount] in S.
  pose proof (pruned_top _ _ _ B) as (P1 & P2 & P3 & P4 & P5).
  unfold limited. cbn [count_rec option_map]. fold (counted_children f ch) in *.
  rewrite S, A. repeat split; auto; rewrite <- P2; lia.
Qed.

Lemma root_negative f p ch limit : limit < 0 -> 0 < nmatches f (Inner p ch) ->
  limited f (Inner p ch) limit = Some Panic.
Proof.
  intros H0 HM. pose proof (count_rec_spec f (Inner p ch)) as S. cbn [count_rec ccount] in S.
  unfold limited. cbn [count_rec option_map]. fold (counted_children f ch) in *.
  destruct (counted_children f ch) as [|c0 cs0] eqn:Ecs; [cbn in S; lia|]. rewrite <- Ecs in *.
  rewrite filter_count_inner by (rewrite Ecs; discriminate).
  unfold limit_children. set (srt := stable_sort _).
  destruct (Z.ltb_spec limit (Z.of_nat (length srt))); [|lia].
  destruct (Z.ltb_spec limit 0); [reflexivity|lia].
Qed.

Lemma root_no_match f p ch limit : nmatches f (Inner p ch) = 0 ->
  limited f (Inner p ch) limit = Some (Done (CInner 0 0 p [])).
Proof.
  intros HM. pose proof (count_rec_spec f (Inner p ch)) as S. cbn [count_rec ccount] in S.
  unfold limited. cbn [count_rec option_map]. fold (counted_children f ch) in *.
  pose proof (counted_children_pos f ch) as Hp.
  destruct (counted_children f ch) as [|c0 cs0] eqn:Ecs; [reflexivity|].
  exfalso. inversion Hp as [|? ? Hc Hr]; subst. cbn [fold_right] in S.
  assert (0 <= fold_right (fun c s => ccount c + s) 0 cs0) by (clear - Hr; induction Hr; cbn [fold_right]; lia). lia.
Qed.
