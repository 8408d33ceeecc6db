(** Building of the tree: extract_org.go:136-170 *)
From Coq Require Import ZifyBool ZifyNat.
From Verif Require Import GoBase GoSlice LinkTypes LinkTree LinkHeap Extract ExtractSpec.

(** ** Objects of a tree are allocated in the order of the document. *)
Fixpoint nsize (t : node) : nat :=
  match t with
  | Leaf _ => 1
  | Inner _ ch => S (fold_right (fun c n => nsize c + n) 0 ch)
  end.
Definition nsizes (ts : list node) : nat := fold_right (fun c n => nsize c + n) 0 ts.
Fixpoint addrs (a : nat) (ts : list node) : list nat :=
  match ts with [] => [] | t :: ts' => a :: addrs (a + nsize t) ts' end.
Fixpoint layout (a : nat) (t : node) : heap :=
  match t with
  | Leaf ls => [OLeaf ls]
  | Inner p ch =>
      OInner p (addrs (S a) ch) ::
      (fix go (a : nat) (ch : list node) : heap := match ch with [] => [] | c :: ch' => layout a c ++ go (a + nsize c) ch' end) (S a) ch
  end.
Fixpoint layouts (a : nat) (ch : list node) : heap := match ch with [] => [] | c :: ch' => layout a c ++ layouts (a + nsize c) ch' end.
Lemma layout_inner a p ch : layout a (Inner p ch) = OInner p (addrs (S a) ch) :: layouts (S a) ch.
Proof. reflexivity. Qed.
Lemma nsizes_app x y : nsizes (x ++ y) = nsizes x + nsizes y.
Proof. unfold nsizes. induction x as [|t x IH]; cbn; lia. Qed.
Lemma layouts_app x : forall a y, layouts a (x ++ y) = layouts a x ++ layouts (a + nsizes x) y.
Proof.
  induction x as [|t x IH]; intros a y; cbn. { f_equal. lia. }
  rewrite IH, <- app_assoc. do 3 f_equal. fold (nsizes x). lia.
Qed.
Lemma addrs_app x : forall a y, addrs a (x ++ y) = addrs a x ++ addrs (a + nsizes x) y.
Proof.
  induction x as [|t x IH]; intros a y; cbn. { f_equal. lia. }
  rewrite IH. do 3 f_equal. fold (nsizes x). lia.
Qed.
Lemma layout_length t : forall a, length (layout a t) = nsize t.
Proof.
  induction t as [ls|p ch IH] using node_ind'; intros a; [reflexivity|]. rewrite layout_inner. cbn [length nsize]. f_equal.
  generalize (S a). induction IH as [|c ch Hc IH IHc]; intros n; [reflexivity|]. cbn [layouts fold_right]. rewrite app_length, Hc, IHc. reflexivity.
Qed.
Lemma layouts_length ts : forall a, length (layouts a ts) = nsizes ts.
Proof. induction ts as [|t ts IH]; intros a; cbn; [reflexivity|]. rewrite app_length, layout_length, IH. reflexivity. Qed.

(** ** The rightmost branch *)
Definition spine := list (props * list node).
Fixpoint zip (sp : spine) (t : node) : node :=
  match sp with
  | [] => t
  | (p, ts) :: sp' => Inner p (ts ++ [zip sp' t])
  end.
Fixpoint spine_addrs (a : nat) (sp : spine) : list nat :=
  match sp with [] => [a] | (_, ts) :: sp' => a :: spine_addrs (S a + nsizes ts) sp' end.
Fixpoint tip_addr (a : nat) (sp : spine) : nat :=
  match sp with [] => a | (_, ts) :: sp' => tip_addr (S a + nsizes ts) sp' end.
Fixpoint before (a : nat) (sp : spine) : heap :=
  match sp with
  | [] => []
  | (p, ts) :: sp' => OInner p (addrs (S a) ts ++ [S a + nsizes ts]) :: layouts (S a) ts ++ before (S a + nsizes ts) sp'
  end.
Lemma layout_zip sp : forall a t, layout a (zip sp t) = before a sp ++ layout (tip_addr a sp) t.
Proof.
  induction sp as [|[p ts] sp IH]; intros a t; [reflexivity|]. cbn [zip before tip_addr]. rewrite layout_inner, addrs_app, layouts_app.
  cbn [addrs layouts]. rewrite app_nil_r, IH, <- app_comm_cons, <- app_assoc. reflexivity.
Qed.
Lemma before_length sp : forall a, a + length (before a sp) = tip_addr a sp.
Proof.
  induction sp as [|[p ts] sp IH]; intros a; cbn [before tip_addr length]; [lia|]. rewrite app_length, layouts_length, <- IH. lia.
Qed.
Lemma spine_addrs_length sp : forall a, length (spine_addrs a sp) = S (length sp).
Proof. induction sp as [|[p ts] sp IH]; intros a; cbn; [reflexivity|]. rewrite IH. reflexivity. Qed.
Lemma spine_addrs_tip sp : forall a, nth_error (spine_addrs a sp) (length sp) = Some (tip_addr a sp).
Proof. induction sp as [|[p ts] sp IH]; intros a; cbn; [reflexivity|]. apply IH. Qed.
Lemma spine_addrs_snoc sp : forall a p ts, spine_addrs a (sp ++ [(p, ts)]) = spine_addrs a sp ++ [tip_addr a (sp ++ [(p, ts)])].
Proof. induction sp as [|[q us] sp IH]; intros a p ts; cbn; [reflexivity|]. rewrite IH. reflexivity. Qed.
Lemma tip_addr_snoc sp : forall a p ts, tip_addr a (sp ++ [(p, ts)]) = S (tip_addr a sp) + nsizes ts.
Proof. induction sp as [|[q us] sp IH]; intros a p ts; cbn [app tip_addr]; [reflexivity|]. apply IH. Qed.
Lemma zip_app sp sp' t : zip (sp ++ sp') t = zip sp (zip sp' t).
Proof. induction sp as [|[p ts] sp IH]; [reflexivity|]. cbn. rewrite IH. reflexivity. Qed.
Lemma spine_addrs_firstn sp : forall a n, n <= length sp -> firstn (S n) (spine_addrs a sp) = spine_addrs a (firstn n sp).
Proof.
  induction sp as [|[p ts] sp IH]; intros a n H; cbn in H. { replace n with 0 by lia. reflexivity. }
  destruct n as [|n]; [reflexivity|]. cbn [spine_addrs firstn]. rewrite <- IH by lia. reflexivity.
Qed.

Lemma nth_error_mid {A} (l : list A) x r : nth_error (l ++ x :: r) (length l) = Some x.
Proof. rewrite nth_error_app2, Nat.sub_diag by lia. reflexivity. Qed.
Lemma nth_error_at {A} (l : list A) x r n : n = length l -> nth_error (l ++ x :: r) n = Some x.
Proof. intros ->. apply nth_error_mid. Qed.
Lemma upd_mid {A} (l : list A) x r y : upd (l ++ x :: r) (length l) y = l ++ y :: r.
Proof. induction l as [|a l IH]; cbn; [reflexivity|]. rewrite IH. reflexivity. Qed.

Lemma upd_at {A} (l : list A) x r y n : n = length l -> upd (l ++ x :: r) n y = l ++ y :: r.
Proof. intros ->. apply upd_mid. Qed.

(** Adding of a node to the tip *)
Lemma add_child_ok sp p ts q : let h := layout 0 (zip sp (Inner p ts)) in
  AddChild (h ++ [OInner q []]) (tip_addr 0 sp) (length h) = Done (layout 0 (zip sp (Inner p (ts ++ [Inner q []])))) /\
  length h = tip_addr 0 (sp ++ [(p, ts)]).
Proof.
  cbv zeta. rewrite !layout_zip, !layout_inner, tip_addr_snoc. pose proof (before_length sp 0) as B. cbn [plus] in B.
  assert (L : length (before 0 sp ++ OInner p (addrs (S (tip_addr 0 sp)) ts) :: layouts (S (tip_addr 0 sp)) ts) = S (tip_addr 0 sp) + nsizes ts).
  { rewrite app_length. cbn [length]. rewrite layouts_length. lia. }
  split; [|exact L]. unfold AddChild. rewrite <- app_assoc. cbn [app]. rewrite nth_error_at, upd_at by lia. rewrite L, addrs_app, layouts_app.
  cbn [addrs layouts]. rewrite layout_inner. reflexivity.
Qed.
(** Adding of a link to the tip *)
Lemma add_link_new sp p l : AddLink (layout 0 (zip sp (Inner p []))) (tip_addr 0 sp) l = Done (layout 0 (zip sp (Inner p [Leaf [l]]))).
Proof.
  rewrite !layout_zip, !layout_inner. cbn [addrs layouts app layout]. pose proof (before_length sp 0) as B. cbn [plus] in B.
  unfold AddLink. rewrite nth_error_at, upd_at by lia. rewrite app_length, <- app_assoc. cbn [length app]. rewrite B, Nat.add_1_r. reflexivity.
Qed.
Lemma add_link_old sp p ls l : AddLink (layout 0 (zip sp (Inner p [Leaf ls]))) (tip_addr 0 sp) l = Done (layout 0 (zip sp (Inner p [Leaf (ls ++ [l])]))).
Proof.
  rewrite !layout_zip, !layout_inner. cbn [addrs layouts app layout]. pose proof (before_length sp 0) as B. cbn [plus] in B.
  unfold AddLink. rewrite nth_error_at by lia.
  set (x := OInner p [S (tip_addr 0 sp)]).
  assert (E : S (tip_addr 0 sp) = length (before 0 sp ++ [x])) by (rewrite app_length; cbn [length]; lia).
  replace (before 0 sp ++ [x; OLeaf ls]) with ((before 0 sp ++ [x]) ++ [OLeaf ls]) by (rewrite <- app_assoc; reflexivity).
  rewrite nth_error_at, upd_at by exact E. rewrite <- app_assoc. reflexivity.
Qed.

(** Reading of the tree *)
Fixpoint depth (t : node) : nat :=
  match t with
  | Leaf _ => 1
  | Inner _ ch => S (fold_right (fun c n => Nat.max (depth c) n) 0 ch)
  end.
Fixpoint read_nodes (fuel : nat) (h : heap) (ch : list nat) : option (list node) :=
  match ch with
  | [] => Some []
  | c :: ch' => match read_node fuel h c, read_nodes fuel h ch' with Some t, Some ts => Some (t :: ts) | _, _ => None end
  end.
Lemma read_inner fuel h a p ch : nth_error h a = Some (OInner p ch) -> read_node (S fuel) h a = option_map (Inner p) (read_nodes fuel h ch).
Proof. intros E. cbn [read_node]. rewrite E. f_equal. clear E. induction ch as [|c ch IH]; [reflexivity|]. cbn [read_nodes]. rewrite <- IH. reflexivity. Qed.
Lemma read_ok t : forall fuel pre post, depth t <= fuel ->
  read_node fuel (pre ++ layout (length pre) t ++ post) (length pre) = Some t.
Proof.
  induction t as [ls|p ch IH] using node_ind'; intros fuel pre post D.
  - destruct fuel; [cbn in D; lia|]. cbn [layout app read_node]. rewrite nth_error_mid. reflexivity.
  - destruct fuel; [cbn in D; lia|]. rewrite layout_inner. cbn [app]. rewrite (read_inner _ _ _ p (addrs (S (length pre)) ch)).
    2:{ apply nth_error_mid. }
    enough (E : read_nodes fuel (pre ++ OInner p (addrs (S (length pre)) ch) :: layouts (S (length pre)) ch ++ post) (addrs (S (length pre)) ch) = Some ch)
      by (rewrite E; reflexivity).
    generalize (OInner p (addrs (S (length pre)) ch)) as x. intros x.
    replace (pre ++ x :: layouts (S (length pre)) ch ++ post) with ((pre ++ [x]) ++ layouts (S (length pre)) ch ++ post)
      by (rewrite <- app_assoc; reflexivity).
    replace (S (length pre)) with (length (pre ++ [x])) by (rewrite app_length; cbn; lia).
    generalize (pre ++ [x]) as pre'. clear pre x. cbn [depth] in D. assert (D' : fold_right (fun c n => Nat.max (depth c) n) 0 ch <= fuel) by lia. clear D.
    induction IH as [|c ch Hc IH IHc]; intros pre; [reflexivity|]. cbn [addrs layouts read_nodes fold_right] in *.
    rewrite <- app_assoc, Hc by lia.
    replace (pre ++ layout (length pre) c ++ layouts (length pre + nsize c) ch ++ post)
      with ((pre ++ layout (length pre) c) ++ layouts (length pre + nsize c) ch ++ post) by (rewrite <- app_assoc; reflexivity).
    replace (length pre + nsize c) with (length (pre ++ layout (length pre) c)) by (rewrite app_length, layout_length; reflexivity).
    rewrite IHc by lia. reflexivity.
Qed.
Lemma read_root t fuel : depth t <= fuel -> read_node fuel (layout 0 t) 0 = Some t.
Proof. intros D. pose proof (read_ok t fuel [] [] D) as H. cbn [app length] in H. rewrite app_nil_r in H. exact H. Qed.

(** ** Places of links *)
Lemma paths_zip_snoc sp : forall t t' x, paths t' = paths t ++ x ->
  paths (zip sp t') = paths (zip sp t) ++ map (fun y => (map fst sp ++ fst y, snd y)) x.
Proof.
  induction sp as [|[p ts] sp IH]; intros t t' x H; cbn [zip].
  - rewrite H. f_equal. rewrite <- (map_id x) at 1. apply map_ext. intros []. reflexivity.
  - cbn [paths map fst app]. rewrite !flat_map_app. cbn [flat_map]. rewrite !app_nil_r, (IH _ _ _ H), !map_app, app_assoc, !map_map. reflexivity.
Qed.

(** ** Invariant *)
Definition heading_props (hs : list (option heading)) : list props := PNil :: map PHeading hs.

(** The state is made of a branch [sp], the tip [p ts] *)
Record oinv (seen : list (nat * heading)) (st : ostate) (t : node) : Prop := {
  o_cap : length (hArr st) = 10;
  o_arr : forall k, 1 <= k <= 10 -> nth_error (hArr st) (k - 1) = Some (latest seen k);
  o_levels : Forall (fun a => 1 <= fst a <= 10) seen;
  o_len : hLen st = match seen with [] => 0 | (level, _) :: _ => level end;
  o_spine : exists sp p ts, t = zip sp (Inner p ts) /\ oHeap st = layout 0 t /\ tNodes st = spine_addrs 0 sp /\
    length sp <= hLen st /\ map fst (sp ++ [(p, ts)]) = heading_props (firstn (length sp) (firstn (hLen st) (hArr st))) /\
    (length sp = hLen st -> ts = [] \/ exists ls, ts = [Leaf ls]) /\ depth t <= 12 }.


Lemma list_ext {A} (x y : list A) : length x = length y -> (forall i, i < length x -> nth_error x i = nth_error y i) -> x = y.
Proof.
  revert y. induction x as [|a x IH]; intros [|c y] L H; cbn in L; try lia; [reflexivity|].
  pose proof (H 0 ltac:(cbn; lia)) as E. injection E as ->. f_equal. apply IH; [lia|]. intros i Hi. apply (H (S i)). cbn. lia.
Qed.
Lemma nth_error_firstn {A} (l : list A) n i : i < n -> nth_error (firstn n l) i = nth_error l i.
Proof. revert n i. induction l as [|a l IH]; intros [|n] [|i] H; try lia; try reflexivity. cbn. apply IH. lia. Qed.
Lemma nth_error_seq a n i : i < n -> nth_error (seq a n) i = Some (a + i).
Proof. revert a i. induction n as [|n IH]; intros a [|i] H; try lia; cbn; [f_equal; lia|]. rewrite IH by lia. f_equal. lia. Qed.

Lemma reported_eq seen st t : oinv seen st t -> firstn (hLen st) (hArr st) = reported seen /\ hLen st <= 10.
Proof.
  intros [C A L E _]. unfold reported. rewrite E. destruct seen as [|[level x] seen'] eqn:Es; [cbn; split; [reflexivity|lia]|].
  rewrite <- Es in *. assert (B : level <= 10). { rewrite Es in L. inversion L. cbn in *. lia. }
  split; [|exact B]. apply list_ext. { rewrite firstn_length, map_length, seq_length. lia. }
  intros i Hi. rewrite firstn_length in Hi. rewrite nth_error_firstn by lia.
  replace i with (S i - 1) by lia. rewrite A by lia. rewrite nth_error_map, nth_error_seq by lia. cbn [option_map]. do 2 f_equal. lia.
Qed.

Lemma oinv_start : oinv [] org_start (Inner PNil []).
Proof.
  constructor; cbn [hArr hLen tNodes oHeap org_start].
  - reflexivity.
  - intros k Hk. unfold latest. cbn [find option_map]. change headings_cap with 10.
    do 10 (destruct k as [|k]; [lia || reflexivity|]). destruct k; [reflexivity|lia].
  - constructor.
  - reflexivity.
  - exists [], PNil, []. repeat split; auto. cbn. lia.
Qed.

Lemma nth_error_upd {A} (l : list A) i j x : nth_error (upd l i x) j = if Nat.eqb i j then option_map (fun _ => x) (nth_error l j) else nth_error l j.
Proof. revert i j. induction l as [|a l IH]; intros [|i] [|j]; try reflexivity; cbn; try rewrite IH; try reflexivity. destruct (Nat.eqb i j); reflexivity. Qed.
Lemma upd_length {A} (l : list A) i x : length (upd l i x) = length l.
Proof. revert i. induction l as [|a l IH]; intros [|i]; cbn; auto. Qed.
Lemma firstn_upd {A} (l : list A) i n x : n <= i -> firstn n (upd l i x) = firstn n l.
Proof. revert i n. induction l as [|a l IH]; intros [|i] [|n] H; try lia; try reflexivity. cbn. rewrite IH by lia. reflexivity. Qed.

Lemma zip_split sp n p ts : n < length sp -> exists q us, 
  zip sp (Inner p ts) = zip (firstn n sp) (Inner q us) /\ map fst (firstn n sp ++ [(q, us)]) = map fst (firstn (S n) sp).
Proof.
  intros H. destruct (nth_error sp n) as [[q us]|] eqn:E; [|apply nth_error_None in E; lia].
  apply nth_error_split in E. destruct E as (l1 & l2 & -> & L). subst n. rewrite firstn_app, Nat.sub_diag, firstn_all, firstn_O, app_nil_r.
  exists q, (us ++ [zip l2 (Inner p ts)]). split.
  - rewrite zip_app. reflexivity.
  - replace (S (length l1)) with (length (l1 ++ [(q, us)])) by (rewrite app_length; cbn; lia).
    replace (l1 ++ (q, us) :: l2) with ((l1 ++ [(q, us)]) ++ l2) by (rewrite <- app_assoc; reflexivity).
    rewrite firstn_app, Nat.sub_diag, firstn_all, firstn_O, app_nil_r, !map_app. reflexivity.
Qed.
Lemma map_firstn {A B} (f : A -> B) l n : map f (firstn n l) = firstn n (map f l).
Proof. symmetry. apply firstn_map. Qed.

Lemma org_heading_ok seen st t level h : oinv seen st t -> 1 <= level ->
  exists st', org_heading st level h = Done st' /\ oinv ((effective level, h) :: seen) st' t.
Proof.
  intros [C A L E (sp & p & ts & Et & Eh & En & B & P & T & D)] Lv. unfold org_heading. change headings_cap with 10.
  change (if 10 <? level then 10 - 1 else level) with (effective level).
  assert (Le : 1 <= effective level <= 10) by (unfold effective; destruct (Nat.ltb_spec 10 level); lia).
  destruct (effective level) as [|l] eqn:El; [lia|]. destruct (Nat.ltb_spec 10 l) as [Z|_]; [lia|].
  eexists. split; [reflexivity|]. constructor; cbn [hArr hLen tNodes oHeap].
  - rewrite upd_length. exact C.
  - intros k Hk. rewrite nth_error_upd, A by lia. unfold latest. cbn [find fst].
    destruct (Nat.eqb_spec l (k - 1)); destruct (Nat.eqb_spec (S l) k); try lia; reflexivity.
  - constructor; [cbn; lia|exact L].
  - reflexivity.
  - rewrite En, spine_addrs_length.
    assert (Pl : forall n, n <= length sp -> n <= l -> firstn n (firstn (hLen st) (hArr st)) = firstn n (firstn (S l) (upd (hArr st) l (Some h)))).
    { intros n Hn Hl. rewrite !firstn_firstn, !Nat.min_l by lia. rewrite firstn_upd by lia. reflexivity. }
    destruct (Nat.leb_spec (S l) (S (length sp))) as [Q|Q].
    + destruct (Nat.eq_dec l (length sp)) as [->|N].
      * exists sp, p, ts. rewrite firstn_all2 by (rewrite spine_addrs_length; lia). repeat split; try assumption; try lia.
        rewrite P, Pl by lia. reflexivity.
      * destruct (zip_split sp l p ts ltac:(lia)) as (q & us & Z1 & Z2).
        exists (firstn l sp), q, us. rewrite spine_addrs_firstn by lia.
        assert (FL : length (firstn l sp) = l) by (apply firstn_length_le; lia).
        rewrite FL. repeat split; try assumption; try lia; [congruence|].
        rewrite Z2, map_firstn. rewrite map_app in P.
        assert (P' : firstn (S l) (map fst sp) = firstn (S l) (map fst sp ++ map fst [(p, ts)])).
        { rewrite firstn_app. replace (S l - length (map fst sp)) with 0 by (rewrite map_length; lia). rewrite firstn_O, app_nil_r. reflexivity. }
        rewrite P', P. unfold heading_props. cbn [firstn]. f_equal. rewrite <- map_firstn. f_equal.
        transitivity (firstn l (firstn (hLen st) (hArr st))); [rewrite firstn_firstn, Nat.min_l by lia; reflexivity|].
        exact (Pl l ltac:(lia) ltac:(lia)).
    + exists sp, p, ts. repeat split; try assumption; try lia. rewrite P, Pl by lia. reflexivity.
Qed.

(** Adding of nodes *)
Lemma depth_zip sp : forall t, depth (zip sp t) >= depth t.
Proof. induction sp as [|[p ts] sp IH]; intros t; cbn; [lia|]. specialize (IH t). induction ts as [|x ts IHt]; cbn in *; lia. Qed.
Lemma depth_app ts t : fold_right (fun c n => Nat.max (depth c) n) 0 (ts ++ [t]) = Nat.max (fold_right (fun c n => Nat.max (depth c) n) 0 ts) (depth t).
Proof. induction ts as [|x ts IH]; cbn; lia. Qed.
Lemma depth_zip_le sp : forall t t' n, depth (zip sp t) <= n -> length sp + depth t' <= n -> depth (zip sp t') <= n.
Proof.
  induction sp as [|[p ts] sp IH]; intros t t' n A B; cbn [zip length depth] in *; [lia|].
  rewrite depth_app in *. specialize (IH t t' (n - 1)). lia.
Qed.
Lemma add_nodes_ok hs : forall sp p ts, length sp + length hs <= 10 -> depth (zip sp (Inner p ts)) <= 12 ->
  exists sp' p' ts', add_nodes hs (length sp) (spine_addrs 0 sp) (layout 0 (zip sp (Inner p ts))) =
    Done (spine_addrs 0 sp', layout 0 (zip sp' (Inner p' ts'))) /\
    length sp' = length sp + length hs /\ map fst (sp' ++ [(p', ts')]) = map fst (sp ++ [(p, ts)]) ++ map PHeading hs /\
    (hs = [] -> sp' = sp /\ p' = p /\ ts' = ts) /\ (hs <> [] -> ts' = []) /\
    paths (zip sp' (Inner p' ts')) = paths (zip sp (Inner p ts)) /\ depth (zip sp' (Inner p' ts')) <= 12.
Proof.
  induction hs as [|q hs IH]; intros sp p ts H D; cbn [add_nodes].
  - exists sp, p, ts. cbn [map length]. rewrite app_nil_r, Nat.add_0_r. repeat split; auto; congruence.
  - destruct (add_child_ok sp p ts (PHeading q)) as [E L].
    rewrite nth_error_app1 by (rewrite spine_addrs_length; lia). rewrite spine_addrs_tip, E. cbn [obind].
    rewrite L, <- spine_addrs_snoc.
    replace (zip sp (Inner p (ts ++ [Inner (PHeading q) []]))) with (zip (sp ++ [(p, ts)]) (Inner (PHeading q) [])) by (rewrite zip_app; reflexivity).
    replace (S (length sp)) with (length (sp ++ [(p, ts)])) by (rewrite app_length; cbn; lia).
    assert (Dn : depth (zip (sp ++ [(p, ts)]) (Inner (PHeading q) [])) <= 12).
    { rewrite zip_app. cbn [zip]. 
      assert (G : forall n sp, depth (zip sp (Inner p ts)) <= n -> length sp + 2 <= n -> depth (zip sp (Inner p (ts ++ [Inner (PHeading q) []]))) <= n).
      { clear. intros n sp. revert n. induction sp as [|[p' ts'] sp IH]; intros n A B; cbn [zip length depth] in *; rewrite depth_app in *.
        - cbn [depth fold_right]. lia.
        - specialize (IH (n - 1)). lia. }
      apply G; [exact D|]. cbn [length] in H. lia. }
    destruct (IH (sp ++ [(p, ts)]) (PHeading q) []) as (sp' & p' & ts' & E1 & E2 & E3 & E4 & E5 & E6 & E7).
    { rewrite app_length. cbn [length] in *. lia. } { exact Dn. }
    exists sp', p', ts'. split; [exact E1|]. split; [rewrite E2, app_length; cbn [length]; lia|].
    split. { rewrite E3. rewrite !map_app, <- !app_assoc. reflexivity. }
    split; [discriminate|]. split. { intros _. destruct hs; [apply E4; reflexivity|apply E5; discriminate]. }
    split; [|exact E7]. rewrite E6, zip_app. cbn [zip].
    assert (G : paths (Inner p (ts ++ [Inner (PHeading q) []])) = paths (Inner p ts) ++ []).
    { cbn [paths]. rewrite flat_map_app. cbn. rewrite app_nil_r, app_nil_r. reflexivity. }
    rewrite (paths_zip_snoc sp _ _ _ G). cbn [map]. apply app_nil_r.
Qed.

Lemma org_link_ok seen st t l : oinv seen st t ->
  exists st' t', org_link st l = Done st' /\ oinv seen st' t' /\
    paths t' = paths t ++ [(heading_props (reported seen), l)].
Proof.
  intros H. destruct (reported_eq _ _ _ H) as [R R10]. destruct H as [C A L E (sp & p & ts & Et & Eh & En & B & P & T & D)].
  unfold org_link. rewrite En, Eh, spine_addrs_length, Et. cbn [Nat.sub]. rewrite Nat.sub_0_r.
  assert (FL : length (firstn (hLen st) (hArr st)) = hLen st) by (apply firstn_length_le; lia).
  set (hs := skipn (length sp) (firstn (hLen st) (hArr st))).
  assert (HL : length hs = hLen st - length sp) by (subst hs; rewrite skipn_length, FL; reflexivity).
  destruct (add_nodes_ok hs sp p ts) as (sp' & p' & ts' & E1 & E2 & E3 & E4 & E5 & E6 & E7); [lia|congruence|].
  rewrite E1. cbn [obind fst snd]. rewrite spine_addrs_length. cbn [Nat.sub]. rewrite Nat.sub_0_r, spine_addrs_tip.
  assert (L' : length sp' = hLen st) by lia.
  assert (P' : map fst (sp' ++ [(p', ts')]) = heading_props (reported seen)).
  { rewrite E3, P. unfold heading_props. cbn [app]. f_equal. rewrite <- map_app. subst hs. rewrite firstn_skipn, R. reflexivity. }
  assert (T' : ts' = [] \/ exists ls, ts' = [Leaf ls]).
  { destruct hs as [|x hs'] eqn:Eq. { destruct (E4 eq_refl) as (-> & -> & ->). apply T. cbn in HL. lia. } left. apply E5. discriminate. }
  assert (X : exists ls, AddLink (layout 0 (zip sp' (Inner p' ts'))) (tip_addr 0 sp') l = Done (layout 0 (zip sp' (Inner p' [Leaf (ls ++ [l])]))) /\
    paths (Inner p' [Leaf (ls ++ [l])]) = paths (Inner p' ts') ++ [([p'], l)]).
  { destruct T' as [->|[ls ->]].
    - exists []. rewrite add_link_new. split; reflexivity.
    - exists ls. rewrite add_link_old. split; [reflexivity|]. cbn [paths flat_map]. rewrite !app_nil_r, !map_app. reflexivity. }
  destruct X as (ls & X1 & X2). rewrite X1. cbn [obind]. eexists. exists (zip sp' (Inner p' [Leaf (ls ++ [l])])).
  split; [reflexivity|]. split.
  - constructor; cbn [hArr hLen tNodes oHeap]; try assumption. exists sp', p', [Leaf (ls ++ [l])].
    split; [reflexivity|]. split; [reflexivity|]. split; [reflexivity|]. split; [lia|]. split.
    + rewrite map_app in *. cbn [map fst] in *. rewrite P'. unfold heading_props. do 2 f_equal. rewrite L', firstn_all2 by lia. congruence.
    + split; [intros _; right; eauto|]. eapply depth_zip_le; [exact E7|]. cbn. lia.
  - rewrite (paths_zip_snoc sp' _ _ _ X2), E6. cbn [map fst snd]. do 3 f_equal. rewrite <- P', map_app. reflexivity.
Qed.

Lemma org_links_ok seen ls : forall st t, oinv seen st t ->
  exists st' t', org_links ls st = Done st' /\ oinv seen st' t' /\
    paths t' = paths t ++ map (fun l => (heading_props (reported seen), l)) ls.
Proof.
  induction ls as [|l ls IH]; intros st t H; cbn [org_links].
  - exists st, t. rewrite app_nil_r. auto.
  - destruct (org_link_ok _ _ _ l H) as (st1 & t1 & E1 & H1 & P1). rewrite E1. cbn [obind].
    destruct (IH st1 t1 H1) as (st2 & t2 & E2 & H2 & P2). exists st2, t2. split; [exact E2|]. split; [exact H2|].
    rewrite P2, P1, <- app_assoc. reflexivity.
Qed.

(** Lines with their numbers *)
Fixpoint doc_of (u : Utf8.rune -> bool) (c : schemeRe) (filter : option (link -> bool)) (lineNo : nat) (lines : list str) : document :=
  match lines with
  | [] => []
  | line :: lines' => (heading_of lineNo line, filtered filter (links_of u c lineNo line)) :: doc_of u c filter (S lineNo) lines'
  end.
Definition levels_ok (doc : document) : Prop := Forall (fun x => match fst x with Some (level, _) => 1 <= level | None => True end) doc.

Lemma org_lines_ok u c f lines : forall n seen st t, oinv seen st t -> levels_ok (doc_of u c f n lines) ->
  exists st' t' seen', org_lines u c f n lines st = Done st' /\ oinv seen' st' t' /\
    paths t' = paths t ++ map (fun x => (heading_props (fst x), snd x)) (placed seen (doc_of u c f n lines)).
Proof.
  induction lines as [|line lines IH]; intros n seen st t H V; cbn [org_lines doc_of placed].
  - exists st, t, seen. rewrite app_nil_r. auto.
  - cbn [doc_of] in V. inversion V as [|? ? V1 V2]. subst. clear V. cbn [fst] in V1.
    assert (X : exists st1, (match heading_of n line with Some (level, h) => org_heading st level h | None => Done st end) = Done st1 /\
       oinv (match heading_of n line with Some (level, x) => (effective level, x) :: seen | None => seen end) st1 t).
    { destruct (heading_of n line) as [[level h]|]; [|eauto]. apply org_heading_ok; assumption. }
    destruct X as (st1 & X1 & X2). rewrite X1. cbn [obind].
    destruct (org_links_ok _ (filtered f (links_of u c n line)) _ _ X2) as (st2 & t2 & E2 & H2 & P2). rewrite E2. cbn [obind].
    destruct (IH (S n) _ st2 t2 H2 V2) as (st3 & t3 & seen3 & E3 & H3 & P3). exists st3, t3, seen3. split; [exact E3|]. split; [exact H3|].
    rewrite P3, P2, map_app, map_map, <- app_assoc. reflexivity.
Qed.
