(** Contents of replies with mentions of URLs: places of links, texts. *)
From Coq Require Import Permutation ZifyBool ZifyNat ZifyN.
From Verif Require Import GoBase GoSlice Utf8 Utf8Dec JsonSpec Json JsonProofs Flags LinkTypes Emacs Backend BackendSpec BackendMain BackendNotes LinkSpec LinkMain LinkAny
  Extract ExtractSpec ScannerProofs ExtractTree OrgProofs TextSpec TextProofs ExtractMain Real ReplyJson ReplySpec ReplyProofs.

(** ** Trees *)
Lemma sublist2_in {A B} (R : A -> B -> Prop) x y c : sublist2 R x y -> In c y -> exists a, In a x /\ R a c.
Proof. intros S. induction S as [|a x y S IH|a d x y Rd S IH]; intros I; [destruct I|destruct (IH I) as (a' & I' & R'); exists a'; split; [right|]; assumption|].
  destruct I as [<-|I]; [exists a; split; [left; reflexivity|exact Rd]|]. destruct (IH I) as (a' & I' & R'). exists a'. split; [right|]; assumption. Qed.
Lemma pruned_paths P c : forall t, pruned P t c -> forall x, In x (cpaths c) -> In x (paths t).
Proof.
  induction c as [k tg ls|k tg p ch F] using cnode_ind'; intros t H x I; inversion H as [ls0 k0 t0 ls' HS HP|p0 ch0 k0 t0 ch' HS HP]; subst.
  - cbn [cpaths paths] in *. apply in_map_iff in I. destruct I as (l & <- & I). apply in_map_iff. exists l. split; [reflexivity|]. exact (sublist_in _ _ _ HS I).
  - cbn [cpaths paths] in *. apply in_map_iff in I. destruct I as (y & <- & I). apply in_map_iff. exists y. split; [reflexivity|]. apply in_flat_map in I. destruct I as (c & Ic & I).
    destruct (sublist2_in _ _ _ _ HS Ic) as (t & It & Pt). apply in_flat_map. exists t. split; [exact It|]. rewrite Forall_forall in F. exact (F _ Ic _ Pt _ I).
Qed.
Lemma cpaths_links c : map snd (cpaths c) = call_links c.
Proof.
  induction c as [k t ls|k t p ch F] using cnode_ind'; cbn [cpaths call_links].
  - rewrite map_map. apply map_id.
  - rewrite map_map. cbn [snd]. induction F as [|c ch Fc F IH]; [reflexivity|]. cbn [flat_map]. rewrite map_app. rewrite <- IH, <- Fc. reflexivity.
Qed.
Lemma paths_links t : map snd (paths t) = all_links t.
Proof.
  induction t as [ls|p ch F] using node_ind'; cbn [paths all_links].
  - rewrite map_map. apply map_id.
  - rewrite map_map. cbn [snd]. induction F as [|c ch Fc F IH]; [reflexivity|]. cbn [flat_map]. rewrite map_app. rewrite <- IH, <- Fc. reflexivity.
Qed.
Lemma match_path f t : (0 < nmatches f t)%Z -> exists ps l, In (ps, l) (paths t).
Proof.
  unfold nmatches, matches. intros H. destruct (all_links t) as [|l ls] eqn:E; [cbn in H; lia|]. assert (I : In l (all_links t)) by (rewrite E; left; reflexivity).
  rewrite <- paths_links in I. apply in_map_iff in I. destruct I as ([ps l'] & _ & I). eauto.
Qed.
Definition answer_node (f : link -> bool) (t : node) (c : cnode) : Prop := ccount c = nmatches f t /\ ctarget c = nlinks c /\
  match c with CInner _ _ _ ch => Forall (fun c => 0 < ccount c)%Z ch | CLeaf _ _ _ => True end.
(** Every inner node is above a link of notes. *)
Lemma pruned_props f c : forall t, pruned (answer_node f) t c -> (0 < ccount c)%Z -> forall p, In p (inner_props c) -> exists ps l, In (ps, l) (paths t) /\ In p ps.
Proof.
  induction c as [k tg ls|k tg p ch F] using cnode_ind'; intros t H Z q I; [destruct I|].
  pose proof (pruned_top _ _ _ H) as (T1 & _ & T2). inversion H as [|p0 ch0 k0 t0 ch' HS HP]; subst. cbn [inner_props] in I. destruct I as [<-|I].
  - rewrite T1 in Z. destruct (match_path _ _ Z) as (ps & l & X). exists ps, l. split; [exact X|]. cbn [paths] in X. apply in_map_iff in X. destruct X as (y & X & _).
    assert (ps = p :: fst y) by congruence. subst ps. left. reflexivity.
  - apply in_flat_map in I. destruct I as (c & Ic & I). destruct (sublist2_in _ _ _ _ HS Ic) as (t & It & Pt). rewrite Forall_forall in F, T2.
    destruct (F _ Ic _ Pt (T2 _ Ic) _ I) as (ps & l & X & Y). exists (p :: ps), l. split; [|right; exact Y]. cbn [paths]. apply in_map_iff. exists (ps, l). split; [reflexivity|].
    apply in_flat_map. eauto.
Qed.

(** ** Files *)
(** Headings around a line *)
Lemma outline_enclosing u c f x l : forall lines n above, In (x, l) (outline above (doc_of u c f n lines)) ->
  n <= LineNo l /\ x = map snd (fold_left enter (firstn (S (LineNo l) - n) (map fst (doc_of u c f n lines))) above).
Proof.
  induction lines as [|line lines IH]; intros n above I; [destruct I|]. cbn [doc_of outline] in I. apply in_app_or in I. destruct I as [I|I].
  - apply in_map_iff in I. destruct I as (l' & E & I). injection E as <- <-. assert (L : LineNo l' = n).
    { apply filtered_in in I. destruct I as [I _]. pose proof (links_line u c n line) as F. rewrite Forall_forall in F. exact (F _ I). }
    split; [lia|]. rewrite L. replace (S n - n) with 1 by lia. reflexivity.
  - apply IH in I. destruct I as [L E]. split; [lia|]. rewrite E. replace (S (LineNo l) - n) with (S (S (LineNo l) - S n)) by lia. cbn [doc_of map firstn fold_left fst]. reflexivity.
Qed.
Lemma doc_headings u c f : forall lines n hs, headings_of n lines hs -> map fst (doc_of u c f n lines) = hs.
Proof.
  induction lines as [|line lines IH]; intros n hs H; inversion H as [|n' line' lines' h hs' H1 H2 E1 E2]; subst; [reflexivity|]. cbn [doc_of map fst].
  rewrite (heading_at_unique _ _ _ H1), (IH _ _ H2). reflexivity.
Qed.
Lemma combine_split {A B} (l : list (A * B)) : combine (map fst l) (map snd l) = l.
Proof. induction l as [|[a y] l IH]; [reflexivity|]. cbn. rewrite IH. reflexivity. Qed.
Lemma org_places u c chunk f content broken t err lines e : OrgExtract u c chunk f content broken = Done (Some t, err) -> seen_lines content broken lines e ->
  err = e /\ paths t = map place (placed [] (doc_of u c f 1 lines)).
Proof.
  intros X S. destruct (scan_seen broken chunk _ _ _ S) as (e0 & Es & Ee).
  destruct (org_lines_ok u c f lines 1 [] org_start (Inner PNil []) oinv_start (doc_levels u c f lines 1)) as (st & t' & seen & E & I & P).
  unfold OrgExtract in X. rewrite Es, E in X. cbn [obind] in X. destruct I as [_ _ _ _ (sp & p & ts & _ & Eh & _ & _ & _ & _ & Dp)].
  rewrite Eh, read_root in X by lia. rewrite Ee in X. assert (t' = t) by congruence. assert (e = err) by congruence. subst. auto.
Qed.
Lemma file_paths u c chunk k content broken t err lines e : xtree (real u c chunk) k content broken = Done (Some t, err) -> seen_lines content broken lines e ->
  err = e /\ forall ps l, In (ps, l) (paths t) -> exists hs', ps = PNil :: map PHeading hs' /\ (k = Txt -> hs' = []) /\
    (k = Org -> forall hs, headings_of 1 lines hs -> regular 0 hs -> hs' = map Some (enclosing (LineNo l) hs)).
Proof.
  intros X Sn. destruct k; cbn [real xtree] in X.
  - destruct (org_places _ _ _ _ _ _ _ _ _ _ X Sn) as [E P]. split; [exact E|]. intros ps l I. rewrite P in I. apply in_map_iff in I. destruct I as ([y l'] & Q & I).
    unfold place in Q. cbn [fst snd] in Q. assert (ps = PNil :: map PHeading y) by congruence. assert (l' = l) by congruence. subst. exists y. split; [reflexivity|]. split; [discriminate|].
    intros _ hs H R. assert (C : chain [] [] 0) by (split; [reflexivity|split; [reflexivity|intros i Hi; lia]]).
    pose proof (doc_headings u c None _ _ _ H) as D. rewrite <- D in R. pose proof (regular_outline _ _ _ _ (map snd (doc_of u c None 1 lines)) C R) as RO. rewrite combine_split in RO.
    rewrite RO in I. apply in_map_iff in I. destruct I as ([z l'] & Q' & I). cbn [fst snd] in Q'. assert (y = map Some z) by congruence. assert (l' = l) by congruence. subst.
    f_equal. apply outline_enclosing in I. destruct I as [L ->]. unfold enclosing. replace (S (LineNo l) - 1) with (LineNo l) by lia. reflexivity.
  - destruct (txt_paths _ _ _ _ _ _ _ _ _ X Sn) as (E & lss & _ & P). split; [exact E|]. intros ps l I. rewrite P in I. apply in_map_iff in I. destruct I as (l' & Q & I).
    exists []. split; [cbn; congruence|]. split; [reflexivity|]. discriminate.
Qed.
Lemma file_total u c chunk k content broken : exists t err, xtree (real u c chunk) k content broken = Done (Some t, err).
Proof. destruct k; [apply org_never_panics|apply txt_never_panics]. Qed.

(** ** Notes *)
Lemma trees_in ts t : In t (trees_of ts) -> In (Some t) ts.
Proof. unfold trees_of. intros I. apply in_flat_map in I. destruct I as ([x|] & I & H); [destruct H as [<-|[]]; exact I|destruct H]. Qed.
Lemma Forall2_in_r {A B} (R : A -> B -> Prop) x y c : Forall2 R x y -> In c y -> exists a, In a x /\ R a c.
Proof. intros F. induction F as [|a d x y Rd F IH]; intros I; [destruct I|]. destruct I as [<-|I]; [exists a; split; [left; reflexivity|exact Rd]|]. destruct (IH I) as (a' & I' & R'). exists a'. split; [right|]; assumption. Qed.
Lemma combine_names {A B C} (f : B -> C) (srcs : list (A * C)) (reads : list (C * B)) s n r : map fst reads = map snd srcs -> In (s, (n, r)) (combine srcs reads) -> In s srcs /\ In (snd s, r) reads.
Proof.
  revert reads. induction srcs as [|s0 srcs IH]; intros [|[n0 r0] reads] E I; try discriminate; [destruct I|]. cbn in E, I. assert (E1 : n0 = snd s0) by congruence. assert (E2 : map fst reads = map snd srcs) by congruence.
  destruct I as [I|I].
  - assert (s0 = s) by congruence. assert (r0 = r) by congruence. subst. split; left; reflexivity.
  - destruct (IH _ E2 I). split; right; assumption.
Qed.
Lemma notes_paths u c chunk srcs reads tree : notes_from (real u c chunk) srcs reads (Ok tree) ->
  exists ts, tree = Inner PFileGroup ts /\ forall t, In t ts -> exists src content broken t0 ch, In src srcs /\ In (snd src, RData content broken) reads /\
    xtree (real u c chunk) (fst src) content broken = Done (Some t0, None) /\
    ((t0 = Inner PNil ch /\ t = Inner (PFile (snd src)) ch) \/ paths t = []).
Proof.
  intros H. inversion H as [|ts H0 H1 H2 H3 E| |]; subst. exists (trees_of ts). split; [reflexivity|]. intros t I. apply trees_in in I.
  destruct (Forall2_in_r _ _ _ _ H2 I) as ([s [n r]] & Ic & FR). destruct (combine_names (fun x : rres => snd s) _ _ _ _ _ H1 Ic) as (Is & Ir). cbn [snd] in FR. destruct r as [|content broken]; [destruct FR; discriminate|].
  cbn [file_result] in FR. destruct FR as (t0 & X & FR). destruct (file_total u c chunk (fst s) content broken) as (t1 & err & X'). rewrite X in X'. assert (t0 = Some t1) by congruence. subst t0.
  destruct (seen_exists content broken) as (lines & e & Sn). destruct (file_paths _ _ _ _ _ _ _ _ _ _ X Sn) as (_ & P). 
  destruct t1 as [ls|p [|d ch]]; [|discriminate|].
  - exists s, content, broken, (Leaf ls), []. split; [exact Is|]. split; [exact Ir|]. split; [exact X|]. right. assert (t = Leaf ls) by congruence. subst t.
    destruct (paths (Leaf ls)) as [|[ps l] xs] eqn:E; [reflexivity|]. exfalso. assert (I1 : In (ps, l) (paths (Leaf ls))) by (rewrite E; left; reflexivity).
    destruct (P _ _ (or_introl eq_refl)) as (hs & E1 & _). cbn [paths] in I1. apply in_map_iff in I1. destruct I1 as (l' & E2 & _). congruence.
  - exists s, content, broken, (Inner p (d :: ch)), (d :: ch). split; [exact Is|]. split; [exact Ir|]. split; [exact X|]. assert (t = Inner (PFile (snd s)) (d :: ch)) by congruence. subst t.
    destruct (flat_map paths (d :: ch)) as [|[ps l] xs] eqn:E; [right; cbn [paths]; rewrite E; reflexivity|left]. split; [|reflexivity]. 
    assert (I1 : In (p :: ps, l) (paths (Inner p (d :: ch)))). { cbn [paths]. rewrite E. left. reflexivity. }
    destruct (P _ _ I1) as (hs & E1 & _). assert (p = PNil) by congruence. subst p. reflexivity.
Qed.
Lemma link_located u c chunk variants ss k content broken t lines : variants_of variants ss -> UpdateRe variants = Some c ->
  xtree (real u c chunk) k content broken = Done (Some t, None) -> seen_lines content broken lines None -> forall ps l, In (ps, l) (paths t) ->
  1 <= LineNo l /\ exists line x y, nth_error lines (LineNo l - 1) = Some line /\ line = x ++ URL l ++ y.
Proof. intros V U X Sn ps l I. destruct k; cbn [real xtree] in X; [eapply org_part; eassumption|eapply txt_part; eassumption]. Qed.

(** ** Replies *)
Definition found (c : schemeRe) (srcs : list source) (reads : list (str * rres)) (ps : list props) (l : link) : Prop :=
  exists src content broken lines hs', In src srcs /\ In (snd src, RData content broken) reads /\ seen_lines content broken lines None /\
    ps = PFileGroup :: PFile (snd src) :: map PHeading hs' /\
    (fst src = Txt -> hs' = []) /\
    (fst src = Org -> forall hs, headings_of 1 lines hs -> regular 0 hs -> hs' = map Some (enclosing (LineNo l) hs)) /\
    (forall variants ss, variants_of variants ss -> UpdateRe variants = Some c ->
      1 <= LineNo l /\ exists line x y, nth_error lines (LineNo l - 1) = Some line /\ line = x ++ URL l ++ y).
Lemma notes_found u c chunk srcs reads tree : notes_from (real u c chunk) srcs reads (Ok tree) -> forall ps l, In (ps, l) (paths tree) -> found c srcs reads ps l.
Proof.
  intros H ps l I. destruct (notes_paths _ _ _ _ _ _ H) as (ts & -> & T). cbn [paths] in I. apply in_map_iff in I. destruct I as ([ps1 l1] & E & I). cbn [fst snd] in E.
  assert (ps = PFileGroup :: ps1) by congruence. assert (l1 = l) by congruence. subst. apply in_flat_map in I. destruct I as (t & It & I).
  destruct (T _ It) as (src & content & broken & t0 & ch & Is & Ir & X & [(-> & ->)|N]); [|rewrite N in I; destruct I].
  destruct (seen_exists content broken) as (lines & e & Sn). destruct (file_paths _ _ _ _ _ _ _ _ _ _ X Sn) as (<- & P).
  cbn [paths] in I. apply in_map_iff in I. destruct I as ([ps2 l2] & E2 & I). cbn [fst snd] in E2. assert (ps1 = PFile (snd src) :: ps2) by congruence. assert (l2 = l) by congruence. subst.
  assert (I0 : In (PNil :: ps2, l) (paths (Inner PNil ch))). { cbn [paths]. apply in_map_iff. exists (ps2, l). split; [reflexivity|exact I]. }
  destruct (P _ _ I0) as (hs' & E1 & A & B). assert (ps2 = map PHeading hs') by congruence. subst.
  exists src, content, broken, lines, hs'. split; [exact Is|]. split; [exact Ir|]. split; [exact Sn|]. split; [reflexivity|]. split; [exact A|]. split; [exact B|].
  intros variants ss V U. eapply link_located; eassumption.
Qed.

Lemma mentions_real e users bk qs g tr g' ts i o q c u sc chunk : booted e users g -> steps e (initializer bk) (g, serving bk qs) tr (g', ts) ->
  nth_error qs i = Some (o, QMentions q) -> fair_orders o -> replied (of_thread i tr) (PMentions c) -> ext bk = real u sc chunk ->
  exists tree, notes_from (real u sc chunk) (srcFiles bk) (initial_reads (map snd tr)) (Ok tree) /\ mentions_answer tree q c.
Proof.
  intros B St N F R X. destruct (mentions_served _ _ _ _ _ _ _ _ _ _ _ _ B St N F R) as [(_ & E)|(_ & [(err & _ & E)|(tree & c' & NF & E & A)])]; [discriminate..|].
  assert (c' = c) by congruence. subst. rewrite X in NF. eauto.
Qed.
Lemma mentions_found e users bk qs g tr g' ts i o q c u sc chunk : booted e users g -> steps e (initializer bk) (g, serving bk qs) tr (g', ts) ->
  nth_error qs i = Some (o, QMentions q) -> fair_orders o -> replied (of_thread i tr) (PMentions c) -> ext bk = real u sc chunk ->
  forall ps l, In (ps, l) (cpaths c) -> (Forall valid_utf8 (mqVariants q) -> wanted q (URL l)) /\
  exists src content broken lines hs', In src (srcFiles bk) /\ In (snd src, RData content broken) (initial_reads (map snd tr)) /\ seen_lines content broken lines None /\
    ps = PFileGroup :: PFile (snd src) :: map PHeading hs' /\
    (fst src = Txt -> hs' = []) /\
    (fst src = Org -> forall hs, headings_of 1 lines hs -> regular 0 hs -> hs' = map Some (enclosing (LineNo l) hs)) /\
    (forall variants ss, variants_of variants ss -> UpdateRe variants = Some sc ->
      1 <= LineNo l /\ exists line x y, nth_error lines (LineNo l - 1) = Some line /\ line = x ++ URL l ++ y).
Proof.
  intros B St N F R X ps l I. destruct (mentions_real _ _ _ _ _ _ _ _ _ _ _ _ _ _ _ B St N F R X) as (tree & NF & f & W & P & L & _). split.
  - intros V. apply (W V). rewrite Forall_forall in L. apply L. rewrite <- cpaths_links. apply in_map_iff. exists (ps, l). auto.
  - apply (notes_found u sc chunk _ _ _ NF). eapply pruned_paths; eassumption.
Qed.
(** C27 *)
Lemma mentions_safe e users bk qs g tr g' ts i o q c u sc chunk : booted e users g -> steps e (initializer bk) (g, serving bk qs) tr (g', ts) ->
  nth_error qs i = Some (o, QMentions q) -> fair_orders o -> replied (of_thread i tr) (PMentions c) -> ext bk = real u sc chunk ->
  (forall src content broken lines hs, In src (srcFiles bk) -> fst src = Org -> In (snd src, RData content broken) (initial_reads (map snd tr)) ->
     seen_lines content broken lines None -> headings_of 1 lines hs -> regular 0 hs) ->
  exists j, MarshalJSON c = Done j.
Proof.
  intros B St N F R X Reg. destruct (mentions_real _ _ _ _ _ _ _ _ _ _ _ _ _ _ _ B St N F R X) as (tree & NF & f & W & P & L & _).
  destruct (MarshalJSON c) as [j|] eqn:E; [eauto|exfalso]. apply marshal_panic in E. destruct E as (p & I & M).
  fold (answer_node f) in P. pose proof (pruned_top _ _ _ P) as (T1 & _ & T2). destruct (notes_paths _ _ _ _ _ _ NF) as (ts' & -> & _).
  inversion P as [|p0 ch0 k0 t0 ch' HS HP]; subst. cbn [inner_props] in I. destruct I as [<-|I]; [destruct M; discriminate|].
  apply in_flat_map in I. destruct I as (c & Ic & I). destruct (sublist2_in _ _ _ _ HS Ic) as (t & It & Pt). rewrite Forall_forall in T2.
  destruct (pruned_props f _ _ Pt (T2 _ Ic) _ I) as (ps & l & Ip & Y).
  assert (I0 : In (PFileGroup :: ps, l) (paths (Inner PFileGroup ts'))). { cbn [paths]. apply in_map_iff. exists (ps, l). split; [reflexivity|]. apply in_flat_map. eauto. }
  destruct (notes_found _ _ _ _ _ _ NF _ _ I0) as (src & content & broken & lines & hs' & Is & Ir & Sn & Eps & A & Bo & _).
  assert (ps = PFile (snd src) :: map PHeading hs') by congruence. subst ps. destruct Y as [<-|Y]; [destruct M; discriminate|]. apply in_map_iff in Y. destruct Y as (h & <- & Y).
  destruct M as [M|M]; [discriminate|]. assert (h = None) by congruence. subst h. destruct (fst src) eqn:K.
  - destruct (headings_exists lines 1) as (hs & H). rewrite (Bo eq_refl hs H (Reg _ _ _ _ _ Is K Ir Sn H)) in Y. apply in_map_iff in Y. destruct Y as (x & Y & _). discriminate.
  - rewrite (A eq_refl) in Y. destruct Y.
Qed.
Lemma reply_document c j : MarshalJSON c = Done j -> (exists v, jdocument v (encode j)) /\ forall v, jdocument v (encode j) -> shown c v.
Proof. intros E. split; [exists (value_of j); apply encode_document; reflexivity|]. intros v D. apply encode_document in D. subst v. apply marshal_shown. exact E. Qed.

(** ** Completeness *)
Lemma complete_paths f c : forall t, complete f t c -> forall ps l, In (ps, l) (paths t) -> f l = true -> exists l', URL l' = URL l /\ In (ps, l') (cpaths c).
Proof.
  induction c as [k tg ls|k tg p ch F] using cnode_ind'; intros t H ps l I M; inversion H as [ls0 k0 t0 ls' HS HN HA|p0 ch0 k0 t0 ch' HL]; subst.
  - cbn [paths] in I. apply in_map_iff in I. destruct I as (l1 & E & I). assert (ps = []) by congruence. assert (l1 = l) by congruence. subst.
    pose proof (HA _ I M) as J. apply in_map_iff in J. destruct J as (l' & E' & J). exists l'. split; [exact E'|]. cbn [cpaths]. apply in_map_iff. eauto.
  - cbn [paths] in I. apply in_map_iff in I. destruct I as ([ps1 l1] & E & I). cbn [fst snd] in E. assert (ps = p :: ps1) by congruence. assert (l1 = l) by congruence. subst.
    apply in_flat_map in I. destruct I as (t & It & I).
    assert (X : exists c, In c ch /\ complete f t c).
    { clear -HL It I M. induction HL as [|t1 ts cs N HL IH|t1 ts c1 cs N C HL IH]; [destruct It| |].
      - destruct It as [->|It]; [|auto]. exfalso. assert (J : In l (matches f t)). { unfold matches. apply filter_In. split; [|exact M]. rewrite <- paths_links. apply in_map_iff. exists (ps1, l). auto. }
        rewrite N in J. destruct J.
      - destruct It as [->|It]; [exists c1; split; [left; reflexivity|exact C]|]. destruct (IH It) as (c & Ic & Cc). exists c. split; [right|]; assumption. }
    destruct X as (c & Ic & Cc). rewrite Forall_forall in F. destruct (F _ Ic _ Cc _ _ I M) as (l' & E' & J). exists l'. split; [exact E'|]. cbn [cpaths]. apply in_map_iff.
    exists (ps1, l'). split; [reflexivity|]. apply in_flat_map. eauto.
Qed.
Lemma combine_nth {A B} n : forall (x : list A) (y : list B) a c, nth_error x n = Some a -> nth_error y n = Some c -> nth_error (combine x y) n = Some (a, c).
Proof. induction n as [|n IH]; intros [|a0 x] [|c0 y] a c E1 E2; try discriminate; cbn in *; [congruence|auto]. Qed.
Lemma Forall2_nth {A B} (R : A -> B -> Prop) x y n a : Forall2 R x y -> nth_error x n = Some a -> exists c, nth_error y n = Some c /\ R a c.
Proof. intros F. revert n. induction F as [|a0 c0 x y R0 F IH]; intros [|n] E; try discriminate; cbn in *; [exists c0; split; congruence|auto]. Qed.
Lemma notes_have u c chunk srcs reads tree n src nm content broken t0 : notes_from (real u c chunk) srcs reads (Ok tree) ->
  nth_error srcs n = Some src -> nth_error reads n = Some (nm, RData content broken) -> xtree (real u c chunk) (fst src) content broken = Done (Some t0, None) ->
  forall ps l, In (ps, l) (paths t0) -> In (PFileGroup :: PFile (snd src) :: tl ps, l) (paths tree).
Proof.
  intros H Hs Hr X ps l I. inversion H as [|ts H0 H1 H2 H3 E| |]; subst. 
  destruct (Forall2_nth _ _ _ _ _ H2 (combine_nth _ _ _ _ _ Hs Hr)) as (t & Nt & FR). cbn [snd file_result] in FR. destruct FR as (t1 & X1 & FR). rewrite X in X1. assert (t1 = Some t0) by congruence. subst t1.
  destruct (seen_exists content broken) as (lines & e & Sn). destruct (file_paths _ _ _ _ _ _ _ _ _ _ X Sn) as (_ & P). destruct (P _ _ I) as (hs & E & _).
  destruct t0 as [ls|p [|d ch]].
  - cbn [paths] in I. apply in_map_iff in I. destruct I as (l1 & E1 & _). congruence.
  - destruct I.
  - subst t. cbn [paths]. apply in_map_iff. exists (PFile (snd src) :: tl ps, l). split; [reflexivity|]. apply in_flat_map. exists (Inner (PFile (snd src)) (d :: ch)). split.
    + apply nth_error_In in Nt. unfold trees_of. apply in_flat_map. exists (Some (Inner (PFile (snd src)) (d :: ch))). split; [exact Nt|left; reflexivity].
    + cbn [paths] in *. apply in_map_iff in I. destruct I as ([ps1 l1] & E1 & I). apply in_map_iff. exists (ps1, l1). split; [|exact I]. pose proof (f_equal fst E1) as Q1. pose proof (f_equal snd E1) as Q2. cbn [fst snd] in *. rewrite <- Q1, <- Q2. reflexivity.
Qed.
Lemma mentions_complete e users bk qs g tr g' ts i o q c variants ss u sc chunk n src nm content broken lines k s w x d :
  booted e users g -> steps e (initializer bk) (g, serving bk qs) tr (g', ts) ->
  nth_error qs i = Some (o, QMentions q) -> fair_orders o -> Forall valid_utf8 (mqVariants q) -> replied (of_thread i tr) (PMentions c) ->
  ext bk = real u sc chunk -> variants_of variants ss -> NoDup (map written ss) -> UpdateRe variants = Some sc ->
  nth_error (srcFiles bk) n = Some src -> fst src = Org -> nth_error (initial_reads (map snd tr)) n = Some (nm, RData content broken) -> seen_lines content broken lines None ->
  nth_error lines k = Some (bracket_line (w ++ b ":" ++ x) d) -> In s ss -> word s w -> no_brackets (w ++ b ":" ++ x) -> no_brackets d ->
  wanted q (w ++ b ":" ++ x) ->
  let limit := match mqLimit q with Some l => l | None => 8 %Z end in (1 <= limit)%Z -> (ccount c <= limit)%Z -> (ccount c * limit <= maxint)%Z ->
  exists hs l, In (PFileGroup :: PFile (snd src) :: hs, l) (cpaths c) /\ URL l = w ++ b ":" ++ x.
Proof.
  intros B St N F V8 R X V ND U Hs Ko Hr Sn Hl Is Wd B1 B2 Wt limit L1 L2 L3.
  destruct (mentions_real _ _ _ _ _ _ _ _ _ _ _ _ _ _ _ B St N F R X) as (tree & NF & f & W & P & L & C). pose proof (pruned_top _ _ _ P) as (T1 & _ & _).
  destruct (file_total u sc chunk (fst src) content broken) as (t & err & E). destruct (file_paths _ _ _ _ _ _ _ _ _ _ E Sn) as (-> & _).
  assert (I : exists ps, In (ps, mkLink (w ++ b ":" ++ x) d (S k)) (paths t)).
  { pose proof E as E'. rewrite Ko in E'. cbn [real xtree] in E'. pose proof (bracket_proper _ _ _ _ _ _ _ _ _ _ _ _ _ _ _ _ V ND U E' Sn Hl Is Wd B1 B2) as Q.
    assert (J : In (mkLink (w ++ b ":" ++ x) d (S k)) (map snd (paths t))). { eapply proj1. apply (filter_In (fun l => LineNo l =? S k)). rewrite Q. left. reflexivity. }
    apply in_map_iff in J. destruct J as ([ps l] & E1 & J). cbn [snd] in E1. subst l. eauto. }
  destruct I as (ps & I). pose proof (notes_have _ _ _ _ _ _ _ _ _ _ _ _ NF Hs Hr E _ _ I) as J.
  destruct (C ltac:(lia) ltac:(lia)) as (_ & Cc). specialize (Cc ltac:(lia) ltac:(lia)).
  destruct (complete_paths _ _ _ Cc _ _ J) as (l' & E1 & J'); [apply (W V8); exact Wt|]. exists (tl ps), l'. auto.
Qed.

(** ** Other replies *)
Lemma texts_value l : map value_of (map JStr l) = map text l.
Proof. rewrite map_map. reflexivity. Qed.
Lemma result_ok r j : result_json r = Done j -> result_shown r (value_of j).
Proof.
  destruct r as [e|f v caps|p s|c| |urls|urls]; cbn [result_json]; intros E.
  - assert (j = JNull) by congruence. subst. constructor.
  - set (cv := match caps with [] => VNull | _ => VArr (map text caps) end).
    assert (C : value_of (match caps with [] => JNull | _ => JArr (map JStr caps) end) = cv). { unfold cv. destruct caps; [reflexivity|]. cbn [value_of]. fold value_of. rewrite texts_value. reflexivity. }
    assert (J : value_of j = VObj [(name (b "format"), text f); (name (b "version"), text v); (name (b "capabilities"), cv); (name (b "options"), VObj [(name (b "clipboardForBody"), VBool false)])]).
    { rewrite <- C. replace j with (JObj [(b "format", JStr f); (b "version", JStr v); (b "capabilities", match caps with [] => JNull | _ => JArr (map JStr caps) end); (b "options", JObj [(b "clipboardForBody", JBool false)])]) by congruence.
      unfold name, text. cbn [value_of map fst snd]. fold value_of. reflexivity. }
    rewrite J. econstructor. eexists. split; [apply Permutation_refl|]. reflexivity.
  - assert (J : j = JObj [(b "preview", JBool p); (b "status", JStr s)]) by congruence. subst j. econstructor. eexists. split; [apply Permutation_refl|unfold name, text; cbn [value_of map fst snd]; reflexivity].
  - constructor. apply marshal_shown. exact E.
  - assert (j = JBool true) by congruence. subst. constructor.
  - assert (J : value_of j = VArr (map (fun u => VObj [(name (b "url"), text u)]) urls)). { replace j with (JArr (map (fun u => JObj [(b "url", JStr u)]) urls)) by congruence. cbn [value_of]. fold value_of. rewrite map_map. apply f_equal, map_ext. intros u. unfold name, text. cbn [value_of map fst snd]. reflexivity. }
    rewrite J. constructor. clear. induction urls; constructor; [|assumption]. eexists. split; [apply Permutation_refl|reflexivity].
  - assert (J : value_of j = VObj [(name (b "urls"), VArr (map text urls))]). { replace j with (JObj [(b "urls", JArr (map JStr urls))]) by congruence. cbn [value_of map fst snd]. fold value_of. rewrite texts_value. unfold name, text. reflexivity. }
    rewrite J. constructor. eexists. split; [apply Permutation_refl|reflexivity].
Qed.
Lemma result_panic r : result_json r = Panic <-> exists c p, r = PMentions c /\ In p (inner_props c) /\ missing p.
Proof.
  split.
  - destruct r; try discriminate. cbn [result_json]. intros H. apply marshal_panic in H. destruct H as (p & A & B). eauto.
  - intros (c & p & -> & A & B). apply marshal_panic. eauto.
Qed.
Lemma result_document r j : result_json r = Done j -> (exists v, jdocument v (encode j)) /\ forall v, jdocument v (encode j) -> result_shown r v.
Proof. intros E. split; [exists (value_of j); apply encode_document; reflexivity|]. intros v D. apply encode_document in D. subst v. apply result_ok. exact E. Qed.
