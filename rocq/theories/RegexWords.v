(** Lemmas about what assembled patterns match. *)
From Coq Require Import ZifyBool ZifyNat ZifyN.
From Verif Require Import GoBase Utf8 Utf8Proofs Utf8Dec Regex RegexParse RegexSpec RegexProofs Pieces RegexLex.

(** ** Sequences and alternatives *)
Fixpoint mseq (u : rune -> bool) (l : list re) (pre mid post : list piece) (new : list (nat * str)) : Prop :=
  match l with
  | [] => mid = [] /\ new = []
  | x :: l' => exists l1 l2 n1 n2, mid = l1 ++ l2 /\ new = n2 ++ n1 /\ mlist u x pre l1 (l2 ++ post) n1 /\ mseq u l' (pre ++ l1) l2 post n2
  end.
Lemma seq_of_snoc l x : l <> [] -> seq_of (l ++ [x]) = RSeq x (seq_of l).
Proof. destruct l as [|y l]; [congruence|]. intros _. cbn [app seq_of]. rewrite fold_left_app. reflexivity. Qed.
Lemma mlist_seq u l : forall pre mid post new, mlist u (seq_of (rev l)) pre mid post new <-> mseq u l pre mid post new.
Proof.
  induction l as [|x l IH]; intros pre mid post new; [reflexivity|]. cbn [rev]. destruct l as [|y l].
  - cbn. split.
    + intros M. exists mid, [], new, []. rewrite app_nil_r. auto.
    + intros (l1 & l2 & n1 & n2 & -> & -> & M & -> & ->). rewrite app_nil_r. exact M.
  - rewrite seq_of_snoc. 2:{ cbn. intros E. apply app_eq_nil in E. destruct E. discriminate. }
    cbn [mlist]. change (mseq u (x :: y :: l) pre mid post new) with (exists l1 l2 n1 n2, mid = l1 ++ l2 /\ new = n2 ++ n1 /\
      mlist u x pre l1 (l2 ++ post) n1 /\ mseq u (y :: l) (pre ++ l1) l2 post n2).
    split; intros (l1 & l2 & n1 & n2 & E1 & E2 & M1 & M2); exists l1, l2, n1, n2; repeat (split; [assumption|]); apply IH; exact M2.
Qed.
Lemma mseq_app u x : forall y pre mid post new, mseq u (x ++ y) pre mid post new <->
  exists l1 l2 n1 n2, mid = l1 ++ l2 /\ new = n2 ++ n1 /\ mseq u x pre l1 (l2 ++ post) n1 /\ mseq u y (pre ++ l1) l2 post n2.
Proof.
  induction x as [|a x IH]; intros y pre mid post new; cbn [app mseq].
  - split.
    + intros M. exists [], mid, [], new. rewrite !app_nil_r. auto.
    + intros (l1 & l2 & n1 & n2 & -> & -> & (-> & ->) & M). rewrite !app_nil_r in M. rewrite app_nil_r. exact M.
  - split.
    + intros (l1 & l2 & n1 & n2 & -> & -> & M1 & M2). apply IH in M2. destruct M2 as (l3 & l4 & n3 & n4 & -> & -> & M2 & M3).
      exists (l1 ++ l3), l4, (n3 ++ n1), n4. rewrite !app_assoc in *. repeat (split; [reflexivity|]). split; [|exact M3].
      exists l1, l3, n1, n3. repeat (split; [reflexivity|]). rewrite app_assoc. split; assumption.
    + intros (l1 & l2 & n1 & n2 & -> & -> & (l3 & l4 & n3 & n4 & -> & -> & M1 & M2) & M3).
      exists l3, (l4 ++ l2), n3, (n2 ++ n4). rewrite <- !app_assoc. repeat (split; [reflexivity|]). split; [exact M1|]. apply IH.
      exists l4, l2, n4, n2. repeat (split; [reflexivity|]). rewrite app_assoc in M3. split; assumption.
Qed.
Lemma mlist_alts u al : forall r pre mid post new, mlist u (fold_left (fun acc y => RAlt y acc) al r) pre mid post new <->
  mlist u r pre mid post new \/ exists y, In y al /\ mlist u y pre mid post new.
Proof.
  induction al as [|a al IH]; intros r pre mid post new; cbn [fold_left].
  - split; [auto|]. intros [M|(y & [] & _)]. exact M.
  - rewrite IH. cbn [mlist In]. split.
    + intros [[M|M]|(y & I & M)]; eauto.
    + intros [M|(y & [<-|I] & M)]; eauto.
Qed.

(** ** Words *)
Inductive imatch : list item -> list rune -> Prop :=
| imatch_nil : imatch [] []
| imatch_here i w rs : imatch w rs -> imatch (i :: w) (irune i :: rs)
| imatch_skip i w rs : iopt i = true -> imatch w rs -> imatch (i :: w) rs.
Lemma single_match u r x : cls_match u (single r) x = true <-> x = r.
Proof. unfold cls_match, single. cbn [cneg citems existsb item_match]. rewrite xorb_false_l, orb_false_r, inr_true. lia. Qed.
Lemma mlist_single u r pre mid post new : mlist u (RCls (single r)) pre mid post new <-> map fst mid = [r] /\ new = [].
Proof.
  cbn [mlist]. split.
  - intros (x & bs & -> & M & ->). apply single_match in M. subst. auto.
  - intros [E ->]. destruct mid as [|[x bs] [|? ?]]; try discriminate. injection E as ->. exists r, bs. split; [reflexivity|]. split; [|reflexivity].
    apply single_match. reflexivity.
Qed.
Lemma mseq_word u w : forall pre mid post new, mseq u (map re_item w) pre mid post new <-> imatch w (map fst mid) /\ new = [].
Proof.
  induction w as [|i w IH]; intros pre mid post new; cbn [map mseq].
  - split.
    + intros [-> ->]. split; [constructor|reflexivity].
    + intros [M ->]. split; [|reflexivity]. destruct mid; [reflexivity|inversion M].
  - unfold re_item at 1. split.
    + intros (l1 & l2 & n1 & n2 & -> & -> & M1 & M2). apply IH in M2. destruct M2 as [M2 ->]. rewrite map_app.
      destruct (iopt i) eqn:E.
      * change (mlist u (RAlt (RCls (single (irune i))) REmpty) pre l1 (l2 ++ post) n1) with
          (mlist u (RCls (single (irune i))) pre l1 (l2 ++ post) n1 \/ mlist u REmpty pre l1 (l2 ++ post) n1) in M1.
        destruct M1 as [M1|[-> ->]].
        -- apply mlist_single in M1. destruct M1 as [-> ->]. split; [|reflexivity]. constructor. exact M2.
        -- split; [|reflexivity]. cbn. constructor; assumption.
      * apply mlist_single in M1. destruct M1 as [-> ->]. split; [|reflexivity]. constructor. exact M2.
    + intros [M ->]. remember (map fst mid) as rs eqn:R. remember (i :: w) as iw eqn:IW. destruct M as [|i' w' rs M|i' w' rs E M]; [discriminate| |].
      * injection IW as -> ->. destruct mid as [|p mid]; [discriminate|]. injection R as R1 R2. exists [p], mid, [], []. split; [reflexivity|]. split; [reflexivity|].
        split. { destruct (iopt i); [left|]; apply mlist_single; cbn [map]; rewrite <- R1; auto. }
        apply IH. rewrite <- R2. auto.
      * injection IW as -> ->. rewrite E. exists [], mid, [], []. split; [reflexivity|]. split; [reflexivity|]. split; [right; cbn; auto|].
        apply IH. rewrite <- R. auto.
Qed.
Lemma mlist_word u w pre mid post new : mlist u (word_re w) pre mid post new <-> imatch w (map fst mid) /\ new = [].
Proof. unfold word_re. rewrite mlist_seq. apply mseq_word. Qed.

(** A group with alternatives only *)
Lemma alts_empty u st w ws rep pre mid post new : falts (top st) = [] -> fcur (top st) = [] ->
  mlist u (alt_of (top (alts_state st w ws rep))) pre mid post new <-> new = [] /\ exists x, In x (w :: ws) /\ imatch x (map fst mid).
Proof.
  intros A C. unfold alts_state, alt_of. destruct (rev ws) as [|w' r] eqn:R.
  - unfold push. cbn [top falts fcur]. rewrite A, C, app_nil_r. cbn [fold_left]. fold (word_re w). rewrite mlist_word.
    assert (ws = []) by (apply (f_equal (@rev _)) in R; rewrite rev_involutive in R; exact R). subst. cbn [In]. split.
    + intros [M ->]. eauto.
    + intros (-> & x & [<-|[]] & M). auto.
  - cbn [top falts fcur]. rewrite A, C, app_nil_r, mlist_alts. fold (word_re w'). fold (word_re w). rewrite mlist_word.
    assert (W : forall x, In x ws <-> x = w' \/ In x r). { intros x. rewrite in_rev, R. cbn. intuition congruence. }
    split.
    + intros [[M ->]|(y & I & M)].
      * split; [reflexivity|]. exists w'. split; [right; apply W; auto|exact M].
      * apply in_app_or in I. destruct I as [I|[<-|[]]].
        -- apply in_map_iff in I. destruct I as (x & <- & I). apply mlist_word in M. destruct M as [M ->]. split; [reflexivity|]. exists x. split; [right; apply W; auto|exact M].
        -- apply mlist_word in M. destruct M as [M ->]. split; [reflexivity|]. exists w. split; [left; reflexivity|exact M].
    + intros (-> & x & [<-|I] & M).
      * right. exists (word_re w). split; [apply in_or_app; right; left; reflexivity|]. apply mlist_word. auto.
      * apply W in I. destruct I as [->|I]; [left; auto|]. right. exists (word_re x). split; [apply in_or_app; left; apply in_map; exact I|]. apply mlist_word. auto.
Qed.
Lemma alts_frame st w ws rep : exists al cu, alts_state st w ws rep =
  mkP (mkFrame al cu (fgroup (top st)) (ffold (top st))) (below st) (ncap st) (folding st) rep.
Proof. unfold alts_state. destruct (rev ws); unfold push; eauto. Qed.

(** ** Classes and groups of an expression *)
Fixpoint classes (r : re) : list cls :=
  match r with
  | RCls c => [c]
  | RSeq x y | RAlt x y => classes x ++ classes y
  | RStar _ x | RGroup _ x => classes x
  | _ => []
  end.
Lemma mlist_classes u r : forall pre l post new, mlist u r pre l post new ->
  Forall (fun p => exists c, In c (classes r) /\ cls_match u c (fst p) = true) l.
Proof.
  assert (W : forall (A B : list cls) (l : list piece), (forall c, In c A -> In c B) ->
     Forall (fun p => exists c, In c A /\ cls_match u c (fst p) = true) l -> Forall (fun p => exists c, In c B /\ cls_match u c (fst p) = true) l).
  { intros A B l H F. eapply Forall_impl; [|exact F]. intros p (c & I & M). eauto. }
  induction r; intros pre l post new M; cbn [mlist classes] in *.
  - destruct M as [-> _]. constructor.
  - destruct M as (x & bs & -> & M & _). constructor; [|constructor]. exists c. cbn. auto.
  - destruct M as [-> _]. constructor.
  - destruct M as [-> _]. constructor.
  - destruct M as [-> _]. constructor.
  - destruct M as (l1 & l2 & n1 & n2 & -> & _ & M1 & M2). apply Forall_app. split.
    + eapply W; [|eapply IHr1, M1]. intros c I. apply in_or_app. auto.
    + eapply W; [|eapply IHr2, M2]. intros c I. apply in_or_app. auto.
  - destruct M as [M|M].
    + eapply W; [|eapply IHr1, M]. intros c I. apply in_or_app. auto.
    + eapply W; [|eapply IHr2, M]. intros c I. apply in_or_app. auto.
  - induction M as [|pre l1 l2 post n1 n2 M _ IH]; [constructor|]. apply Forall_app. split; [|exact IH]. eapply IHr, M.
  - destruct M as (n1 & M & _). eapply IHr, M.
Qed.
Fixpoint no_groups (r : re) : bool :=
  match r with
  | RSeq x y | RAlt x y => no_groups x && no_groups y
  | RStar _ x => no_groups x
  | RGroup _ _ => false
  | _ => true
  end.
Lemma mlist_no_groups u r : no_groups r = true -> forall pre l post new, mlist u r pre l post new -> new = [].
Proof.
  induction r; intros N pre l post new M; cbn [mlist no_groups] in *; try discriminate.
  - apply M.
  - destruct M as (x & bs & _ & _ & ->). reflexivity.
  - apply M.
  - apply M.
  - apply M.
  - apply andb_true_iff in N. destruct M as (l1 & l2 & n1 & n2 & _ & -> & M1 & M2). rewrite (IHr1 (proj1 N) _ _ _ _ M1), (IHr2 (proj2 N) _ _ _ _ M2). reflexivity.
  - apply andb_true_iff in N. destruct M as [M|M]; [eapply IHr1|eapply IHr2]; try apply N; exact M.
  - induction M as [|pre l1 l2 post n1 n2 M _ IH]; [reflexivity|]. rewrite IH, (IHr N _ _ _ _ M). reflexivity.
Qed.
(** Matched text is not empty *)
Lemma mlist_nullable u r : nullable r = false -> forall pre l post new, mlist u r pre l post new -> l <> [].
Proof.
  induction r; intros N pre l post new M; cbn [mlist nullable] in *; try discriminate.
  - destruct M as (x & bs & -> & _). discriminate.
  - destruct M as (l1 & l2 & n1 & n2 & -> & _ & M1 & M2). apply andb_false_iff in N. intros E. apply app_eq_nil in E.
    destruct N as [N|N]; [eapply IHr1|eapply IHr2]; try apply N; try eassumption; apply E.
  - apply orb_false_iff in N. destruct M as [M|M]; [eapply IHr1|eapply IHr2]; try apply N; exact M.
  - destruct M as (n1 & M & _). eapply IHr; eassumption.
Qed.
