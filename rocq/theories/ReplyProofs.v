(** Serialisation of replies. *)
From Coq Require Import Permutation ZifyBool ZifyNat ZifyN.
From Verif Require Import GoBase GoSlice Utf8 Utf8Dec JsonSpec Json JsonProofs LinkTypes Emacs Backend BackendSpec BackendMain LinkSpec LinkMain LinkAny ReplyJson ReplySpec.

Lemma number_ok n : number n (value_of (JInt n)).
Proof.
  cbn [value_of]. unfold integer. destruct (Z.ltb_spec n 0) as [L|L].
  - exists (decimal (- n)). right. split; [exact L|]. split; [reflexivity|]. apply decimal_ok. lia.
  - exists (decimal n). left. split; [exact L|]. split; [reflexivity|]. destruct (Z.eq_dec n 0) as [->|N]; [|apply decimal_ok; lia].
    vm_compute. repeat split; [discriminate|]. constructor; [|constructor]. split; discriminate.
Qed.

Lemma link_ok l : link_shown l (value_of (link_json l)).
Proof.
  exists (value_of (JInt (Z.of_nat (LineNo l)))). split; [apply number_ok|]. unfold link_json. destruct (list_eq_dec ascii_dec (Description l) []) as [E|N].
  - rewrite E. eexists. split; [|reflexivity]. cbn [map app fst snd]. change (name ?x) with (runes_of x). eapply Permutation_trans; [apply perm_swap|].
    apply perm_skip. apply perm_swap.
  - destruct (Description l) as [|c d]; [contradiction|]. eexists. split; [|reflexivity]. cbn [map app fst snd]. change (name ?x) with (runes_of x). eapply Permutation_trans; [apply perm_swap|].
    apply perm_skip. match goal with |- Permutation [?a; ?x; ?y] _ => change [a; x; y] with ([a; x] ++ [y]) end. eapply Permutation_trans; [apply Permutation_app_comm|]. cbn [app].
    apply perm_skip. apply perm_swap.
Qed.

Lemma flat_leaf k t ls : flat_json k t (TLeaf ls) =
  Done (JObj [(b "_type", JStr (b "Body")); (b "filtered", JInt t); (b "links", JArr (map link_json ls)); (b "total", JInt k)]).
Proof. reflexivity. Qed.
Lemma flat_file k t path js : flat_json k t (TChildren (PFile path) js) = let! r := oall js in
  Done (JObj [(b "_type", JStr (b "File")); (b "children", JArr r); (b "filtered", JInt t); (b "path", JStr path); (b "total", JInt k)]).
Proof.
  transitivity (map_json [(b "_type", FStr (b "File")); (b "children", FChildren js); (b "filtered", FInt t); (b "path", FStr path); (b "total", FInt k)]); [reflexivity|].
  unfold map_json. cbn [map oall obind field_json]. destruct (oall js); reflexivity.
Qed.
Lemma flat_group k t js : flat_json k t (TChildren PFileGroup js) = let! r := oall js in
  Done (JObj [(b "_type", JStr (b "FileGroup")); (b "children", JArr r); (b "filtered", JInt t); (b "total", JInt k)]).
Proof.
  transitivity (map_json [(b "_type", FStr (b "FileGroup")); (b "children", FChildren js); (b "filtered", FInt t); (b "total", FInt k)]); [reflexivity|].
  unfold map_json. cbn [map oall obind field_json]. destruct (oall js); reflexivity.
Qed.
Lemma flat_heading k t h js : flat_json k t (TChildren (PHeading (Some h)) js) = let! r := oall js in
  Done (JObj [(b "_type", JStr (b "Heading")); (b "children", JArr r); (b "filtered", JInt t); (b "lineNo", JInt (Z.of_nat (hLineNo h)));
              (b "rawText", JStr (hRawText h)); (b "total", JInt k)]).
Proof.
  transitivity (map_json [(b "_type", FStr (b "Heading")); (b "children", FChildren js); (b "filtered", FInt t); (b "lineNo", FInt (Z.of_nat (hLineNo h))); (b "rawText", FStr (hRawText h)); (b "total", FInt k)]); [reflexivity|].
  unfold map_json. cbn [map oall obind field_json]. destruct (oall js); reflexivity.
Qed.
Lemma flat_missing k t p js : missing p -> flat_json k t (TChildren p js) = Panic.
Proof. intros [-> | ->]; reflexivity. Qed.
Lemma marshal_single k t c : MarshalJSON (CInner k t PFileGroup [c]) = MarshalJSON c.
Proof. reflexivity. Qed.
Lemma marshal_inner k t p ch : p <> PFileGroup \/ length ch <> 1 -> MarshalJSON (CInner k t p ch) = flat_json k t (TChildren p (map MarshalJSON ch)).
Proof. intros H. cbn [MarshalJSON]. destruct p; try reflexivity. destruct ch as [|c [|d ch]]; try reflexivity. destruct H as [H|H]; contradiction. Qed.
Lemma oall_done {A} (l : list (outcome A)) r : oall l = Done r <-> l = map Done r.
Proof.
  revert r. induction l as [|x l IH]; intros r; cbn [oall].
  - split; [intros E; injection E as <-; reflexivity|]. destruct r; [reflexivity|discriminate].
  - destruct x as [v|]; cbn [obind].
    + destruct (oall l) as [r'|] eqn:E; cbn [obind].
      * split; [intros X; injection X as <-; cbn; f_equal; apply IH; reflexivity|]. destruct r as [|a r]; [discriminate|]. cbn. intros X. assert (v = a) by congruence. subst a.
        assert (l = map Done r) by congruence. apply IH in H. congruence.
      * split; [discriminate|]. destruct r as [|a r]; [discriminate|]. cbn. intros X. assert (l = map Done r) by congruence. apply IH in H. congruence.
    + split; [discriminate|]. destruct r; discriminate.
Qed.
Lemma oall_panic {A} (l : list (outcome A)) : oall l = Panic <-> In Panic l.
Proof.
  induction l as [|x l IH]; cbn [oall In]; [split; [discriminate|contradiction]|]. destruct x as [v|]; cbn [obind].
  - destruct (oall l); cbn [obind]; (split; [intros H|intros [H|H]]); try discriminate; [apply IH in H; discriminate|right; apply IH; reflexivity|reflexivity].
  - split; auto.
Qed.

Lemma missing_dec p : {missing p} + {~ missing p}.
Proof. destruct p as [|path| |[h|]]; [left; left; reflexivity|right; intros [H|H]; discriminate..|left; right; reflexivity]. Qed.
Lemma single_dec p (ch : list cnode) : (p = PFileGroup /\ exists c, ch = [c]) \/ (p <> PFileGroup \/ length ch <> 1).
Proof. destruct p; try (right; left; discriminate). destruct ch as [|c [|d ch]]; [right; right; discriminate|left; eauto|right; right; discriminate]. Qed.
Lemma flat_panic k t p js : ~ missing p -> (flat_json k t (TChildren p js) = Panic <-> In Panic js).
Proof.
  intros N. rewrite <- oall_panic. destruct p as [|path| |[h|]].
  - destruct N. left. reflexivity.
  - rewrite flat_file. destruct (oall js); cbn [obind]; split; congruence.
  - rewrite flat_group. destruct (oall js); cbn [obind]; split; congruence.
  - rewrite flat_heading. destruct (oall js); cbn [obind]; split; congruence.
  - destruct N. right. reflexivity.
Qed.
Lemma in_panic ch : Forall (fun c => MarshalJSON c = Panic <-> exists p, In p (inner_props c) /\ missing p) ch ->
  (In Panic (map MarshalJSON ch) <-> exists p, In p (flat_map inner_props ch) /\ missing p).
Proof.
  intros F. rewrite Forall_forall in F. rewrite in_map_iff. split.
  - intros (c & E & I). apply (F _ I) in E. destruct E as (p & A & B). exists p. split; [|exact B]. apply in_flat_map. eauto.
  - intros (p & A & B). apply in_flat_map in A. destruct A as (c & I & A). exists c. split; [|exact I]. apply (F _ I). eauto.
Qed.
Lemma marshal_panic c : MarshalJSON c = Panic <-> exists p, In p (inner_props c) /\ missing p.
Proof.
  induction c as [k t ls|k t p ch F] using cnode_ind'.
  - cbn [MarshalJSON inner_props]. rewrite flat_leaf. split; [discriminate|]. intros (p & [] & _).
  - destruct (single_dec p ch) as [(-> & c & ->)|N].
    + rewrite marshal_single. inversion F as [|? ? Fc _]; subst. rewrite Fc. cbn [inner_props flat_map]. rewrite app_nil_r. split.
      * intros (q & A & B). exists q. split; [right; exact A|exact B].
      * intros (q & [<-|A] & B); [destruct B; discriminate|eauto].
    + rewrite marshal_inner by exact N. cbn [inner_props]. destruct (missing_dec p) as [M|M].
      * rewrite flat_missing by exact M. split; [intros _|reflexivity]. exists p. split; [left; reflexivity|exact M].
      * rewrite flat_panic by exact M. rewrite in_panic by exact F. split.
        -- intros (q & A & B). exists q. split; [right; exact A|exact B].
        -- intros (q & [<-|A] & B); [contradiction|eauto].
Qed.

Ltac perm_find a r k :=
  lazymatch r with
  | a :: ?t => let T := type of a in k (@nil T) t
  | ?x :: ?t => perm_find a t ltac:(fun l1 l2 => k (x :: l1) l2)
  end.
Ltac perm_all :=
  repeat match goal with
  | |- Permutation [] [] => constructor
  | |- Permutation (?a :: ?l) ?r =>
      perm_find a r ltac:(fun l1 l2 => change (Permutation (a :: l) (l1 ++ a :: l2)); apply Permutation_cons_app; cbn [app])
  end.
Lemma shown_all ch : Forall (fun c => forall j, MarshalJSON c = Done j -> shown c (value_of j)) ch -> forall r, map MarshalJSON ch = map Done r -> shown_list ch (map value_of r).
Proof.
  intros F. induction F as [|c ch Fc F IH]; intros [|j r] E; try discriminate; cbn [map] in *; constructor; [apply Fc; congruence|apply IH; congruence].
Qed.
Lemma marshal_shown c : forall j, MarshalJSON c = Done j -> shown c (value_of j).
Proof.
  induction c as [k t ls|k t p ch F] using cnode_ind'; intros j E.
  - cbn [MarshalJSON] in E. rewrite flat_leaf in E. assert (J : j = JObj [(b "_type", JStr (b "Body")); (b "filtered", JInt t); (b "links", JArr (map link_json ls)); (b "total", JInt k)]) by congruence.
    subst j. eapply sh_body with (vs := map (fun l => value_of (link_json l)) ls); [|apply number_ok|apply number_ok|].
    + clear. induction ls; constructor; [apply link_ok|assumption].
    + eexists. split; [|reflexivity]. cbn [map fst snd value_of]. fold value_of. rewrite map_map. change (name ?x) with (runes_of x). unfold text. perm_all.
  - destruct (single_dec p ch) as [(-> & c & ->)|N].
    + rewrite marshal_single in E. inversion F as [|? ? Fc _]; subst. constructor. auto.
    + rewrite marshal_inner in E by exact N. destruct p as [|path| |[h|]]; try discriminate.
      * rewrite flat_file in E. destruct (oall (map MarshalJSON ch)) as [r|] eqn:R; [|discriminate]. cbn [obind] in E. apply oall_done in R. pose proof (shown_all _ F _ R) as S.
        assert (J : j = JObj [(b "_type", JStr (b "File")); (b "children", JArr r); (b "filtered", JInt t); (b "path", JStr path); (b "total", JInt k)]) by congruence. subst j.
        eapply sh_inner; [exact N|exact S|apply number_ok|apply number_ok|constructor|]. eexists. split; [|reflexivity]. cbn [map fst snd value_of app]. fold value_of. change (name ?x) with (runes_of x). unfold text. perm_all.
      * rewrite flat_group in E. destruct (oall (map MarshalJSON ch)) as [r|] eqn:R; [|discriminate]. cbn [obind] in E. apply oall_done in R. pose proof (shown_all _ F _ R) as S.
        assert (J : j = JObj [(b "_type", JStr (b "FileGroup")); (b "children", JArr r); (b "filtered", JInt t); (b "total", JInt k)]) by congruence. subst j.
        eapply sh_inner; [exact N|exact S|apply number_ok|apply number_ok|constructor|]. eexists. split; [|reflexivity]. cbn [map fst snd value_of app]. fold value_of. change (name ?x) with (runes_of x). unfold text. perm_all.
      * rewrite flat_heading in E. destruct (oall (map MarshalJSON ch)) as [r|] eqn:R; [|discriminate]. cbn [obind] in E. apply oall_done in R. pose proof (shown_all _ F _ R) as S.
        assert (J : j = JObj [(b "_type", JStr (b "Heading")); (b "children", JArr r); (b "filtered", JInt t); (b "lineNo", JInt (Z.of_nat (hLineNo h)));
              (b "rawText", JStr (hRawText h)); (b "total", JInt k)]) by congruence. subst j.
        eapply sh_inner; [exact N|exact S|apply number_ok|apply number_ok|constructor; apply number_ok|]. eexists. split; [|reflexivity]. cbn [map fst snd value_of app]. fold value_of. change (name ?x) with (runes_of x). unfold text. perm_all.
Qed.
