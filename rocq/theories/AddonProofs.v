(** Lemmas about the client in a browser. *)
From Coq Require Import ZifyBool ZifyNat ZifyN.
From Verif Require Import GoBase Utf8 JsonSpec Addon AddonSpec.

(** ** Values *)
Lemma runes_eqb_eq x : forall y, runes_eqb x y = true <-> x = y.
Proof. induction x as [|a x IH]; intros [|c y]; cbn [runes_eqb]; try (split; congruence). rewrite andb_true_iff, N.eqb_eq, IH. split; [intros [-> ->]; reflexivity|intros H; injection H; auto]. Qed.
Lemma property_fold k l : forall r v, fold_left (fun r m => if runes_eqb (fst m) (key k) then Some (snd m) else r) l r = Some v <->
  member l k v \/ (r = Some v /\ ~ In (key k) (map fst l)).
Proof.
  induction l as [|[a x] l IH]; intros r v; cbn [fold_left fst snd map].
  - split; [intros ->; right; split; [reflexivity|auto]|]. intros [(l1 & l2 & E & _)|[-> _]]; [destruct l1; discriminate|reflexivity].
  - rewrite IH. destruct (runes_eqb a (key k)) eqn:E.
    + apply runes_eqb_eq in E. subst a. split.
      * intros [(l1 & l2 & -> & N)|[H N]]; [left; exists ((key k, x) :: l1), l2; auto|]. injection H as <-. left. exists [], l. auto.
      * intros [(l1 & l2 & H & N)|[_ N]]; [|exfalso; apply N; left; reflexivity]. destruct l1 as [|y l1]; cbn [app] in H; injection H as H0 H1; [right; subst; auto|left; exists l1, l2; auto].
    + assert (Na : a <> key k) by (intros ->; assert (runes_eqb (key k) (key k) = true) by (apply runes_eqb_eq; reflexivity); congruence). split.
      * intros [(l1 & l2 & -> & N)|[-> N]]; [left; exists ((a, x) :: l1), l2; auto|right; split; [reflexivity|]]. intros [H|H]; [congruence|auto].
      * intros [(l1 & l2 & H & N)|[-> N]]; [|right; split; [reflexivity|]; intros H; apply N; right; exact H]. destruct l1 as [|y l1]; cbn [app] in H; injection H as H0 H1; [unfold key in Na; congruence|left; exists l1, l2; auto].
Qed.
Lemma property_some k l v : property k (VObj l) = Some v <-> member l k v.
Proof. cbn [property]. rewrite property_fold. split; [intros [H|[H _]]; [exact H|discriminate]|auto]. Qed.
Lemma truthy_false e v : truthy e v = false <-> falsy e v.
Proof.
  split.
  - destruct v as [|v|t|[|r s]|l|l]; cbn [truthy]; intros H; try discriminate; [constructor|subst; constructor| |constructor]. constructor. destruct (num e t) as [[|p]|]; congruence.
  - intros []; try reflexivity. cbn [truthy]. rewrite H. reflexivity.
Qed.
Definition told (e : env) (m : value) : option (N * fate) :=
  match property (b "id") m with
  | Some (VNum t) =>
      match num e t with
      | None => None
      | Some id =>
          let tp k := match property k m with Some v => if truthy e v then Some v else None | None => None end in
          Some (id, match tp (b "result"), tp (b "error") with Some v, _ => Resolved v | None, Some v => Failed v | None, None => Invalid end)
      end
  | _ => None
  end.
Lemma told_tells e m id f : told e m = Some (id, f) <-> tells e id m f.
Proof.
  unfold told. split.
  - destruct m as [| | | | |l]; try discriminate. destruct (property (b "id") (VObj l)) as [i|] eqn:Ei; [|discriminate]. destruct i as [| |t| | |]; try discriminate. destruct (num e t) as [n|] eqn:En; [|discriminate]. apply property_some in Ei.
    cbv zeta. destruct (property (b "result") (VObj l)) as [r|] eqn:Er; [destruct (truthy e r) eqn:Tr|].
    + intros H. injection H as -> <-. apply property_some in Er. eapply te_result; eauto. intros F. apply truthy_false in F. congruence.
    + assert (R : forall x, member l (b "result") x -> falsy e x). { intros x X. apply property_some in X. rewrite Er in X. injection X as <-. apply truthy_false, Tr. }
      destruct (property (b "error") (VObj l)) as [x|] eqn:Ex; [destruct (truthy e x) eqn:Tx|]; intros H; injection H as -> <-.
      * apply property_some in Ex. eapply te_error; eauto. intros F. apply truthy_false in F. congruence.
      * eapply te_nothing; eauto. intros y Y. apply property_some in Y. rewrite Ex in Y. injection Y as <-. apply truthy_false, Tx.
      * eapply te_nothing; eauto. intros y Y. apply property_some in Y. congruence.
    + assert (R : forall x, member l (b "result") x -> falsy e x) by (intros x X; apply property_some in X; congruence).
      destruct (property (b "error") (VObj l)) as [x|] eqn:Ex; [destruct (truthy e x) eqn:Tx|]; intros H; injection H as -> <-.
      * apply property_some in Ex. eapply te_error; eauto. intros F. apply truthy_false in F. congruence.
      * eapply te_nothing; eauto. intros y Y. apply property_some in Y. rewrite Ex in Y. injection Y as <-. apply truthy_false, Tx.
      * eapply te_nothing; eauto. intros y Y. apply property_some in Y. congruence.
  - assert (Z : forall v, ~ falsy e v -> truthy e v = true) by (intros v H; destruct (truthy e v) eqn:T; [reflexivity|apply truthy_false in T; contradiction]).
    assert (Q : forall l k, (forall r, member l k r -> falsy e r) -> match property k (VObj l) with Some v => if truthy e v then Some v else None | None => None end = None).
    { intros l k H. destruct (property k (VObj l)) as [v|] eqn:E; [|reflexivity]. apply property_some in E. apply H, truthy_false in E. rewrite E. reflexivity. }
    intros [l t v I N R F|l t v I N R X F|l t I N R X]; apply property_some in I; rewrite I, N; cbv zeta.
    + apply property_some in R. rewrite R, (Z _ F). reflexivity.
    + rewrite (Q _ _ R). apply property_some in X. rewrite X, (Z _ F). reflexivity.
    + rewrite (Q _ _ R), (Q _ _ X). reflexivity.
Qed.
Definition forget (id : N) (s : rpc) : rpc := mkRpc (drawn s) (port s) (ports s) (map_delete id (promiseMap s)) (calls s) (settled s).
Definition final (f : fate) : bool := match f with Invalid => false | _ => true end.
Lemma message_exact e m s : messageReceived e m s =
  match told e m with
  | None => ([], s)
  | Some (id, f) =>
      match map_get id (promiseMap s) with
      | None => ([], s)
      | Some c => let '(o, s') := settle c f s in (o, if final f then forget id s' else s')
      end
  end.
Proof.
  unfold messageReceived, told. destruct (property (b "id") m) as [i|]; [|reflexivity]. destruct i as [| |t| | |]; try reflexivity. destruct (num e t) as [n|]; [|reflexivity]. cbv zeta.
  destruct (map_get n (promiseMap s)) as [c|]; [|reflexivity].
  destruct (match property (b "result") m with Some v => if truthy e v then Some v else None | None => None end) as [v|]; [destruct (settle c (Resolved v) s); reflexivity|].
  destruct (match property (b "error") m with Some v => if truthy e v then Some v else None | None => None end) as [v|]; [destruct (settle c (Failed v) s); reflexivity|].
  destruct (settle c Invalid s). reflexivity.
Qed.

(** ** Histories *)
Lemma runs_app e h1 : forall s h2 s2, runs e s (h1 ++ h2) s2 <-> exists s1, runs e s h1 s1 /\ runs e s1 h2 s2.
Proof.
  induction h1 as [|[v o] h1 IH]; intros s h2 s2; cbn [app].
  - split; [intros H; exists s; split; [constructor|exact H]|]. intros (s1 & A & B). inversion A; subst. exact B.
  - split.
    + intros H. inversion H; subst. apply IH in H6. destruct H6 as (s3 & A & B). exists s3. split; [econstructor; eassumption|exact B].
    + intros (s1 & A & B). inversion A; subst. econstructor; [eassumption|]. apply IH. eauto.
Qed.
Lemma runs_snoc e s h v o s2 : runs e s (h ++ [(v, o)]) s2 <-> exists s1, runs e s h s1 /\ step e s1 v = Some (o, s2).
Proof.
  rewrite runs_app. split; intros (s1 & A & B); exists s1; (split; [exact A|]); [inversion B; subst; inversion H5; subst; assumption|econstructor; [exact B|constructor]].
Qed.
Lemma outputs_app h1 h2 : outputs (h1 ++ h2) = outputs h1 ++ outputs h2. Proof. apply flat_map_app. Qed.
Lemma outputs_snoc h v o : outputs (h ++ [(v, o)]) = outputs h ++ o. Proof. rewrite outputs_app. cbn. rewrite app_nil_r. reflexivity. Qed.
Lemma settlements_app l1 l2 : settlements (l1 ++ l2) = settlements l1 ++ settlements l2.
Proof. induction l1 as [|[p|p i c|c f] l1 IH]; cbn [app settlements]; [reflexivity|exact IH|exact IH|rewrite IH; reflexivity]. Qed.
Lemma settlements_in l c : In c (settlements l) <-> exists f, In (OSettle c f) l.
Proof.
  induction l as [|[p|p i x|x f] l IH]; cbn [settlements In].
  - split; [intros []|intros (f & [])].
  - rewrite IH. split; intros (f & H); exists f; [right; exact H|destruct H as [H|H]; [discriminate|exact H]].
  - rewrite IH. split; intros (f & H); exists f; [right; exact H|destruct H as [H|H]; [discriminate|exact H]].
  - rewrite IH. split; [intros [->|(f' & H)]; eauto|]. intros (f' & [H|H]); [injection H as -> ->; left; reflexivity|right; eauto].
Qed.
Lemma count_snoc h v o : count_calls (h ++ [(v, o)]) = count_calls h + match v with ECall _ _ => 1 | _ => 0 end.
Proof. unfold count_calls. rewrite filter_app, app_length. cbn. destruct v; reflexivity. Qed.

(** ** Effects of settling *)
Lemma NoDup_app_intro {A} (l1 l2 : list A) : NoDup l1 -> NoDup l2 -> (forall x, In x l1 -> ~ In x l2) -> NoDup (l1 ++ l2).
Proof.
  induction 1 as [|x l1 N _ IH]; intros D H; cbn [app]; [exact D|]. constructor; [|apply IH; [exact D|intros y Y; apply H; right; exact Y]].
  rewrite in_app_iff. intros [X|X]; [contradiction|]. apply (H x); [left; reflexivity|exact X].
Qed.
Lemma settle_spec c f s : let '(o, s') := settle c f s in
  drawn s' = drawn s /\ port s' = port s /\ ports s' = ports s /\ promiseMap s' = promiseMap s /\ calls s' = calls s /\ settled s' = rev (settlements o) ++ settled s /\ NoDup (settlements o) /\
  (forall c', In c' (settlements o) -> ~ In c' (settled s)) /\ o = map (fun c => OSettle c f) (settlements o) /\ (forall c', In c' (settlements o) \/ In c' (settled s) <-> c' = c \/ In c' (settled s)).
Proof.
  unfold settle. destruct (existsb (Nat.eqb c) (settled s)) eqn:E; cbn [settlements rev app].
  - apply existsb_exists in E. destruct E as (c2 & I2 & E). apply Nat.eqb_eq in E. subst c2. do 6 (split; [reflexivity|]). split; [constructor|]. split; [intros c' []|]. split; [reflexivity|]. intros c'. cbn [In]. split; [tauto|]. intros [->|H]; auto.
  - assert (N : ~ In c (settled s)). { intros H. apply Bool.not_true_iff_false in E. apply E, existsb_exists. exists c. split; [exact H|apply Nat.eqb_refl]. }
    do 6 (split; [reflexivity|]). split; [repeat constructor; intros []|]. split; [intros c' [<-|[]]; exact N|]. split; [reflexivity|]. intros c'. cbn [In]. assert (c = c' <-> c' = c) as Q by (split; congruence). clear - Q. tauto.
Qed.
Lemma settle_all_spec f cs : forall s, let '(o, s') := settle_all cs f s in
  drawn s' = drawn s /\ port s' = port s /\ ports s' = ports s /\ promiseMap s' = promiseMap s /\ calls s' = calls s /\ settled s' = rev (settlements o) ++ settled s /\ NoDup (settlements o) /\
  (forall c', In c' (settlements o) -> ~ In c' (settled s)) /\ o = map (fun c => OSettle c f) (settlements o) /\ (forall c', In c' (settlements o) \/ In c' (settled s) <-> In c' cs \/ In c' (settled s)).
Proof.
  induction cs as [|c cs IH]; intros s; cbn [settle_all].
  - cbn. do 6 (split; [reflexivity|]). split; [constructor|]. split; [intros c []|]. split; [reflexivity|]. tauto.
  - pose proof (settle_spec c f s) as S. destruct (settle c f s) as [o s1]. specialize (IH s1). destruct (settle_all cs f s1) as [o2 s2].
    destruct S as (A1 & A2 & A3 & A4 & A5 & A6 & A7 & A8 & A9 & A10). destruct IH as (B1 & B2 & B3 & B4 & B5 & B6 & B7 & B8 & B9 & B10).
    rewrite settlements_app. split; [congruence|]. split; [congruence|]. split; [congruence|]. split; [congruence|]. split; [congruence|].
    split; [rewrite B6, A6, rev_app_distr, app_assoc; reflexivity|].
    assert (K : forall x, In x (settled s1) <-> In x (settlements o) \/ In x (settled s)) by (intros x; rewrite A6, in_app_iff, <- in_rev; reflexivity).
    split. { apply NoDup_app_intro; [exact A7|exact B7|]. intros x X Y. apply (B8 _ Y), K. left. exact X. }
    split. { intros x. rewrite in_app_iff. intros [X|X]; [apply A8, X|]. intros Y. apply (B8 _ X), K. right. exact Y. }
    split; [rewrite map_app, <- A9, <- B9; reflexivity|]. intros x. rewrite in_app_iff. specialize (A10 x). specialize (B10 x). rewrite K in B10. cbn [In]. assert (c = x <-> x = c) as Q by (split; congruence). clear - A10 B10 Q.
    transitivity (In x (settlements o2) \/ (In x (settlements o) \/ In x (settled s))); [clear; tauto|]. rewrite B10, A10, Q. clear. tauto.
Qed.

(** ** The map *)
Lemma set_fresh id c m : ~ In id (map fst m) -> map_set id c m = m ++ [(id, c)].
Proof. induction m as [|[i x] m IH]; cbn [map_set map fst In app]; intros N; [reflexivity|]. destruct (N.eqb_spec i id); [exfalso; auto|]. rewrite IH by auto. reflexivity. Qed.
Lemma delete_in id m x : In x (map_delete id m) <-> In x m /\ fst x <> id.
Proof. unfold map_delete. rewrite filter_In, negb_true_iff, N.eqb_neq. reflexivity. Qed.
Lemma delete_fresh id m : ~ In id (map fst m) -> map_delete id m = m.
Proof. induction m as [|[i x] m IH]; cbn [map_delete filter map fst In]; intros N; [reflexivity|]. destruct (N.eqb_spec i id); [exfalso; auto|]. cbn [negb]. unfold map_delete in IH. rewrite IH by auto. reflexivity. Qed.
Lemma delete_keys id m : NoDup (map fst m) -> NoDup (map fst (map_delete id m)).
Proof.
  induction m as [|[i x] m IH]; cbn [map_delete filter map fst]; intros N; [constructor|]. inversion N; subst. destruct (negb (i =? id)%N); [|apply IH; assumption]. cbn [map fst]. constructor; [|apply IH; assumption].
  intros H. apply in_map_iff in H. destruct H as (y & E & H). apply filter_In in H. apply H1. rewrite <- E. apply in_map, H.
Qed.
Lemma get_some id m c : NoDup (map fst m) -> (map_get id m = Some c <-> In (id, c) m).
Proof.
  unfold map_get. induction m as [|[i x] m IH]; cbn [find map fst In]; intros N; [split; [discriminate|intros []]|]. inversion N; subst. destruct (N.eqb_spec i id) as [->|Ne]; cbn [option_map snd].
  - split; [intros H; injection H as ->; left; reflexivity|]. intros [H|H]; [injection H as ->; reflexivity|]. exfalso. apply H1. change id with (fst (id, c)). apply in_map, H.
  - rewrite IH by assumption. split; [auto|]. intros [H|H]; [congruence|exact H].
Qed.
Lemma get_none id m : map_get id m = None <-> ~ In id (map fst m).
Proof.
  unfold map_get. induction m as [|[i x] m IH]; cbn [find map fst In]; [split; [intros _ []|reflexivity]|]. destruct (N.eqb_spec i id) as [->|Ne]; cbn [option_map].
  - split; [discriminate|]. intros H. exfalso. auto.
  - rewrite IH. split; [intros H [X|X]; auto|auto].
Qed.
Lemma update_length p x l : length (update p x l) = length l.
Proof. revert p. induction l as [|y l IH]; intros [|p]; cbn [update length]; congruence. Qed.
Lemma update_nth p x l q : nth_error (update p x l) q = if Nat.eqb p q then match nth_error l q with Some _ => Some x | None => None end else nth_error l q.
Proof. revert p q. induction l as [|y l IH]; intros [|p] [|q]; cbn [update nth_error Nat.eqb]; try reflexivity; try (destruct (p =? q); reflexivity). apply IH. Qed.

(** ** Invariant *)
Record inv (e : env) (h : history) (s : rpc) : Prop := {
  i_calls : calls s = count_calls h;
  i_settled : forall c, In c (settled s) <-> In c (settlements (outputs h));
  i_nodup : NoDup (settlements (outputs h));
  i_bound : forall c, In c (settled s) -> c < calls s;
  i_posted : forall p id c, posted h p id c -> c < calls s /\ p < length (ports s) /\ exists k, k < drawn s /\ id = gen e k;
  i_call : forall p id c p' id', posted h p id c -> posted h p' id' c -> p = p' /\ id = id';
  i_ids : forall p id c p' c', posted h p id c -> posted h p' id c' -> c = c';
  i_map : forall id c, In (id, c) (promiseMap s) <-> kept e h id c;
  i_wait : forall p id c, posted h p id c -> ~ In c (settled s) -> In (id, c) (promiseMap s);
  i_done : forall c, c < calls s -> In c (settled s) \/ exists p id, posted h p id c;
  i_keys : NoDup (map fst (promiseMap s));
  i_port : forall p, port s = Some p -> listens p s = true }.
Lemma kept_posted e h id c : kept e h id c -> exists p, posted h p id c.
Proof. intros (h1 & v & o & h2 & p & -> & I & _). exists p. unfold posted. rewrite outputs_app, in_app_iff. right. cbn. rewrite in_app_iff. left. exact I. Qed.
Lemma kept_snoc e h v o id c : kept e (h ++ [(v, o)]) id c <-> (exists p, In (OPost p id c) o) \/ (kept e h id c /\ spares e id v).
Proof.
  split.
  - intros (h1 & v' & o' & h2 & p & E & I & F). destruct (exists_last (l := (v', o') :: h2)) as (h3 & x & E2); [discriminate|]. rewrite E2, app_assoc in E. apply app_inj_tail in E. destruct E as [-> <-].
    destruct h3 as [|y h3]; cbn [app] in E2.
    + injection E2 as -> -> _. left. eauto.
    + injection E2 as <- ->. apply Forall_app in F. destruct F as [F1 F2]. inversion F2; subst. right. split; [|assumption]. exists h1, v', o', h3, p. auto.
  - intros [(p & I)|[(h1 & v' & o' & h2 & p & -> & I & F) Sp]].
    + exists h, v, o, [], p. auto.
    + exists h1, v', o', (h2 ++ [(v, o)]), p. split; [rewrite <- app_assoc; reflexivity|]. split; [exact I|]. apply Forall_app. split; [exact F|]. constructor; [exact Sp|constructor].
Qed.
Lemma posted_snoc h v o p id c : posted (h ++ [(v, o)]) p id c <-> posted h p id c \/ In (OPost p id c) o.
Proof. unfold posted. rewrite outputs_snoc, in_app_iff. reflexivity. Qed.
Lemma inv_init e : inv e [] client.
Proof.
  constructor; cbn; try (intros; contradiction || discriminate || lia); try constructor; try reflexivity.
  - intros [].
  - intros (h1 & v & o & h2 & p & E & _). destruct h1; discriminate.
Qed.
Lemma settle_posts f cs p id c : ~ In (OPost p id c) (map (fun c => OSettle c f) cs).
Proof. intros H. apply in_map_iff in H. destruct H as (x & E & _). discriminate. Qed.
(** Nothing is posted, promises [cs] are settled, some requests are forgotten *)
Lemma inv_settle e h s s' v cs f : unique e -> inv e h s -> match v with ECall _ _ => False | _ => True end ->
  drawn s' = drawn s -> length (ports s') = length (ports s) -> calls s' = calls s -> settled s' = rev cs ++ settled s -> NoDup cs ->
  (forall c, In c cs -> ~ In c (settled s) /\ exists id, In (id, c) (promiseMap s)) ->
  (forall id c, In (id, c) (promiseMap s') <-> In (id, c) (promiseMap s) /\ spares e id v) -> NoDup (map fst (promiseMap s')) ->
  (forall id c, In (id, c) (promiseMap s) -> ~ spares e id v -> In c cs \/ In c (settled s)) ->
  (forall p, port s' = Some p -> listens p s' = true) ->
  inv e (h ++ [(v, map (fun c => OSettle c f) cs)]) s'.
Proof.
  intros U [] V D L C Se Nc Hc Hm Nk Hf Hp. set (o := map (fun c => OSettle c f) cs).
  assert (So : settlements o = cs) by (unfold o; clear; induction cs as [|c cs IH]; cbn; [reflexivity|rewrite IH; reflexivity]).
  assert (Po : forall p id c, posted (h ++ [(v, o)]) p id c <-> posted h p id c) by (intros; rewrite posted_snoc; split; [intros [H|H]; [exact H|exfalso; eapply settle_posts, H]|auto]).
  constructor.
  - rewrite count_snoc, C, i_calls0. destruct v; [contradiction| | |]; lia.
  - intros c. rewrite Se, outputs_snoc, settlements_app, So, !in_app_iff, <- in_rev, i_settled0. tauto.
  - rewrite outputs_snoc, settlements_app, So. apply NoDup_app_intro; [assumption|assumption|]. intros c X Y. apply i_settled0 in X. apply (Hc _ Y), X.
  - intros c. rewrite Se, C, in_app_iff, <- in_rev. intros [H|H]; [|apply i_bound0, H]. destruct (Hc _ H) as (_ & id & I). apply i_map0, kept_posted in I. destruct I as (p & P). apply (i_posted0 _ _ _ P).
  - intros p id c P. apply Po in P. rewrite C, L, D. apply i_posted0, P.
  - intros p id c p' id' P P'. apply Po in P. apply Po in P'. eauto.
  - intros p id c p' c' P P'. apply Po in P. apply Po in P'. eauto.
  - intros id c. rewrite Hm, kept_snoc, i_map0. split; [auto|]. intros [(p & H)|H]; [exfalso; eapply settle_posts, H|exact H].
  - intros p id c P N. apply Po in P. rewrite Se, in_app_iff, <- in_rev in N. assert (I : In (id, c) (promiseMap s)) by (eapply i_wait0; [exact P|tauto]). apply Hm. split; [exact I|].
    destruct v as [|q m|q er|q]; cbn [spares]; [contradiction| | |exact Logic.I].
    + intros g T. destruct g; try reflexivity; exfalso; (assert (Z : ~ spares e id (EMessage q m)) by (intros X; specialize (X _ T); discriminate); destruct (Hf _ _ I Z); tauto).
    + destruct (Hf _ _ I (fun x => x)); tauto.
  - intros c Lc. rewrite C in Lc. rewrite Se, in_app_iff. destruct (i_done0 _ Lc) as [H|(p & id & P)]; [auto|right; exists p, id; apply Po, P].
  - exact Nk.
  - exact Hp.
Qed.
Lemma get_port connect s p o s1 : (forall q, port s = Some q -> listens q s = true) -> getPort connect s = Some (p, o, s1) ->
  drawn s1 = drawn s /\ promiseMap s1 = promiseMap s /\ calls s1 = calls s /\ settled s1 = settled s /\ length (ports s) <= length (ports s1) /\ p < length (ports s1) /\
  port s1 = Some p /\ listens p s1 = true /\ settlements o = [] /\ (forall q id c, ~ In (OPost q id c) o).
Proof.
  intros Hp H. assert (K : connected connect s = Some (p, o, s1) \/ (port s = Some p /\ s1 = s /\ o = [])).
  { unfold getPort in H. destruct (port s) as [q|]; [|left; exact H]. destruct (failing q s); [left; exact H|]. injection H as -> <- <-. right. auto. }
  destruct K as [K|(K & -> & ->)].
  - unfold connected in K. destruct connect; [|discriminate]. injection K as <- <- <-. cbn [drawn promiseMap calls settled ports port]. rewrite app_length. cbn [length]. do 4 (split; [reflexivity|]). split; [lia|]. split; [lia|]. split; [reflexivity|].
    split; [unfold listens; cbn [ports]; rewrite nth_error_app2, Nat.sub_diag by lia; reflexivity|]. split; [reflexivity|]. intros q i c [H1|[]]. discriminate.
  - specialize (Hp _ K). do 4 (split; [reflexivity|]). split; [lia|]. split; [|do 3 (split; [assumption || reflexivity|]); intros q i c []]. unfold listens in Hp. apply nth_error_Some. destruct (nth_error (ports s) p); congruence.
Qed.
Lemma inv_call e h s connect post o s' : unique e -> inv e h s -> sendMessage e connect post s = (o, s') -> inv e (h ++ [(ECall connect post, o)]) s'.
Proof.
  intros U [] H. unfold sendMessage in H. destruct (getPort connect s) as [[[p op] s1]|] eqn:G.
  - destruct (get_port _ _ _ _ _ i_port0 G) as (A1 & A2 & A3 & A4 & A5 & A6 & A7 & A8 & A9 & A10). set (id := gen e (drawn s1)) in *.
    assert (Fr : forall q c, ~ posted h q id c). { intros q c P. apply i_posted0 in P. destruct P as (_ & _ & k & Lk & E). apply U in E. lia. }
    assert (Nm : ~ In id (map fst (promiseMap s1))). { rewrite A2. intros I. apply in_map_iff in I. destruct I as ((i, c) & E & I). cbn in E. subst i. apply i_map0, kept_posted in I. destruct I as (q & P). apply (Fr _ _ P). }
    assert (Nc : ~ In (calls s) (settled s)) by (intros I; apply i_bound0 in I; lia).
    rewrite (set_fresh _ _ _ Nm) in H. destruct post.
    + injection H as <- <-. assert (Po : forall q i c, posted (h ++ [(ECall connect true, op ++ [OPost p id (calls s)])]) q i c <-> posted h q i c \/ (q = p /\ i = id /\ c = calls s)).
      { intros q i c. rewrite posted_snoc, in_app_iff. cbn [In]. split; (intros [P|P]; [auto|]); [destruct P as [P|[P|[]]]; [exfalso; eapply A10, P|]; injection P as -> -> ->; auto|destruct P as (-> & -> & ->); auto]. }
      constructor; cbn [calls settled ports drawn promiseMap port].
      * rewrite count_snoc. lia.
      * intros c. rewrite outputs_snoc, !settlements_app, A9. cbn [settlements app]. rewrite app_nil_r, A4. apply i_settled0.
      * rewrite outputs_snoc, !settlements_app, A9. cbn [settlements app]. rewrite app_nil_r. assumption.
      * intros c I. rewrite A4 in I. apply i_bound0 in I. lia.
      * intros q i c P. apply Po in P. destruct P as [P|(-> & -> & ->)]; [|split; [lia|]; split; [exact A6|]; exists (drawn s1); split; [lia|reflexivity]].
        destruct (i_posted0 _ _ _ P) as (B1 & B2 & k & B3 & ->). split; [lia|]. split; [lia|]. exists k. split; [lia|reflexivity].
      * intros q i c q' i' P P'. apply Po in P. apply Po in P'. destruct P as [P|(-> & -> & ->)]; destruct P' as [P'|(-> & -> & E)]; [eauto| | |auto]; exfalso; [apply i_posted0 in P; lia|apply i_posted0 in P'; lia].
      * intros q i c q' c' P P'. apply Po in P. apply Po in P'. destruct P as [P|(-> & -> & ->)]; destruct P' as [P'|(-> & E & ->)]; [eauto| | |auto]; exfalso; [subst i; eapply Fr, P|eapply Fr, P'].
      * intros i c. rewrite A2, in_app_iff, kept_snoc, i_map0. cbn [In spares]. split.
        { intros [K|[K|[]]]; [auto|]. injection K as <- <-. left. exists p. apply in_app_iff. right. left. reflexivity. }
        { intros [(q & K)|[K _]]; [|auto]. apply in_app_iff in K. destruct K as [K|[K|[]]]; [exfalso; eapply A10, K|]. injection K as -> <- <-. auto. }
      * intros q i c P N. rewrite A2, in_app_iff. rewrite A4 in N. apply Po in P. destruct P as [P|(-> & -> & ->)]; [left; eauto|right; left; reflexivity].
      * intros c Lc. rewrite A4. destruct (Nat.eq_dec c (calls s)) as [->|Ne]; [right; exists p, id; apply Po; auto|]. destruct (i_done0 c) as [I|(q & i & P)]; [lia|auto|right; exists q, i; apply Po; auto].
      * rewrite map_app. cbn [map fst]. apply NoDup_app_intro; [rewrite A2; assumption|repeat constructor; intros []|]. intros x X [<-|[]]. contradiction.
      * intros q E. rewrite A7 in E. injection E as <-. exact A8.
    + injection H as <- <-. assert (Dm : map_delete id (promiseMap s1 ++ [(id, calls s)]) = promiseMap s).
      { unfold map_delete. rewrite filter_app. cbn [filter fst]. rewrite N.eqb_refl. cbn [negb]. rewrite app_nil_r. rewrite <- A2. apply delete_fresh, Nm. }
      rewrite Dm. assert (Po : forall q i c, posted (h ++ [(ECall connect false, op ++ [OSettle (calls s) NotPosted])]) q i c <-> posted h q i c) by (intros; rewrite posted_snoc, in_app_iff; cbn [In]; split; [intros [P|[P|[P|[]]]]; [exact P|exfalso; eapply A10, P|discriminate]|auto]).
      constructor; cbn [calls settled ports drawn promiseMap port].
      * rewrite count_snoc. lia.
      * intros c. rewrite outputs_snoc, !settlements_app, A9, in_app_iff, A4. cbn [settlements app In]. rewrite i_settled0. tauto.
      * rewrite outputs_snoc, !settlements_app, A9. cbn [settlements app]. apply NoDup_app_intro; [assumption|repeat constructor; intros []|]. intros x X [<-|[]]. apply i_settled0 in X. contradiction.
      * intros c [<-|I]; [lia|]. rewrite A4 in I. apply i_bound0 in I. lia.
      * intros q i c P. apply Po in P. destruct (i_posted0 _ _ _ P) as (B1 & B2 & k & B3 & ->). split; [lia|]. split; [lia|]. exists k. split; [lia|reflexivity].
      * intros q i c q' i' P P'. apply Po in P. apply Po in P'. eauto.
      * intros q i c q' c' P P'. apply Po in P. apply Po in P'. eauto.
      * intros i c. rewrite kept_snoc, i_map0. cbn [In spares]. split; [auto|]. intros [(q & K)|[K _]]; [|exact K]. apply in_app_iff in K. destruct K as [K|[K|[]]]; [exfalso; eapply A10, K|discriminate].
      * intros q i c P N. apply Po in P. eapply i_wait0; [exact P|]. intros I. apply N. right. rewrite A4. exact I.
      * intros c Lc. rewrite A4. destruct (Nat.eq_dec c (calls s)) as [->|Ne]; [left; left; reflexivity|]. destruct (i_done0 c) as [I|(q & i & P)]; [lia|left; right; exact I|right; exists q, i; apply Po; auto].
      * assumption.
      * intros q E. rewrite A7 in E. injection E as <-. exact A8.
  - injection H as <- <-. assert (Nc : ~ In (calls s) (settled s)) by (intros I; apply i_bound0 in I; lia).
    assert (Po : forall q i c, posted (h ++ [(ECall connect post, [OSettle (calls s) NotConnected])]) q i c <-> posted h q i c) by (intros; rewrite posted_snoc; cbn [In]; split; [intros [P|[P|[]]]; [exact P|discriminate]|auto]).
    constructor; cbn [calls settled ports drawn promiseMap port].
    * rewrite count_snoc. lia.
    * intros c. rewrite outputs_snoc, settlements_app, in_app_iff. cbn [settlements In]. rewrite i_settled0. tauto.
    * rewrite outputs_snoc, settlements_app. cbn [settlements]. apply NoDup_app_intro; [assumption|repeat constructor; intros []|]. intros x X [<-|[]]. apply i_settled0 in X. contradiction.
    * intros c [<-|I]; [lia|]. apply i_bound0 in I. lia.
    * intros q i c P. apply Po in P. destruct (i_posted0 _ _ _ P) as (B1 & B2 & k & B3 & ->). split; [lia|]. split; [lia|]. exists k. split; [lia|reflexivity].
    * intros q i c q' i' P P'. apply Po in P. apply Po in P'. eauto.
    * intros q i c q' c' P P'. apply Po in P. apply Po in P'. eauto.
    * intros i c. rewrite kept_snoc, i_map0. cbn [In spares]. split; [auto|]. intros [(q & [K|[]])|[K _]]; [discriminate|exact K].
    * intros q i c P N. apply Po in P. eapply i_wait0; [exact P|]. intros I. apply N. right. exact I.
    * intros c Lc. destruct (Nat.eq_dec c (calls s)) as [->|Ne]; [left; left; reflexivity|]. destruct (i_done0 c) as [I|(q & i & P)]; [lia|left; right; exact I|right; exists q, i; apply Po; auto].
    * assumption.
    * assumption.
Qed.
Lemma tells_same e m id f id' f' : tells e id m f -> tells e id' m f' -> id = id' /\ f = f'.
Proof. intros A B. apply told_tells in A. apply told_tells in B. rewrite A in B. injection B as -> ->. auto. Qed.
Lemma inv_step e h s v o s' : unique e -> inv e h s -> step e s v = Some (o, s') -> inv e (h ++ [(v, o)]) s'.
Proof.
  intros U Iv H. destruct v as [connect post|p m|p er|p]; cbn [step] in H.
  - injection H as H. eapply inv_call; eassumption.
  - destruct (listens p s); [|discriminate]. injection H as H. rewrite message_exact in H. pose proof Iv as [].
    destruct (told e m) as [[id f]|] eqn:T; [destruct (map_get id (promiseMap s)) as [c|] eqn:G|].
    + apply told_tells in T. apply get_some in G; [|assumption]. pose proof (settle_spec c f s) as S. destruct (settle c f s) as [o1 s1]. injection H as <- <-.
      destruct S as (A1 & A2 & A3 & A4 & A5 & A6 & A7 & A8 & A9 & A10). rewrite A9. eapply inv_settle with (s := s); try eassumption; try (destruct (final f); cbn [drawn ports calls settled port forget]; (congruence || (rewrite A3; reflexivity))); [exact Logic.I| | | | |].
      * intros x X. split; [apply A8, X|]. destruct (proj1 (A10 x) (or_introl X)) as [->|Y]; [eauto|exfalso; apply (A8 _ X), Y].
      * intros i x. assert (Sp : spares e i (EMessage p m) <-> (i = id -> final f = false)).
        { cbn [spares]. split; [intros Z ->; rewrite (Z _ T); reflexivity|]. intros Z g Tg. destruct (tells_same _ _ _ _ _ _ T Tg) as [E <-]. symmetry in E. specialize (Z E). destruct f; (reflexivity || discriminate). }
        rewrite Sp. destruct (final f); cbn [promiseMap forget]; rewrite ?delete_in, A4; cbn [fst]; [|tauto]. split; (intros [Q R]; split; [exact Q|]); [intros E; contradiction|intros E; specialize (R E); discriminate].
      * destruct (final f); cbn [promiseMap forget]; rewrite A4; [apply delete_keys|]; assumption.
      * intros i x I Ns. apply A10. left. assert (E : i = id). { destruct (N.eq_dec i id) as [E|E]; [exact E|]. exfalso. apply Ns. cbn [spares]. intros g Tg. destruct (tells_same _ _ _ _ _ _ T Tg) as [E2 _]. congruence. }
        subst i. apply (get_some id _ x i_keys0) in I. apply (get_some id _ c i_keys0) in G. congruence.
      * intros q E. assert (P : port s = Some q) by (destruct (final f); cbn [port forget] in E; congruence). apply i_port0 in P. unfold listens in *. destruct (final f); cbn [ports forget]; rewrite A3; exact P.
    + injection H as <- <-. apply told_tells in T. apply get_none in G. apply (inv_settle e h s s (EMessage p m) [] Invalid); auto; [constructor|intros c []| |].
      * intros i x. split; [|intros [Q _]; exact Q]. intros Q. split; [exact Q|]. cbn [spares]. intros g Tg. destruct (tells_same _ _ _ _ _ _ T Tg) as [<- _]. exfalso. apply G. change id with (fst (id, x)). apply in_map, Q.
      * intros i x Q Ns. exfalso. apply Ns. cbn [spares]. intros g Tg. destruct (tells_same _ _ _ _ _ _ T Tg) as [<- _]. exfalso. apply G. change id with (fst (id, x)). apply in_map, Q.
    + injection H as <- <-. assert (Sp : forall i, spares e i (EMessage p m)) by (intros i g Tg; apply told_tells in Tg; congruence). apply (inv_settle e h s s (EMessage p m) [] Invalid); auto; [constructor|intros c []| |].
      * intros i x. split; [auto|intros [Q _]; exact Q].
      * intros i x Q Ns. exfalso. apply Ns, Sp.
  - destruct (listens p s); [|discriminate]. injection H as H. pose proof Iv as []. unfold disconnected in H. cbn [promiseMap] in H. set (s0 := mkRpc _ _ _ _ _ _) in H. set (f := if _ : bool then _ else _) in H.
    pose proof (settle_all_spec f (map snd (promiseMap s)) s0) as S. destruct (settle_all _ f s0) as [o1 s1]. injection H as <- <-. destruct S as (A1 & A2 & A3 & A4 & A5 & A6 & A7 & A8 & A9 & A10). rewrite A9. unfold s0 in *. cbn [drawn port ports promiseMap calls settled] in *.
    eapply inv_settle with (s := s); try eassumption; cbn [drawn port ports promiseMap calls settled]; try congruence; [exact Logic.I|rewrite A3; apply update_length| | |constructor|].
    + intros x X. split; [apply A8, X|]. destruct (proj1 (A10 x) (or_introl X)) as [Y|Y]; [|exfalso; apply (A8 _ X), Y]. apply in_map_iff in Y. destruct Y as ((i, c) & E & Y). cbn in E. subst c. eauto.
    + intros i x. cbn [spares In]. tauto.
    + intros i x I _. apply A10. left. change x with (snd (i, x)). apply in_map, I.
  - destruct (nth_error (ports s) p) as [x|] eqn:E; [|discriminate]. injection H as <- <-. pose proof Iv as []. apply (inv_settle e h s _ (EError p) [] Invalid); auto; cbn [drawn port ports promiseMap calls settled]; [apply update_length|constructor|intros c []| | |].
    + intros i y. cbn [spares]. tauto.
    + intros i y _ Ns. exfalso. apply Ns. exact Logic.I.
    + intros q Eq. apply i_port0 in Eq. unfold listens in *. cbn [ports]. rewrite update_nth. destruct (Nat.eqb_spec p q) as [<-|]; [rewrite E in *; cbn [pListens]; exact Eq|exact Eq].
Qed.
Lemma runs_inv e h s : unique e -> runs e client h s -> inv e h s.
Proof.
  intros U. revert s. induction h as [|[v o] h IH] using rev_ind; intros s H; [inversion H; subst; apply inv_init|].
  apply runs_snoc in H. destruct H as (s1 & A & B). eapply inv_step; [exact U|apply IH, A|exact B].
Qed.

(** ** Ports *)
Lemma usable_snoc h v o p : usable (h ++ [(v, o)]) p <-> In (OConnect p) o \/ (usable h p /\ harmless p v).
Proof.
  split.
  - intros (h1 & v' & o' & h2 & E & I & F). destruct (exists_last (l := (v', o') :: h2)) as (h3 & x & E2); [discriminate|]. rewrite E2, app_assoc in E. apply app_inj_tail in E. destruct E as [-> <-].
    destruct h3 as [|y h3]; cbn [app] in E2.
    + injection E2 as -> -> _. left. exact I.
    + injection E2 as <- ->. apply Forall_app in F. destruct F as [F1 F2]. inversion F2; subst. right. split; [|assumption]. exists h1, v', o', h3. auto.
  - intros [I|[(h1 & v' & o' & h2 & -> & I & F) Sp]].
    + exists h, v, o, []. auto.
    + exists h1, v', o', (h2 ++ [(v, o)]). split; [rewrite <- app_assoc; reflexivity|]. split; [exact I|]. apply Forall_app. split; [exact F|]. constructor; [exact Sp|constructor].
Qed.
Lemma noticed_snoc h v o p : noticed (h ++ [(v, o)]) p <-> noticed h p \/ v = EError p \/ v = EDisconnect p true.
Proof.
  unfold noticed. rewrite map_app. split.
  - intros (x & I & E). apply in_app_iff in I. destruct I as [I|[<-|[]]]; [left; eauto|right; exact E].
  - intros [(x & I & E)|E]; [exists x|exists v]; (split; [apply in_app_iff|exact E]); [left; exact I|right; left; reflexivity].
Qed.
Lemma closed_snoc h v o p : closed (h ++ [(v, o)]) p <-> closed h p \/ exists error, v = EDisconnect p error.
Proof.
  unfold closed. rewrite map_app. split.
  - intros (x & I). apply in_app_iff in I. destruct I as [I|[E|[]]]; [left; eauto|right; cbn in E; eauto].
  - intros [(x & I)|(x & ->)]; exists x; apply in_app_iff; [left; exact I|right; left; reflexivity].
Qed.
Record pinv (h : history) (s : rpc) : Prop := {
  p_count : length (ports s) = count_connects h;
  p_conn : forall p, In (OConnect p) (outputs h) <-> p < length (ports s);
  p_events : forall p, noticed h p \/ closed h p -> p < length (ports s);
  p_listens : forall p, listens p s = true <-> p < length (ports s) /\ ~ closed h p;
  p_failing : forall p, failing p s = true <-> noticed h p;
  p_usable : forall p, usable h p <-> port s = Some p /\ failing p s = false;
  p_port : forall p, port s = Some p -> p < length (ports s) }.
Lemma connects_snoc h v o : count_connects (h ++ [(v, o)]) = count_connects h + length (filter (fun x => match x with OConnect _ => true | _ => false end) o).
Proof. unfold count_connects. rewrite outputs_snoc, filter_app, app_length. reflexivity. Qed.
Lemma pinv_init : pinv [] client.
Proof.
  constructor; cbn; try reflexivity; try (intros; discriminate); try lia.
  - intros p [(v & [] & _)|(er & [])].
  - intros p. unfold listens. cbn. destruct p; cbn; (split; [discriminate|lia]).
  - intros p. unfold failing. cbn. destruct p; cbn; (split; [discriminate|intros (v & [] & _)]).
  - intros p. split; [|intros [H _]; discriminate]. intros (h1 & v & o & h2 & E & _). destruct h1; discriminate.
Qed.
Definition connect_free (o : list output) : Prop := forall p, ~ In (OConnect p) o.
Lemma free_filter o : connect_free o -> filter (fun x => match x with OConnect _ => true | _ => false end) o = [].
Proof. intros F. destruct (filter _ o) as [|x l] eqn:E; [reflexivity|]. assert (I : In x (x :: l)) by (left; reflexivity). rewrite <- E in I. apply filter_In in I. destruct x; [exfalso; eapply F, I| |]; destruct I; discriminate. Qed.
(** Same ports, no connections, no matter what happens to promises *)
Lemma pinv_same h s s' v o : pinv h s -> connect_free o -> ports s' = ports s -> port s' = port s -> (forall p, harmless p v) -> pinv (h ++ [(v, o)]) s'.
Proof.
  intros [] F P Q Hv. assert (Nv : forall p, v <> EError p /\ v <> EDisconnect p true /\ forall er, v <> EDisconnect p er).
  { intros p. specialize (Hv p). destruct v; cbn in Hv; try contradiction; repeat split; intros; try discriminate; congruence. }
  constructor; rewrite ?P, ?Q.
  - rewrite connects_snoc, free_filter by exact F. cbn [length]. lia.
  - intros p. rewrite outputs_snoc, in_app_iff, <- p_conn0. split; [intros [X|X]; [exact X|exfalso; eapply F, X]|auto].
  - intros p. rewrite noticed_snoc, closed_snoc. destruct (Nv p) as (N1 & N2 & N3). intros [[X|[X|X]]|[X|(er & X)]]; try contradiction; [apply p_events0; auto|apply p_events0; auto|exfalso; eapply N3, X].
  - intros p. unfold listens. rewrite P. fold (listens p s). rewrite p_listens0, closed_snoc. destruct (Nv p) as (N1 & N2 & N3). split; intros [A B]; (split; [exact A|]); intros X; apply B; [destruct X as [X|(er & X)]; [exact X|exfalso; eapply N3, X]|left; exact X].
  - intros p. unfold failing. rewrite P. fold (failing p s). rewrite p_failing0, noticed_snoc. destruct (Nv p) as (N1 & N2 & N3). tauto.
  - intros p. unfold failing. rewrite P. fold (failing p s). rewrite <- p_usable0, usable_snoc. specialize (Hv p). split; [intros [X|[X _]]; [exfalso; eapply F, X|exact X]|auto].
  - intros p. apply p_port0.
Qed.
Lemma settles_free f cs : connect_free (map (fun c => OSettle c f) cs).
Proof. intros p H. apply in_map_iff in H. destruct H as (x & E & _). discriminate. Qed.
(** A new port *)
Lemma pinv_connect h s s' connect post o : pinv h s -> (forall p, ~ usable h p) -> connect_free o ->
  ports s' = ports s ++ [mkPort false true] -> port s' = Some (length (ports s)) -> pinv (h ++ [(ECall connect post, OConnect (length (ports s)) :: o)]) s'.
Proof.
  intros [] Nu F P Q. constructor; rewrite ?P, ?Q, ?app_length; cbn [length].
  - rewrite connects_snoc. cbn [filter]. rewrite free_filter by exact F. cbn [length]. lia.
  - intros p. rewrite outputs_snoc, in_app_iff. cbn [In]. rewrite p_conn0. split; [intros [X|[X|X]]; [lia|injection X as <-; lia|exfalso; eapply F, X]|].
    intros L. destruct (Nat.eq_dec p (length (ports s))) as [->|]; [auto|left; lia].
  - intros p. rewrite noticed_snoc, closed_snoc. intros X. assert (p < length (ports s)); [|lia]. apply p_events0. destruct X as [[X|[X|X]]|[X|(er & X)]]; try discriminate; auto.
  - intros p. unfold listens. rewrite P, closed_snoc. assert (Z : forall er, ECall connect post <> EDisconnect p er) by discriminate.
    destruct (Nat.lt_trichotomy p (length (ports s))) as [L|[->|L]].
    + rewrite nth_error_app1 by exact L. fold (listens p s). rewrite p_listens0. split; intros [A B]; (split; [lia|]); intros X; apply B; [destruct X as [X|(er & X)]; [exact X|discriminate]|left; exact X].
    + rewrite nth_error_app2, Nat.sub_diag by lia. cbn. split; [intros _|reflexivity]. split; [lia|]. intros [X|(er & X)]; [|discriminate]. assert (length (ports s) < length (ports s)) by (apply p_events0; auto). lia.
    + rewrite nth_error_app2 by lia. destruct (p - length (ports s)) as [|[|k]] eqn:E; [lia| |]; cbn; (split; [discriminate|lia]).
  - intros p. unfold failing. rewrite P, noticed_snoc. destruct (Nat.lt_trichotomy p (length (ports s))) as [L|[->|L]].
    + rewrite nth_error_app1 by exact L. fold (failing p s). rewrite p_failing0. split; [auto|]. intros [X|[X|X]]; [exact X|discriminate|discriminate].
    + rewrite nth_error_app2, Nat.sub_diag by lia. cbn. split; [discriminate|]. intros [X|[X|X]]; try discriminate. assert (length (ports s) < length (ports s)) by (apply p_events0; auto). lia.
    + rewrite nth_error_app2 by lia. destruct (p - length (ports s)) as [|[|k]] eqn:E; [lia| |]; cbn; (split; [discriminate|]); (intros [X|[X|X]]; try discriminate; assert (p < length (ports s)) by (apply p_events0; auto); lia).
  - intros p. rewrite usable_snoc. cbn [In]. split.
    + intros [[X|X]|[X _]]; [injection X as <-|exfalso; eapply F, X|exfalso; eapply Nu, X]. split; [reflexivity|]. unfold failing. rewrite P, nth_error_app2, Nat.sub_diag by lia. reflexivity.
    + intros [X _]. injection X as <-. auto.
  - intros p X. injection X as <-. lia.
Qed.
Lemma get_port_exact h s connect : pinv h s ->
  (exists p, usable h p /\ getPort connect s = Some (p, [], s)) \/
  (forall p, ~ usable h p) /\ getPort connect s = if connect then Some (length (ports s), [OConnect (length (ports s))], mkRpc (drawn s) (Some (length (ports s))) (ports s ++ [mkPort false true]) (promiseMap s) (calls s) (settled s)) else None.
Proof.
  intros []. unfold getPort. destruct (port s) as [p|] eqn:P; [destruct (failing p s) eqn:F|].
  - right. split; [intros q U; apply p_usable0 in U; destruct U; congruence|]. unfold connected. destruct connect; reflexivity.
  - left. exists p. split; [apply p_usable0; auto|reflexivity].
  - right. split; [intros q U; apply p_usable0 in U; destruct U; congruence|]. unfold connected. destruct connect; reflexivity.
Qed.
Lemma pinv_step e h s v o s' : pinv h s -> step e s v = Some (o, s') -> pinv (h ++ [(v, o)]) s'.
Proof.
  intros Pv H. destruct v as [connect post|p m|p er|p]; cbn [step] in H.
  - injection H as H. unfold sendMessage in H. destruct (get_port_exact h s connect Pv) as [(p & Up & G)|[Nu G]]; rewrite G in H; [|destruct connect].
    + destruct post; injection H as <- <-; (eapply pinv_same; [exact Pv| |reflexivity|reflexivity|intros q; exact Logic.I]); intros q [X|[]]; discriminate.
    + destruct post; injection H as <- <-; (eapply pinv_connect; [exact Pv|exact Nu| |reflexivity|reflexivity]); intros q [X|[]]; discriminate.
    + injection H as <- <-. eapply pinv_same; [exact Pv| |reflexivity|reflexivity|intros q; exact Logic.I]. intros q [X|[]]; discriminate.
  - destruct (listens p s); [|discriminate]. injection H as H. rewrite message_exact in H.
    destruct (told e m) as [[id f]|]; [destruct (map_get id (promiseMap s)) as [c|]|].
    + pose proof (settle_spec c f s) as S. destruct (settle c f s) as [o1 s1]. injection H as <- <-. destruct S as (A1 & A2 & A3 & A4 & A5 & A6 & A7 & A8 & A9 & A10). rewrite A9.
      eapply pinv_same; [exact Pv|apply settles_free| | |intros q; exact Logic.I]; (destruct (final f); [cbn [forget ports port]|]); assumption.
    + injection H as <- <-. eapply pinv_same; [exact Pv|intros q []|reflexivity|reflexivity|intros q; exact Logic.I].
    + injection H as <- <-. eapply pinv_same; [exact Pv|intros q []|reflexivity|reflexivity|intros q; exact Logic.I].
  - destruct (listens p s) eqn:L; [|discriminate]. injection H as H. pose proof Pv as []. unfold disconnected in H. cbn [promiseMap] in H. set (s0 := mkRpc _ _ _ _ _ _) in H. set (f := if _ : bool then _ else _) in H.
    pose proof (settle_all_spec f (map snd (promiseMap s)) s0) as S. destruct (settle_all _ f s0) as [o1 s1]. injection H as <- <-. destruct S as (A1 & A2 & A3 & A4 & A5 & A6 & A7 & A8 & A9 & A10). rewrite A9. clear A9 A10. unfold s0 in *. cbn [drawn port ports promiseMap calls settled] in *.
    set (o := map _ _). assert (F : connect_free o) by apply settles_free. apply p_listens0 in L. destruct L as [L Nc].
    assert (Ln : exists x, nth_error (ports s) p = Some x) by (destruct (nth_error (ports s) p) eqn:E; [eauto|apply nth_error_None in E; lia]). destruct Ln as (x & Ln).
    constructor; unfold listens, failing; cbn [ports port]; rewrite ?A3, ?update_length.
    + rewrite connects_snoc, free_filter by exact F. cbn [length]. lia.
    + intros q. rewrite outputs_snoc, in_app_iff, <- p_conn0. split; [intros [X|X]; [exact X|exfalso; eapply F, X]|auto].
    + intros q. rewrite noticed_snoc, closed_snoc. intros [[X|[X|X]]|[X|(er2 & X)]]; [apply p_events0; auto|discriminate|injection X as -> ->; exact L|apply p_events0; auto|injection X as -> ->; exact L].
    + intros q. rewrite update_nth, closed_snoc. destruct (Nat.eqb_spec p q) as [<-|Ne].
      * rewrite Ln. cbn. split; [discriminate|]. intros [_ X]. exfalso. apply X. eauto.
      * fold (listens q s). rewrite p_listens0. split; intros [A B]; (split; [exact A|]); intros X; apply B; [destruct X as [X|(er2 & X)]; [exact X|congruence]|auto].
    + intros q. rewrite update_nth, noticed_snoc. destruct (Nat.eqb_spec p q) as [<-|Ne].
      * rewrite Ln. cbn [pError]. rewrite orb_true_iff, p_failing0. split; (intros [X|X]; [auto|]); [subst er; auto|destruct X as [X|X]; [discriminate|injection X as ->; auto]].
      * fold (failing q s). rewrite p_failing0. split; [auto|]. intros [X|[X|X]]; [exact X|discriminate|congruence].
    + intros q. rewrite A2, usable_snoc. cbn [harmless]. split; [intros [X|[_ []]]; exfalso; eapply F, X|intros [X _]; discriminate].
    + intros q X. rewrite A2 in X. discriminate.
  - destruct (nth_error (ports s) p) as [x|] eqn:E; [|discriminate]. injection H as <- <-. pose proof Pv as []. assert (L : p < length (ports s)) by (apply nth_error_Some; congruence).
    constructor; unfold listens, failing; cbn [ports port]; rewrite ?update_length.
    + rewrite connects_snoc. cbn [length filter]. lia.
    + intros q. rewrite outputs_snoc, app_nil_r. apply p_conn0.
    + intros q. rewrite noticed_snoc, closed_snoc. intros [[X|[X|X]]|[X|(er2 & X)]]; [apply p_events0; auto|injection X as ->; exact L|discriminate|apply p_events0; auto|discriminate].
    + intros q. rewrite update_nth, closed_snoc. assert (K : closed h q <-> closed h q \/ exists er, EError p = EDisconnect q er) by (split; [auto|intros [K|(er & K)]; [exact K|discriminate]]). rewrite <- K, <- p_listens0. unfold listens. destruct (Nat.eqb_spec p q) as [<-|Ne]; [rewrite E|]; reflexivity.
    + intros q. rewrite update_nth, noticed_snoc. destruct (Nat.eqb_spec p q) as [<-|Ne].
      * rewrite E. cbn [pError]. split; auto.
      * fold (failing q s). rewrite p_failing0. split; [auto|]. intros [X|[X|X]]; [exact X|congruence|discriminate].
    + intros q. rewrite usable_snoc, p_usable0, update_nth. cbn [In harmless]. unfold failing. destruct (Nat.eqb_spec p q) as [<-|Ne].
      * rewrite E. cbn [pError]. split; [intros [[]|[_ X]]; contradiction|intros [_ X]; discriminate].
      * split; [intros [[]|[X _]]; exact X|intros X; right; auto].
    + exact p_port0.
Qed.
Lemma runs_pinv e h s : runs e client h s -> pinv h s.
Proof.
  revert s. induction h as [|[v o] h IH] using rev_ind; intros s H; [inversion H; subst; apply pinv_init|].
  apply runs_snoc in H. destruct H as (s1 & A & B). eapply pinv_step; [apply IH, A|exact B].
Qed.

(** ** What happens *)
Lemma settles_in h c : In c (settlements (outputs h)) <-> exists f, settles h c f.
Proof. apply settlements_in. Qed.
Lemma waits_state e h s c : inv e h s -> (waits h c <-> (exists p id, posted h p id c) /\ ~ In c (settled s)).
Proof. intros []. unfold waits. rewrite i_settled0, settles_in. split; intros [A B]; (split; [exact A|]); [intros (f & X); eapply B, X|intros f X; apply B; eauto]. Qed.
Lemma call_exact e h connect post o s' : unique e -> runs e client (h ++ [(ECall connect post, o)]) s' -> call_effects e h connect post o.
Proof.
  intros U H. apply runs_snoc in H. destruct H as (s & R & H). pose proof (runs_inv _ _ _ U R) as Iv. pose proof (runs_pinv _ _ _ R) as Pv. cbn [step] in H. injection H as H. unfold sendMessage in H.
  assert (Fr : fresh e h (gen e (drawn s))). { split; [eauto|]. intros p c P. apply (i_posted _ _ _ Iv) in P. destruct P as (_ & _ & k & Lk & E). apply U in E. lia. }
  pose proof (i_calls _ _ _ Iv) as C. pose proof (p_count _ _ Pv) as L. unfold call_effects, sends.
  destruct (get_port_exact h s connect Pv) as [(p & Up & G)|[Nu G]]; rewrite G in H; [left; exists p; split; [exact Up|]|right; split; [exact Nu|]; destruct connect].
  - destruct post; injection H as <- _; rewrite C; [eauto|reflexivity].
  - rewrite L in H. destruct post; injection H as <- _; eexists; (split; [reflexivity|]); rewrite C; [eauto|reflexivity].
  - injection H as <- _. rewrite C. reflexivity.
Qed.
Lemma settled_exact e h v o s' : unique e -> runs e client (h ++ [(v, o)]) s' -> forall c f, In (OSettle c f) o <-> settles_now e h v c f.
Proof.
  intros U H c f. destruct v as [connect post|p m|p er|p].
  - pose proof (call_exact _ _ _ _ _ _ U H) as E. apply runs_snoc in H. destruct H as (s & R & _). cbn [settles_now]. pose proof (runs_pinv _ _ _ R) as [].
    destruct E as [(p & Up & E)|[Nu E]].
    + unfold sends in E. destruct post.
      * destruct E as (id & _ & ->). split; [intros [X|[]]; discriminate|]. intros (-> & [(_ & _ & X)|(_ & X & _)]); [exfalso; eapply X, Up|discriminate].
      * subst o. cbn [In]. split; [intros [X|[]]; injection X as <- <-; split; [reflexivity|]; right; eauto 6|]. intros (-> & [(_ & _ & X)|(-> & _)]); [exfalso; eapply X, Up|left; reflexivity].
    + destruct connect; [destruct E as (o' & -> & E); unfold sends in E; destruct post|].
      * destruct E as (id & _ & ->). split; [intros [X|[X|[]]]; discriminate|]. intros (-> & [(_ & X & _)|(_ & X & _)]); discriminate.
      * subst o'. cbn [In]. split; [intros [X|[X|[]]]; [discriminate|]; injection X as <- <-; split; [reflexivity|]; right; auto|]. intros (-> & [(_ & X & _)|(-> & _)]); [discriminate|right; left; reflexivity].
      * subst o. cbn [In]. split; [intros [X|[]]; injection X as <- <-; split; [reflexivity|]; left; auto|]. intros (-> & [(-> & _)|(_ & _ & [X|(p & X)])]); [left; reflexivity|discriminate|exfalso; eapply Nu, X].
  - apply runs_snoc in H. destruct H as (s & R & H). pose proof (runs_inv _ _ _ U R) as Iv. cbn [step] in H. destruct (listens p s); [|discriminate]. injection H as H. rewrite message_exact in H. cbn [settles_now]. rewrite (waits_state _ _ _ c Iv). pose proof Iv as [].
    destruct (told e m) as [[id g]|] eqn:T; [destruct (map_get id (promiseMap s)) as [x|] eqn:G|].
    + apply told_tells in T. apply get_some in G; [|assumption]. pose proof (proj1 (i_map0 _ _) G) as K. apply kept_posted in K. destruct K as (q & K). pose proof (settle_spec x g s) as S. destruct (settle x g s) as [o1 s1]. injection H as <- _.
      destruct S as (_ & _ & _ & _ & _ & _ & _ & A8 & A9 & A10). split.
      * intros I. rewrite A9 in I. apply in_map_iff in I. destruct I as (y & E & I). injection E as -> ->. destruct (proj1 (A10 c) (or_introl I)) as [->|Y]; [|exfalso; apply (A8 _ I), Y]. split; [split; [eauto|apply A8, I]|eauto].
      * intros [[_ N] (q' & id' & P & Tf)]. destruct (tells_same _ _ _ _ _ _ T Tf) as [<- <-]. assert (c = x) as -> by (eapply i_ids0; eassumption). rewrite A9. destruct (proj2 (A10 x) (or_introl eq_refl)) as [X|X]; [|contradiction]. apply (in_map (fun c => OSettle c g)), X.
    + injection H as <- _. split; [intros []|]. intros [[_ N] (q' & id' & P & Tf)]. apply told_tells in T. destruct (tells_same _ _ _ _ _ _ T Tf) as [<- <-]. apply get_none in G. apply G. change id with (fst (id, c)). apply in_map. eapply i_wait0; eassumption.
    + injection H as <- _. split; [intros []|]. intros [_ (q' & id' & P & Tf)]. apply told_tells in Tf. congruence.
  - apply runs_snoc in H. destruct H as (s & R & H). pose proof (runs_inv _ _ _ U R) as Iv. pose proof (runs_pinv _ _ _ R) as Pv. cbn [step] in H. destruct (listens p s); [|discriminate]. injection H as H. cbn [settles_now]. rewrite (waits_state _ _ _ c Iv). pose proof Iv as [].
    unfold disconnected in H. cbn [promiseMap] in H. set (s0 := mkRpc _ _ _ _ _ _) in H. set (g := if _ : bool then _ else _) in H.
    assert (Fg : f = g <-> f = PortError /\ (er = true \/ noticed h p) \/ f = Disconnected /\ er = false /\ ~ noticed h p).
    { unfold g. rewrite <- (p_failing _ _ Pv p). destruct (failing p s), er; cbn [orb]; split; auto; (intros [[A B]|[A [B C]]]; auto; (discriminate || (destruct B; discriminate) || (exfalso; apply C; reflexivity))) || idtac. all: intros ->; auto; right; repeat split; discriminate. }
    rewrite <- Fg. pose proof (settle_all_spec g (map snd (promiseMap s)) s0) as S. destruct (settle_all _ g s0) as [o1 s1]. injection H as <- _. destruct S as (_ & _ & _ & _ & _ & _ & _ & A8 & A9 & A10). unfold s0 in A8, A10. cbn [settled] in A8, A10. split.
    + intros I. rewrite A9 in I. apply in_map_iff in I. destruct I as (y & E & I). injection E as -> ->. destruct (proj1 (A10 c) (or_introl I)) as [Y|Y]; [|exfalso; apply (A8 _ I), Y]. apply in_map_iff in Y. destruct Y as ((i, z) & E & Y). cbn in E. subst z. apply i_map0, kept_posted in Y. destruct Y as (q & Y). split; [split; [eauto|apply A8, I]|reflexivity].
    + intros [[(q & i & P) N] ->]. rewrite A9. destruct (proj2 (A10 c)) as [X|X]; [|apply (in_map (fun c => OSettle c g)), X|contradiction]. left. change c with (snd (i, c)). apply in_map. eapply i_wait0; eassumption.
  - apply runs_snoc in H. destruct H as (s & _ & H). cbn [step] in H. destruct (nth_error (ports s) p); [|discriminate]. injection H as <- _. reflexivity.
Qed.
