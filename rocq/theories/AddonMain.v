(** Consequences for the client in a browser; its work with backends. *)
From Verif Require Import GoBase Utf8 Utf8Dec JsonSpec JsonStr Json JsonProofs Compact CompactProofs Emacs Backend BackendSpec ReplySpec ReplyProofs Server ServerSpec ServerProofs Addon AddonSpec AddonProofs Sample.

(** ** Promises *)
Lemma settled_once e h s : unique e -> runs e client h s -> NoDup (settlements (outputs h)) /\ forall c f, settles h c f -> c < count_calls h.
Proof.
  intros U R. destruct (runs_inv _ _ _ U R). split; [assumption|]. intros c f H. rewrite <- i_calls. apply i_bound, i_settled, settlements_in. exists f. exact H.
Qed.
Lemma settled_same e h s c f g : unique e -> runs e client h s -> settles h c f -> settles h c g -> f = g.
Proof.
  intros U R. destruct (settled_once _ _ _ U R) as [D _]. unfold settles in *. induction (outputs h) as [|x l IH]; [intros []|]. cbn [In]. intros A B.
  destruct x as [p|p i y|y k]; cbn [settlements] in D; try (destruct A as [A|A]; [discriminate|]; destruct B as [B|B]; [discriminate|]; apply IH; assumption).
  inversion D as [|y' l' N D2]; subst. destruct A as [A|A], B as [B|B]; [congruence| | |apply IH; assumption]; exfalso; apply N, settlements_in; [injection A as -> ->|injection B as -> ->]; eauto.
Qed.
Lemma each_call e h s c : unique e -> runs e client h s -> c < count_calls h -> waits h c \/ exists f, settles h c f.
Proof.
  intros U R L. pose proof (runs_inv _ _ _ U R) as Iv. pose proof Iv as []. rewrite (waits_state _ _ _ c Iv). rewrite <- i_calls in L. rewrite <- settles_in, <- i_settled.
  destruct (in_dec Nat.eq_dec c (settled s)) as [I|N]; [auto|]. destruct (i_done _ L) as [X|X]; [contradiction|auto].
Qed.
Lemma posted_once e h s p id c p' id' c' : unique e -> runs e client h s -> posted h p id c -> posted h p' id' c' ->
  c < count_calls h /\ p < count_connects h /\ (c = c' <-> id = id') /\ (c = c' -> p = p').
Proof.
  intros U R A B. pose proof (runs_pinv _ _ _ R) as Pv. destruct (runs_inv _ _ _ U R). destruct (i_posted _ _ _ A) as (A1 & A2 & _). rewrite <- i_calls. rewrite <- (p_count _ _ Pv). split; [exact A1|]. split; [exact A2|].
  split; [split; intros ->|intros ->]; [eapply i_call; eassumption|eapply i_ids; eassumption|eapply i_call; eassumption].
Qed.
Lemma map_exact e h s id c : unique e -> runs e client h s -> (In (id, c) (promiseMap s) <-> kept e h id c).
Proof. intros U R. apply (runs_inv _ _ _ U R). Qed.
Lemma waiting_kept e h s id c p : unique e -> runs e client h s -> posted h p id c -> waits h c -> In (id, c) (promiseMap s).
Proof. intros U R P W. pose proof (runs_inv _ _ _ U R) as Iv. eapply (i_wait _ _ _ Iv); [exact P|]. apply (waits_state _ _ _ c Iv), W. Qed.

(** ** Disconnect *)
Lemma waits_snoc h v o c : waits (h ++ [(v, o)]) c -> waits h c \/ exists p id, In (OPost p id c) o.
Proof.
  intros [(p & id & P) N]. apply posted_snoc in P. destruct P as [P|P]; [|right; eauto]. left. split; [eauto|]. intros f X. apply (N f). unfold settles. rewrite outputs_snoc, in_app_iff. left. exact X.
Qed.
Lemma after_disconnect e h p error o s c : unique e -> runs e client (h ++ [(EDisconnect p error, o)]) s -> ~ waits (h ++ [(EDisconnect p error, o)]) c /\ forall q, ~ usable (h ++ [(EDisconnect p error, o)]) q.
Proof.
  intros U R. pose proof (settled_exact _ _ _ _ _ U R) as E. split.
  - intros W. pose proof W as [_ N]. apply waits_snoc in W. destruct W as [W|(q & id & I)].
    + assert (X : exists f, settles_now e h (EDisconnect p error) c f).
      { cbn [settles_now]. apply runs_snoc in R. destruct R as (s1 & R & _). pose proof (runs_pinv _ _ _ R) as Pv. destruct (failing p s1) eqn:F.
        - apply (p_failing _ _ Pv) in F. exists PortError. auto.
        - assert (Nn : ~ noticed h p) by (rewrite <- (p_failing _ _ Pv); congruence). destruct error; [exists PortError; auto|exists Disconnected; auto]. }
      destruct X as (f & X). apply E in X. apply (N f). unfold settles. rewrite outputs_snoc, in_app_iff. auto.
    + apply runs_snoc in R. destruct R as (s1 & R & St). cbn [step] in St. destruct (listens p s1); [|discriminate]. injection St as St. unfold disconnected in St. cbn [promiseMap] in St. set (s0 := mkRpc _ _ _ _ _ _) in St. set (g := if _ : bool then _ else _) in St.
      pose proof (settle_all_spec g (map snd (promiseMap s1)) s0) as Q. destruct (settle_all _ g s0) as [o1 s2]. injection St as <- _. destruct Q as (_ & _ & _ & _ & _ & _ & _ & _ & A9 & _). rewrite A9 in I. eapply settle_posts, I.
  - intros q Uq. apply usable_snoc in Uq. destruct Uq as [I|[_ []]]. apply runs_snoc in R. destruct R as (s1 & R & St). cbn [step] in St. destruct (listens p s1); [|discriminate]. injection St as St. unfold disconnected in St. cbn [promiseMap] in St. set (s0 := mkRpc _ _ _ _ _ _) in St. set (g := if _ : bool then _ else _) in St.
    pose proof (settle_all_spec g (map snd (promiseMap s1)) s0) as Q. destruct (settle_all _ g s0) as [o1 s2]. injection St as <- _. destruct Q as (_ & _ & _ & _ & _ & _ & _ & _ & A9 & _). rewrite A9 in I. eapply settles_free, I.
Qed.
Lemma usable_one e h s p q : runs e client h s -> usable h p -> usable h q -> p = q.
Proof. intros R A B. pose proof (runs_pinv _ _ _ R) as []. apply p_usable in A. apply p_usable in B. destruct A, B. congruence. Qed.
Lemma closed_dec h q : closed h q \/ ~ closed h q.
Proof.
  unfold closed. induction (map fst h) as [|x l IH]; [right; intros (er & [])|]. destruct IH as [(er & IH)|IH]; [left; exists er; right; exact IH|].
  destruct x as [| |p er|]; try (right; intros (er' & [X|X]); [discriminate|apply IH; eauto]). destruct (Nat.eq_dec p q) as [->|Ne]; [left; exists er; left; reflexivity|right; intros (er' & [X|X]); [congruence|apply IH; eauto]].
Qed.
(** Without early failures *)
Lemma single_port e h s : unique e -> runs e client h s -> (forall p, ~ In (EError p) (map fst h)) ->
  (forall p, In (OConnect p) (outputs h) -> ~ closed h p -> usable h p) /\ (forall p id c, posted h p id c -> waits h c -> usable h p).
Proof.
  intros U. revert s. induction h as [|[v o] h IH] using rev_ind; intros s R Ne; [split; [intros p []|intros p id c []]|].
  pose proof R as R0. apply runs_snoc in R. destruct R as (s1 & R & St). destruct (IH _ R) as [I1 I2]; [intros p X; apply (Ne p); rewrite map_app, in_app_iff; auto|].
  assert (Nv : forall p, v <> EError p) by (intros p ->; apply (Ne p); rewrite map_app, in_app_iff; right; left; reflexivity).
  assert (Keep : forall p, usable h p -> (forall q er, v <> EDisconnect q er) -> usable (h ++ [(v, o)]) p).
  { intros p Up Nd. apply usable_snoc. right. split; [exact Up|]. destruct v; cbn [harmless]; try exact Logic.I; [eapply Nd; reflexivity|exfalso; eapply Nv; reflexivity]. }
  assert (Wt : forall c, waits (h ++ [(v, o)]) c -> (exists p id, posted h p id c) -> waits h c).
  { intros c [_ N] P. split; [exact P|]. intros f X. apply (N f). unfold settles. rewrite outputs_snoc, in_app_iff. left. exact X. }
  destruct v as [connect post|p m|p er|p].
  - pose proof (call_exact _ _ _ _ _ _ U R0) as E. assert (Nd : forall q er, ECall connect post <> EDisconnect q er) by discriminate.
    assert (Nq : forall q, (forall p, ~ usable h p) -> In (OConnect q) (outputs h) -> closed h q).
    { intros q Nu C. destruct (closed_dec h q) as [K|K]; [exact K|]. exfalso. apply (Nu q), I1; assumption. }
    destruct E as [(p & Up & E)|[Nu E]].
    + assert (Oc : connect_free o /\ forall q id c, In (OPost q id c) o -> q = p). { unfold sends in E. destruct post; [destruct E as (id & _ & ->)|subst o]; (split; [intros q [X|[]]; discriminate|]); intros q i c [X|[]]; [injection X as <- _ _; reflexivity|discriminate]. }
      destruct Oc as [Of Oq]. split.
      * intros q C Nc. rewrite outputs_snoc, in_app_iff in C. destruct C as [C|C]; [|exfalso; eapply Of, C]. apply Keep; [apply I1; [exact C|]|exact Nd]. intros X. apply Nc, closed_snoc. auto.
      * intros q id c P W. apply posted_snoc in P. destruct P as [P|P]; [apply Keep; [eapply I2; [exact P|apply Wt; [exact W|eauto]]|exact Nd]|]. rewrite (Oq _ _ _ P). apply Keep; [exact Up|exact Nd].
    + split.
      * intros q C Nc. rewrite outputs_snoc, in_app_iff in C. destruct C as [C|C]; [|apply usable_snoc; auto]. exfalso. apply Nc, closed_snoc. left. apply Nq; assumption.
      * intros q id c P W. apply posted_snoc in P. destruct P as [P|P]; [exfalso; eapply Nu, I2; [exact P|apply Wt; [exact W|eauto]]|].
        destruct connect; [|subst o; destruct P as [P|[]]; discriminate]. destruct E as (o' & -> & E). unfold sends in E. apply usable_snoc. left.
        destruct post; [destruct E as (id' & _ & ->)|subst o']; cbn in P |- *; destruct P as [P|[P|[]]]; try discriminate. injection P as <- <- <-. auto.
  - pose proof (settled_exact _ _ _ _ _ U R0) as E. assert (Oo : forall x, In x o -> exists c f, x = OSettle c f).
    { cbn [step] in St. destruct (listens p s1); [|discriminate]. injection St as St. rewrite message_exact in St. destruct (told e m) as [[id f]|]; [destruct (map_get id (promiseMap s1)) as [c|]|]; [|injection St as <- _; intros x []|injection St as <- _; intros x []].
      pose proof (settle_spec c f s1) as Q. destruct (settle c f s1) as [o1 s2]. injection St as <- _. destruct Q as (_ & _ & _ & _ & _ & _ & _ & _ & A9 & _). rewrite A9. intros x X. apply in_map_iff in X. destruct X as (y & <- & _). eauto. }
    split.
    + intros q C Nc. rewrite outputs_snoc, in_app_iff in C. destruct C as [C|C]; [|destruct (Oo _ C) as (c & f & X); discriminate]. apply Keep; [apply I1; [exact C|]|discriminate]. intros X. apply Nc, closed_snoc. auto.
    + intros q id c P W. apply posted_snoc in P. destruct P as [P|P]; [|destruct (Oo _ P) as (c' & f & X); discriminate]. apply Keep; [eapply I2; [exact P|apply Wt; [exact W|eauto]]|discriminate].
  - destruct (after_disconnect _ _ _ _ _ _ 0 U R0) as [_ Nu]. split.
    + intros q C Nc. exfalso. pose proof (runs_pinv _ _ _ R) as Pv. assert (L : listens p s1 = true) by (cbn [step] in St; destruct (listens p s1); [reflexivity|discriminate]).
      apply (p_listens _ _ Pv) in L. destruct L as [L1 L2]. apply (p_conn _ _ Pv) in L1.
      assert (C' : In (OConnect q) (outputs h)). { rewrite outputs_snoc, in_app_iff in C. destruct C as [C|C]; [exact C|]. exfalso. apply (Nu q), usable_snoc. auto. }
      assert (q = p) as ->. { eapply usable_one; [exact R|apply I1; [exact C'|]|apply I1; assumption]. intros X. apply Nc, closed_snoc. auto. }
      apply Nc, closed_snoc. eauto.
    + intros q id c P W. exfalso. destruct (after_disconnect _ _ _ _ _ _ c U R0) as [N _]. contradiction.
  - exfalso. eapply Nv. reflexivity.
Qed.
Lemma own_disconnect e h p error o s : unique e -> runs e client (h ++ [(EDisconnect p error, o)]) s -> (forall q, ~ In (EError q) (map fst h)) ->
  forall c f, In (OSettle c f) o -> exists id, posted h p id c.
Proof.
  intros U R Ne c f I. apply (settled_exact _ _ _ _ _ U R) in I. cbn [settles_now] in I. destruct I as [W _]. apply runs_snoc in R. destruct R as (s1 & R & St). destruct (single_port _ _ _ U R Ne) as [I1 I2].
  pose proof W as [(q & id & P) _]. assert (q = p) as ->; [|eauto]. cbn [step] in St. destruct (listens p s1) eqn:L; [|discriminate]. pose proof (runs_pinv _ _ _ R) as Pv. apply (p_listens _ _ Pv) in L. destruct L as [L1 L2]. apply (p_conn _ _ Pv) in L1.
  eapply usable_one; [exact R|eapply I2; eassumption|apply I1; assumption].
Qed.

(** ** Backends *)
Lemma member_id i r x v : member [(name (b "id"), i); (name (b "result"), r); (name (b "error"), x)] (b "id") v <-> v = i.
Proof. rewrite <- property_some. cbn. split; congruence. Qed.
Lemma member_result i r x v : member [(name (b "id"), i); (name (b "result"), r); (name (b "error"), x)] (b "result") v <-> v = r.
Proof. rewrite <- property_some. cbn. split; congruence. Qed.
Lemma member_error i r x v : member [(name (b "id"), i); (name (b "result"), r); (name (b "error"), x)] (b "error") v <-> v = x.
Proof. rewrite <- property_some. cbn. split; congruence. Qed.
Definition answered (e : env) (r x : value) (f : fate) : Prop :=
  f = Resolved r /\ ~ falsy e r \/ f = Failed x /\ falsy e r /\ ~ falsy e x \/ f = Invalid /\ falsy e r /\ falsy e x.
Lemma answer_tells e w id r x f : num e w = Some id -> (tells e id (VObj [(name (b "id"), VNum w); (name (b "result"), r); (name (b "error"), x)]) f <-> answered e r x f).
Proof.
  intros N. unfold answered. split.
  - intros H. remember (VObj _) as m eqn:Em in H. destruct H as [l t v A B C D|l t v A B C D F|l t A B C D]; injection Em as ->.
    + apply member_result in C. subst v. auto.
    + apply member_error in D. subst v. right. left. split; [reflexivity|]. split; [apply C, member_result; reflexivity|exact F].
    + right. right. split; [reflexivity|]. split; [apply C, member_result; reflexivity|apply D, member_error; reflexivity].
  - intros [(-> & F)|[(-> & F & G)|(-> & F & G)]].
    + eapply te_result; [apply member_id; reflexivity|exact N|apply member_result; reflexivity|exact F].
    + eapply te_error; [apply member_id; reflexivity|exact N|intros r' M; apply member_result in M; subst r'; exact F|apply member_error; reflexivity|exact G].
    + eapply te_nothing; [apply member_id; reflexivity|exact N|intros r' M; apply member_result in M; subst r'; exact F|intros r' M; apply member_error in M; subst r'; exact G].
Qed.
Lemma runes_nil s : runes_of s = [] -> s = [].
Proof. pose proof (pieces_ok s) as (A & B & _). destruct (pieces s); cbn in *; [auto|]. intros H. rewrite <- A in H. discriminate. Qed.
Lemma text_falsy e s : falsy e (text s) -> s = [].
Proof. unfold text. intros H. inversion H. apply runes_nil. symmetry. assumption. Qed.
Lemma shown_object c v : shown c v -> exists l, v = VObj l.
Proof. induction 1 as [k t c v _ IH|k t ls vs kn tn v _ _ _ (l & _ & ->)|k t p ch vs kn tn ps v _ _ _ _ _ (l & _ & ->)]; eauto. Qed.
Lemma result_true e r v : result_shown r v -> (forall x, r <> PError x) -> ~ falsy e v.
Proof.
  intros H N F. destruct H as [x|f ver caps v (l & _ & ->)|p s v (l & _ & ->)|c v H| |urls vs H|urls v (l & _ & ->)]; try (now inversion F).
  - eapply N. reflexivity.
  - apply shown_object in H. destruct H as (l & ->). inversion F.
Qed.
(** Response of the backend settles the promise *)
Lemma backend_answer e c tr k t p w id m : responds c tr k t -> nth_error (received tr) k = Some p -> pid p = Some w -> jnumber w -> num e w = Some id -> jdocument m t ->
  (exists x, (meaning (c_dec c) p (Err x) \/ (exists i o y, nth_error (started 0 tr) i = Some (k, o) /\ replied (of_thread i (inner tr)) (PError y) /\ x = c_text c y)) /\
    (x <> [] -> tells e id m (Failed (text x)))) \/
  (exists i o r v, nth_error (started 0 tr) i = Some (k, o) /\ replied (of_thread i (inner tr)) r /\ result_shown r v /\ tells e id m (Resolved v)).
Proof.
  intros R P I J N D. assert (Is : id_shown (pid p) (VNum w)) by (rewrite I; cbn [id_shown]; constructor; exact J).
  assert (Fail : forall x, response_shown (pid p) VNull (text x) t -> x <> [] -> tells e id m (Failed (text x))).
  { intros x H Nx. specialize (H _ Is). rewrite (document_same _ _ _ D H). apply answer_tells; [exact N|]. right. left. split; [reflexivity|]. split; [constructor|]. intros F. apply Nx. eapply text_falsy, F. }
  destruct R as [p' x A B H|p' q i o y A B C Rp H|p' q i o r v A B C Rp Ne S H]; rewrite P in A; injection A as <-.
  - left. exists x. split; [left; exact B|apply Fail, H].
  - left. exists (c_text c y). split; [right; eauto 6|apply Fail, H].
  - right. exists i, o, r, v. split; [exact C|]. split; [exact Rp|]. split; [exact S|]. specialize (H _ Is). rewrite (document_same _ _ _ D H). apply answer_tells; [exact N|]. left. split; [reflexivity|]. eapply result_true; eassumption.
Qed.

(** The sample backend *)
Lemma sample_tells e w id (j : json) v m f : jnumber w -> num e w = Some id -> v = value_of j -> jdocument m (sample_response w (Ok (encode j))) -> (tells e id m f <-> answered e v VNull f).
Proof.
  intros J N -> D. unfold sample_response in D. pose proof (obj3 _ _ _ _ _ _ (compact_value _ _ (jt_num _ J)) (encode_ok j) jt_null) as H. rewrite (document_same _ _ _ D H). apply answer_tells, N.
Qed.
Lemma sleep_tells e w id t m f : zeroes e -> jnumber w -> num e w = Some id -> jdocument m (sleep_response w t) ->
  (tells e id m f <-> f = if Z.eqb t 0 then Invalid else Resolved (VNum (integer t))).
Proof.
  intros Z J N D. unfold sleep_response in D. cbn [Sleep fst] in D. rewrite (sample_tells e w id (JInt t) (VNum (integer t)) m f J N eq_refl D).
  destruct (Z t _ (number_ok t)) as (d & E & Q). cbn [value_of] in E. injection E as <-. unfold answered.
  assert (Fz : falsy e (VNum (integer t)) <-> t = 0%Z). { rewrite <- Q. split; [intros F; inversion F; assumption|intros F; constructor; exact F]. }
  assert (Fn : falsy e VNull) by constructor. rewrite Fz. destruct (Z.eqb_spec t 0) as [E|E]; split; [intros [(_ & X)|[(_ & _ & X)|(X & _)]]; [contradiction|contradiction|exact X]|auto|intros [(X & _)|[(_ & X & _)|(_ & X & _)]]; [exact X|contradiction|contradiction]|auto].
Qed.
Lemma sqrt_tells e negative root w id x m : jnumber w -> num e w = Some id -> jdocument m (sqrt_response negative root w x) ->
  negative x = true -> tells e id m (Failed (text (b "square root of negative number"))).
Proof.
  intros J N D H. unfold sqrt_response, Sqrt in D. rewrite H in D. unfold sample_response in D.
  pose proof (obj3 _ _ _ _ _ _ (compact_value _ _ (jt_num _ J)) jt_null (encode_ok (JStr (b "square root of negative number")))) as Q. rewrite (document_same _ _ _ D Q). apply answer_tells; [exact N|].
  right. left. split; [reflexivity|]. split; [constructor|]. intros F. apply text_falsy in F. discriminate.
Qed.
Lemma sleep_duration t : (- 2 ^ 63 <= t < 2 ^ 63)%Z -> fst (Sleep t) = t /\ ((t <= 0)%Z -> snd (Sleep t) = None) /\ ((0 < t <= 9223372036854)%Z -> snd (Sleep t) = Some (t * 1000000)%Z).
Proof.
  intros R. unfold Sleep. cbn [fst snd]. split; [reflexivity|]. split; intros H.
  - destruct (Z.ltb_spec 0 t); [lia|reflexivity].
  - destruct (Z.ltb_spec 0 t); [|lia]. cbv zeta. rewrite wrap64_id by lia. destruct (Z.ltb_spec 0 (t * 1000000)); [reflexivity|lia].
Qed.
