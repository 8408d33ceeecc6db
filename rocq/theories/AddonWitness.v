(** Histories of the client in a browser. *)
From Verif Require Import GoBase Utf8 JsonSpec JsonStr Json JsonProofs Backend BackendSpec ReplySpec Addon AddonSpec AddonProofs AddonMain Sample.

Definition num10 (t : str) : option N :=
  if forallb (fun c => (48 <=? N_of_ascii c)%N && (N_of_ascii c <=? 57)%N) t && negb (length t =? 0)
  then Some (Z.to_N (fold_left (fun acc c => 10 * acc + Z.of_N (N_of_ascii c - 48))%Z t 0%Z)) else None.
Definition counter : env := mkEnv num10 N.of_nat.
Definition constant : env := mkEnv num10 (fun _ => 7%N).
Lemma counter_unique : unique counter.
Proof. intros i j. cbn. lia. Qed.
Lemma counter_zeroes : zeroes counter.
Proof.
  intros n v (d & [(L & -> & N & F & E)|(L & -> & N & F & E)]).
  - exists d. split; [reflexivity|]. cbn [num counter]. unfold num10. assert (B : forallb (fun c => (48 <=? N_of_ascii c)%N && (N_of_ascii c <=? 57)%N) d = true).
    { apply forallb_forall. intros c I. rewrite Forall_forall in F. specialize (F _ I). lia. }
    rewrite B, E. destruct d; [contradiction|]. cbn [length Nat.eqb negb andb]. split; [intros H; injection H; lia|intros ->; reflexivity].
  - exists (b "-" ++ d). split; [reflexivity|]. cbn. split; [discriminate|lia].
Qed.
Lemma execute_runs e vs : forall s h s', execute e s vs = Some (h, s') -> runs e s h s'.
Proof.
  induction vs as [|v vs IH]; intros s h s' H; cbn [execute] in H; [injection H as <- <-; constructor|].
  destruct (step e s v) as [[o s1]|] eqn:E; [|discriminate]. destruct (execute e s1 vs) as [[h2 s2]|] eqn:E2; [|discriminate]. injection H as <- <-. econstructor; [exact E|apply IH, E2].
Qed.
Definition response_to (id : str) (result error : value) : value := VObj [(name (b "id"), VNum id); (name (b "result"), result); (name (b "error"), error)].
(** Two requests, an error and a result in another order, a request that is not answered *)
Definition ordinary : list event :=
  [ECall true true; ECall true true; EMessage 0 (response_to (b "1") VNull (text (b "bad"))); EMessage 0 (response_to (b "0") (VBool true) VNull); ECall true true; EDisconnect 0 false; ECall false true; ECall true false].
Definition ordinary_history : history :=
  [(ECall true true, [OConnect 0; OPost 0 0%N 0]); (ECall true true, [OPost 0 1%N 1]);
   (EMessage 0 (response_to (b "1") VNull (text (b "bad"))), [OSettle 1 (Failed (text (b "bad")))]);
   (EMessage 0 (response_to (b "0") (VBool true) VNull), [OSettle 0 (Resolved (VBool true))]);
   (ECall true true, [OPost 0 2%N 2]); (EDisconnect 0 false, [OSettle 2 Disconnected]);
   (ECall false true, [OSettle 3 NotConnected]); (ECall true false, [OConnect 1; OSettle 4 NotPosted])].
Lemma ordinary_runs : exists s, runs counter client ordinary_history s.
Proof. eexists. apply execute_runs with (vs := ordinary). vm_compute. reflexivity. Qed.

(** Sleep(0) *)
Definition zero_history : history :=
  [(ECall true true, [OConnect 0; OPost 0 0%N 0]); (EMessage 0 (response_to (b "0") (VNum (b "0")) VNull), [OSettle 0 Invalid])].
Lemma zero_runs : exists s, runs counter client zero_history s /\ In (0%N, 0) (promiseMap s).
Proof. eexists. split; [apply execute_runs with (vs := map fst zero_history); vm_compute; reflexivity|]. left. reflexivity. Qed.
(** A failure is noticed, another connection, then the event of the first port *)
Definition late_history : history :=
  [(ECall true true, [OConnect 0; OPost 0 0%N 0]); (EError 0, []); (ECall true true, [OConnect 1; OPost 1 1%N 1]); (EDisconnect 0 true, [OSettle 0 PortError; OSettle 1 PortError])].
Lemma late_runs : exists s, runs counter client late_history s.
Proof. eexists. apply execute_runs with (vs := map fst late_history). vm_compute. reflexivity. Qed.
(** Two requests with the same identifier: the first one never gets the response *)
Definition same_history : history :=
  [(ECall true true, [OConnect 0; OPost 0 7%N 0]); (ECall true true, [OPost 0 7%N 1]); (EMessage 0 (response_to (b "7") (VBool true) VNull), [OSettle 1 (Resolved (VBool true))])].
Lemma same_runs : exists s, runs constant client same_history s.
Proof. eexists. apply execute_runs with (vs := map fst same_history). vm_compute. reflexivity. Qed.

Lemma same_refuted : ~ forall e h v o s, runs e client (h ++ [(v, o)]) s -> forall c f, In (OSettle c f) o <-> settles_now e h v c f.
Proof.
  intros H. destruct same_runs as (s & R). specialize (H constant [(ECall true true, [OConnect 0; OPost 0 7%N 0]); (ECall true true, [OPost 0 7%N 1])] _ _ _ R 0 (Resolved (VBool true))).
  assert (I : In (OSettle 0 (Resolved (VBool true))) [OSettle 1 (Resolved (VBool true))]).
  { apply H. cbn [settles_now]. split.
    - split; [exists 0, 7%N; cbn; auto|]. intros f X. cbn in X. repeat (destruct X as [X|X]; [discriminate|]). contradiction.
    - exists 0, 7%N. split; [cbn; auto|]. apply answer_tells; [reflexivity|]. left. split; [reflexivity|]. intros F. inversion F. }
  destruct I as [I|[]]. discriminate.
Qed.
Lemma leak_refuted : ~ forall e h s id c f, unique e -> runs e client h s -> settles h c f -> ~ In (id, c) (promiseMap s).
Proof. intros H. destruct zero_runs as (s & R & I). apply (H _ _ _ _ _ Invalid counter_unique R) in I; [exact I|]. cbn. auto. Qed.
Lemma result_refuted : ~ forall e h p w id r o s c q, unique e -> runs e client (h ++ [(EMessage p (response_to w r VNull), o)]) s ->
  posted h q id c -> waits h c -> num e w = Some id -> In (OSettle c (Resolved r)) o.
Proof.
  intros H. destruct zero_runs as (s & R & _).
  assert (I : In (OSettle 0 (Resolved (VNum (b "0")))) [OSettle 0 Invalid]); [|destruct I as [I|[]]; discriminate].
  eapply (H counter [(ECall true true, [OConnect 0; OPost 0 0%N 0])] 0 (b "0") 0%N _ _ s 0 0 counter_unique R); [cbn; auto| |reflexivity].
  split; [exists 0, 0%N; cbn; auto|]. intros f X. cbn in X. repeat (destruct X as [X|X]; [discriminate|]). contradiction.
Qed.
Lemma late_refuted : ~ forall e h p error o s c f, unique e -> runs e client (h ++ [(EDisconnect p error, o)]) s -> In (OSettle c f) o -> exists id, posted h p id c.
Proof.
  intros H. destruct late_runs as (s & R).
  destruct (H counter [(ECall true true, [OConnect 0; OPost 0 0%N 0]); (EError 0, []); (ECall true true, [OConnect 1; OPost 1 1%N 1])] 0 true _ s 1 PortError counter_unique R) as (id & P); [cbn; auto|].
  cbn in P. repeat (destruct P as [P|P]; [discriminate|]). contradiction.
Qed.
Lemma falsy_invalid e h p w id r x o s c q : unique e -> runs e client (h ++ [(EMessage p (response_to w r x), o)]) s -> posted h q id c -> waits h c -> num e w = Some id ->
  falsy e r -> falsy e x -> In (OSettle c Invalid) o /\ In (id, c) (promiseMap s).
Proof.
  intros U R P W N Fr Fx. assert (T : tells e id (response_to w r x) Invalid) by (apply answer_tells; [exact N|]; right; right; auto).
  split; [apply (settled_exact _ _ _ _ _ U R); split; [exact W|]; eauto|].
  apply (map_exact _ _ _ _ _ U R), kept_snoc. right. split.
  - apply runs_snoc in R. destruct R as (s1 & R & _). apply (map_exact _ _ _ _ _ U R). eapply waiting_kept; eassumption.
  - cbn [spares]. intros f Tf. destruct (tells_same _ _ _ _ _ _ T Tf) as [_ <-]. reflexivity.
Qed.
Lemma sleep_example : jdocument (response_to (b "12") (VNum (b "1500")) VNull) (sleep_response (b "12") 1500).
Proof.
  assert (J : jnumber (b "12")). { exists [], (b "12"), [], []. repeat split; auto. right. split; [split; [discriminate|repeat constructor; cbn; lia]|intros x X; discriminate]. }
  pose proof (ServerProofs.obj3 _ _ _ _ _ _ (CompactProofs.compact_value _ _ (jt_num _ J)) (encode_ok (JInt 1500)) jt_null) as H. exact H.
Qed.
