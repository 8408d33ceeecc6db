(** Properties of the client in a browser (examples/webextensions_addon/rpc_client.js) and of the sample backend. *)
From Verif Require Import GoBase Utf8 JsonSpec JsonStr Json LinkTypes Emacs Backend BackendSpec BackendWitness ReplySpec Server ServerSpec ServerProofs Addon AddonSpec AddonProofs AddonMain AddonWitness Sample P_Backend P_Reply P_Server.

(** C78: every call is settled at most once, exactly when and as it is told by a response, a failure or a disconnect. *)
Theorem C78_once : forall e h s, unique e -> runs e client h s -> NoDup (settlements (outputs h)) /\ forall c f, settles h c f -> c < count_calls h.
Proof. exact settled_once. Qed.
Print Assumptions C78_once.

Theorem C78_each : forall e h s c, unique e -> runs e client h s -> c < count_calls h -> waits h c \/ exists f, settles h c f.
Proof. exact each_call. Qed.
Print Assumptions C78_each.

Theorem C78_exact : forall e h v o s, unique e -> runs e client (h ++ [(v, o)]) s -> forall c f, In (OSettle c f) o <-> settles_now e h v c f.
Proof. exact settled_exact. Qed.
Print Assumptions C78_exact.

Theorem C78_posted : forall e h s p id c p' id' c', unique e -> runs e client h s -> posted h p id c -> posted h p' id' c' ->
  c < count_calls h /\ p < count_connects h /\ (c = c' <-> id = id') /\ (c = c' -> p = p').
Proof. exact posted_once. Qed.
Print Assumptions C78_posted.

(** ... identifiers have to be different ... *)
Theorem C78_same_refuted : ~ forall e h v o s, runs e client (h ++ [(v, o)]) s -> forall c f, In (OSettle c f) o <-> settles_now e h v c f.
Proof. exact same_refuted. Qed.
Print Assumptions C78_same_refuted.

(** ... and a response of the backend of bURL tells either its result or its error. *)
Theorem C78_backend : forall e c tr k t p w id m, responds c tr k t -> nth_error (received tr) k = Some p -> pid p = Some w -> jnumber w -> num e w = Some id ->
  jdocument m t ->
  (exists x, (meaning (c_dec c) p (Err x) \/
              (exists i o y, nth_error (started 0 tr) i = Some (k, o) /\ replied (of_thread i (inner tr)) (PError y) /\ x = c_text c y)) /\
    (x <> [] -> tells e id m (Failed (text x)))) \/
  (exists i o r v, nth_error (started 0 tr) i = Some (k, o) /\ replied (of_thread i (inner tr)) r /\ result_shown r v /\ tells e id m (Resolved v)).
Proof. exact backend_answer. Qed.
Print Assumptions C78_backend.

(** C79: a call connects exactly when there is no usable port, its request has a new identifier. *)
Theorem C79_call : forall e h connect post o s, unique e -> runs e client (h ++ [(ECall connect post, o)]) s -> call_effects e h connect post o.
Proof. exact call_exact. Qed.
Print Assumptions C79_call.

Theorem C79_usable : forall e h s p q, runs e client h s -> usable h p -> usable h q -> p = q.
Proof. exact usable_one. Qed.
Print Assumptions C79_usable.

(** Nothing waits after a disconnect. *)
Theorem C79_disconnect : forall e h p error o s c, unique e -> runs e client (h ++ [(EDisconnect p error, o)]) s ->
  ~ waits (h ++ [(EDisconnect p error, o)]) c /\ forall q, ~ usable (h ++ [(EDisconnect p error, o)]) q.
Proof. exact after_disconnect. Qed.
Print Assumptions C79_disconnect.

(** C80: zero, false, null and the empty string are not accepted as results, and such request is kept in memory. *)
Theorem C80_falsy : forall e h p w id r x o s c q, unique e -> runs e client (h ++ [(EMessage p (response_to w r x), o)]) s ->
  posted h q id c -> waits h c -> num e w = Some id -> falsy e r -> falsy e x -> In (OSettle c Invalid) o /\ In (id, c) (promiseMap s).
Proof. exact falsy_invalid. Qed.
Print Assumptions C80_falsy.

Theorem C80_result_refuted : ~ forall e h p w id r o s c q, unique e -> runs e client (h ++ [(EMessage p (response_to w r VNull), o)]) s ->
  posted h q id c -> waits h c -> num e w = Some id -> In (OSettle c (Resolved r)) o.
Proof. exact result_refuted. Qed.
Print Assumptions C80_result_refuted.

Theorem C80_kept : forall e h s id c, unique e -> runs e client h s -> (In (id, c) (promiseMap s) <-> kept e h id c).
Proof. exact map_exact. Qed.
Print Assumptions C80_kept.

Theorem C80_kept_refuted : ~ forall e h s id c f, unique e -> runs e client h s -> settles h c f -> ~ In (id, c) (promiseMap s).
Proof. exact leak_refuted. Qed.
Print Assumptions C80_kept_refuted.

(** Sleep of the sample backend *)
Theorem C80_sleep : forall e w id t m f, zeroes e -> jnumber w -> num e w = Some id -> jdocument m (sleep_response w t) ->
  (tells e id m f <-> f = if Z.eqb t 0 then Invalid else Resolved (VNum (integer t))).
Proof. exact sleep_tells. Qed.
Print Assumptions C80_sleep.

(** C81: a disconnect fails requests of its own port unless failures of ports are noticed earlier. *)
Theorem C81_own : forall e h p error o s, unique e -> runs e client (h ++ [(EDisconnect p error, o)]) s -> (forall q, ~ In (EError q) (map fst h)) ->
  forall c f, In (OSettle c f) o -> exists id, posted h p id c.
Proof. exact own_disconnect. Qed.
Print Assumptions C81_own.

Theorem C81_own_refuted : ~ forall e h p error o s c f, unique e -> runs e client (h ++ [(EDisconnect p error, o)]) s -> In (OSettle c f) o -> exists id, posted h p id c.
Proof. exact late_refuted. Qed.
Print Assumptions C81_own_refuted.

(** C82: the sample backend sleeps for the requested time, and it tells that there is no square root of a negative number. *)
Theorem C82_sleep : forall t, (- 2 ^ 63 <= t < 2 ^ 63)%Z ->
  fst (Sleep t) = t /\ ((t <= 0)%Z -> snd (Sleep t) = None) /\ ((0 < t <= 9223372036854)%Z -> snd (Sleep t) = Some (t * 1000000)%Z).
Proof. exact sleep_duration. Qed.
Print Assumptions C82_sleep.

Theorem C82_sqrt : forall e negative root w id x m, jnumber w -> num e w = Some id -> jdocument m (sqrt_response negative root w x) ->
  negative x = true -> tells e id m (Failed (text (b "square root of negative number"))).
Proof. exact sqrt_tells. Qed.
Print Assumptions C82_sqrt.

(** ** Examples *)
Example C78_example : unique counter /\ (exists s, runs counter client ordinary_history s) /\ settlements (outputs ordinary_history) = [1; 0; 2; 3; 4] /\
  posted ordinary_history 0 1 1 /\ settles ordinary_history 1 (Failed (text (b "bad"))).
Proof. split; [exact counter_unique|]. split; [exact ordinary_runs|]. vm_compute. auto 20. Qed.
(** The first request of a history waits. *)
Example C78_waits : waits (firstn 2 ordinary_history) 0 /\ settles_now counter (firstn 3 ordinary_history) (EMessage 0 (response_to (b "0") (VBool true) VNull)) 0 (Resolved (VBool true)).
Proof.
  assert (W : forall n, 1 <= n <= 3 -> waits (firstn n ordinary_history) 0).
  { intros n L. destruct n as [|[|[|[|n]]]]; try lia; (split; [exists 0, 0%N; cbn; auto|]); intros f X; cbn in X; repeat (destruct X as [X|X]; [discriminate|]); contradiction. }
  split; [apply W; lia|]. cbn [settles_now]. split; [apply W; lia|]. exists 0, 0%N. split; [cbn; auto|]. apply answer_tells; [reflexivity|]. left. split; [reflexivity|]. intros F. inversion F.
Qed.
Definition ex_visit : packet := mkPacket (Some (b "5")) (b "burl.visit") (Some (b "[{}]")).
Definition ex_tr : list slabel := [VAccept ex_visit (Some ex_orders); VBack 0 (LReply PVisit)].
Definition ex_conf : config := mkConfig ex_cfg ex_backend (mkDecoders ex_bad ex_bad ex_bad (fun _ => Ok (mkLocation (b "/notes.org") 1%Z)) ex_bad ex_bad) (fun _ => b "error").
Example C78_response : responds ex_conf ex_tr 0 (b "{""id"":5,""result"":true,""error"":null}" ++ Emacs.eol) /\ jnumber (b "5") /\ num counter (b "5") = Some 5%N.
Proof.
  split; [|split; [|reflexivity]].
  - eapply (re_result _ _ _ _ ex_visit (QVisit (mkLocation (b "/notes.org") 1%Z)) 0 ex_orders PVisit (VBool true)); [reflexivity| |reflexivity|left; reflexivity|discriminate|constructor|].
    + eapply me_asks; [|reflexivity|apply as_visit; reflexivity]. eexists. split; [do 5 (try (left; reflexivity); right)|left; reflexivity].
    + destruct (reply_shown (Some (b "5")) PVisit _ eq_refl) as (v & A & B). inversion A; subst. exact B.
  - exists [], (b "5"), [], []. repeat split; auto. right. split; [split; [discriminate|repeat constructor; cbn; lia]|intros x X; discriminate].
Qed.
Example C79_example : usable (firstn 4 ordinary_history) 0 /\ (exists s, runs counter client (firstn 4 ordinary_history ++ [(ECall true true, [OPost 0 2%N 2])]) s).
Proof.
  split; [exists [], (ECall true true), [OConnect 0; OPost 0 0%N 0]; eexists; split; [reflexivity|]; split; [left; reflexivity|]; repeat constructor|].
  eexists. apply execute_runs with (vs := firstn 5 ordinary). vm_compute. reflexivity.
Qed.
Example C80_example : exists s, runs counter client zero_history s /\ In (0%N, 0) (promiseMap s).
Proof. exact zero_runs. Qed.
Example C80_sleep_example : zeroes counter /\ jdocument (response_to (b "12") (VNum (b "1500")) VNull) (sleep_response (b "12") 1500).
Proof. split; [exact counter_zeroes|exact sleep_example]. Qed.
Example C81_example : exists s, runs counter client (firstn 6 ordinary_history) s /\ In (OSettle 2 Disconnected) (outputs (firstn 6 ordinary_history)) /\ posted (firstn 5 ordinary_history) 0 2 2.
Proof. eexists. split; [apply execute_runs with (vs := firstn 6 ordinary); vm_compute; reflexivity|]. split; vm_compute; auto 20. Qed.
Example C82_example : Sleep 1500 = (1500%Z, Some 1500000000%Z) /\ Sleep 9223372036855 = (9223372036855%Z, None).
Proof. split; vm_compute; reflexivity. Qed.
Example C82_sqrt_example : sqrt_response (fun x => str_eqb x (b "-2")) (fun x => x) (b "3") (b "-2") = b "{""id"":3,""result"":null,""error"":""square root of negative number""}" ++ Emacs.eol.
Proof. vm_compute. reflexivity. Qed.
