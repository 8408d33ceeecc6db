(** Property C113: the menu of the sample add-on (examples/webextensions_addon/background.js). *)
From Verif Require Import GoBase Utf8 JsonSpec ReplySpec Addon AddonSpec AddonMain AddonWitness Sample Menu MenuSpec MenuProofs.

(** C113.  There are three items after the event of installation, nothing before it. *)
Theorem C113_items : forall e h s, acts e loaded h s -> (In AInstalled (map fst h) -> map snd (items s) = titles) /\ (~ In AInstalled (map fst h) -> items s = []).
Proof. exact menu_items. Qed.
Print Assumptions C113_items.
(** A click makes the request described by the title ... *)
Theorem C113_click : forall e h id x y o s, acts e loaded (h ++ [(AClick id x y, o)]) s ->
  forall c m a, In (FRequest c m a) o <-> c = clicks h /\ exists t, In (id, t) (items s) /\ In (t, (m, a)) purposes.
Proof. exact menu_click. Qed.
Print Assumptions C113_click.
Theorem C113_silent : forall e h v o s, acts e loaded (h ++ [(v, o)]) s -> (forall id x y, v <> AClick id x y) -> forall c m a, ~ In (FRequest c m a) o.
Proof. exact menu_silent. Qed.
Print Assumptions C113_silent.
(** ... it is passed to the client, see C78-C81. *)
Theorem C113_client : forall e h s, acts e loaded h s -> runs e client (history_of h) (rpcClient s).
Proof. exact menu_client. Qed.
Print Assumptions C113_client.
(** Messages on the console are outcomes of requests. *)
Theorem C113_console : forall e h v o s, acts e loaded (h ++ [(v, o)]) s ->
  (forall c f k, message c f k -> (In k o <-> In (OSettle c f) (outputs (part (v, o))))) /\ forall id, ~ In (FUnknown id) o.
Proof. exact menu_console. Qed.
Print Assumptions C113_console.
(** The dialog with the sample backend *)
Theorem C113_negative : forall e negative root h p m o s c q id w, unique e -> acts e loaded (h ++ [(ARpc (EMessage p m), o)]) s -> posted (history_of h) q id c -> waits (history_of h) c ->
  jnumber w -> num e w = Some id -> negative (b "-2") = true -> jdocument m (sqrt_response negative root w (b "-2")) -> In (FError c (Failed (text (b "square root of negative number")))) o.
Proof. exact menu_negative. Qed.
Print Assumptions C113_negative.
Theorem C113_root : forall e negative root h p m o s c q id w, unique e -> acts e loaded (h ++ [(ARpc (EMessage p m), o)]) s -> posted (history_of h) q id c -> waits (history_of h) c ->
  jnumber w -> num e w = Some id -> negative (b "2") = false -> jnumber (root (b "2")) -> num e (root (b "2")) <> Some 0%N -> jdocument m (sqrt_response negative root w (b "2")) -> In (FResult c (VNum (root (b "2")))) o.
Proof. exact menu_root. Qed.
Print Assumptions C113_root.
Theorem C113_sleep : forall e h p m o s c q id w, unique e -> zeroes e -> acts e loaded (h ++ [(ARpc (EMessage p m), o)]) s -> posted (history_of h) q id c -> waits (history_of h) c ->
  jnumber w -> num e w = Some id -> jdocument m (sleep_response w 1500) -> In (FResult c (VNum (b "1500"))) o.
Proof. exact menu_sleep. Qed.
Print Assumptions C113_sleep.

(** There is no menu when the browser is started again: the add-on is loaded but it is not installed at that time. *)
Theorem C113_restart_refuted : ~ forall e h s, acts e loaded h s -> map snd (items s) = titles.
Proof. exact restarted. Qed.
Print Assumptions C113_restart_refuted.

Definition ex_actions : list action :=
  [AInstalled; AClick (b "2") true true; AClick (b "3") true true; ARpc (EMessage 0 (response_to (b "1") (VNum (b "1500")) VNull)); AClick (b "1") true false;
   ARpc (EMessage 0 (response_to (b "0") VNull (text (b "square root of negative number"))))].
Example C113_example : exists h s, perform counter loaded ex_actions = Some (h, s) /\ acts counter loaded h s /\ unique counter /\ zeroes counter /\ clicks h = 3 /\
  posted (history_of (firstn 5 h)) 0 0%N 0 /\ waits (history_of (firstn 5 h)) 0 /\
  filter (fun f => match f with FRpc _ => false | _ => true end) (effects h) =
    [FRequest 0 (b "example.Sqrt") (b "-2"); FRequest 1 (b "example.Sleep") (b "1500"); FResult 1 (VNum (b "1500")); FRequest 2 (b "example.Sqrt") (b "2"); FError 2 NotPosted;
     FError 0 (Failed (text (b "square root of negative number")))].
Proof.
  do 2 eexists. split; [vm_compute; reflexivity|]. split; [apply perform_acts with (l := ex_actions); vm_compute; reflexivity|]. split; [exact counter_unique|]. split; [exact counter_zeroes|]. split; [reflexivity|].
  split; [vm_compute; auto|]. split; [|vm_compute; reflexivity]. split; [exists 0, 0%N; vm_compute; auto|]. intros f I. vm_compute in I. repeat destruct I as [I|I]; try discriminate I; contradiction.
Qed.
