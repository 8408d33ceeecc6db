(** Specification of the client in a browser: what may be observed in a history. *)
From Verif Require Import GoBase Utf8 JsonSpec ReplySpec Addon.

Definition outputs (h : history) : list output := flat_map snd h.
Definition posted (h : history) (p : nat) (id : N) (c : nat) : Prop := In (OPost p id c) (outputs h).
Definition settles (h : history) (c : nat) (f : fate) : Prop := In (OSettle c f) (outputs h).
Definition count_calls (h : history) : nat := length (filter (fun x => match fst x with ECall _ _ => true | _ => false end) h).
Fixpoint settlements (l : list output) : list nat :=
  match l with
  | [] => []
  | OSettle c _ :: l' => c :: settlements l'
  | _ :: l' => settlements l'
  end.

(** Identifiers are different. *)
Definition unique (e : env) : Prop := forall i j, gen e i = gen e j -> i = j.

(** Members of an object; when names are repeated the last one is taken *)
Definition member (l : list (list rune * value)) (k : str) (v : value) : Prop :=
  exists l1 l2, l = l1 ++ (map N_of_ascii k, v) :: l2 /\ ~ In (map N_of_ascii k) (map fst l2).
Inductive falsy (e : env) : value -> Prop :=
| fa_null : falsy e VNull
| fa_false : falsy e (VBool false)
| fa_zero t : num e t = Some 0%N -> falsy e (VNum t)
| fa_empty : falsy e (VStr []).
(** The message tells the fate of the request [id]. *)
Inductive tells (e : env) (id : N) : value -> fate -> Prop :=
| te_result l t v : member l (b "id") (VNum t) -> num e t = Some id -> member l (b "result") v -> ~ falsy e v -> tells e id (VObj l) (Resolved v)
| te_error l t v : member l (b "id") (VNum t) -> num e t = Some id -> (forall r, member l (b "result") r -> falsy e r) ->
    member l (b "error") v -> ~ falsy e v -> tells e id (VObj l) (Failed v)
| te_nothing l t : member l (b "id") (VNum t) -> num e t = Some id -> (forall r, member l (b "result") r -> falsy e r) ->
    (forall r, member l (b "error") r -> falsy e r) -> tells e id (VObj l) Invalid.

(** An event that leaves the request [id] in memory: the connection is kept, and it is not a complete response to it. *)
Definition spares (e : env) (id : N) (v : event) : Prop :=
  match v with
  | EDisconnect _ _ => False
  | EMessage _ m => forall f, tells e id m f -> f = Invalid
  | _ => True
  end.
Definition kept (e : env) (h : history) (id : N) (c : nat) : Prop :=
  exists h1 v o h2 p, h = h1 ++ (v, o) :: h2 /\ In (OPost p id c) o /\ Forall (fun x => spares e id (fst x)) h2.

(** Numbers of connections, and the port that is used by next calls: nothing is disconnected and no failure of it is noticed since connecting. *)
Definition count_connects (h : history) : nat := length (filter (fun x => match x with OConnect _ => true | _ => false end) (outputs h)).
Definition harmless (p : nat) (v : event) : Prop := match v with EDisconnect _ _ => False | EError q => q <> p | _ => True end.
Definition usable (h : history) (p : nat) : Prop :=
  exists h1 v o h2, h = h1 ++ (v, o) :: h2 /\ In (OConnect p) o /\ Forall (fun x => harmless p (fst x)) h2.
Definition noticed (h : history) (p : nat) : Prop := exists v, In v (map fst h) /\ (v = EError p \/ v = EDisconnect p true).
Definition closed (h : history) (p : nat) : Prop := exists error, In (EDisconnect p error) (map fst h).
Definition waits (h : history) (c : nat) : Prop := (exists p id, posted h p id c) /\ forall f, ~ settles h c f.
(** Effects of an event after the history [h]. *)
Definition fresh (e : env) (h : history) (id : N) : Prop := (exists k, id = gen e k) /\ forall p c, ~ posted h p id c.
Definition sends (e : env) (h : history) (p : nat) (post : bool) (o : list output) : Prop :=
  if post then exists id, fresh e h id /\ o = [OPost p id (count_calls h)] else o = [OSettle (count_calls h) NotPosted].
Definition call_effects (e : env) (h : history) (connect post : bool) (o : list output) : Prop :=
  (exists p, usable h p /\ sends e h p post o) \/
  ((forall p, ~ usable h p) /\
    if connect then exists o', o = OConnect (count_connects h) :: o' /\ sends e h (count_connects h) post o' else o = [OSettle (count_calls h) NotConnected]).
Definition settles_now (e : env) (h : history) (v : event) (c : nat) (f : fate) : Prop :=
  match v with
  | ECall connect post => c = count_calls h /\
      (f = NotConnected /\ connect = false /\ (forall p, ~ usable h p) \/ f = NotPosted /\ post = false /\ (connect = true \/ exists p, usable h p))
  | EMessage _ m => waits h c /\ exists p id, posted h p id c /\ tells e id m f
  | EDisconnect p error => waits h c /\ (f = PortError /\ (error = true \/ noticed h p) \/ f = Disconnected /\ error = false /\ ~ noticed h p)
  | EError _ => False
  end.
(** [num] is right about zero. *)
Definition zeroes (e : env) : Prop := forall n v, number n v -> exists t, v = VNum t /\ (num e t = Some 0%N <-> n = 0%Z).
