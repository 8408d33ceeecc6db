(** Model of examples/webextensions_addon/rpc_client.js: class JsonRpcClient, a client of a backend inside of a browser.
    JavaScript code is executed by one thread, so a method call is a single step; events come from the browser in any order.
    Messages are already parsed by the browser, they are values of [JsonSpec.value]. *)
From Verif Require Import GoBase Utf8 JsonSpec.

(** [num]: value of a literal if it is a natural number as JavaScript understands it (a double), so "1", "1.0" and "10e-1" are the same.
    [gen k]: result of the [k]-th call of idGenerator (line 25); by default it is the counter in lines 8-11,
    it is increasing but it may be shared with other clients.  Numbers above 2^53 are not considered. *)
Record env := mkEnv { num : str -> option N; gen : nat -> N }.

(** How a promise of sendMessage is settled *)
Inductive fate :=
| Resolved (v : value)      (* 96 *)
| Failed (error : value)    (* 98 *)
| Invalid                   (* 100 *)
| PortError | Disconnected  (* 72-74 *)
| NotConnected              (* exception in connectNative, 58 *)
| NotPosted.                (* exception in postMessage, 43-46 *)

(** What happens: a call of sendMessage ([connect], [post]: whether connectNative and postMessage succeed), a message from
    a port, a port is disconnected ([error]: with a failure), a failure of a port is noticed earlier than the event of disconnect is dispatched. *)
Inductive event := ECall (connect post : bool) | EMessage (p : nat) (m : value) | EDisconnect (p : nat) (error : bool) | EError (p : nat).
(** Effects: connectNative returns the port [p]; request with identifier [id] of the [c]-th call is posted to the port [p]; promise is settled *)
Inductive output := OConnect (p : nat) | OPost (p : nat) (id : N) (c : nat) | OSettle (c : nat) (f : fate).

(** [pError]: property error of a port, [pListens]: listeners are added and not removed *)
Record portState := mkPort { pError : bool; pListens : bool }.
(** [settled]: promises that are settled, further attempts have no effect *)
Record rpc := mkRpc { drawn : nat; port : option nat; ports : list portState; promiseMap : list (N * nat); calls : nat; settled : list nat }.
Definition client : rpc := mkRpc 0 None [] [] 0 [].

(** Map of JavaScript: set, delete, get *)
Fixpoint map_set (id : N) (c : nat) (m : list (N * nat)) : list (N * nat) :=
  match m with
  | [] => [(id, c)]
  | (i, x) :: m' => if N.eqb i id then (id, c) :: m' else (i, x) :: map_set id c m'
  end.
Definition map_delete (id : N) (m : list (N * nat)) : list (N * nat) := filter (fun x => negb (N.eqb (fst x) id)) m.
Definition map_get (id : N) (m : list (N * nat)) : option nat := option_map snd (find (fun x => N.eqb (fst x) id) m).

(** Property of an object, the last one of duplicates; [None]: undefined *)
Fixpoint runes_eqb (x y : list rune) : bool :=
  match x, y with
  | [], [] => true
  | a :: x', c :: y' => N.eqb a c && runes_eqb x' y'
  | _, _ => false
  end.
Definition key (s : str) : list rune := map N_of_ascii s.
Definition property (k : str) (v : value) : option value :=
  match v with
  | VObj l => fold_left (fun r m => if runes_eqb (fst m) (key k) then Some (snd m) else r) l None
  | _ => None
  end.
(** Conversion to boolean *)
Definition truthy (e : env) (v : value) : bool :=
  match v with
  | VNull => false
  | VBool v => v
  | VNum t => match num e t with Some 0%N => false | _ => true end
  | VStr s => match s with [] => false | _ => true end
  | VArr _ | VObj _ => true
  end.

Definition settle (c : nat) (f : fate) (s : rpc) : list output * rpc :=
  if existsb (Nat.eqb c) (settled s) then ([], s)
  else ([OSettle c f], mkRpc (drawn s) (port s) (ports s) (promiseMap s) (calls s) (c :: settled s)).
Fixpoint settle_all (cs : list nat) (f : fate) (s : rpc) : list output * rpc :=
  match cs with
  | [] => ([], s)
  | c :: cs' => let '(o, s) := settle c f s in let '(o', s) := settle_all cs' f s in (o ++ o', s)
  end.

(** 52-62 getPort; None: exception *)
Definition failing (p : nat) (s : rpc) : bool := match nth_error (ports s) p with Some x => pError x | None => false end.
Definition connected (connect : bool) (s : rpc) : option (nat * list output * rpc) :=
  if connect
  then let p := length (ports s) in Some (p, [OConnect p], mkRpc (drawn s) (Some p) (ports s ++ [mkPort false true]) (promiseMap s) (calls s) (settled s))
  else None.
Definition getPort (connect : bool) (s : rpc) : option (nat * list output * rpc) :=
  match port s with
  | Some p => if failing p s then connected connect s else Some (p, [], s)
  | None => connected connect s
  end.

(** 32-49 sendMessage *)
Definition sendMessage (e : env) (connect post : bool) (s : rpc) : list output * rpc :=
  let c := calls s in
  match getPort connect s with                                                                          (* 33 *)
  | None => ([OSettle c NotConnected], mkRpc (drawn s) (port s) (ports s) (promiseMap s) (S c) (c :: settled s))
  | Some (p, o, s) =>
      let id := gen e (drawn s) in                                                                      (* 34 *)
      let m := map_set id c (promiseMap s) in                                                           (* 35-36 *)
      if post then (o ++ [OPost p id c], mkRpc (S (drawn s)) (port s) (ports s) m (S c) (settled s))         (* 43, 48 *)
      else (o ++ [OSettle c NotPosted], mkRpc (S (drawn s)) (port s) (ports s) (map_delete id m) (S c) (c :: settled s))   (* 45-46 *)
  end.

Fixpoint update (p : nat) (x : portState) (l : list portState) : list portState :=
  match p, l with
  | _, [] => []
  | O, _ :: l' => x :: l'
  | S p', y :: l' => y :: update p' x l'
  end.
(** 64-77 disconnected *)
Definition disconnected (p : nat) (error : bool) (s : rpc) : list output * rpc :=
  let err := failing p s || error in
  let s := mkRpc (drawn s) None (update p (mkPort err false) (ports s)) (promiseMap s) (calls s) (settled s) in   (* 65, 70-71 *)
  let '(o, s) := settle_all (map snd (promiseMap s)) (if err then PortError else Disconnected) s in               (* 72-75 *)
  (o, mkRpc (drawn s) (port s) (ports s) [] (calls s) (settled s)).                                               (* 76 *)

(** 79-103 messageReceived *)
Definition messageReceived (e : env) (m : value) (s : rpc) : list output * rpc :=
  match property (b "id") m with                   (* 81-89 *)
  | Some (VNum t) =>
      match num e t with
      | None => ([], s)
      | Some id =>
          match map_get id (promiseMap s) with     (* 90-94 *)
          | None => ([], s)
          | Some c =>
              let delete (x : list output * rpc) :=
                (fst x, mkRpc (drawn (snd x)) (port (snd x)) (ports (snd x)) (map_delete id (promiseMap (snd x))) (calls (snd x)) (settled (snd x))) in
              let true_property k := match property k m with Some v => if truthy e v then Some v else None | None => None end in
              match true_property (b "result"), true_property (b "error") with
              | Some v, _ => delete (settle c (Resolved v) s)          (* 95-96, 102 *)
              | None, Some v => delete (settle c (Failed v) s)         (* 97-98, 102 *)
              | None, None => settle c Invalid s                       (* 100: line 102 is not reached *)
              end
          end
      end
  | _ => ([], s)                                   (* keys of the map are numbers *)
  end.

Definition listens (p : nat) (s : rpc) : bool := match nth_error (ports s) p with Some x => pListens x | None => false end.
(** None: the event is impossible *)
Definition step (e : env) (s : rpc) (v : event) : option (list output * rpc) :=
  match v with
  | ECall connect post => Some (sendMessage e connect post s)
  | EMessage p m => if listens p s then Some (messageReceived e m s) else None
  | EDisconnect p error => if listens p s then Some (disconnected p error s) else None
  | EError p =>
      match nth_error (ports s) p with
      | Some x => Some ([], mkRpc (drawn s) (port s) (update p (mkPort true (pListens x)) (ports s)) (promiseMap s) (calls s) (settled s))
      | None => None
      end
  end.
(** A history: events with effects of each of them *)
Definition history := list (event * list output).
Inductive runs (e : env) : rpc -> history -> rpc -> Prop :=
| runs_nil s : runs e s [] s
| runs_cons s v o s1 h s2 : step e s v = Some (o, s1) -> runs e s1 h s2 -> runs e s ((v, o) :: h) s2.
Fixpoint execute (e : env) (s : rpc) (vs : list event) : option (history * rpc) :=
  match vs with
  | [] => Some ([], s)
  | v :: vs' =>
      match step e s v with
      | None => None
      | Some (o, s1) => match execute e s1 vs' with Some (h, s2) => Some ((v, o) :: h, s2) | None => None end
      end
  end.
