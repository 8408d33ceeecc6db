(** Model of examples/webextensions_addon/background.js: the menu of the sample add-on.
    A state is of a single page with scripts: it is created when the add-on is loaded and it disappears when the add-on is unloaded or the browser exits.
    Items of a menu belong to the page (manifest.json:21-23: the page is persistent), a browser does not restore them. *)
From Verif Require Import GoBase Utf8 JsonSpec Addon.

(** Arguments of JsonRpcClient.sendMessage *)
Record request := mkRequest { rMethod : str; rArg : str }.
(** [clicked]: onMenu is added to listeners of clicks (60), [items]: identifiers and titles, [asked]: arguments of calls of sendMessage, [rpcClient]: field client (15) *)
Record page := mkPage { clicked : bool; items : list (str * str); asked : list request; rpcClient : rpc }.
(** 69-76 main: only a listener of onInstalled is added; rpc_client.js:19-30 *)
Definition loaded : page := mkPage false [] [] client.

(** What happens: the event onInstalled (the add-on is installed or updated, the browser is updated), a click on an item ([connect], [post]: see [Addon.ECall]),
    something related to ports *)
Inductive action := AInstalled | AClick (id : str) (connect post : bool) | ARpc (v : event).
(** Effects: of the client; a request is given to it (its number, name of the method, argument); messages on the console (55, 33) *)
Inductive effect := FRpc (o : output) | FRequest (c : nat) (method arg : str) | FResult (c : nat) (v : value) | FError (c : nat) (f : fate) | FUnknown (id : str).

(** 9-11 *)
Definition MENU_SQRT2 : str := b "1".
Definition MENU_SQRT_M2 : str := b "2".
Definition MENU_SLEEP : str := b "3".
(** 59-67 createMenu.  A listener is added once.  menus.create for an existing identifier is an error, it is not an exception. *)
Definition create (id title : str) (l : list (str * str)) : list (str * str) := if existsb (fun x => str_eqb (fst x) id) l then l else l ++ [(id, title)].
Definition createMenu (s : page) : page :=
  mkPage true (create MENU_SLEEP (b "sleep()") (create MENU_SQRT_M2 (b "sqrt(-2)") (create MENU_SQRT2 (b "sqrt(2)") (items s)))) (asked s) (rpcClient s).
(** 55: handlers of settled promises; 31-39 reportError, just the first message *)
Definition report (o : output) : list effect :=
  match o with
  | OSettle c (Resolved v) => [FResult c v]
  | OSettle c f => [FError c f]
  | _ => []
  end.
Definition reported (o : list output) : list effect := map FRpc o ++ flat_map report o.
(** 18-26 *)
Definition call (e : env) (r : request) (connect post : bool) (s : page) : list effect * page :=
  let '(o, c) := sendMessage e connect post (rpcClient s) in
  (FRequest (length (asked s)) (rMethod r) (rArg r) :: reported o, mkPage (clicked s) (items s) (asked s ++ [r]) c).
(** 41-56 onMenu *)
Definition onMenu (e : env) (id : str) (connect post : bool) (s : page) : list effect * page :=
  if str_eqb id MENU_SQRT2 then call e (mkRequest (b "example.Sqrt") (b "2")) connect post s
  else if str_eqb id MENU_SQRT_M2 then call e (mkRequest (b "example.Sqrt") (b "-2")) connect post s
  else if str_eqb id MENU_SLEEP then call e (mkRequest (b "example.Sleep") (b "1500")) connect post s
  else ([FUnknown id], s).
(** None: the action is impossible; only an existing item may be chosen. *)
Definition act (e : env) (s : page) (a : action) : option (list effect * page) :=
  match a with
  | AInstalled => Some ([], createMenu s)
  | AClick id connect post =>
      if existsb (fun x => str_eqb (fst x) id) (items s)
      then Some (if clicked s then onMenu e id connect post s else ([], s))
      else None
  | ARpc (ECall _ _) => None
  | ARpc v => match step e (rpcClient s) v with Some (o, c) => Some (reported o, mkPage (clicked s) (items s) (asked s) c) | None => None end
  end.
Definition session := list (action * list effect).
Inductive acts (e : env) : page -> session -> page -> Prop :=
| acts_nil s : acts e s [] s
| acts_cons s a o s1 h s2 : act e s a = Some (o, s1) -> acts e s1 h s2 -> acts e s ((a, o) :: h) s2.
Fixpoint perform (e : env) (s : page) (l : list action) : option (session * page) :=
  match l with
  | [] => Some ([], s)
  | a :: l' =>
      match act e s a with
      | None => None
      | Some (o, s1) => match perform e s1 l' with Some (h, s2) => Some ((a, o) :: h, s2) | None => None end
      end
  end.
