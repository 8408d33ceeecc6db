(** Specification of the menu of the sample add-on. *)
From Verif Require Import GoBase Utf8 JsonSpec ReplySpec Addon AddonSpec Menu.

(** Titles of items, and requests that are sent when they are chosen *)
Definition titles : list str := [b "sqrt(2)"; b "sqrt(-2)"; b "sleep()"].
Definition purposes : list (str * (str * str)) :=
  [(b "sqrt(2)", (b "example.Sqrt", b "2")); (b "sqrt(-2)", (b "example.Sqrt", b "-2")); (b "sleep()", (b "example.Sleep", b "1500"))].
(** Events of the client of requests *)
Definition part (x : action * list effect) : history :=
  let o := flat_map (fun f => match f with FRpc o => [o] | _ => [] end) (snd x) in
  match fst x with
  | AInstalled => []
  | AClick _ connect post => [(ECall connect post, o)]
  | ARpc v => [(v, o)]
  end.
Definition history_of (h : session) : history := flat_map part h.
Definition clicks (h : session) : nat := length (filter (fun x => match fst x with AClick _ _ _ => true | _ => false end) h).
Definition effects (h : session) : list effect := flat_map snd h.
(** A message on the console about the [c]-th choice *)
Inductive message (c : nat) : fate -> effect -> Prop :=
| me_result v : message c (Resolved v) (FResult c v)
| me_error f : (forall v, f <> Resolved v) -> message c f (FError c f).
