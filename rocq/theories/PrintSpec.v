(** Specification of printing of values and of the command line client. *)
From Coq Require Import Sorting.Sorted Permutation.
From Verif Require Import GoBase Utf8 JsonSpec StreamSpec ReplySpec ToolsSpec UnmarshalSpec Print.

(** A text of a value: any text that is accepted by Go, spaces around it *)
Definition document_text (t : str) : Prop := exists w1 n x w2, space w1 /\ space w2 /\ (N.of_nat n <= 10000)%N /\ gtext n x /\ t = w1 ++ x ++ w2.

(** Order of strings by bytes *)
Inductive bytes_before : str -> str -> Prop :=
| bb_end c y : bytes_before [] (c :: y)
| bb_less c d x y : (N_of_ascii c < N_of_ascii d)%N -> bytes_before (c :: x) (d :: y)
| bb_same c x y : bytes_before x y -> bytes_before (c :: x) (c :: y).
(** Strings are Unicode. *)
Inductive proper : value -> Prop :=
| pr_null : proper VNull
| pr_bool v : proper (VBool v)
| pr_num t : proper (VNum t)
| pr_str s : Forall (fun r => valid_rune r = true) s -> proper (VStr s)
| pr_arr l : Forall proper l -> proper (VArr l)
| pr_obj l : Forall (fun m => Forall (fun r => valid_rune r = true) (fst m) /\ proper (snd m)) l -> proper (VObj l).
(** [canonical show v w]: numbers are replaced, members of objects are sorted by names, the last one of members with the same name is kept. *)
Inductive canonical (show : str -> str) : value -> value -> Prop :=
| ca_null : canonical show VNull VNull
| ca_bool v : canonical show (VBool v) (VBool v)
| ca_num t : canonical show (VNum t) (VNum (show t))
| ca_str s : canonical show (VStr s) (VStr s)
| ca_arr l l' : Forall2 (canonical show) l l' -> canonical show (VArr l) (VArr l')
| ca_obj l l' : StronglySorted (fun x y => bytes_before (string_of (fst x)) (string_of (fst y))) l' ->
    (forall k v, In (k, v) l -> In k (map fst l')) ->
    (forall k w, In (k, w) l' -> exists l1 v l2, l = l1 ++ (k, v) :: l2 /\ ~ In k (map fst l2) /\ canonical show v w) ->
    canonical show (VObj l) (VObj l').
(** Layout: each element and each member is on its own line, two spaces for each level *)
Definition line_start (depth : nat) : str := ascii_of_nat 10 :: repeat (ascii_of_nat 32) (2 * depth).
Fixpoint separated (l : list str) : str := match l with [] => [] | [x] => x | x :: l' => x ++ b "," ++ separated l' end.
Inductive laid (depth : nat) : value -> str -> Prop :=
| la_null : laid depth VNull (b "null")
| la_true : laid depth (VBool true) (b "true")
| la_false : laid depth (VBool false) (b "false")
| la_num t : jnumber t -> laid depth (VNum t) t
| la_str s t : jstring s t -> laid depth (VStr s) t
| la_arr0 : laid depth (VArr []) (b "[]")
| la_arr l ts : l <> [] -> Forall2 (laid (S depth)) l ts -> laid depth (VArr l) (b "[" ++ separated (map (fun t => line_start (S depth) ++ t) ts) ++ line_start depth ++ b "]")
| la_obj0 : laid depth (VObj []) (b "{}")
| la_obj l ts : l <> [] -> Forall2 (fun m t => exists kt vt, jstring (fst m) kt /\ laid (S depth) (snd m) vt /\ t = kt ++ b ": " ++ vt) l ts ->
    laid depth (VObj l) (b "{" ++ separated (map (fun t => line_start (S depth) ++ t) ts) ++ line_start depth ++ b "}").
(** Objects without repeated names; the same values up to order of members *)
Inductive once_named : value -> Prop :=
| on_null : once_named VNull
| on_bool v : once_named (VBool v)
| on_num t : once_named (VNum t)
| on_str s : once_named (VStr s)
| on_arr l : Forall once_named l -> once_named (VArr l)
| on_obj l : NoDup (map fst l) -> Forall (fun m => once_named (snd m)) l -> once_named (VObj l).
Inductive reordered : value -> value -> Prop :=
| ro_null : reordered VNull VNull
| ro_bool v : reordered (VBool v) (VBool v)
| ro_num t : reordered (VNum t) (VNum t)
| ro_str s : reordered (VStr s) (VStr s)
| ro_arr l l' : Forall2 reordered l l' -> reordered (VArr l) (VArr l')
| ro_obj l l1 l2 : Forall2 (fun x y => fst x = fst y /\ reordered (snd x) (snd y)) l l1 -> Permutation l1 l2 -> reordered (VObj l) (VObj l2).

(** The request of hello *)
Definition hello_object (w : value) : value := VObj [(ReplySpec.name (b "method"), ReplySpec.text (b "linkremark.hello")); (ReplySpec.name (b "params"), VArr [w]); (ReplySpec.name (b "id"), VNum (b "0"))].
(** The backend is started with such arguments. *)
Definition started_with (w : world) (args : list str) (name : str) (rest queries : list str) : Prop :=
  w_stdin w = None /\ w_stdout w = None /\ w_start w = None /\ queries <> [] /\ ~ In (b "--") (name :: rest) /\ remaining args (name :: rest ++ b "--" :: queries).
