(** Encoder of JSON: encoding/json of Go standard library, values that are written by code in /repo. *)
From Verif Require Import GoBase Utf8 Utf8Dec JsonStr Emacs.

(** [JObj]: fields of a structure in the order of declaration or a map that is already sorted *)
Inductive json :=
| JNull
| JBool (v : bool)
| JInt (n : Z)
| JStr (s : str)
| JArr (l : list json)
| JObj (l : list (str * json)).

(** strconv.AppendInt(10) *)
Definition integer (n : Z) : str := if (n <? 0)%Z then b "-" ++ decimal (- n) else decimal n.

Fixpoint commas (l : list str) : str :=
  match l with
  | [] => []
  | [x] => x
  | x :: l' => x ++ b "," ++ commas l'
  end.
(** json.Marshal; nil slices are not used in replies, so "null" is only for nil interfaces and pointers *)
Fixpoint encode (j : json) : str :=
  match j with
  | JNull => b "null"
  | JBool v => if v then b "true" else b "false"
  | JInt n => integer n
  | JStr s => json_string s
  | JArr l => b "[" ++ commas (map encode l) ++ b "]"
  | JObj l => b "{" ++ commas (map (fun m => json_string (fst m) ++ b ":" ++ encode (snd m)) l) ++ b "}"
  end.

Lemma json_ind' (P : json -> Prop) : P JNull -> (forall v, P (JBool v)) -> (forall n, P (JInt n)) -> (forall s, P (JStr s)) ->
  (forall l, Forall P l -> P (JArr l)) -> (forall l, Forall (fun m => P (snd m)) l -> P (JObj l)) -> forall j, P j.
Proof.
  intros A B C D E F. fix IH 1. intros [|v|n|s|l|l]; [exact A|apply B|apply C|apply D|apply E|apply F].
  - induction l; constructor; auto.
  - induction l as [|[k j] l IHl]; constructor; auto.
Qed.
