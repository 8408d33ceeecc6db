(** Lines of a text: parts before newlines and the last part unless it is empty. *)
From Verif Require Import GoBase Scanner.

Inductive lines_of : str -> list str -> Prop :=
| lines_nil : lines_of [] []
| lines_last l : l <> [] -> ~ In newline l -> lines_of l [l]
| lines_cons l t ls : ~ In newline l -> lines_of t ls -> lines_of (l ++ newline :: t) (l :: ls).

(** A trailing carriage return is not a part of a line. *)
Inductive without_cr : str -> str -> Prop :=
| cr_drop l : without_cr (l ++ [ascii_of_nat 13]) l
| cr_keep l : (forall m, l <> m ++ [ascii_of_nat 13]) -> without_cr l l.

Definition short (l : str) : Prop := (N.of_nat (length l) < 65536)%N.
