(** Schemes without repetitions. *)
From Verif Require Import GoBase ExtractSpec.

(** [firsts ss ss']: the first one of equal schemes is left. *)
Inductive firsts : list (list schar) -> list (list schar) -> Prop :=
| fs_nil : firsts [] []
| fs_new ss ss' s : firsts ss ss' -> ~ In s ss -> firsts (ss ++ [s]) (ss' ++ [s])
| fs_again ss ss' s : firsts ss ss' -> In s ss -> firsts (ss ++ [s]) ss'.
