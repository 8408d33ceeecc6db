(** compact of encoding/json (Go standard library), it is called with escaping for HTML when a json.RawMessage is a part of a value
    that is written by json.Encoder.  Only texts that are accepted by the decoder are considered, so the scanner is reduced to
    a flag whether a byte is inside of a string. *)
From Verif Require Import GoBase Utf8 JsonStr.
Local Open Scope N_scope.

Inductive cstate := Outside | Inside | Escaped.
Definition next_state (st : cstate) (n : N) : cstate :=
  match st with
  | Outside => if n =? 34 then Inside else Outside
  | Inside => if n =? 34 then Outside else if n =? 92 then Escaped else Inside
  | Escaped => Inside
  end.
Definition is_space (n : N) : bool := (n =? 32) || (n =? 9) || (n =? 13) || (n =? 10).
Fixpoint compact_loop (st : cstate) (s : str) : str :=
  match s with
  | [] => []
  | c :: s' =>
      let n := N_of_ascii c in
      let rest := compact_loop (next_state st n) s' in
      let other := if match st with Outside => is_space n | _ => false end then rest else c :: rest in
      if (n =? 60) || (n =? 62) || (n =? 38) then u_escape n ++ rest
      else if n =? 226 then                                          (* U+2028, U+2029 *)
        match s' with
        | c1 :: c2 :: s'' =>
            if (N_of_ascii c1 =? 128) && ((N_of_ascii c2 =? 168) || (N_of_ascii c2 =? 169))
            then u_escape (8192 + (N_of_ascii c2 - 128)) ++ compact_loop st s''
            else other
        | _ => other
        end
      else other
  end.
Definition compact (s : str) : str := compact_loop Outside s.

Example ex_compact : compact (b " [ 1 , ""a b\"" <"" ,{ } ] ") = b "[1,""a b\"" \" ++ b "u003c"",{}]" /\
  compact (b """" ++ strN [226; 128; 169] ++ b """") = b """\" ++ b "u2029""".
Proof. split; vm_compute; reflexivity. Qed.
