(** Strings in JSON as written by encoding/json (Go standard library).  Since Go 1.22 characters 8 and 12 have
    short escapes "\b" and "\f", earlier versions use general form; the latter is modelled. *)
From Verif Require Import GoBase Utf8 Utf8Dec.
Local Open Scope N_scope.

Definition hex (n : N) : ascii := nth (N.to_nat n) (b "0123456789abcdef") "0"%char.
Definition u_escape (r : rune) : str :=
  b "\u" ++ [hex (r / 4096 mod 16); hex (r / 256 mod 16); hex (r / 16 mod 16); hex (r mod 16)].

(** encodeState.string with escaping for HTML: a character and its bytes *)
Definition json_char (p : rune * str) : str :=
  let '(r, bytes) := p in
  if r =? 34 then b "\""" 
  else if r =? 92 then b "\\"
  else if r =? 10 then b "\n"
  else if r =? 13 then b "\r"
  else if r =? 9 then b "\t"
  else if (r <? 32) || (r =? 60) || (r =? 62) || (r =? 38) then u_escape r
  else if (r =? 8232) || (r =? 8233) then u_escape r
  else if (r =? rune_error) && (length bytes =? 1)%nat then u_escape rune_error
  else bytes.

Definition dquote : str := [ascii_of_N 34].
Definition json_string (s : str) : str := dquote ++ flat_map json_char (pieces s) ++ dquote.

Example ex_json : json_string (b "a""<" ++ [ascii_of_N 255; ascii_of_N 10]) =
  b """a\""\u003c\ufffd\n""".
Proof. vm_compute. reflexivity. Qed.
