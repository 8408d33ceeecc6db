(** JSON texts: RFC 8259.  Strings are sequences of Unicode characters, lone surrogates are not considered. *)
From Verif Require Import GoBase Utf8.

Inductive value :=
| VNull
| VBool (v : bool)
| VNum (literal : str)
| VStr (s : list rune)
| VArr (l : list value)
| VObj (l : list (list rune * value)).

Definition quote : ascii := ascii_of_nat 34.
Definition backslash : ascii := ascii_of_nat 92.
Definition space (w : str) : Prop := Forall (fun c => In (N_of_ascii c) [9; 10; 13; 32]%N) w.
(** Bytes of a character *)
Definition utf8 (r : rune) : str := strN (encode1 r).

(** Characters that follow a backslash *)
Definition escapes : list (ascii * rune) :=
  [(quote, 34); (backslash, 92); ("/"%char, 47); ("b"%char, 8); ("f"%char, 12); ("n"%char, 10); ("r"%char, 13); ("t"%char, 9)]%N.
Definition hex_digit (c : ascii) (n : N) : Prop :=
  let k := N_of_ascii c in
  ((48 <= k <= 57 /\ n = k - 48) \/ (65 <= k <= 70 /\ n = k - 55) \/ (97 <= k <= 102 /\ n = k - 87))%N.
Definition hex_code (t : str) (n : N) : Prop :=
  exists c1 c2 c3 c4 n1 n2 n3 n4, t = [c1; c2; c3; c4] /\ hex_digit c1 n1 /\ hex_digit c2 n2 /\ hex_digit c3 n3 /\ hex_digit c4 n4 /\
    n = (4096 * n1 + 256 * n2 + 16 * n3 + n4)%N.
Definition surrogate (n : N) : Prop := (55296 <= n < 57344)%N.
(** Text between quotes *)
Inductive jchars : list rune -> str -> Prop :=
| jc_nil : jchars [] []
| jc_plain r rs t : valid_rune r = true -> (32 <= r)%N -> r <> 34%N -> r <> 92%N -> jchars rs t -> jchars (r :: rs) (utf8 r ++ t)
| jc_escape c r rs t : In (c, r) escapes -> jchars rs t -> jchars (r :: rs) (backslash :: c :: t)
| jc_code h n rs t : hex_code h n -> ~ surrogate n -> jchars rs t -> jchars (n :: rs) (backslash :: "u"%char :: h ++ t)
| jc_pair h1 h2 n1 n2 rs t : hex_code h1 n1 -> hex_code h2 n2 -> (55296 <= n1 < 56320)%N -> (56320 <= n2 < 57344)%N -> jchars rs t ->
    jchars (65536 + (n1 - 55296) * 1024 + (n2 - 56320) :: rs)%N (backslash :: "u"%char :: h1 ++ backslash :: "u"%char :: h2 ++ t).
Definition jstring (rs : list rune) (t : str) : Prop := exists x, jchars rs x /\ t = quote :: x ++ [quote].

(** Numbers *)
Definition digits (t : str) : Prop := t <> [] /\ Forall (fun c => 48 <= N_of_ascii c <= 57)%N t.
Definition jnumber (t : str) : Prop :=
  exists sign int frac exp, t = sign ++ int ++ frac ++ exp /\ (sign = [] \/ sign = b "-") /\
    (int = b "0" \/ (digits int /\ forall x, int <> "0"%char :: x)) /\
    (frac = [] \/ exists d, digits d /\ frac = b "." ++ d) /\
    (exp = [] \/ exists e s d, In e (b "eE") /\ (s = [] \/ s = b "-" \/ s = b "+") /\ digits d /\ exp = e :: s ++ d).

(** Values.  [jitems]: elements separated by commas, [jmembers]: members *)
Inductive jtext : value -> str -> Prop :=
| jt_null : jtext VNull (b "null")
| jt_true : jtext (VBool true) (b "true")
| jt_false : jtext (VBool false) (b "false")
| jt_num t : jnumber t -> jtext (VNum t) t
| jt_str s t : jstring s t -> jtext (VStr s) t
| jt_arr0 w : space w -> jtext (VArr []) (b "[" ++ w ++ b "]")
| jt_arr l t : jitems l t -> jtext (VArr l) (b "[" ++ t ++ b "]")
| jt_obj0 w : space w -> jtext (VObj []) (b "{" ++ w ++ b "}")
| jt_obj l t : jmembers l t -> jtext (VObj l) (b "{" ++ t ++ b "}")
with jitems : list value -> str -> Prop :=
| ji_one w1 w2 v t : space w1 -> space w2 -> jtext v t -> jitems [v] (w1 ++ t ++ w2)
| ji_more w1 w2 v t l x : space w1 -> space w2 -> jtext v t -> jitems l x -> jitems (v :: l) (w1 ++ t ++ w2 ++ b "," ++ x)
with jmembers : list (list rune * value) -> str -> Prop :=
| jm_one w1 w2 w3 w4 k kt v t : space w1 -> space w2 -> space w3 -> space w4 -> jstring k kt -> jtext v t ->
    jmembers [(k, v)] (w1 ++ kt ++ w2 ++ b ":" ++ w3 ++ t ++ w4)
| jm_more w1 w2 w3 w4 k kt v t l x : space w1 -> space w2 -> space w3 -> space w4 -> jstring k kt -> jtext v t -> jmembers l x ->
    jmembers ((k, v) :: l) (w1 ++ kt ++ w2 ++ b ":" ++ w3 ++ t ++ w4 ++ b "," ++ x).
Scheme jtext_mind := Induction for jtext Sort Prop
  with jitems_mind := Induction for jitems Sort Prop
  with jmembers_mind := Induction for jmembers Sort Prop.
Combined Scheme json_mind from jtext_mind, jitems_mind, jmembers_mind.

(** A document *)
Definition jdocument (v : value) (t : str) : Prop := exists w1 x w2, space w1 /\ space w2 /\ jtext v x /\ t = w1 ++ x ++ w2.
