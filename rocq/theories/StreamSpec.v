(** Specification of sessions: messages are JSON objects in frames. *)
From Verif Require Import GoBase JsonSpec FrameSpec.

(** Depth of arrays and objects *)
Fixpoint nesting (v : value) : nat :=
  match v with
  | VArr l => S (fold_right (fun x n => Nat.max (nesting x) n) 0 l)
  | VObj l => S (fold_right (fun x n => Nat.max (nesting (snd x)) n) 0 l)
  | _ => 0
  end.
(** The text is suitable for the structure of a message. *)
Definition accepted (unmarshal : str -> bool) (t : str) : Prop := forall w, space w -> unmarshal (w ++ t) = true.
Definition newline : str := [ascii_of_nat 10].
(** Texts with newlines that are left from previous ones *)
Definition with_newlines (ts : list str) : list str := match ts with [] => [] | t :: ts => t :: map (fun x => newline ++ x) ts end.

(** ** Texts that are accepted by Go
    The grammar of RFC 8259 (see JsonSpec.v), but any bytes are allowed in strings, whether they are valid UTF-8 or not, and lone surrogates.
    [n]: arrays and objects may be nested to this depth. *)
Definition hex_byte (c : ascii) : Prop := exists n, hex_digit c n.
Inductive gchars : str -> Prop :=
| gc_nil : gchars []
| gc_plain c t : (32 <= N_of_ascii c)%N -> c <> quote -> c <> backslash -> gchars t -> gchars (c :: t)
| gc_escape c t : In c (map fst escapes) -> gchars t -> gchars (backslash :: c :: t)
| gc_code h1 h2 h3 h4 t : hex_byte h1 -> hex_byte h2 -> hex_byte h3 -> hex_byte h4 -> gchars t -> gchars (backslash :: "u"%char :: h1 :: h2 :: h3 :: h4 :: t).
Definition gstring (t : str) : Prop := exists x, gchars x /\ t = quote :: x ++ [quote].
Inductive gtext : nat -> str -> Prop :=
| gt_word n t : In t [b "null"; b "true"; b "false"] -> gtext n t
| gt_num n t : jnumber t -> gtext n t
| gt_str n t : gstring t -> gtext n t
| gt_arr0 n w : space w -> gtext (S n) (b "[" ++ w ++ b "]")
| gt_arr n t : gitems n t -> gtext (S n) (b "[" ++ t ++ b "]")
| gt_obj0 n w : space w -> gtext (S n) (b "{" ++ w ++ b "}")
| gt_obj n t : gmembers n t -> gtext (S n) (b "{" ++ t ++ b "}")
with gitems : nat -> str -> Prop :=
| gi_one n w1 w2 t : space w1 -> space w2 -> gtext n t -> gitems n (w1 ++ t ++ w2)
| gi_more n w1 w2 t x : space w1 -> space w2 -> gtext n t -> gitems n x -> gitems n (w1 ++ t ++ w2 ++ b "," ++ x)
with gmembers : nat -> str -> Prop :=
| gm_one n w1 w2 w3 w4 k t : space w1 -> space w2 -> space w3 -> space w4 -> gstring k -> gtext n t -> gmembers n (w1 ++ k ++ w2 ++ b ":" ++ w3 ++ t ++ w4)
| gm_more n w1 w2 w3 w4 k t x : space w1 -> space w2 -> space w3 -> space w4 -> gstring k -> gtext n t -> gmembers n x -> gmembers n (w1 ++ k ++ w2 ++ b ":" ++ w3 ++ t ++ w4 ++ b "," ++ x).
(** A value, maybe with spaces before it *)
Definition value_text (t : str) : Prop := exists w n x, space w /\ (N.of_nat n <= 10000)%N /\ gtext n x /\ t = w ++ x.

(** An object, maybe with spaces before it *)
Definition object_text (t : str) : Prop := exists w n x, space w /\ gtext n ("{"%char :: x) /\ (N.of_nat n <= 10000)%N /\ t = w ++ "{"%char :: x.

(** ** Bytes of messages
    [bodies stream x]: [x] are bytes of bodies of some frames the stream begins with, the last one is maybe not complete. *)
Definition bodies (stream x : str) : Prop :=
  exists s ms z, is_stream s ms /\
    ((stream = s ++ z /\ x = concat ms) \/
     (exists h size m, is_header h size /\ (N.of_nat (length m) <= size)%N /\ stream = s ++ h ++ m ++ z /\ x = concat ms ++ m)).
