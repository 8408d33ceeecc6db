(** Links inside of lines of Org files. *)
From Verif Require Import GoBase Utf8 Utf8Dec LinkTypes Extract ExtractSpec.

(** ** Links without brackets, characters of text *)
(** Brackets (except parentheses) and blanks, they are not allowed inside *)
Definition stops : list rune := [91; 93; 60; 62; 32; 9; 10]%N.
Definition plain_rune (r : rune) : Prop := ~ In r stops /\ r <> 40%N /\ r <> 41%N.
Definition punct (r : rune) : Prop := (33 <= r <= 47 \/ 58 <= r <= 64 \/ 91 <= r <= 96 \/ 123 <= r <= 126)%N.
(** Parentheses are balanced, [n]: how deep they are *)
Inductive nest : nat -> list rune -> Prop :=
| nest_nil n : nest n []
| nest_char n r x : plain_rune r -> nest n x -> nest n (r :: x)
| nest_group n y x : nest n y -> nest (S n) x -> nest (S n) (40%N :: y ++ 41%N :: x).
(** Text after a colon: at least two elements, the last one is not a punctuation mark unless it is a slash or parentheses. *)
Definition plain_text (x : list rune) : Prop := exists y z, x = y ++ z /\ y <> [] /\ nest 2 y /\
  ((exists r, z = [r] /\ plain_rune r /\ (~ punct r \/ r = 47%N)) \/ (exists g, nest 1 g /\ z = 40%N :: g ++ [41%N])).
(** Text after a link: punctuation marks, then a blank, a bracket (not an opening parenthesis) or the end of the line *)
Definition plain_end (x : list rune) : Prop := exists y z, x = y ++ z /\ Forall (fun r => plain_rune r /\ punct r /\ r <> 47%N) y /\
  match z with [] => True | r :: _ => In r stops \/ r = 41%N end.

(** ** Text before links *)
(** There are no double opening brackets, every angle bracket is closed. *)
Definition quiet (a : str) : Prop := (forall x y, a <> x ++ b "[[" ++ y) /\ (forall x y, a = x ++ b "<" ++ y -> In ">"%char y).
Definition stop (c : ascii) : Prop := In (N_of_ascii c) stops.
(** Schemes have neither brackets nor blanks. *)
Definition simple_schemes (ss : list (list schar)) : Prop := forall s x, In s ss -> In x s -> ~ stop (char x).
(** What is before a link without brackets: a text ended by a bracket or a blank (it may be absent), then characters without colons, the
    last one does not belong to words and schemes.  [edge]: nothing is necessary since there is a bracket before the text. *)
Definition separate (ss : list (list schar)) (edge : bool) (a q : str) : Prop :=
  Forall (fun c => ~ stop c /\ c <> ":"%char) q /\ (a = [] \/ exists y c, a = y ++ [c] /\ stop c) /\
  ((exists y c, q = y ++ [c] /\ ~ word_byte c /\ forall s x, In s ss -> In x s -> char x <> c) \/ (q = [] /\ (a <> [] \/ edge = true))).

(** ** Lines *)
(** A line has links (with descriptions) in this order, perhaps not only these ones. *)
Inductive shown (ss : list (list schar)) : bool -> str -> list (str * str) -> Prop :=
| shown_end edge x : shown ss edge x []
| shown_bracket edge a t d x ls : quiet a -> t <> [] -> no_brackets t -> ~ In "]"%char d -> shown ss true x ls ->
    shown ss edge (a ++ bracket_line t d ++ x) ((t, d) :: ls)
| shown_angle edge a w y x ls : quiet a -> with_scheme ss w -> ~ In ">"%char y -> shown ss true x ls ->
    shown ss edge (a ++ b "<" ++ (w ++ b ":" ++ y) ++ b ">" ++ x) ((w ++ b ":" ++ y, []) :: ls)
| shown_plain edge a q w y x ls : quiet a -> separate ss edge a q -> with_scheme ss w -> (exists c v, w = c :: v /\ word_byte c) ->
    plain_text (runes_of y) -> plain_end (runes_of x) -> shown ss false x ls ->
    shown ss edge (a ++ q ++ (w ++ b ":" ++ y) ++ x) ((w ++ b ":" ++ y, []) :: ls).
(** Links with configured schemes *)
Definition proper (ss : list (list schar)) (t : str) : Prop := exists w x, t = w ++ b ":" ++ x /\ with_scheme ss w.
