(** Lines of Org files: all links of a line. *)
From Verif Require Import GoBase Utf8 LinkTypes ExtractSpec OrgFoundSpec.

(** Text without links: no double opening brackets, no scheme before a colon *)
Definition plain_words (ss : list (list schar)) (a : str) : Prop := (forall x y, a <> x ++ b "[[" ++ y) /\ (forall x w y s, a = x ++ w ++ b ":" ++ y -> In s ss -> ~ word s w).
(** A line has these links and no others, see [shown]. *)
Inductive consists (ss : list (list schar)) : bool -> str -> list (str * str) -> Prop :=
| consists_end edge x : plain_words ss x -> consists ss edge x []
| consists_bracket edge a t d x ls : quiet a -> plain_words ss a -> t <> [] -> no_brackets t -> ~ In "]"%char d -> consists ss true x ls ->
    consists ss edge (a ++ bracket_line t d ++ x) ((t, d) :: ls)
| consists_angle edge a w y x ls : quiet a -> plain_words ss a -> with_scheme ss w -> ~ In ">"%char y -> consists ss true x ls ->
    consists ss edge (a ++ b "<" ++ (w ++ b ":" ++ y) ++ b ">" ++ x) ((w ++ b ":" ++ y, []) :: ls)
| consists_plain edge a q w y x ls : quiet a -> plain_words ss (a ++ q) -> separate ss edge a q -> with_scheme ss w -> (exists c v, w = c :: v /\ word_byte c) ->
    plain_text (runes_of y) -> plain_end (runes_of x) -> consists ss false x ls ->
    consists ss edge (a ++ q ++ (w ++ b ":" ++ y) ++ x) ((w ++ b ":" ++ y, []) :: ls).
(** Links that are accepted *)
Inductive chosen (ss : list (list schar)) : list (str * str) -> list (str * str) -> Prop :=
| chosen_nil : chosen ss [] []
| chosen_take t d ls ls' : accepted ss t -> chosen ss ls ls' -> chosen ss ((t, d) :: ls) ((t, d) :: ls')
| chosen_skip t d ls ls' : ~ accepted ss t -> chosen ss ls ls' -> chosen ss ((t, d) :: ls) ls'.
(** Links that pass the filter *)
Inductive passing (f : option (link -> bool)) : list link -> list link -> Prop :=
| passing_nil : passing f [] []
| passing_take l ls ls' : passed f l -> passing f ls ls' -> passing f (l :: ls) (l :: ls')
| passing_skip l ls ls' : ~ passed f l -> passing f ls ls' -> passing f (l :: ls) ls'.
(** All links of a file, [n]: number of the first line *)
Inductive file_links (ss ss' : list (list schar)) (f : option (link -> bool)) : nat -> list str -> list link -> Prop :=
| file_nil n : file_links ss ss' f n [] []
| file_line n line lines ls ls' links more : consists ss true line ls -> chosen ss' ls ls' -> passing f (map (fun l => mkLink (fst l) (snd l) n) ls') links ->
    file_links ss ss' f (S n) lines more -> file_links ss ss' f n (line :: lines) (links ++ more).
