(** Lines of files: all links that are found by their prefixes. *)
From Verif Require Import GoBase Utf8 Flags LinkTypes Emacs Backend ScannerSpec Extract ExtractSpec SetSpec OrgFoundSpec SetFoundSpec.

(** Characters of some prefix are at the beginning. *)
Definition starts_with (filters : list str) (x : str) : Prop := exists p q more, In p filters /\ full_prefix p q /\ runes_of x = runes_of q ++ more.
(** Text without links: no prefixes, no double opening brackets in Org files *)
Definition plain_part (k : kind) (filters : list str) (a : str) : Prop :=
  (k = Org -> forall x y, a <> x ++ b "[[" ++ y) /\ (forall x t y p q, a = x ++ t ++ y -> In p filters -> full_prefix p q -> runes_of t <> runes_of q).
(** A line has these links and no others, see [listed]. *)
Inductive holds (k : kind) (filters : list str) : bool -> str -> list str -> Prop :=
| holds_end edge x : plain_part k filters x -> holds k filters edge x []
| holds_bracket edge a t d x ls : k = Org -> quiet a -> plain_part k filters a -> t <> [] -> no_brackets t -> ~ In "]"%char d -> holds k filters true x ls ->
    holds k filters edge (a ++ bracket_line t d ++ x) (t :: ls)
| holds_angle edge a l more x ls : k = Org -> quiet a -> plain_part k filters a -> begins filters l more -> ~ In ">"%char more -> holds k filters true x ls ->
    holds k filters edge (a ++ b "<" ++ l ++ b ">" ++ x) (l :: ls)
| holds_plain edge a q l more x ls : (k = Org -> quiet a) -> plain_part k filters (a ++ q) -> set_separate filters edge a q -> begins filters l more -> (exists c v, l = c :: v /\ word_byte c) ->
    plain_text (runes_of more) -> plain_end (runes_of x) -> holds k filters false x ls ->
    holds k filters edge (a ++ q ++ l ++ x) (l :: ls).
(** Links of a file that has been read *)
Definition file_holds (filters : list str) (src : source) (read : str * rres) (links : list str) : Prop :=
  exists content broken lines err lss, snd read = RData content broken /\ seen_lines content broken lines err /\ Forall2 (holds (fst src) filters true) lines lss /\ links = concat lss.
(** Links of files *)
Inductive files_hold (filters : list str) : list source -> list (str * rres) -> list str -> Prop :=
| files_none : files_hold filters [] [] []
| files_more src srcs read reads links found : file_holds filters src read links -> files_hold filters srcs reads found -> files_hold filters (src :: srcs) (read :: reads) (links ++ found).
