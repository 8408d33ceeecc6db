(** Links inside of lines that are found by their prefixes. *)
From Verif Require Import GoBase Utf8 Flags LinkTypes Extract ExtractSpec SetSpec OrgFoundSpec.

(** Prefixes have neither brackets nor blanks. *)
Definition simple_prefixes (filters : list str) : Prop := forall p c, In p filters -> In c p -> ~ stop c /\ c <> "("%char /\ c <> ")"%char.
(** A character of a scheme *)
Definition scheme_char (filters : list str) (c : ascii) : Prop := exists p x y, In p filters /\ p = x ++ c :: y /\ ~ In ":"%char (x ++ [c]).
(** What is before a link without brackets, see [separate]. *)
Definition set_separate (filters : list str) (edge : bool) (a q : str) : Prop :=
  Forall (fun c => ~ stop c /\ c <> ":"%char) q /\ (a = [] \/ exists y c, a = y ++ [c] /\ stop c) /\
  ((exists y c, q = y ++ [c] /\ ~ word_byte c /\ ~ scheme_char filters c) \/ (q = [] /\ (a <> [] \/ edge = true))).
Definition begins (filters : list str) (x more : str) : Prop := exists p q, In p filters /\ full_prefix p q /\ x = q ++ more.

(** A line of an Org file or of a text file has links in this order, perhaps not only these ones. *)
Inductive listed (k : kind) (filters : list str) : bool -> str -> list str -> Prop :=
| listed_end edge x : listed k filters edge x []
| listed_bracket edge a t d x ls : k = Org -> quiet a -> t <> [] -> no_brackets t -> ~ In "]"%char d -> listed k filters true x ls ->
    listed k filters edge (a ++ bracket_line t d ++ x) (t :: ls)
| listed_angle edge a l more x ls : k = Org -> quiet a -> begins filters l more -> ~ In ">"%char more -> listed k filters true x ls ->
    listed k filters edge (a ++ b "<" ++ l ++ b ">" ++ x) (l :: ls)
| listed_plain edge a q l more x ls : (k = Org -> quiet a) -> set_separate filters edge a q -> begins filters l more -> (exists c v, l = c :: v /\ word_byte c) ->
    plain_text (runes_of more) -> plain_end (runes_of x) -> listed k filters false x ls ->
    listed k filters edge (a ++ q ++ l ++ x) (l :: ls).
