(** Text files: all URLs of words, lines and files. *)
From Verif Require Import GoBase Utf8 LinkTypes FuzzySpec ExtractSpec TextSpec TextFoundSpec.

(** No URL inside *)
Definition no_url (u : rune -> bool) (l : list rune) : Prop := forall x y z, l = x ++ y ++ z -> ~ text_url u y.
(** A URL: scheme, domain, path; every character with its bytes *)
Record parts := mkParts { pscheme : list (rune * str); pdomain : list (rune * str); ppath : list (rune * str) }.
Definition parts_text (p : parts) : str := concat (map snd (pscheme p ++ pdomain p ++ ppath p)).
(** Characters of a word: these URLs and no others, see [word_has]. *)
Inductive urls_in (u : rune -> bool) : list (rune * str) -> list parts -> Prop :=
| urls_end l : no_url u (map fst l) -> urls_in u l []
| urls_more before s d p after more : no_url u (map fst before) -> started u (map fst before) -> full_url u (map fst s) (map fst d) (map fst p) -> ended u (map fst p) (map fst after) ->
    urls_in u after more -> urls_in u (before ++ s ++ d ++ p ++ after) (mkParts s d p :: more).
Definition word_urls_are (u : rune -> bool) (w : str) (us : list parts) : Prop := exists l, characters w l /\ urls_in u l us.
Inductive words_urls_are (u : rune -> bool) : list str -> list parts -> Prop :=
| words_nil : words_urls_are u [] []
| words_more w words us more : word_urls_are u w us -> words_urls_are u words more -> words_urls_are u (w :: words) (us ++ more).
(** Links that pass the filter; it gets line numbers. *)
Inductive kept (f : option (link -> bool)) : list link -> list link -> Prop :=
| kept_nil : kept f [] []
| kept_take l ls ls' : match f with Some f => f l = true | None => True end -> kept f ls ls' -> kept f (l :: ls) (l :: ls')
| kept_skip l ls ls' : match f with Some f => f l = false | None => False end -> kept f ls ls' -> kept f (l :: ls) ls'.
(** All links of a file, [n]: number of the first line *)
Inductive text_links (u : rune -> bool) (f : option (link -> bool)) : nat -> list str -> list link -> Prop :=
| text_nil n : text_links u f n [] []
| text_line n line lines words us links more : line_words line words -> words_urls_are u words us -> kept f (map (fun p => mkLink (parts_text p) [] n) us) links ->
    text_links u f (S n) lines more -> text_links u f n (line :: lines) (links ++ more).
