(** Words of a file and calls of a callback. *)
From Verif Require Import GoBase Utf8 Regex LinkTypes Emacs FuzzySpec Extract TextSpec.

(** Words of a text and room for each of them: bytes of the word and of the next character (1 at the end of the file). *)
Inductive rooms : list (rune * str) -> list (str * nat) -> Prop :=
| rooms_nil : rooms [] []
| rooms_space a s ws : white (fst a) -> rooms s ws -> rooms (a :: s) ws
| rooms_last w : w <> [] -> Forall (fun a => ~ white (fst a)) w ->
    rooms w [(concat (map snd w), length (concat (map snd w)) + 1)]
| rooms_word w a s ws : w <> [] -> Forall (fun a => ~ white (fst a)) w -> white (fst a) -> rooms s ws ->
    rooms (w ++ a :: s) ((concat (map snd w), length (concat (map snd w)) + length (snd a)) :: ws).
Definition fits (w : str * nat) : Prop := (N.of_nat (snd w) <= 65536)%N.
(** Words that are read from a file and the error *)
Definition seen_words (content : str) (broken : bool) (words : list str) (err : option berr) : Prop :=
  exists chars ws, characters content chars /\ rooms chars ws /\
    ((Forall fits ws /\ words = map fst ws /\ err = if broken then Some ERead else None) \/
     (exists before w rest, ws = before ++ w :: rest /\ Forall fits before /\ ~ fits w /\ words = map fst before /\ err = Some ETooLong)).

(** [calls]: all calls for a word with these URLs, given earlier calls: the callback allows to continue after each of
    them besides the last one, the callback is not called again after it returned false. *)
Inductive asked {A} (cb : list A -> A -> bool) : list A -> list A -> list A -> Prop :=
| asked_nil done : asked cb done [] []
| asked_stop done m ms : cb done m = false -> asked cb done (m :: ms) [m]
| asked_next done m ms calls : cb done m = true -> asked cb (done ++ [m]) ms calls -> asked cb done (m :: ms) (m :: calls).
(** All words are visited. *)
Inductive visited {A} (cb : list A -> A -> bool) : list A -> list (list A) -> list A -> Prop :=
| visited_nil done : visited cb done [] []
| visited_word done ms words calls rest : asked cb done ms calls -> visited cb (done ++ calls) words rest ->
    visited cb done (ms :: words) (calls ++ rest).
