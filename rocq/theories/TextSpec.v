(** URLs in text files. *)
From Verif Require Import GoBase Utf8 LinkTypes FuzzySpec.

(** [u]: letters outside of ASCII *)
Definition is_letter (u : rune -> bool) (r : rune) : Prop :=
  (65 <= r <= 90)%N \/ (97 <= r <= 122)%N \/ ((128 <= r)%N /\ u r = true).
Definition is_digit (r : rune) : Prop := (48 <= r <= 57)%N.
Definition is_hex (r : rune) : Prop := is_digit r \/ (65 <= r <= 70)%N \/ (97 <= r <= 102)%N.
Definition alnum (u : rune -> bool) (r : rune) : Prop := is_letter u r \/ is_digit r.

(** Latin letters, a colon, optional slashes *)
Definition schema (s : list rune) : Prop :=
  exists x, x <> [] /\ Forall (is_letter (fun _ => false)) x /\ (s = x ++ [58%N] \/ s = x ++ [58; 47; 47]%N).
(** From 1 to 64 characters; minus and underscore are allowed in the middle *)
Definition component (u : rune -> bool) (s : list rune) : Prop :=
  exists z, alnum u z /\
    (s = [z] \/ exists a m, alnum u a /\ length m <= 62 /\ Forall (fun r => alnum u r \/ r = 95%N \/ r = 45%N) m /\ s = a :: m ++ [z]).
(** From 2 to 64 letters and an optional dot *)
Definition top_level (u : rune -> bool) (s : list rune) : Prop :=
  exists x, 2 <= length x <= 64 /\ Forall (is_letter u) x /\ (s = x \/ s = x ++ [46%N]).
(** Components followed by dots before the last one *)
Definition domain (u : rune -> bool) (cs : list (list rune)) (t : list rune) (s : list rune) : Prop :=
  length cs <= 16 /\ Forall (component u) cs /\ top_level u t /\ s = concat (map (fun c => c ++ [46%N]) cs) ++ t.
(** Characters of a path, %XX *)
Inductive segment (u : rune -> bool) : list rune -> Prop :=
| segment_nil : segment u []
| segment_char r s : alnum u r \/ In r [46; 64; 44; 126; 95; 45]%N -> segment u s -> segment u (r :: s)
| segment_hex x y s : is_hex x -> is_hex y -> segment u s -> segment u (37%N :: x :: y :: s).
Definition path (u : rune -> bool) (s : list rune) : Prop := exists segs, Forall (segment u) segs /\ s = concat (map (cons 47%N) segs).

(** There is either a scheme and something after it or at least two components of a domain. *)
Definition text_url (u : rune -> bool) (rs : list rune) : Prop :=
  exists s d p, rs = s ++ d ++ p /\ path u p /\
    ((schema s /\ d ++ p <> [] /\ (d = [] \/ exists cs t, domain u cs t d)) \/
     (s = [] /\ exists cs t, cs <> [] /\ domain u cs t d)).

(** Words of a line *)
Definition line_words (line : str) (words : list str) : Prop :=
  exists chars ws, characters line chars /\ words_of (fun c => white (fst c)) chars ws /\ words = map (fun w => concat (map snd w)) ws.
(** A link of a text file; the filter gets the line number. *)
Definition text_link (u : rune -> bool) (filter : option (link -> bool)) (n : nat) (line : str) (l : link) : Prop :=
  LineNo l = n /\ Description l = [] /\ text_url u (runes_of (URL l)) /\ Forall (fun r => ~ white r) (runes_of (URL l)) /\
  (exists words w x y, line_words line words /\ In w words /\ w = x ++ URL l ++ y) /\
  match filter with Some f => f l = true | None => True end.
