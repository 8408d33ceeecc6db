(** Specification of sets of links that start from given prefixes. *)
From Verif Require Import GoBase GoSlice LinkTypes Flags Utf8 Scanner Extract ExtractSpec.

(** ** Prefixes *)
(** Letters ignoring case: ſ (U+017F) and K (U+212A) are other forms of "s" and "k". *)
Definition latin (r : rune) : Prop := (65 <= r <= 90 \/ 97 <= r <= 122 \/ r = 383 \/ r = 8490)%N.
Definition latin_digit (r : rune) : Prop := latin r \/ (48 <= r <= 57)%N.
(** Groups of letters and digits joined by "-" or "+", the first character is a letter. *)
Definition scheme_name (s : list rune) : Prop :=
  exists first more groups, latin first /\ Forall latin_digit more /\
    Forall (fun g => (fst g = 43 \/ fst g = 45)%N /\ snd g <> [] /\ Forall latin_digit (snd g)) groups /\
    s = first :: more ++ concat (map (fun g => fst g :: snd g) groups).
(** A scheme that may be followed by a colon and arbitrary text without newlines. *)
Definition prefix_ok (p : str) : Prop :=
  exists s, scheme_name s /\ (runes_of p = s \/ exists x, runes_of p = s ++ 58%N :: x /\ ~ In 10%N x).
(** A colon is added to a bare scheme. *)
Definition full_prefix (p q : str) : Prop := (In ":"%char p /\ q = p) \/ (~ In ":"%char p /\ q = p ++ b ":").
(** Prefixes that are accepted *)
Definition prefixes_ok (filters : list str) : Prop := filters <> [] /\ Forall (fun p => prefix_ok p /\ valid_utf8 p) filters.

(** ** Links *)
(** [t] is [q].  U+FFFD in a prefix is also found where bytes are not valid UTF-8. *)
Definition same_text (t q : str) : Prop := t = q \/ (In 65533%N (runes_of q) /\ runes_of t = runes_of q).
(** [x] is some prefix and [more]. *)
Definition starts (filters : list str) (x more : str) : Prop :=
  exists p q t, In p filters /\ full_prefix p q /\ same_text t q /\ x = t ++ more.
(** [[x]] or [[x][description]], <x>, or [x] without blanks and brackets after the prefix *)
Definition set_link (k : kind) (filters : list str) (line x : str) : Prop :=
  exists more, starts filters x more /\
    ((k = Org /\ exists d, bracket_link line (mkLink x d 0)) \/
     (k = Org /\ (exists pre post, line = pre ++ b "<" ++ x ++ b ">" ++ post) /\ ~ In ">"%char more) \/
     ((exists pre post, line = pre ++ x ++ post /\ boundary pre x) /\ more <> [] /\
      Forall (fun c => ~ In c (b "[]<>" ++ blanks)) more)).
