(** Outline of a document and places of links. *)
From Verif Require Import GoBase Utf8 LinkTypes Emacs ScannerSpec.

(** Links of a tree in the order of a document, each of them with properties of nodes above it *)
Fixpoint paths (t : node) : list (list props * link) :=
  match t with
  | Leaf ls => map (fun l => ([], l)) ls
  | Inner p ch => map (fun x => (p :: fst x, snd x)) (flat_map paths ch)
  end.

(** A document: a heading (its level) and links of every line *)
Definition document := list (option (nat * heading) * list link).

(** Headings that a place of a document belongs to: a heading closes headings of the same and deeper levels. *)
Definition enter (above : list (nat * heading)) (h : option (nat * heading)) : list (nat * heading) :=
  match h with
  | None => above
  | Some (level, x) => filter (fun a => fst a <? level) above ++ [(level, x)]
  end.
Fixpoint outline (above : list (nat * heading)) (doc : document) : list (list heading * link) :=
  match doc with
  | [] => []
  | (h, ls) :: doc' => let above := enter above h in map (fun l => (map snd above, l)) ls ++ outline above doc'
  end.

(** At most 10 levels, no skipped levels; [depth]: level of the previous heading *)
Fixpoint regular (depth : nat) (hs : list (option (nat * heading))) : Prop :=
  match hs with
  | [] => True
  | None :: hs' => regular depth hs'
  | Some (level, _) :: hs' => 1 <= level <= S depth /\ level <= 10 /\ regular level hs'
  end.

(** What is reported: the latest heading for each level up to the current one.  Headings deeper than 10 are considered to be of
    the level 9.  [seen]: headings from the latest one. *)
Definition effective (level : nat) : nat := if 10 <? level then 9 else level.
Definition latest (seen : list (nat * heading)) (k : nat) : option heading :=
  option_map snd (find (fun a => Nat.eqb (fst a) k) seen).
Definition reported (seen : list (nat * heading)) : list (option heading) :=
  match seen with
  | [] => []
  | (level, _) :: _ => map (latest seen) (seq 1 level)
  end.
Fixpoint placed (seen : list (nat * heading)) (doc : document) : list (list (option heading) * link) :=
  match doc with
  | [] => []
  | (h, ls) :: doc' =>
      let seen := match h with Some (level, x) => (effective level, x) :: seen | None => seen end in
      map (fun l => (reported seen, l)) ls ++ placed seen doc'
  end.

(** A heading: stars, blanks, a title without blanks around it; [n] is the number of stars. *)
Definition blank (c : ascii) : Prop := In (N_of_ascii c) [9; 10; 12; 13; 32]%N.
Definition title_ok (t : str) : Prop :=
  t = [] \/ (~ In (ascii_of_nat 10) t /\ (exists c x, t = c :: x /\ ~ blank c) /\ (exists x c, t = x ++ [c] /\ ~ blank c)).
Definition heading_line (line : str) (n : nat) (title : str) : Prop :=
  1 <= n /\ exists blanks, blanks <> [] /\ Forall blank blanks /\ title_ok title /\
  line = repeat ("*")%char n ++ blanks ++ title.

(** ** Schemes *)

(** A scheme is made of characters, a character may be optional: the last but one of https?.  Characters that are special for
    regular expressions are written after a backslash. *)
Record schar := mkChar { char : ascii; optional : bool }.
Definition special : str := b "\.+*?()|[]{}^$".
Definition written_char (x : schar) : str :=
  (if existsb (Ascii.eqb (char x)) special then b "\" ++ [char x] else [char x]) ++ (if optional x then b "?" else []).
Definition written (s : list schar) : str := flat_map written_char s.
Definition scheme_ok (s : list schar) : Prop := s <> [] /\ Forall (fun x => (N_of_ascii (char x) < 128)%N /\ char x <> ":"%char) s.
(** Words described by a scheme *)
Inductive word : list schar -> str -> Prop :=
| word_nil : word [] []
| word_take x s w : word s w -> word (x :: s) (char x :: w)
| word_skip x s w : optional x = true -> word s w -> word (x :: s) w.
(** Values of the command line option: a scheme with or without a colon *)
Definition variants_of (variants : list str) (ss : list (list schar)) : Prop :=
  Forall scheme_ok ss /\ Forall2 (fun v s => v = written s \/ v = written s ++ b ":") variants ss.

(** ** Links in a line *)

(** [[URL]] or [[URL][description]]; a bracket inside of URL follows a backslash *)
Definition bracket_link (line : str) (l : link) : Prop :=
  (exists pre tail post, line = pre ++ b "[[" ++ URL l ++ b "]" ++ tail ++ b "]" ++ post /\
    ((Description l = [] /\ tail = []) \/ (Description l <> [] /\ tail = b "[" ++ Description l ++ b "]"))) /\
  URL l <> [] /\
  (forall x c y, URL l = x ++ c :: y -> In c (b "[]") -> exists z, x = z ++ b "\").
Definition with_scheme (ss : list (list schar)) (w : str) : Prop := w <> [] /\ exists s, In s ss /\ word s w.
(** <scheme:text> *)
Definition angle_link (ss : list (list schar)) (line : str) (l : link) : Prop :=
  exists pre w x post, line = pre ++ b "<" ++ URL l ++ b ">" ++ post /\ URL l = w ++ b ":" ++ x /\ with_scheme ss w /\
    ~ In ">"%char x /\ Description l = [].
(** scheme:text without blanks and brackets.  Either the character before or the first one belongs to a word, not both. *)
Definition word_byte (c : ascii) : Prop :=
  let n := N_of_ascii c in (48 <= n <= 57)%N \/ (65 <= n <= 90)%N \/ n = 95%N \/ (97 <= n <= 122)%N.
Definition boundary (pre url : str) : Prop :=
  (exists x c, pre = x ++ [c] /\ word_byte c) <-> ~ (exists c x, url = c :: x /\ word_byte c).
Definition blanks : str := b " " ++ [ascii_of_nat 9; ascii_of_nat 10].
Definition plain_link (ss : list (list schar)) (line : str) (l : link) : Prop :=
  exists pre w x post, line = pre ++ URL l ++ post /\ URL l = w ++ b ":" ++ x /\ with_scheme ss w /\ boundary pre (URL l) /\ x <> [] /\
    Forall (fun c => ~ In c (b "[]<>" ++ blanks)) x /\ Description l = [].

(** What the check of bracket links accepts: the beginning for the first scheme, any place for schemes in the middle, any place
    followed by a colon for the last one *)
Definition accepted (ss : list (list schar)) (t : str) : Prop :=
  match ss with
  | [] => False
  | [s] => exists w x, word s w /\ t = w ++ b ":" ++ x
  | s :: others =>
      (exists w x, word s w /\ t = w ++ x) \/
      (exists m y w x, In m (removelast others) /\ word m w /\ t = y ++ w ++ x) \/
      (exists y w x, word (last others []) w /\ t = y ++ w ++ b ":" ++ x)
  end.
(** A line that is a link in brackets, an empty description is omitted *)
Definition bracket_line (t d : str) : str := b "[[" ++ t ++ b "]" ++ match d with [] => [] | _ => b "[" ++ d ++ b "]" end ++ b "]".
Definition no_brackets (t : str) : Prop := forall c, In c (b "[]") -> ~ In c t.

(** ** Files *)

(** Lines that are read and the error.  A line of 64 KiB or longer stops reading.  [broken]: an error instead of the end of the
    file. *)
Definition seen_lines (content : str) (broken : bool) (lines : list str) (err : option berr) : Prop :=
  exists all, lines_of content all /\
    ((Forall short all /\ Forall2 without_cr all lines /\ err = (if broken then Some ERead else None)) \/
     (exists x l y, all = x ++ l :: y /\ Forall short x /\ ~ short l /\ Forall2 without_cr x lines /\ err = Some ETooLong)).

(** Headings of lines; [n]: number of the first line *)
Definition heading_at (n : nat) (line : str) (h : option (nat * heading)) : Prop :=
  match h with
  | Some (level, x) => exists t, x = mkHeading n t /\ heading_line line level t
  | None => ~ exists level t, heading_line line level t
  end.
Inductive headings_of : nat -> list str -> list (option (nat * heading)) -> Prop :=
| headings_nil n : headings_of n [] []
| headings_cons n line lines h hs : heading_at n line h -> headings_of (S n) lines hs -> headings_of n (line :: lines) (h :: hs).

(** Links of lines: every one is in its line, has its number and is passed by the filter (there are no line numbers yet). *)
Definition any_link (ss : list (list schar)) (line : str) (l : link) : Prop := bracket_link line l \/ angle_link ss line l \/ plain_link ss line l.
Definition passed (filter : option (link -> bool)) (l : link) : Prop :=
  match filter with Some f => f (mkLink (URL l) (Description l) 0) = true | None => True end.
Definition link_at (ss : list (list schar)) (filter : option (link -> bool)) (n : nat) (line : str) (l : link) : Prop :=
  LineNo l = n /\ any_link ss line l /\ passed filter l.
Inductive links_in (R : nat -> str -> link -> Prop) : nat -> list str -> list (list link) -> Prop :=
| links_nil n : links_in R n [] []
| links_cons n line lines ls lss : Forall (R n line) ls -> links_in R (S n) lines lss -> links_in R n (line :: lines) (ls :: lss).
