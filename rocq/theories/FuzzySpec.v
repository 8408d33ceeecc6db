(** Specification of approximate search: edit scripts. *)
From Verif Require Import GoBase Utf8 Fuzzy.
From Coq Require Import Permutation Sorted.
Local Open Scope Z_scope.

Inductive op :=
| Keep (a : rune)          (* the same character *)
| Change (a c : rune)      (* substitution *)
| Remove (a : rune)        (* deletion of a character of the pattern *)
| Add (c : rune)           (* insertion *)
| Swap (a c : rune).       (* transposition of neighbours *)

Definition op_source (o : op) : list rune :=
  match o with Keep a => [a] | Change a _ => [a] | Remove a => [a] | Add _ => [] | Swap a c => [a; c] end.
Definition op_target (o : op) : list rune :=
  match o with Keep a => [a] | Change _ c => [c] | Remove _ => [] | Add c => [c] | Swap a c => [c; a] end.
Definition op_cost (o : op) : Z := match o with Keep _ => 0 | _ => 1 end.

Definition script_source (s : list op) : list rune := flat_map op_source s.
Definition script_target (s : list op) : list rune := flat_map op_target s.
Definition script_cost (s : list op) : Z := fold_right (fun o n => op_cost o + n) 0 s.

(** The script turns the pattern into a substring of the word. *)
Definition finds (s : list op) (pattern word : list rune) : Prop :=
  script_source s = pattern /\ exists before after, word = before ++ script_target s ++ after.

(** [d] is the least cost of a script. *)
Definition distance (pattern word : list rune) (d : Z) : Prop :=
  (exists s, finds s pattern word /\ script_cost s = d) /\
  (forall s, finds s pattern word -> d <= script_cost s).

(** Sum of distances of several patterns *)
Inductive distances (word : list rune) : list (list rune) -> Z -> Prop :=
| distances_nil : distances word [] 0
| distances_cons p ps d ds : distance p word d -> distances word ps ds -> distances word (p :: ps) (d + ds).

(** ASCII text without upper case letters *)
Definition plain (s : str) : Prop :=
  Forall (fun a => (N_of_ascii a < 128)%N /\ ~ (65 <= N_of_ascii a <= 90)%N) s.
Definition is_ascii (s : str) : Prop := Forall (fun a => (N_of_ascii a < 128)%N) s.

(** Order of search results: smaller distance first, then shorter, then in order of bytes. *)
Inductive str_lt : str -> str -> Prop :=
| lt_nil c y : str_lt [] (c :: y)
| lt_head a c x y : (N_of_ascii a < N_of_ascii c)%N -> str_lt (a :: x) (c :: y)
| lt_tail a x y : str_lt x y -> str_lt (a :: x) (a :: y).
Definition better (a c : weighted) : Prop :=
  Weight a < Weight c \/
  (Weight a = Weight c /\
    ((length (Word a) < length (Word c))%nat \/
     (length (Word a) = length (Word c) /\ str_lt (Word a) (Word c)))).
Definition no_worse (a c : weighted) : Prop := better a c \/ a = c.

(** [r] are the first [k] elements of the list of [l] sorted from the best to the worst. *)
Definition best_of (k : nat) (l r : list weighted) : Prop :=
  exists s, Permutation l s /\ StronglySorted no_worse s /\ r = firstn k s.

(** Links that are accepted together with their distances. *)
Inductive accepted (u : rune -> rune) (words : list str) (tolerance : Z) : list str -> list weighted -> Prop :=
| acc_nil : accepted u words tolerance [] []
| acc_yes link links d r :
    QueryDistance u (MakeSubqueryLimit words tolerance) link tolerance = Done (true, d) ->
    accepted u words tolerance links r ->
    accepted u words tolerance (link :: links) (mkW d link :: r)
| acc_no link links d r :
    QueryDistance u (MakeSubqueryLimit words tolerance) link tolerance = Done (false, d) ->
    accepted u words tolerance links r ->
    accepted u words tolerance (link :: links) r.

(** Distance of a single word of the query: zero if it literally occurs in the link,
    otherwise it is the distance (not greater than 32767) between lower case texts. *)
Inductive word_distance (u : rune -> rune) (link q : str) : Z -> Prop :=
| wd_literal : substring q link -> word_distance u link q 0
| wd_edit d : distance (runes_of (ToLower u q)) (runes_of (ToLower u link)) d ->
    word_distance u link q (Z.min d 32767).

(** Words of a text: maximal parts without white space.  [A]: characters, [space]: white space. *)
Inductive words_of {A} (space : A -> Prop) : list A -> list (list A) -> Prop :=
| words_nil : words_of space [] []
| words_space a s ws : space a -> words_of space s ws -> words_of space (a :: s) ws
| words_last w : w <> [] -> Forall (fun a => ~ space a) w -> words_of space w [w]
| words_word w a s ws : w <> [] -> Forall (fun a => ~ space a) w -> space a -> words_of space s ws ->
    words_of space (w ++ a :: s) (w :: ws).

(** Unicode property White_Space *)
Definition white (r : rune) : Prop :=
  In r [9; 10; 11; 12; 13; 32; 133; 160; 5760; 8192; 8193; 8194; 8195; 8196; 8197; 8198; 8199; 8200; 8201; 8202;
        8232; 8233; 8239; 8287; 12288]%N.

(** [chars] are the characters of [s] with their bytes.  Bytes of each character alone are the same character. *)
Definition characters (s : str) (chars : list (rune * str)) : Prop :=
  map fst chars = runes_of s /\ concat (map snd chars) = s /\ Forall (fun p => runes_of (snd p) = [fst p]) chars.

(** Links (without upper case letters) that are close to words, with their distances. *)
Inductive close (words : list str) (tolerance : Z) : list str -> list weighted -> Prop :=
| close_nil : close words tolerance [] []
| close_yes link links d r : distances (bytesN link) (map bytesN words) d -> d <= tolerance ->
    close words tolerance links r -> close words tolerance (link :: links) (mkW d link :: r)
| close_no link links d r : distances (bytesN link) (map bytesN words) d -> tolerance < d ->
    close words tolerance links r -> close words tolerance (link :: links) r.
