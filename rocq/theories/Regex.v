(** Regular expressions: package regexp of Go (leftmost-first matching), not code of /repo.
    Patterns of pkg/burl_links are compiled by [compile] of RegexParse.v. *)
From Verif Require Import GoBase Utf8 Utf8Dec.

(** Items of a character class: a range, \p{L} *)
Inductive citem := CRange (lo hi : rune) | CLetter.
Record cls := mkCls { cneg : bool; citems : list citem }.

(** unicode.Is(unicode.L, r) is an argument for characters that are not ASCII. *)
Definition ascii_letter (r : rune) : bool := (inr 65 90 r || inr 97 122 r)%bool.
Definition letter (u : rune -> bool) (r : rune) : bool := if (r <? 128)%N then ascii_letter r else u r.
Definition item_match (u : rune -> bool) (r : rune) (it : citem) : bool :=
  match it with CRange lo hi => inr lo hi r | CLetter => letter u r end.
Definition cls_match (u : rune -> bool) (c : cls) (r : rune) : bool :=
  xorb (cneg c) (existsb (item_match u r) (citems c)).

(** [RStar]: a loop, its body never matches the empty string ([compile] checks it). *)
Inductive re :=
| REmpty
| RCls (c : cls)
| RBegin            (* ^ without flag m: the beginning of the text *)
| REnd              (* $ *)
| RWord             (* \b: ASCII word boundary *)
| RSeq (x y : re)
| RAlt (x y : re)   (* [x] is preferred *)
| RStar (greedy : bool) (x : re)
| RGroup (n : nat) (x : re).

(** The previous character, the number of characters before, characters (with their bytes) that are left, groups. *)
Notation piece := (rune * str)%type (only parsing).
Record mstate := mkSt { prev : option rune; pos : nat; rest : list piece; caps : list (nat * str) }.

Definition text_of (l : list piece) : str := concat (map snd l).
Definition between (s s' : mstate) : str := text_of (firstn (pos s' - pos s) (rest s)).

(** regexp/syntax.IsWordChar *)
Definition word_char (r : rune) : bool := (inr 65 90 r || inr 97 122 r || inr 48 57 r || (r =? 95)%N)%bool.
Definition word_at (o : option rune) : bool := match o with Some r => word_char r | None => false end.
Definition next (s : mstate) : option rune := match rest s with [] => None | (c, _) :: _ => Some c end.

Definition orelse {A} (x : option A) (y : unit -> option A) : option A := match x with Some _ => x | None => y tt end.

(** Backtracking in the order of preference, [k]: what is to be matched after *)
Fixpoint mt {A} (u : rune -> bool) (r : re) (k : mstate -> option A) (s : mstate) {struct r} : option A :=
  match r with
  | REmpty => k s
  | RCls c =>
      match rest s with
      | (x, bs) :: t => if cls_match u c x then k (mkSt (Some x) (S (pos s)) t (caps s)) else None
      | [] => None
      end
  | RBegin => if pos s =? 0 then k s else None
  | REnd => match rest s with [] => k s | _ => None end
  | RWord => if xorb (word_at (prev s)) (word_at (next s)) then k s else None
  | RSeq x y => mt u x (mt u y k) s
  | RAlt x y => orelse (mt u x k s) (fun _ => mt u y k s)
  | RStar greedy x =>
      (fix loop (n : nat) (s : mstate) {struct n} : option A :=
         match n with
         | O => k s
         | S n =>
             if greedy
             then orelse (mt u x (loop n) s) (fun _ => k s)
             else orelse (k s) (fun _ => mt u x (loop n) s)
         end) (length (rest s)) s
  | RGroup n x => mt u x (fun s' => k (mkSt (prev s') (pos s') (rest s') ((n, between s s') :: caps s'))) s
  end.

(** Leftmost match at or after a position: states at its beginning and at its end *)
Fixpoint search (u : rune -> bool) (r : re) (pv : option rune) (p : nat) (l : list piece) : option (mstate * mstate) :=
  let s := mkSt pv p l [] in
  match mt u r Some s with
  | Some s' => Some (s, s')
  | None =>
      match l with
      | [] => None
      | (c, _) :: t => search u r (Some c) (S p) t
      end
  end.

(** A match: the whole text and groups; a group that does not participate is empty. *)
Record rmatch := mkMatch { whole : str; groups : list (nat * str) }.
Definition match_of (x : mstate * mstate) : rmatch := mkMatch (between (fst x) (snd x)) (caps (snd x)).
Definition group (m : rmatch) (n : nat) : str :=
  match n with
  | O => whole m
  | _ => match find (fun x => Nat.eqb (fst x) n) (groups m) with Some (_, s) => s | None => [] end
  end.

(** Regexp.allMatches; the fuel is sufficient since every step advances at least by one character. *)
Fixpoint all_matches (fuel : nat) (u : rune -> bool) (r : re) (pv : option rune) (p : nat) (l : list piece) (prevEnd : option nat)
  : list rmatch :=
  match fuel with
  | O => []
  | S fuel =>
      match search u r pv p l with
      | None => []
      | Some (s, s') =>
          let empty := pos s' =? p in
          let accept := negb (empty && match prevEnd with Some e => pos s =? e | None => false end)%bool in
          let here := if accept then [match_of (s, s')] else [] in
          here ++
          (if empty
           then match l with [] => [] | (c, _) :: t => all_matches fuel u r (Some c) (S p) t (Some (pos s')) end
           else all_matches fuel u r (prev s') (pos s') (rest s') (Some (pos s')))
      end
  end.

(** FindAllStringSubmatch(s, -1), FindStringSubmatch(s), MatchString(s) *)
Definition FindAll (u : rune -> bool) (r : re) (s : str) : list rmatch :=
  all_matches (S (length (pieces s))) u r None 0 (pieces s) None.
Definition Find (u : rune -> bool) (r : re) (s : str) : option rmatch :=
  option_map match_of (search u r None 0 (pieces s)).
Definition MatchString (u : rune -> bool) (r : re) (s : str) : bool :=
  match search u r None 0 (pieces s) with Some _ => true | None => false end.
