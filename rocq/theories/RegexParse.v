(** Parsing of regular expressions: package regexp/syntax of Go with flags Perl, not code of /repo.
    None: an error or syntax that is not used in /repo (so it is not modelled): named groups, flags other than (?i), \p of other
    categories, octal and hexadecimal escapes, loops whose body may match the empty string. *)
From Verif Require Import GoBase Utf8 Utf8Proofs Regex.
Local Open Scope N_scope.

Inductive token :=
| TCls (c : cls)
| TBegin | TEnd | TWord
| TOpen (capture : bool)
| TFold                 (* (?i) *)
| TClose | TBar
| TRep (min : nat) (max : option nat) (greedy : bool).

Definition ch (c : ascii) : rune := N_of_ascii c.
Definition single (r : rune) : cls := mkCls false [CRange r r].

(** parseEscape after the backslash *)
Definition alnum (r : rune) : bool := (inr 48 57 r || inr 65 90 r || inr 97 122 r)%bool.
Definition escape (r : rune) : option rune :=
  if (r <? 128) && negb (alnum r) then Some r
  else if r =? ch "n" then Some 10
  else if r =? ch "t" then Some 9
  else if r =? ch "r" then Some 13
  else if r =? ch "f" then Some 12
  else if r =? ch "v" then Some 11
  else if r =? ch "a" then Some 7
  else None.

(** \d \s \w *)
Definition perl_items (r : rune) : option (list citem) :=
  if r =? ch "d" then Some [CRange 48 57]
  else if r =? ch "s" then Some [CRange 9 10; CRange 12 13; CRange 32 32]
  else if r =? ch "w" then Some [CRange 48 57; CRange 65 90; CRange 95 95; CRange 97 122]
  else None.

(** [:name:] *)
Definition posix_classes : list (list rune * list citem) :=
  [(map ch (b "alpha"), [CRange 65 90; CRange 97 122]);
   (map ch (b "digit"), [CRange 48 57]);
   (map ch (b "alnum"), [CRange 48 57; CRange 65 90; CRange 97 122]);
   (map ch (b "punct"), [CRange 33 47; CRange 58 64; CRange 91 96; CRange 123 126]);
   (map ch (b "space"), [CRange 9 13; CRange 32 32])].
Fixpoint runes_eqb (x y : list rune) : bool :=
  match x, y with
  | [], [] => true
  | a :: x, c :: y => (a =? c) && runes_eqb x y
  | _, _ => false
  end.
Definition posix_items (name : list rune) : option (list citem) :=
  option_map snd (find (fun x => runes_eqb (fst x) name) posix_classes).
(** Text up to ":]" and after it *)
Fixpoint posix_name (l acc : list rune) : option (list rune * list rune) :=
  match l with
  | x :: (y :: l') as t => if (x =? ch ":") && (y =? ch "]") then Some (rev acc, l') else posix_name t (x :: acc)
  | _ => None
  end.
Definition strip_prefix (p l : list rune) : option (list rune) :=
  if runes_eqb p (firstn (length p) l) then Some (skipn (length p) l) else None.

(** parseClassChar *)
Definition class_char (l : list rune) : option (rune * list rune) :=
  match l with
  | [] => None
  | x :: t =>
      if x =? ch "\" then match t with y :: t' => match escape y with Some r => Some (r, t') | None => None end | [] => None end
      else Some (x, t)
  end.

(** The loop of parseClass; items are added in reverse order *)
Fixpoint class_loop (fuel : nat) (first : bool) (l : list rune) (acc : list citem) : option (list citem * list rune) :=
  match fuel with
  | O => None
  | S fuel =>
      match l with
      | [] => None
      | x :: t =>
          if (x =? ch "]") && negb first then Some (rev acc, t)
          else
            let other := fun _ : unit =>
              match class_char l with
              | None => None
              | Some (lo, t1) =>
                  match t1 with
                  | y :: (z :: _) as t2 =>
                      if (y =? ch "-") && negb (z =? ch "]") then
                        match class_char t2 with
                        | Some (hi, t3) => if hi <? lo then None else class_loop fuel false t3 (CRange lo hi :: acc)
                        | None => None
                        end
                      else class_loop fuel false t1 (CRange lo lo :: acc)
                  | _ => class_loop fuel false t1 (CRange lo lo :: acc)
                  end
              end in
            match x =? ch "[", t with
            | true, y :: t' =>
                if y =? ch ":" then
                  match posix_name t' [] with
                  | Some (name, t'') => match posix_items name with Some its => class_loop fuel false t'' (rev its ++ acc) | None => None end
                  | None => other tt
                  end
                else other tt
            | _, _ =>
                if x =? ch "\" then
                  match strip_prefix (map ch (b "p{L}")) t with
                  | Some t' => class_loop fuel false t' (CLetter :: acc)
                  | None =>
                      match t with
                      | y :: t' => match perl_items y with Some its => class_loop fuel false t' (rev its ++ acc) | None => other tt end
                      | [] => None
                      end
                  end
                else other tt
            end
      end
  end.
Definition lex_class (l : list rune) : option (cls * list rune) :=
  match l with
  | x :: t =>
      if x =? ch "^" then option_map (fun '(its, r) => (mkCls true its, r)) (class_loop (S (length t)) true t [])
      else option_map (fun '(its, r) => (mkCls false its, r)) (class_loop (S (length l)) true l [])
  | [] => None
  end.

(** parseInt: decimal number without leading zeros *)
Fixpoint digits (l : list rune) (acc : option nat) : option nat * list rune :=
  match l with
  | x :: t =>
      if inr 48 57 x then
        match acc with
        | Some O => (None, l)
        | _ => digits t (Some (10 * (match acc with Some n => n | None => O end) + N.to_nat (x - 48)))%nat
        end
      else (acc, l)
  | [] => (acc, [])
  end.
(** p.repeat {n,m} after the brace.  None: it is a literal brace *)
Definition lex_repeat (l : list rune) : option (nat * option nat * list rune) :=
  match digits l None with
  | (Some n, x :: t) =>
      if x =? ch "}" then Some (n, Some n, t)
      else if x =? ch "," then
        match t with
        | y :: t' =>
            if y =? ch "}" then Some (n, None, t')
            else match digits t None with
                 | (Some m, z :: t'') => if z =? ch "}" then Some (n, Some m, t'') else None
                 | _ => None
                 end
        | [] => None
        end
      else None
  | _ => None
  end.

(** Optional question mark after a repetition *)
Definition lazy_mark (l : list rune) : bool * list rune :=
  match l with
  | x :: t => if x =? ch "?" then (false, t) else (true, l)
  | [] => (true, [])
  end.

Definition meta (r : rune) : bool := existsb (fun c => r =? ch c) (b "\.+*?()|[]{}^$").
(** One token *)
Definition lex1 (x : rune) (t : list rune) : option (token * list rune) :=
  if x =? ch "\" then
    match t with
    | y :: t' =>
        if y =? ch "b" then Some (TWord, t')
        else
          match strip_prefix (map ch (b "p{L}")) t with
          | Some t'' => Some (TCls (mkCls false [CLetter]), t'')
          | None =>
              match perl_items y with
              | Some its => Some (TCls (mkCls false its), t')
              | None =>
                  match (if inr 65 90 y then perl_items (y + 32) else None) with
                  | Some its => Some (TCls (mkCls true its), t')
                  | None => option_map (fun r => (TCls (single r), t')) (escape y)
                  end
              end
          end
    | [] => None
    end
  else if x =? ch "." then Some (TCls (mkCls true [CRange 10 10]), t)
  else if x =? ch "^" then Some (TBegin, t)
  else if x =? ch "$" then Some (TEnd, t)
  else if x =? ch "|" then Some (TBar, t)
  else if x =? ch ")" then Some (TClose, t)
  else if x =? ch "(" then
    match t with
    | y :: t' =>
        if y =? ch "?" then
          match t' with
          | z :: t'' =>
              if z =? ch ":" then Some (TOpen false, t'')
              else if z =? ch "i" then match t'' with w :: t3 => if w =? ch ")" then Some (TFold, t3) else None | [] => None end
              else None
          | [] => None
          end
        else Some (TOpen true, t)
    | [] => Some (TOpen true, t)
    end
  else if x =? ch "[" then option_map (fun '(c, r) => (TCls c, r)) (lex_class t)
  else if x =? ch "*" then let '(g, r) := lazy_mark t in Some (TRep 0 None g, r)
  else if x =? ch "+" then let '(g, r) := lazy_mark t in Some (TRep 1 None g, r)
  else if x =? ch "?" then let '(g, r) := lazy_mark t in Some (TRep 0 (Some 1%nat) g, r)
  else if x =? ch "{" then
    match lex_repeat t with
    | Some (n, m, r) => let '(g, r') := lazy_mark r in Some (TRep n m g, r')
    | None => Some (TCls (single x), t)
    end
  else Some (TCls (single x), t).

Fixpoint lex (fuel : nat) (l : list rune) : option (list token) :=
  match l with
  | [] => Some []
  | x :: t =>
      match fuel with
      | O => None
      | S fuel =>
          match lex1 x t with
          | Some (tok, r) => option_map (cons tok) (lex fuel r)
          | None => None
          end
      end
  end.

(** Flag i.  Folding of letters outside of ASCII: the Kelvin sign and the long s are variants of k and s. *)
Definition fold_item (it : citem) : option (list citem) :=
  match it with
  | CLetter => None
  | CRange lo hi =>
      if 128 <=? hi then None
      else
        let up := (N.max lo 97, N.min hi 122) in
        let low := (N.max lo 65, N.min hi 90) in
        let has c := inr lo hi c in
        Some ([CRange lo hi]
              ++ (if fst up <=? snd up then [CRange (fst up - 32) (snd up - 32)] else [])
              ++ (if fst low <=? snd low then [CRange (fst low + 32) (snd low + 32)] else [])
              ++ (if has 107 || has 75 then [CRange 8490 8490] else [])
              ++ (if has 115 || has 83 then [CRange 383 383] else []))
  end.
Fixpoint fold_items (l : list citem) : option (list citem) :=
  match l with
  | [] => Some []
  | it :: l' => match fold_item it, fold_items l' with Some x, Some y => Some (x ++ y) | _, _ => None end
  end.
Definition fold_cls (c : cls) : option cls := option_map (mkCls (cneg c)) (fold_items (citems c)).

(** Frames of open groups: alternatives and the current sequence in reverse order, group number, flag i outside of the group *)
Record frame := mkFrame { falts : list re; fcur : list re; fgroup : option nat; ffold : bool }.
(** [repeated]: the last token is a repetition *)
Record pstate := mkP { top : frame; below : list frame; ncap : nat; folding : bool; repeated : bool }.

Definition seq_of (rcur : list re) : re :=
  match rcur with
  | [] => REmpty
  | x :: l => fold_left (fun acc y => RSeq y acc) l x
  end.
Definition alt_of (f : frame) : re := fold_left (fun acc y => RAlt y acc) (falts f) (seq_of (fcur f)).

Fixpoint nullable (r : re) : bool :=
  match r with
  | REmpty | RBegin | REnd | RWord => true
  | RCls _ => false
  | RSeq x y => nullable x && nullable y
  | RAlt x y => nullable x || nullable y
  | RStar _ _ => true
  | RGroup _ x => nullable x
  end.
Definition opt_re (greedy : bool) (x : re) : re := if greedy then RAlt x REmpty else RAlt REmpty x.
(** Repetition up to [n] times: (x(x(x)?)?)? *)
Fixpoint upto (greedy : bool) (x : re) (n : nat) : re :=
  match n with
  | O => REmpty
  | S O => opt_re greedy x
  | S n => opt_re greedy (RSeq x (upto greedy x n))
  end.
Fixpoint times_then (n : nat) (x tail : re) : re :=
  match n with O => tail | S n => RSeq x (times_then n x tail) end.
Definition repeat_re (min : nat) (max : option nat) (greedy : bool) (x : re) : option re :=
  match max with
  | None => if nullable x then None else Some (times_then min x (RStar greedy x))
  | Some m => if (m <? min)%nat || (1000 <? m)%nat then None else Some (times_then min x (upto greedy x (m - min)))
  end.

Definition add (st : pstate) (r : re) : pstate :=
  let f := top st in
  mkP (mkFrame (falts f) (r :: fcur f) (fgroup f) (ffold f)) (below st) (ncap st) (folding st) false.
Definition pstep (st : pstate) (t : token) : option pstate :=
  let f := top st in
  match t with
  | TCls c => if folding st then option_map (fun c => add st (RCls c)) (fold_cls c) else Some (add st (RCls c))
  | TBegin => Some (add st RBegin)
  | TEnd => Some (add st REnd)
  | TWord => Some (add st RWord)
  | TFold => Some (mkP f (below st) (ncap st) true false)
  | TOpen capture =>
      let n := if capture then S (ncap st) else ncap st in
      Some (mkP (mkFrame [] [] (if capture then Some n else None) (folding st)) (f :: below st) n (folding st) false)
  | TBar => Some (mkP (mkFrame (seq_of (fcur f) :: falts f) [] (fgroup f) (ffold f)) (below st) (ncap st) (folding st) false)
  | TClose =>
      match below st with
      | [] => None
      | f' :: fs =>
          let r := alt_of f in
          Some (add (mkP f' fs (ncap st) (ffold f) false) (match fgroup f with Some n => RGroup n r | None => r end))
      end
  | TRep min max greedy =>
      match repeated st, fcur f with
      | false, x :: cur =>
          match repeat_re min max greedy x with
          | Some r => Some (mkP (mkFrame (falts f) (r :: cur) (fgroup f) (ffold f)) (below st) (ncap st) (folding st) true)
          | None => None
          end
      | _, _ => None
      end
  end.
Fixpoint prun (st : pstate) (l : list token) : option pstate :=
  match l with
  | [] => Some st
  | t :: l' => match pstep st t with Some st' => prun st' l' | None => None end
  end.
Definition pstart : pstate := mkP (mkFrame [] [] None false) [] 0 false false.
Definition pfinish (st : pstate) : option re := match below st with [] => Some (alt_of (top st)) | _ => None end.

(** regexp.Compile *)
Definition compile (s : str) : option re :=
  let l := runes_of s in
  if str_eqb (string_of l) s then
    match lex (length l) l with
    | Some ts => match prun pstart ts with Some st => pfinish st | None => None end
    | None => None
    end
  else None.
