(** Model of pkg/burl_fuzzy and of BurlBackend.Search.

    EditorDistance is an int; overflow is ignored: values do not exceed CutCost + length
    of the pattern. *)
From Verif Require Import GoBase GoSlice Utf8 Utf8Dec.
Local Open Scope Z_scope.

(** approsearch.go:34 *)
Definition CutCost : Z := 32767.

(** approsearch.go:37-43 *)
Definition SameRuneDistance (p w : rune) : Z := if (p =? w)%N then 0 else 1.

(** approsearch.go:45-53 *)
Definition MinDistance (args : list Z) : Z :=
  fold_left (fun result v => if v <? result then v else result) args CutCost.

(** approsearch.go:67-72: the first row; TranspositionDistance, DeletionDistance,
    InsertionDistance and SubstitutionDistance are 1 (29-33) *)
Fixpoint first_row (pattern word : list rune) : outcome (list Z) :=
  match word with
  | [] => Done []
  | w :: word' =>
      let! p0 := get pattern 0 in
      let! r := first_row pattern word' in
      Done (MinDistance [1; 1] * SameRuneDistance p0 w :: r)
  end.

(** approsearch.go:89-102: one step of the inner loop.  State: cost, prevDistance[0], prevDistance[1].
    [costAlt] is the previous row. *)
Definition inner_step (pattern word : list rune) (costAlt : list Z) (iPattern iWord : nat)
  (s : list Z * (Z * Z)) : outcome (list Z * (Z * Z)) :=
  let '(cost, (prev0, prev1)) := s in
  let! pa := get pattern (iPattern - 1) in
  let! pc := get pattern iPattern in
  let! wb := get word iWord in
  let! wa := get word (iWord - 1) in
  let odd := Nat.odd iWord in
  let d_transposition :=                                                    (* 90-93 *)
    if ((pa =? wb) && (pc =? wa))%N%bool then (if odd then prev1 else prev0) + 1 else CutCost in
  let! old := get cost iWord in
  let prev := if odd then (prev0, old) else (old, prev1) in                 (* 94 *)
  let! a1 := get costAlt (iWord - 1) in
  let! c1 := get cost (iWord - 1) in
  let! a0 := get costAlt iWord in
  let! cost' := set cost iWord
    (MinDistance [a1 + SameRuneDistance pc wb; c1 + 1; a0 + 1; d_transposition]) in
  Done (cost', prev).

(** approsearch.go:79-104: one step of the outer loop.  State: (cost, costAlt). *)
Definition outer_step (pattern word : list rune) (iPattern : nat) (s : list Z * list Z) : outcome (list Z * list Z) :=
  let '(costAlt, cost) := s in                                              (* 80: swap *)
  let prev1 := Z.of_nat iPattern - 1 in                                     (* 81 *)
  let! prev0 := get cost 0 in                                               (* 82 *)
  let! pc := get pattern iPattern in
  let! w0 := get word 0 in
  let! a0 := get costAlt 0 in
  let! cost := set cost 0                                                   (* 83-88 *)
    (MinDistance [SameRuneDistance pc w0 + Z.of_nat iPattern; 1 + Z.of_nat iPattern; a0 + 1]) in
  let! r := for_range 1 (length word - 1) (inner_step pattern word costAlt iPattern) (cost, (prev0, prev1)) in
  Done (fst r, costAlt).

(** approsearch.go:55-106 *)
Definition EditorDistanceRunes (pattern word : list rune) : outcome Z :=
  let costAlt := repeat 0 (length word) in                                  (* 62-65 *)
  let! cost := first_row pattern word in                                    (* 67-72 *)
  let! r := for_range 1 (length pattern - 1) (outer_step pattern word) (cost, costAlt) in
  Done (MinDistance (fst r)).                                               (* 105 *)

(** unicode.ToLower; [u] stands for Unicode tables, used for non-ASCII characters only *)
Definition lower_rune (u : rune -> rune) (r : rune) : rune :=
  if (r <? 128)%N then (if inr 65 90 r then (r + 32)%N else r) else u r.

(** strings.ToLower: strings.Map(unicode.ToLower, s).  The fast path for ASCII strings
    gives the same result. *)
Definition ToLower (u : rune -> rune) (s : str) : str := string_of (map (lower_rune u) (runes_of s)).

(** approsearch.go:108-112 *)
Definition SearchDistanceDL (u : rune -> rune) (pattern word : str) : outcome Z :=
  EditorDistanceRunes (runes_of (ToLower u pattern)) (runes_of (ToLower u word)).

(** rank.go:24-27 *)
Record weighted := mkW { Weight : Z; Word : str }.

(** Go [<] on strings *)
Fixpoint str_ltb (x y : str) : bool :=
  match x, y with
  | _, [] => false
  | [], _ :: _ => true
  | a :: x', c :: y' =>
      (N_of_ascii a <? N_of_ascii c)%N || ((N_of_ascii a =? N_of_ascii c)%N && str_ltb x' y')
  end.

(** rank.go:29-39 *)
Definition wLess (a c : weighted) : bool :=
  if negb (Weight a =? Weight c) then Weight a <? Weight c
  else if negb (length (Word a) =? length (Word c))%nat then (length (Word a) <? length (Word c))%nat
  else str_ltb (Word a) (Word c).

(** rank.go:45-49 WeightedStringHeap.Less *)
Definition hLess (h : list weighted) (i j : nat) : outcome bool :=
  let! a := get h i in
  let! c := get h j in
  Done (wLess c a).

(** rank.go:51 Swap *)
Definition hSwap (h : list weighted) (i j : nat) : outcome (list weighted) :=
  let! a := get h i in
  let! c := get h j in
  let! h1 := set h i c in
  set h1 j a.

(** container/heap (Go standard library) up.  [fuel] bounds the number of iterations;
    exhausted fuel is reported as a panic (proved not to happen). *)
Fixpoint heap_up (fuel : nat) (h : list weighted) (j : nat) : outcome (list weighted) :=
  match fuel with
  | O => Panic
  | S fuel =>
      let i := ((j - 1) / 2)%nat in
      if (i =? j)%nat then Done h
      else
        let! less := hLess h j i in
        if negb less then Done h
        else let! h' := hSwap h i j in heap_up fuel h' i
  end.

(** container/heap down; returns also the final index *)
Fixpoint heap_down (fuel : nat) (h : list weighted) (i n : nat) : outcome (list weighted * nat) :=
  match fuel with
  | O => Panic
  | S fuel =>
      let j1 := (2 * i + 1)%nat in
      if (n <=? j1)%nat then Done (h, i)
      else
        let j2 := (j1 + 1)%nat in
        let! second := (if (j2 <? n)%nat then hLess h j2 j1 else Done false) in
        let j := if second then j2 else j1 in
        let! less := hLess h j i in
        if negb less then Done (h, i)
        else let! h' := hSwap h i j in heap_down fuel h' j n
  end.

(** heap.Push with WeightedStringHeap.Push (rank.go:53-56) *)
Definition heap_Push (h : list weighted) (x : weighted) : outcome (list weighted) :=
  let h := h ++ [x] in heap_up (length h) h (length h - 1).

(** heap.Fix *)
Definition heap_Fix (h : list weighted) (i : nat) : outcome (list weighted) :=
  let! r := heap_down (S (length h)) h i (length h) in
  let '(h', i') := r in
  if (i <? i')%nat then Done h' else heap_up (S (length h)) h' i.

(** rank.go:64-71 *)
Definition hAdd (h : list weighted) (item : weighted) (limit : Z) : outcome (list weighted) :=
  if Z.of_nat (length h) <? limit then heap_Push h item
  else
    let! top := get h 0 in
    if wLess item top then let! h' := set h 0 item in heap_Fix h' 0
    else Done h.

(** rank.go:73-83 *)
Definition DefaultDistanceLimit (len : nat) : Z :=
  if (len <? 2)%nat then 0 else if (len <? 4)%nat then 1 else if (len <? 7)%nat then 2 else 3.

(** rank.go:85-101 *)
Definition GetSubqueryDistance (u : rune -> rune) (query word : str) (limit : Z) : outcome Z :=
  if limit <? 0 then Done (Z.of_nat (length word))
  else if limit =? 0 then
    if contains word query then Done 0 else Done (Z.of_nat (length word))
  else
    let lenDiff := Z.of_nat (length query) - Z.of_nat (length word) in
    if limit <? lenDiff then Done lenDiff else SearchDistanceDL u query word.

(** rank.go:103-106 *)
Record subquery := mkSub { sq_query : str; sq_limit : Z }.

(** rank.go:108-114 *)
Definition MakeSubqueryLimit (query : list str) (limit : Z) : list subquery :=
  map (fun w => mkSub w (MinDistance [limit; DefaultDistanceLimit (length w)])) query.

(** rank.go:116-124 *)
Fixpoint query_loop (u : rune -> rune) (query : list subquery) (word : str) (limit distance : Z) : outcome (bool * Z) :=
  match query with
  | [] => Done (true, distance)
  | q :: query' =>
      let! d := GetSubqueryDistance u (sq_query q) word (limit - distance) in
      let distance := distance + d in
      if limit <? distance then Done (false, distance)
      else query_loop u query' word limit distance
  end.
Definition QueryDistance (u : rune -> rune) (query : list subquery) (word : str) (limit : Z) : outcome (bool * Z) :=
  query_loop u query word limit 0.

(** sort.Sort(&h), rank.go:151: sorted so that for no neighbours Less(later, earlier) holds.
    Only identical items are equivalent, so all correct sorting algorithms give the same list. *)
Fixpoint h_insert (x : weighted) (l : list weighted) : list weighted :=
  match l with
  | [] => [x]
  | y :: l' => if wLess x y then y :: h_insert x l' else x :: l
  end.
Definition h_sort (l : list weighted) : list weighted := fold_right h_insert [] l.

(** rank.go:141-149: callback for each link of the source *)
Fixpoint source_loop (u : rune -> rune) (sub : list subquery) (tolerance limit : Z) (source : list str)
  (h : list weighted) : outcome (list weighted) :=
  match source with
  | [] => Done h
  | word :: source' =>
      let! r := QueryDistance u sub word tolerance in
      let '(ok, distance) := r in
      let! h' := (if ok then hAdd h (mkW distance word) limit else Done h) in
      source_loop u sub tolerance limit source' h'
  end.

(** rank.go:128-153; [source]: strings the callback is called with *)
Definition ProcessUrlSource (u : rune -> rune) (queryWords : list str) (source : list str)
  (limitPtr tolerancePtr : option Z) : outcome (list weighted) :=
  let limit := match limitPtr with Some l => l | None => 10 end in
  let tolerance := match tolerancePtr with Some t => t | None => 5 end in
  let! h := source_loop u (MakeSubqueryLimit queryWords tolerance) tolerance limit source [] in
  Done (h_sort h).

(** unicode.IsSpace *)
Definition IsSpace (r : rune) : bool :=
  inr 9 13 r || (r =? 32)%N || (r =? 133)%N || (r =? 160)%N || (r =? 5760)%N || inr 8192 8202 r ||
  (r =? 8232)%N || (r =? 8233)%N || (r =? 8239)%N || (r =? 8287)%N || (r =? 12288)%N.

(** strings.Fields = FieldsFunc(s, unicode.IsSpace); the fast path for ASCII strings gives the same.
    [word]: bytes since the start of the current field. *)
Fixpoint fields_loop (ps : list (rune * str)) (word : str) : list str :=
  match ps with
  | [] => match word with [] => [] | _ => [word] end
  | (r, bytes) :: ps' =>
      if IsSpace r then
        match word with [] => fields_loop ps' [] | _ => word :: fields_loop ps' [] end
      else fields_loop ps' (word ++ bytes)
  end.
Definition Fields (s : str) : list str := fields_loop (pieces s) [].

(** burl_backend.go:230-250 BurlBackend.Search after initialisation.
    [links]: URL of links in the order of ForEachLink (the filter always returns true).
    None: an error is returned. *)
Definition Search (u : rune -> rune) (query : str) (links : list str) (limit tolerance : option Z)
  : outcome (option (list str)) :=
  if match limit with Some l => (l <=? 0) || (100 <=? l) | None => false end then Done None
  else
    let tol := match tolerance with Some t => t | None => 5 end in
    if tol <? 0 then Done None
    else
      let! h := ProcessUrlSource u (Fields query) links limit (Some tol) in
      Done (Some (rev (map Word h))).
