(** Model of extraction of links: pkg/burl_links/extract_org.go, extract_txt.go, urlmatch_txt.go.
    [u]: Unicode letters outside of ASCII (regular expressions of text files and of schemes).
    [chunk]: sizes of blocks returned when a file is read, see Scanner.v. *)
From Verif Require Import GoBase GoSlice Utf8 Utf8Dec Regex RegexParse Patterns Scanner LinkTypes LinkTree LinkHeap Emacs Flags.

Definition compiled (s : str) : re := match compile s with Some r => r | None => REmpty end.
(** Values of regexp.MustCompile in package variables and in Extract.  All of them are valid patterns, see
    [patterns_compile] of HeadingProofs.v, so there is no panic. *)
Definition reHeading : re := Eval vm_compute in compiled reHeadingStr.
Definition reSetPrefix : re := Eval vm_compute in compiled reSetPrefixStr.
Definition reUrl : re := Eval vm_compute in compiled UrlPatternFull.

(** Package variables reScheme and reLink.  extract_org.go:62-79 UpdateRe: None is an error, variables are not changed. *)
Record schemeRe := mkSchemeRe { reScheme : re; reLink : re }.
Definition makeRe (schemeStr : str) : option schemeRe :=
  match compile (MakeReScheme schemeStr), compile (MakeLinkReStr schemeStr) with
  | Some s, Some l => Some (mkSchemeRe s l)
  | _, _ => None
  end.
Definition UpdateRe (variants : list str) : option schemeRe :=
  match MakeSchemeReStr variants with
  | [] => None
  | schemeStr => makeRe schemeStr
  end.

(** extract_org.go:112-126; logging is not modelled *)
Definition OrgLinkMatchIsUrl (u : rune -> bool) (c : schemeRe) (m : rmatch) : option link :=
  match group m 1 with
  | _ :: _ => if MatchString u (reScheme c) (group m 1) then Some (mkLink (group m 1) (group m 2) 0) else None
  | [] =>
      match group m 3 with
      | _ :: _ => Some (mkLink (group m 3 ++ b ":" ++ group m 4) [] 0)
      | [] =>
          match group m 5 with
          | _ :: _ => Some (mkLink (group m 5 ++ b ":" ++ group m 6) [] 0)
          | [] => None
          end
      end
  end.

(** ** OrgLinkSource.Extract, extract_org.go:128-171 *)

(** [hArr]: backing array of headings, its capacity is 10 (129); [hLen] = len(headings); [tNodes] = treeNodes, addresses.
    treeNodes never has more than 11 elements, so its array is not reallocated (131). *)
Record ostate := mkO { hArr : list (option heading); hLen : nat; tNodes : list nat; oHeap : heap }.
Definition headings_cap : nat := 10.
(** 129-132; the root is the first object *)
Definition org_start : ostate := mkO (repeat None headings_cap) 0 [0] [OInner PNil []].

(** 139-153.  [firstn]: slices of slices.  The loop 148-150 is never executed: the length is level-1 already. *)
Definition org_heading (st : ostate) (level : nat) (h : heading) : outcome ostate :=
  let level := if headings_cap <? level then headings_cap - 1 else level in                    (* 141-143 *)
  match level with
  | O => Panic                                                                                 (* 144: slice bounds *)
  | S l =>
      if headings_cap <? l then Panic
      else
        let tn := if level <=? length (tNodes st) then firstn level (tNodes st) else tNodes st in   (* 145-147 *)
        Done (mkO (upd (hArr st) l (Some h)) level tn (oHeap st))                              (* 151-152 *)
  end.

(** link_tree.go:183-185 AddChild *)
Definition AddChild (h : heap) (a c : nat) : outcome heap :=
  match nth_error h a with
  | Some (OInner p ch) => Done (upd h a (OInner p (ch ++ [c])))
  | _ => Panic
  end.
(** link_tree.go:187-196 AddLink *)
Definition AddLink (h : heap) (a : nat) (l : link) : outcome heap :=
  match nth_error h a with
  | Some (OInner p ch) =>
      match ch with
      | leaf :: _ =>
          match nth_error h leaf with
          | Some (OLeaf ls) => Done (upd h leaf (OLeaf (ls ++ [l])))
          | _ => Panic                                                                         (* failed type assertion *)
          end
      | [] => Done (upd h a (OInner p [length h]) ++ [OLeaf [l]])
      end
  | _ => Panic
  end.

(** 158-162: the loop for headings without nodes; [i]: index in treeNodes *)
Fixpoint add_nodes (hs : list (option heading)) (i : nat) (tn : list nat) (h : heap) : outcome (list nat * heap) :=
  match hs with
  | [] => Done (tn, h)
  | p :: hs' =>
      let a := length h in
      let tn := tn ++ [a] in
      match nth_error tn i with
      | Some parent => let! h := AddChild (h ++ [OInner (PHeading p) []]) parent a in add_nodes hs' (S i) tn h
      | None => Panic
      end
  end.
(** 158-165 *)
Definition org_link (st : ostate) (l : link) : outcome ostate :=
  let hs := skipn (length (tNodes st) - 1) (firstn (hLen st) (hArr st)) in
  let! p := add_nodes hs (length (tNodes st) - 1) (tNodes st) (oHeap st) in
  match nth_error (fst p) (length (fst p) - 1) with
  | Some tip => let! h := AddLink (snd p) tip l in Done (mkO (hArr st) (hLen st) (fst p) h)
  | None => Panic
  end.
Fixpoint org_links (ls : list link) (st : ostate) : outcome ostate :=
  match ls with
  | [] => Done st
  | l :: ls' => let! st := org_link st l in org_links ls' st
  end.

(** 139-140, 151: level and heading *)
Definition heading_of (lineNo : nat) (line : str) : option (nat * heading) :=
  match Find (fun _ => false) reHeading line with
  | Some m => Some (length (group m 1), mkHeading lineNo (group m 2))
  | None => None
  end.
(** 154-157, 164: links of a line *)
Definition links_of (u : rune -> bool) (c : schemeRe) (lineNo : nat) (line : str) : list link :=
  flat_map (fun m => match OrgLinkMatchIsUrl u c m with Some l => [mkLink (URL l) (Description l) lineNo] | None => [] end)
    (FindAll u (reLink c) line).

(** 136-169.  The filter is applied before LineNo is set (157, 164). *)
Definition filtered (filter : option (link -> bool)) (ls : list link) : list link :=
  match filter with
  | None => ls
  | Some f => List.filter (fun l => f (mkLink (URL l) (Description l) 0)) ls
  end.
Fixpoint org_lines (u : rune -> bool) (c : schemeRe) (filter : option (link -> bool)) (lineNo : nat) (lines : list str) (st : ostate) : outcome ostate :=
  match lines with
  | [] => Done st
  | line :: lines' =>
      let! st := match heading_of lineNo line with Some (level, h) => org_heading st level h | None => Done st end in
      let! st := org_links (filtered filter (links_of u c lineNo line)) st in
      org_lines u c filter (S lineNo) lines' st
  end.

(** Value of a tree in memory; the fuel is a bound of its depth *)
Fixpoint read_node (fuel : nat) (h : heap) (a : nat) : option node :=
  match fuel with
  | O => None
  | S fuel =>
      match nth_error h a with
      | Some (OLeaf ls) => Some (Leaf ls)
      | Some (OInner p ch) =>
          option_map (Inner p)
            ((fix go (ch : list nat) : option (list node) :=
                match ch with
                | [] => Some []
                | c :: ch' => match read_node fuel h c, go ch' with Some t, Some ts => Some (t :: ts) | _, _ => None end
                end) ch)
      | _ => None
      end
  end.

Definition scan_error (e : option serr) : option berr :=
  match e with
  | Some SRead => Some ERead
  | Some STooLong => Some ETooLong
  | _ => None
  end.
Definition OrgExtract (u : rune -> bool) (c : schemeRe) (chunk : nat -> N) (filter : option (link -> bool)) (content : str) (broken : bool)
  : outcome (option node * option berr) :=
  match scan_lines broken chunk content with
  | Some (lines, e) => let! st := org_lines u c filter 1 lines org_start in Done (read_node 13 (oHeap st) 0, scan_error e)
  | None => Panic
  end.

(** ** TxtLinkSource.Extract, extract_txt.go:46-78 *)

(** urlmatch_txt.go:39-64; there are always 6 elements *)
Definition MatchIsUrl (m : rmatch) : bool :=
  if str_eqb (whole m) [] then false
  else if str_eqb (whole m) (group m 1) then false
  else if str_eqb (whole m) (group m 4) then false
  else if str_eqb (group m 3) (group m 4) && str_eqb (group m 1) [] then false
  else negb (str_eqb (whole m) (group m 5)).

(** extract_txt.go:55-75: words of a line; the fuel is its length.  bufio.ScanWords does not return errors. *)
Fixpoint words_loop (fuel : nat) (line : str) : list str :=
  match fuel, line with
  | S fuel, _ :: _ => let '(token, t) := ScanWords line in token :: words_loop fuel t
  | _, _ => []
  end.
Definition txt_links (u : rune -> bool) (lineNo : nat) (line : str) : list link :=
  flat_map (fun word => flat_map (fun m => if MatchIsUrl m then [mkLink (whole m) [] lineNo] else []) (FindAll u reUrl word))
    (words_loop (length line) line).
(** 66: here LineNo is set before the filter is called *)
Fixpoint txt_lines (u : rune -> bool) (filter : option (link -> bool)) (lineNo : nat) (lines : list str) (h : heap) : outcome heap :=
  match lines with
  | [] => Done h
  | line :: lines' =>
      let ls := txt_links u lineNo line in
      let ls := match filter with None => ls | Some f => List.filter f ls end in
      let! h := (fix go (ls : list link) (h : heap) : outcome heap :=
                   match ls with
                   | [] => Done h
                   | l :: ls' => let! h := AddLink h 0 l in go ls' h
                   end) ls h in
      txt_lines u filter (S lineNo) lines' h
  end.
Definition TxtExtract (u : rune -> bool) (chunk : nat -> N) (filter : option (link -> bool)) (content : str) (broken : bool)
  : outcome (option node * option berr) :=
  match scan_lines broken chunk content with
  | Some (lines, e) => let! h := txt_lines u filter 1 lines [OInner PNil []] in Done (read_node 3 h 0, scan_error e)
  | None => Panic
  end.

(** ** ExtractSet *)

(** regexp.QuoteMeta *)
Definition QuoteMeta (s : str) : str := flat_map (fun c => if meta (N_of_ascii c) then [ascii_of_nat 92; c] else [c]) s.

(** extract_org.go:178-189: the loop *)
Fixpoint set_base (filters : list str) : option (list str) :=
  match filters with
  | [] => Some []
  | prefix :: filters' =>
      match Find (fun _ => false) reSetPrefix prefix with
      | None => None
      | Some m =>
          let withColon := QuoteMeta prefix ++ (match group m 1 with [] => b ":" | _ => [] end) in
          option_map (cons withColon) (set_base filters')
      end
  end.
(** 173-191 MakeLinkSetBase; None: an error *)
Definition MakeLinkSetBase (filters : list str) : option str :=
  match filters with
  | [] => None
  | _ => option_map (fun base => b "(?:" ++ join base ++ b ")") (set_base filters)
  end.

(** ( *result)[x] = true, the map is a list of its keys *)
Definition insert_set (x : str) (set : list str) : list str := if existsb (str_eqb x) set then set else set ++ [x].

(** 216-228, extract_txt.go:127-138: the key that is added for a match.  Slice of groups has 5 elements for Org and 2 elements
    for text, so match[3] and match[4] are out of range for the latter. *)
Definition set_key (org : bool) (reBracketPrefix : re) (m : rmatch) : outcome (option str) :=
  match group m 1 with
  | _ :: _ => Done (if MatchString (fun _ => false) reBracketPrefix (group m 1) then Some (group m 1) else None)
  | [] =>
      if org then
        match group m 3, group m 4 with
        | _ :: _, _ => Done (Some (group m 3))
        | [], _ :: _ => Done (Some (group m 4))
        | [], [] => Done None
        end
      else Panic
  end.
Fixpoint set_matches (org : bool) (rp : re) (ms : list rmatch) (set : list str) : outcome (list str) :=
  match ms with
  | [] => Done set
  | m :: ms' =>
      let! k := set_key org rp m in
      set_matches org rp ms' (match k with Some x => insert_set x set | None => set end)
  end.
Fixpoint set_lines (org : bool) (rl rp : re) (lines : list str) (set : list str) : outcome (list str) :=
  match lines with
  | [] => Done set
  | line :: lines' =>
      let! set := set_matches org rp (FindAll (fun _ => false) rl line) set in
      set_lines org rl rp lines' set
  end.
(** extract_org.go:200-202, extract_txt.go:111 *)
Definition set_pattern (k : kind) (base : str) : str :=
  let rePlain := b "\b(" ++ base ++ rePlainSuffixStr ++ b ")" in
  match k with
  | Org => reBracketStr ++ b "|" ++ (b "<(" ++ base ++ reAngleSuffixStr ++ b ")>") ++ b "|" ++ rePlain
  | Txt => rePlain
  end.
(** extract_org.go:193-231, extract_txt.go:104-141 *)
Definition ExtractSet (k : kind) (chunk : nat -> N) (content : str) (broken : bool) (filters : list str) (set : list str)
  : outcome (list str * option berr) :=
  match MakeLinkSetBase filters with
  | None => Done (set, Some EPrefix)
  | Some base =>
      match compile (set_pattern k base), compile (b "^" ++ base) with
      | Some rl, Some rp =>
          match scan_lines broken chunk content with
          | Some (lines, e) =>
              let! set := set_lines (match k with Org => true | Txt => false end) rl rp lines set in
              Done (set, scan_error e)
          | None => Panic
          end
      | _, _ => Done (set, Some EPrefix)
      end
  end.
