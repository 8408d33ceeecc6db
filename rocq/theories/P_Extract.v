(** Properties C23-C26, C31, C32, C62, C63, C66, C67: extraction of links from files. *)
From Coq Require Import Sorted.
From Verif Require Import GoBase GoSlice Utf8 Regex Patterns Scanner ScannerSpec LinkTypes Emacs Extract ExtractSpec TextSpec ExtractTree OrgProofs TextProofs ExtractMain ExtractWitness SchemeSpec SchemeRepeat.

Definition ex_u : rune -> bool := fun _ => false.
Definition ex_chunk : nat -> N := fun _ => 4096%N.
Definition ex_file (lines : list string) : str := concat (map (fun l => b l ++ [newline]) lines).
Definition ex_plain (s : string) : list schar := map (fun c => mkChar c false) (b s).
Definition ex_schemes : list (list schar) := [ex_plain "doi"; ex_plain "http" ++ [mkChar "s" true]; ex_plain "mid"].
Definition ex_extract (variants : list str) (f : option (link -> bool)) (content : str) : option (list (list props * link) * option berr) :=
  match UpdateRe variants with
  | Some c => match OrgExtract ex_u c ex_chunk f content false with Done (Some t, err) => Some (paths t, err) | _ => None end
  | None => None
  end.
Definition ex_text (f : option (link -> bool)) (content : str) : option (list (list props * link) * option berr) :=
  match TxtExtract ex_u ex_chunk f content false with Done (Some t, err) => Some (paths t, err) | _ => None end.
Definition ex_head (n : nat) (t : string) : props := PHeading (Some (mkHeading n (b t))).
Definition ex_link (url d : string) (n : nat) : link := mkLink (b url) (b d) n.

(** Default values of the option, used by examples below *)
Example schemes_example : variants_of SchemeVariants ex_schemes /\ NoDup (map written ex_schemes) /\ UpdateRe SchemeVariants <> None.
Proof.
  split; [|split].
  - split.
    + repeat constructor; try discriminate.
    + unfold SchemeVariants, ex_schemes. constructor; [left; reflexivity|]. constructor; [left; reflexivity|]. constructor; [left; reflexivity|]. constructor.
  - repeat constructor; cbn; intuition discriminate.
  - vm_compute. discriminate.
Qed.

(** Schemes of links when there is no such option *)
Theorem C23_default : exists ss, variants_of SchemeVariants ss /\ NoDup (map written ss) /\ UpdateRe SchemeVariants <> None /\
  forall w, (exists s, In s ss /\ word s w) <-> In w [b "doi"; b "http"; b "https"; b "mid"].
Proof. exact default_schemes. Qed.
Print Assumptions C23_default.

(** C23.  The line with the reported number has the URL. *)
Theorem C23_org : forall variants ss c u chunk f content broken t err lines e,
  variants_of variants ss -> UpdateRe variants = Some c ->
  OrgExtract u c chunk f content broken = Done (Some t, err) -> seen_lines content broken lines e ->
  forall p l, In (p, l) (paths t) ->
  1 <= LineNo l /\ exists line x y, nth_error lines (LineNo l - 1) = Some line /\ line = x ++ URL l ++ y.
Proof. exact org_part. Qed.
Print Assumptions C23_org.

Theorem C23_txt : forall u chunk f content broken t err lines e,
  TxtExtract u chunk f content broken = Done (Some t, err) -> seen_lines content broken lines e ->
  forall p l, In (p, l) (paths t) ->
  1 <= LineNo l /\ exists line x y, nth_error lines (LineNo l - 1) = Some line /\ line = x ++ URL l ++ y.
Proof. exact txt_part. Qed.
Print Assumptions C23_txt.

Example C23_example :
  ex_extract SchemeVariants None (ex_file ["text"; "see [[http://a.org/x][A]] and <doi:10.1/2>"; ""; "plain https://b.org/(y) end"]%string) =
    Some ([([PNil], ex_link "http://a.org/x" "A" 2); ([PNil], ex_link "doi:10.1/2" "" 2); ([PNil], ex_link "https://b.org/(y)" "" 4)], None) /\
  ex_text None (ex_file ["text"; "see http://a.org/x, c.org"]%string) =
    Some ([([PNil], ex_link "http://a.org/x," "" 2); ([PNil], ex_link "c.org" "" 2)], None).
Proof. split; vm_compute; reflexivity. Qed.

(** Schemes are parts of regular expressions: parentheses shift numbers of groups and the URL is not a part of the file. *)
Theorem C23_any_schemes_refuted : ~ forall variants c u chunk f content broken t err lines e,
  UpdateRe variants = Some c ->
  OrgExtract u c chunk f content broken = Done (Some t, err) -> seen_lines content broken lines e ->
  forall p l, In (p, l) (paths t) -> exists line x y, nth_error lines (LineNo l - 1) = Some line /\ line = x ++ URL l ++ y.
Proof. exact parentheses_refute. Qed.
Print Assumptions C23_any_schemes_refuted.

(** C24.  Every link is under its headings if levels are not skipped. *)
Theorem C24_outline : forall variants ss c u chunk f content broken lines err hs,
  variants_of variants ss -> UpdateRe variants = Some c ->
  seen_lines content broken lines err -> headings_of 1 lines hs -> regular 0 hs ->
  exists t lss, OrgExtract u c chunk f content broken = Done (Some t, err) /\ links_in (link_at ss f) 1 lines lss /\
    paths t = map (fun x => (PNil :: map (fun h => PHeading (Some h)) (fst x), snd x)) (outline [] (combine hs lss)).
Proof. exact org_regular. Qed.
Print Assumptions C24_outline.

Definition ex_regular : list string :=
  ["<mid:0>"; "* A"; "** B"; "[[mid:1]]"; "* C"; "text mid:2/"; "** D  e"; "*** F"; "[[mid:3][three]]"; "** G"; "mid:4/ mid:5/"]%string.
Example C24_example :
  headings_of 1 (map b ex_regular)
    [None; Some (1, mkHeading 2 (b "A")); Some (2, mkHeading 3 (b "B")); None; Some (1, mkHeading 5 (b "C")); None; Some (2, mkHeading 7 (b "D  e"));
     Some (3, mkHeading 8 (b "F")); None; Some (2, mkHeading 10 (b "G")); None] /\
  ex_extract SchemeVariants None (ex_file ex_regular) =
    Some ([([PNil], ex_link "mid:0" "" 1);
           ([PNil; ex_head 2 "A"; ex_head 3 "B"], ex_link "mid:1" "" 4);
           ([PNil; ex_head 5 "C"], ex_link "mid:2/" "" 6);
           ([PNil; ex_head 5 "C"; ex_head 7 "D  e"; ex_head 8 "F"], ex_link "mid:3" "three" 9);
           ([PNil; ex_head 5 "C"; ex_head 10 "G"], ex_link "mid:4/" "" 11);
           ([PNil; ex_head 5 "C"; ex_head 10 "G"], ex_link "mid:5/" "" 11)], None).
Proof.
  split; [|vm_compute; reflexivity]. apply headings_computed. vm_compute. reflexivity.
Qed.

(** C25.  What is reported in general: the latest heading of each level, nothing (nil) if there was no heading of the level. *)
Theorem C25_placed : forall variants ss c u chunk f content broken lines err hs,
  variants_of variants ss -> UpdateRe variants = Some c ->
  seen_lines content broken lines err -> headings_of 1 lines hs ->
  exists t lss, OrgExtract u c chunk f content broken = Done (Some t, err) /\ links_in (link_at ss f) 1 lines lss /\
    paths t = map (fun x => (PNil :: map PHeading (fst x), snd x)) (placed [] (combine hs lss)).
Proof. exact org_placed. Qed.
Print Assumptions C25_placed.

(** A link is reported under a heading it does not belong to. *)
Theorem C25_outline_refuted : ~ forall variants ss c u chunk f content broken lines err hs,
  variants_of variants ss -> UpdateRe variants = Some c ->
  seen_lines content broken lines err -> headings_of 1 lines hs ->
  exists t lss, OrgExtract u c chunk f content broken = Done (Some t, err) /\ links_in (link_at ss f) 1 lines lss /\
    paths t = map (fun x => (PNil :: map (fun h => PHeading (Some h)) (fst x), snd x)) (outline [] (combine hs lss)).
Proof. exact skipped_refutes. Qed.
Print Assumptions C25_outline_refuted.

Example C25_example :
  ex_extract SchemeVariants None (ex_file ["* A"; "** B"; "* C"; "*** D"; "[[mid:x]]"]%string) =
    Some ([([PNil; ex_head 3 "C"; ex_head 2 "B"; ex_head 4 "D"], ex_link "mid:x" "" 5)], None) /\
  ex_extract SchemeVariants None (ex_file ["*** D"; "[[mid:x]]"]%string) =
    Some ([([PNil; PHeading None; PHeading None; ex_head 1 "D"], ex_link "mid:x" "" 2)], None).
Proof. split; vm_compute; reflexivity. Qed.

(** C26.  There is a tree for every file (and any patterns of schemes), links are in the order of the file. *)
Theorem C26_org : forall u c chunk f content broken, exists t err, OrgExtract u c chunk f content broken = Done (Some t, err).
Proof. exact org_never_panics. Qed.
Print Assumptions C26_org.
Theorem C26_org_order : forall u c chunk f content broken t err, OrgExtract u c chunk f content broken = Done (Some t, err) ->
  StronglySorted le (map LineNo (map snd (paths t))).
Proof. exact org_sorted. Qed.
Print Assumptions C26_org_order.
Theorem C26_txt : forall u chunk f content broken, exists t err, TxtExtract u chunk f content broken = Done (Some t, err).
Proof. exact txt_never_panics. Qed.
Print Assumptions C26_txt.
Theorem C26_txt_order : forall u chunk f content broken t err, TxtExtract u chunk f content broken = Done (Some t, err) ->
  StronglySorted le (map LineNo (map snd (paths t))).
Proof. exact txt_sorted. Qed.
Print Assumptions C26_txt_order.
(** Deep headings *)
Example C26_example :
  option_map (fun r => map (fun x => length (fst x)) (fst r)) (ex_extract SchemeVariants None (ex_file ["************ A"; "[[mid:x]]"; "* B"; "[[mid:y]] [[mid:z]]"]%string)) = Some [10; 2; 2].
Proof. vm_compute. reflexivity. Qed.

(** C31.  Kinds of links in a line *)
Theorem C31_kinds : forall variants ss c u chunk f content broken t err lines e,
  variants_of variants ss -> UpdateRe variants = Some c ->
  OrgExtract u c chunk f content broken = Done (Some t, err) -> seen_lines content broken lines e ->
  forall p l, In (p, l) (paths t) ->
  1 <= LineNo l /\ exists line, nth_error lines (LineNo l - 1) = Some line /\ any_link ss line l /\ passed f l.
Proof. exact org_links_located. Qed.
Print Assumptions C31_kinds.
(** There are configured schemes only if there are no brackets in a line. *)
Theorem C31_scheme : forall variants ss c u chunk f content broken t err lines e,
  variants_of variants ss -> UpdateRe variants = Some c ->
  OrgExtract u c chunk f content broken = Done (Some t, err) -> seen_lines content broken lines e ->
  forall p l line, In (p, l) (paths t) -> nth_error lines (LineNo l - 1) = Some line -> (forall x y, line <> x ++ b "[[" ++ y) ->
  exists w x, URL l = w ++ b ":" ++ x /\ with_scheme ss w.
Proof. exact org_scheme. Qed.
Print Assumptions C31_scheme.
Example C31_example :
  ex_extract SchemeVariants (Some (fun l => negb (str_eqb (URL l) (b "mid:no")))) (ex_file ["ftp://x.org xmid:y/ <mid:no> <mid:yes>,https:q/, http"]%string) =
    Some ([([PNil], ex_link "mid:yes" "" 1); ([PNil], ex_link "https:q/" "" 1)], None).
Proof. vm_compute. reflexivity. Qed.

(** C32.  A line that is a link in brackets: it is reported if and only if it is accepted. *)
Theorem C32_accepted : forall variants ss ss' c u chunk f content broken t err lines e k x d,
  variants_of variants ss -> firsts ss ss' -> UpdateRe variants = Some c ->
  OrgExtract u c chunk f content broken = Done (Some t, err) -> seen_lines content broken lines e ->
  nth_error lines k = Some (bracket_line x d) -> x <> [] -> no_brackets x -> no_brackets d ->
  (accepted ss' x /\ passed f (mkLink x d (S k)) -> filter (fun l => LineNo l =? S k) (map snd (paths t)) = [mkLink x d (S k)]) /\
  (~ (accepted ss' x /\ passed f (mkLink x d (S k))) -> filter (fun l => LineNo l =? S k) (map snd (paths t)) = []).
Proof. exact bracket_exact_all. Qed.
Print Assumptions C32_accepted.
(** So it may have another scheme. *)
Theorem C32_scheme_refuted : ~ forall variants ss c u chunk f content broken t err,
  variants_of variants ss -> UpdateRe variants = Some c ->
  OrgExtract u c chunk f content broken = Done (Some t, err) ->
  forall p l, In (p, l) (paths t) -> exists w x, URL l = w ++ b ":" ++ x /\ with_scheme ss w.
Proof. exact other_scheme_refutes. Qed.
Print Assumptions C32_scheme_refuted.
Example C32_example :
  ex_extract SchemeVariants None (ex_file ["[[file:http.txt]]"; "[[doing.txt][d]]"; "[[elisp:(mid:x)]]"; "[[file:mid]]"; "[[file:doi:1]]"]%string) =
    Some ([([PNil], ex_link "file:http.txt" "" 1); ([PNil], ex_link "doing.txt" "d" 2); ([PNil], ex_link "elisp:(mid:x)" "" 3)], None).
Proof. vm_compute. reflexivity. Qed.

(** C62.  Lines that are read and the error are determined by the content; the result is determined by them. *)
Theorem C62_lines : forall content broken, exists lines err, seen_lines content broken lines err /\
  (forall lines' err', seen_lines content broken lines' err' -> lines' = lines /\ err' = err) /\
  (forall u c chunk f, exists t, OrgExtract u c chunk f content broken = Done (Some t, err)) /\
  (forall u chunk f, exists t, TxtExtract u chunk f content broken = Done (Some t, err)).
Proof. exact lines_determined. Qed.
Print Assumptions C62_lines.
Theorem C62_org : forall u c chunk chunk' f content broken content' broken' lines err,
  seen_lines content broken lines err -> seen_lines content' broken' lines err ->
  OrgExtract u c chunk f content broken = OrgExtract u c chunk' f content' broken'.
Proof. exact same_org. Qed.
Print Assumptions C62_org.
Theorem C62_txt : forall u chunk chunk' f content broken content' broken' lines err,
  seen_lines content broken lines err -> seen_lines content' broken' lines err ->
  TxtExtract u chunk f content broken = TxtExtract u chunk' f content' broken'.
Proof. exact same_txt. Qed.
Print Assumptions C62_txt.
Definition ex_cr : str := [ascii_of_nat 13].
Example C62_example :
  seen_lines (b "a" ++ ex_cr ++ [newline; newline] ++ b "b") false [b "a"; []; b "b"] None /\
  ~ short (N.iter 65536 (cons "x"%char) []).
Proof.
  split.
  - exists [b "a" ++ ex_cr; []; b "b"]. split.
    + change (b "a" ++ ex_cr ++ [newline; newline] ++ b "b") with ((b "a" ++ ex_cr) ++ newline :: ([] ++ newline :: b "b")).
      constructor; [vm_compute; intuition discriminate|]. constructor; [intros []|]. constructor; [discriminate|vm_compute; intuition discriminate].
    + left. split; [repeat constructor|]. split; [|reflexivity]. constructor; [exact (cr_drop (b "a"))|].
      constructor; [apply cr_keep; intros [|? ?]; discriminate|]. constructor; [|constructor]. apply cr_keep. intros [|c [|? ?]]; discriminate.
  - unfold short. vm_compute. discriminate.
Qed.

(** C63.  Links of a text file *)
Theorem C63_links : forall u chunk f content broken t err lines e,
  TxtExtract u chunk f content broken = Done (Some t, err) -> seen_lines content broken lines e ->
  forall p l, In (p, l) (paths t) ->
  p = [PNil] /\ 1 <= LineNo l /\ exists line, nth_error lines (LineNo l - 1) = Some line /\ text_link u f (LineNo l) line l.
Proof. exact txt_located. Qed.
Print Assumptions C63_links.
Example C63_example :
  ex_text (Some (fun l => LineNo l =? 2)) (ex_file ["http://a.org"; "http: a.b.org/c%20d?e org /path/x http:///z mid:x@y.org"]%string) =
    Some ([([PNil], ex_link "a.b.org/c%20d" "" 2); ([PNil], ex_link "http:///z" "" 2); ([PNil], ex_link "y.org" "" 2)], None).
Proof. vm_compute. reflexivity. Qed.

(** C66.  A heading with a title that is followed by a blank is not a heading. *)
Theorem C66_not_heading : forall n blanks r title c, blanks <> [] -> Forall blank blanks -> ~ blank r -> blank c ->
  ~ exists level t, heading_line (repeat ("*")%char n ++ blanks ++ (r :: title) ++ [c]) level t.
Proof. exact trailing_blank. Qed.
Print Assumptions C66_not_heading.
Example C66_example :
  ex_extract SchemeVariants None (ex_file ["* A"; "* B "; "[[mid:x]]"; "*  "; "mid:y/"]%string) =
    Some ([([PNil; ex_head 1 "A"], ex_link "mid:x" "" 3); ([PNil; ex_head 4 ""], ex_link "mid:y/" "" 5)], None).
Proof. vm_compute. reflexivity. Qed.

Example C32_repeated : firsts [ex_plain "mid"; ex_plain "doi"; ex_plain "mid"] [ex_plain "mid"; ex_plain "doi"] /\ variants_of [b "mid"; b "doi:"; b "mid:"] [ex_plain "mid"; ex_plain "doi"; ex_plain "mid"].
Proof.
  split.
  - apply (fs_again [ex_plain "mid"; ex_plain "doi"]); [|left; reflexivity]. apply (fs_new [ex_plain "mid"] [ex_plain "mid"]); [|cbn; intuition discriminate]. apply (fs_new [] []); [constructor|intros []].
  - split; [repeat constructor; try discriminate|]. constructor; [left; reflexivity|]. constructor; [right; reflexivity|]. constructor; [right; reflexivity|]. constructor.
Qed.

(** C67.  A link in brackets with a configured scheme is always reported. *)
Theorem C67_reported : forall variants ss c u chunk content broken t err lines e k s w x d,
  variants_of variants ss -> UpdateRe variants = Some c ->
  OrgExtract u c chunk None content broken = Done (Some t, err) -> seen_lines content broken lines e ->
  nth_error lines k = Some (bracket_line (w ++ b ":" ++ x) d) -> In s ss -> word s w -> no_brackets (w ++ b ":" ++ x) -> no_brackets d ->
  filter (fun l => LineNo l =? S k) (map snd (paths t)) = [mkLink (w ++ b ":" ++ x) d (S k)].
Proof. exact bracket_proper_all. Qed.
Print Assumptions C67_reported.
Example C67_example :
  bracket_line (b "https://x.org/a b>") (b "D, d") = b "[[https://x.org/a b>][D, d]]" /\
  word (ex_plain "http" ++ [mkChar "s" true]) (b "http") /\ word (ex_plain "http" ++ [mkChar "s" true]) (b "https") /\
  ex_extract SchemeVariants None (ex_file ["[[https://x.org/a b>][<D, d>]]"; "[[mid:]]"]%string) =
    Some ([([PNil], ex_link "https://x.org/a b>" "<D, d>" 1); ([PNil], ex_link "mid:" "" 2)], None).
Proof.
  split; [reflexivity|]. split; [|split; [|vm_compute; reflexivity]].
  - do 4 apply word_take. apply word_skip; [reflexivity|constructor].
  - do 5 apply word_take. constructor.
Qed.
