(** Property C115: links of lines of Org files are exactly those that are seen there. *)
From Verif Require Import GoBase GoSlice Utf8 Utf8Dec Regex Patterns ScannerSpec LinkTypes LinkTree Extract ExtractSpec OrgFoundSpec OrgFoundWitness SchemeSpec OrgExactSpec OrgExact OrgExactWitness.

(** C115.  All links of a line: in the same order, only those that are accepted (see C32) and pass the filter, nothing else. *)
Theorem C115_line : forall variants ss ss' c u chunk f content broken t err lines e k line ls ls' links,
  variants_of variants ss -> firsts ss ss' -> UpdateRe variants = Some c -> simple_schemes ss ->
  OrgExtract u c chunk f content broken = Done (Some t, err) -> seen_lines content broken lines e -> nth_error lines k = Some line ->
  consists ss true line ls -> chosen ss' ls ls' -> passing f (map (fun l => mkLink (fst l) (snd l) (S k)) ls') links ->
  filter (fun l => LineNo l =? S k) (map snd (paths t)) = links.
Proof. exact org_exact. Qed.
Print Assumptions C115_line.
(** All links of a file *)
Theorem C115_file : forall variants ss ss' c u chunk f content broken t err lines e links,
  variants_of variants ss -> firsts ss ss' -> UpdateRe variants = Some c -> simple_schemes ss ->
  OrgExtract u c chunk f content broken = Done (Some t, err) -> seen_lines content broken lines e ->
  file_links ss ss' f 1 lines links -> err = e /\ map snd (paths t) = links.
Proof. exact org_file. Qed.
Print Assumptions C115_file.
(** There are no links in a line with neither double opening brackets nor schemes before colons. *)
Theorem C115_none : forall variants ss c u chunk f content broken t err lines e k line,
  variants_of variants ss -> UpdateRe variants = Some c -> simple_schemes ss ->
  OrgExtract u c chunk f content broken = Done (Some t, err) -> seen_lines content broken lines e -> nth_error lines k = Some line ->
  plain_words ss line -> forall p l, In (p, l) (paths t) -> LineNo l <> S k.
Proof. exact org_none. Qed.
Print Assumptions C115_none.

Definition ex_line : string := "Note: see [[file:x][notes]], [[http://a.org/x][the site]] <doi:10.1/2> and (https://b.org/(y), mid:1@c): a:b.".
Definition ex_schemes : list (list schar) := map (fun s => map (fun c => mkChar c false) (b s)) ["doi"; "http"; "https"; "mid"]%string.
Definition ex_links : list (str * str) := [(b "file:x", b "notes"); (b "http://a.org/x", b "the site"); (b "doi:10.1/2", []); (b "https://b.org/(y)", []); (b "mid:1@c", [])].
Example C115_example : consists ex_schemes true (b ex_line) ex_links /\ chosen ex_schemes ex_links (tl ex_links) /\ firsts ex_schemes ex_schemes /\
  variants_of (map b ["doi"; "http"; "https"; "mid:"]%string) ex_schemes /\ simple_schemes ex_schemes /\
  w_org (map b ["doi"; "http"; "https"; "mid:"]%string) ["* H"; ex_line]%string =
    Some (map (fun l => ([PNil; PHeading (Some (mkHeading 1 (b "H")))], mkLink (fst l) (snd l) 2)) (tl ex_links)).
Proof. exact exact_example. Qed.
Example C115_example_none : plain_words ex_schemes (b "Note: [1] ftp://a.org <b@c.d>, http is not a link").
Proof. apply words_check; reflexivity. Qed.
Example C115_example_file : file_links ex_schemes ex_schemes None 1 (map b ["* Heading: 1"; ex_line; "No links"]%string) (map (fun l => mkLink (fst l) (snd l) 2) (tl ex_links)).
Proof.
  destruct C115_example as (A & B & _). apply (file_line _ _ _ 1 _ _ [] [] [] _); [constructor; apply words_check; reflexivity|constructor|constructor|].
  apply (file_line _ _ _ 2 _ _ ex_links (tl ex_links) (map (fun l => mkLink (fst l) (snd l) 2) (tl ex_links)) []); [exact A|exact B|repeat (constructor; [exact Logic.I|]); constructor|].
  apply (file_line _ _ _ 3 _ _ [] [] [] []); [constructor; apply words_check; reflexivity|constructor|constructor|constructor].
Qed.
