(** Property C108: links inside of lines of Org files are found. *)
From Verif Require Import GoBase GoSlice Utf8 Utf8Dec Regex Patterns ScannerSpec LinkTypes LinkTree Extract ExtractSpec OrgFoundSpec OrgFoundLines OrgFoundWitness.

(** C108.  If a line has links in brackets, in angle brackets or in a text then every of these links with a configured scheme is among links of the
    file unless it is rejected by the filter. *)
Theorem C108_found : forall variants ss c u chunk f content broken t err lines e k line ls x d,
  variants_of variants ss -> UpdateRe variants = Some c -> simple_schemes ss ->
  OrgExtract u c chunk f content broken = Done (Some t, err) -> seen_lines content broken lines e -> nth_error lines k = Some line ->
  shown ss true line ls -> In (x, d) ls -> proper ss x -> passed f (mkLink x d (S k)) ->
  exists p, In (p, mkLink x d (S k)) (paths t).
Proof. exact org_found. Qed.
Print Assumptions C108_found.

Definition ex_line : string := "Text [1], see [[http://a.org/x][the site]], <doi:10.1/2> and (https://b.org/(y), mid:1@c).".
Definition ex_schemes : list (list schar) := map (fun s => map (fun c => mkChar c false) (b s)) ["doi"; "http"; "https"; "mid"]%string.
Definition ex_links : list (str * str) := [(b "http://a.org/x", b "the site"); (b "doi:10.1/2", []); (b "https://b.org/(y)", []); (b "mid:1@c", [])].
Example C108_example : variants_of (map b ["doi"; "http"; "https"; "mid:"]%string) ex_schemes /\ simple_schemes ex_schemes /\
  shown ex_schemes true (b ex_line) ex_links /\ Forall (fun l => proper ex_schemes (fst l)) ex_links /\
  (exists c, UpdateRe (map b ["doi"; "http"; "https"; "mid:"]%string) = Some c) /\
  w_org (map b ["doi"; "http"; "https"; "mid:"]%string) ["* H"; ex_line]%string =
    Some (map (fun l => ([PNil; PHeading (Some (mkHeading 1 (b "H")))], mkLink (fst l) (snd l) 2)) ex_links).
Proof. exact line_example. Qed.

(** A link in a text with just one character after the colon is not found. *)
Theorem C108_short_refuted : ~ forall variants ss c u chunk f content broken t err lines e k w y,
  variants_of variants ss -> UpdateRe variants = Some c -> simple_schemes ss ->
  OrgExtract u c chunk f content broken = Done (Some t, err) -> seen_lines content broken lines e -> nth_error lines k = Some (w ++ b ":" ++ y) ->
  with_scheme ss w -> (exists c v, w = c :: v /\ word_byte c) -> y <> [] -> Forall (fun r => plain_rune r /\ ~ punct r) (runes_of y) ->
  passed f (mkLink (w ++ b ":" ++ y) [] (S k)) ->
  exists p, In (p, mkLink (w ++ b ":" ++ y) [] (S k)) (paths t).
Proof. exact short_refute. Qed.
Print Assumptions C108_short_refuted.
