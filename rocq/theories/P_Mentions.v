(** Property C111: links inside of lines of notes are mentioned. *)
From Verif Require Import GoBase GoSlice Utf8 Utf8Dec Utf8Proofs Flags LinkTypes LinkTree Emacs Backend BackendSpec BackendProofs BackendNotes BackendWitness LinkSpec Patterns Extract ExtractSpec ExtractWitness TextSpec Real ReplyJson ReplySpec MentionsFound P_Reply.
From Verif Require TextFoundSpec OrgFoundSpec OrgFoundWitness P_Found.
From Coq Require Import Permutation.

(** C111.  Every link with a configured scheme in any line of an Org file is mentioned under headings of its line if there are not too many links (the line number
    is that of the first such link under the same heading) ... *)
Theorem C111_org : forall e users bk qs g tr g' ts i o q c variants ss u sc chunk n src nm content broken lines k line ls x d,
  booted e users g -> steps e (initializer bk) (g, serving bk qs) tr (g', ts) ->
  nth_error qs i = Some (o, QMentions q) -> fair_orders o -> Forall valid_utf8 (mqVariants q) -> replied (of_thread i tr) (PMentions c) ->
  ext bk = real u sc chunk -> variants_of variants ss -> UpdateRe variants = Some sc -> OrgFoundSpec.simple_schemes ss ->
  nth_error (srcFiles bk) n = Some src -> fst src = Org ->
  nth_error (initial_reads (map snd tr)) n = Some (nm, RData content broken) -> seen_lines content broken lines None ->
  nth_error lines k = Some line -> OrgFoundSpec.shown ss true line ls -> In (x, d) ls -> OrgFoundSpec.proper ss x -> wanted q x ->
  let limit := match mqLimit q with Some l => l | None => 8%Z end in (1 <= limit)%Z -> (ccount c <= limit)%Z -> (ccount c * limit <= maxint)%Z ->
  exists hs' l, In (PFileGroup :: PFile (snd src) :: map PHeading hs', l) (cpaths c) /\ URL l = x /\
    forall hs, headings_of 1 lines hs -> regular 0 hs -> hs' = map Some (enclosing (S k) hs).
Proof. exact mentions_org. Qed.
Print Assumptions C111_org.
(** ... and so is every URL in words of a text file. *)
Theorem C111_text : forall e users bk qs g tr g' ts i o q c u sc chunk n src nm content broken lines k line words w s d p x,
  booted e users g -> steps e (initializer bk) (g, serving bk qs) tr (g', ts) ->
  nth_error qs i = Some (o, QMentions q) -> fair_orders o -> Forall valid_utf8 (mqVariants q) -> replied (of_thread i tr) (PMentions c) ->
  ext bk = real u sc chunk -> nth_error (srcFiles bk) n = Some src -> fst src = Txt ->
  nth_error (initial_reads (map snd tr)) n = Some (nm, RData content broken) -> seen_lines content broken lines None ->
  nth_error lines k = Some line -> line_words line words -> In w words -> TextFoundSpec.word_has u w s d p -> x = concat (map snd (s ++ d ++ p)) -> wanted q x ->
  let limit := match mqLimit q with Some l => l | None => 8%Z end in (1 <= limit)%Z -> (ccount c <= limit)%Z -> (ccount c * limit <= maxint)%Z ->
  exists l, In ([PFileGroup; PFile (snd src)], l) (cpaths c) /\ URL l = x.
Proof. exact mentions_txt. Qed.
Print Assumptions C111_text.

Definition ex_variants : list str := map b ["doi"; "http"; "https"; "mid:"]%string.
Definition ex_re : schemeRe := match UpdateRe ex_variants with Some c => c | None => mkSchemeRe reHeading reHeading end.
Definition ex_notes : backend := mkBackend [(Org, b "1.org"); (Txt, b "2.txt")] false (real ex_u ex_re ex_chunk) (fun r => r).
Definition ex_asked : UrlMentionsQuery := mkMentions [b "http://b.org/(y)"; b "https://a.org/b%20c"] None.
Definition ex_asks : list (orders * request) := [(ex_orders, QMentions ex_asked)].
Definition ex_first : str := w_lines ["* H"; OrgFoundWitness.w_line]%string.
Definition ex_second : str := w_lines ["see x=(http://a.org/b%20c)"]%string.
Example C111_example : UpdateRe ex_variants = Some ex_re /\ variants_of ex_variants OrgFoundWitness.w_schemes /\ OrgFoundSpec.simple_schemes OrgFoundWitness.w_schemes /\
  OrgFoundSpec.shown OrgFoundWitness.w_schemes true (b OrgFoundWitness.w_line) OrgFoundWitness.w_links /\ In (b "https://b.org/(y)", []) OrgFoundWitness.w_links /\
  TextFoundSpec.word_has ex_u (b "x=(http://a.org/b%20c)") (P_Found.ex_pieces "http://") (P_Found.ex_pieces "a.org") (P_Found.ex_pieces "/b%20c") /\
  wanted ex_asked (b "https://b.org/(y)") /\ wanted ex_asked (b "http://a.org/b%20c") /\
  seen_lines ex_first false [b "* H"; b OrgFoundWitness.w_line] None /\ seen_lines ex_second false [b "see x=(http://a.org/b%20c)"] None /\
  exists tr g' ts c,
    steps ex_cfg (initializer ex_notes) (ex_glob, serving ex_notes ex_asks) tr (g', ts) /\ replied (of_thread 0 tr) (PMentions c) /\ ccount c = 2%Z /\
    initial_reads (map snd tr) = [(b "1.org", RData ex_first false); (b "2.txt", RData ex_second false)] /\
    cpaths c = [([PFileGroup; PFile (b "1.org"); PHeading (Some (ex_h 1 "H"))], mkLink (b "https://b.org/(y)") [] 2);
                ([PFileGroup; PFile (b "2.txt")], mkLink (b "http://a.org/b%20c") [] 1)].
Proof.
  destruct OrgFoundWitness.line_example as (V & S & L & _ & _ & _). split; [vm_compute; reflexivity|]. split; [exact V|]. split; [exact S|]. split; [exact L|]. split; [cbn; auto|].
  split; [exact (proj1 P_Found.C107_link_example)|].
  assert (U : Forall valid_utf8 (mqVariants ex_asked)) by (repeat constructor; apply valid_utf8_ascii; repeat constructor).
  split; [apply (mentions_urls [(b "http:", b "https:"); (b "https:", b "http:")]); [apply Permutation_refl|exact U|]; vm_compute; tauto|].
  split; [apply (mentions_urls [(b "http:", b "https:"); (b "https:", b "http:")]); [apply Permutation_refl|exact U|]; vm_compute; tauto|].
  split; [apply (w_seen ["* H"; OrgFoundWitness.w_line]%string); apply Forall_forall; intros l I; apply (fun H => seen_check _ _ H I); reflexivity|].
  split; [apply (w_seen ["see x=(http://a.org/b%20c)"]%string); apply Forall_forall; intros l I; apply (fun H => seen_check _ _ H I); reflexivity|].
  destruct (run ex_cfg (initializer ex_notes) ex_glob (serving ex_notes ex_asks) (ex_schedule ex_first ex_second)) as [[[tr g] ts]|] eqn:E; [|vm_compute in E; discriminate].
  exists tr, g, ts. eexists. split; [exact (BackendWitness.run_ok _ _ _ _ _ _ _ _ E)|]. vm_compute in E; injection E as <- <- <-.
  split; [vm_compute; do 4 right; left; reflexivity|]. split; [reflexivity|]. split; vm_compute; reflexivity.
Qed.
