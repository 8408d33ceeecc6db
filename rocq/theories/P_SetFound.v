(** Property C112: links inside of lines are found by their prefixes (pkg/burl_links/extract_org.go:192-231, extract_txt.go:104-141). *)
From Verif Require Import GoBase GoSlice Utf8 Flags LinkTypes LinkTree Emacs Backend BackendSpec ScannerSpec Extract ExtractSpec ExtractWitness SetSpec Real OrgFoundSpec SetFoundSpec SetFoundMain
  SetFoundWitness.

(** C112.  Links of a file ... *)
Theorem C112_file : forall k chunk content broken filters lines err set line ls x more,
  prefixes_ok filters -> simple_prefixes filters -> seen_lines content broken lines err ->
  In line lines -> listed k filters true line ls -> In x ls -> begins filters x more ->
  exists set', ExtractSet k chunk content broken filters set = Done (set', err) /\ In x set'.
Proof. exact set_listed. Qed.
Print Assumptions C112_file.

(** ... and of a reply. *)
Theorem C112_reply : forall e users bk qs g tr g' ts i o p u c chunk,
  booted e users g -> steps e (initializer bk) (g, serving bk qs) tr (g', ts) ->
  nth_error qs i = Some (o, QLinkSet p) -> fair_orders o -> ext bk = real u c chunk -> forall urls, replied (of_thread i tr) (PLinkSet urls) -> simple_prefixes p ->
  forall n src nm content broken lines err line ls x more, nth_error (srcFiles bk) n = Some src -> nth_error (own_reads (of_thread i tr)) n = Some (nm, RData content broken) ->
  seen_lines content broken lines err -> In line lines -> listed (fst src) p true line ls -> In x ls -> begins p x more -> In x urls.
Proof. exact linkset_listed. Qed.
Print Assumptions C112_reply.

Example C112_example : prefixes_ok l_prefixes /\ simple_prefixes l_prefixes /\ listed Org l_prefixes true (b l_org) l_links /\ listed Txt l_prefixes true (b l_txt) l_words /\
  ExtractSet Org (fun _ => 7%N) (w_lines [l_org]) false l_prefixes [] = Done (l_links, None) /\
  ExtractSet Txt (fun _ => 7%N) (w_lines [l_txt]) false l_prefixes [] = Done (l_words, None).
Proof.
  split; [exact l_prefixes_ok|]. split; [exact l_simple|]. split; [exact org_listed|]. split; [exact txt_listed|]. split; vm_compute; reflexivity.
Qed.

(** A link without brackets is not found when there is nothing or just one character after the prefix. *)
Theorem C112_short_refuted : ~ forall k chunk content broken filters lines err set set' x more,
  prefixes_ok filters -> simple_prefixes filters -> seen_lines content broken lines err ->
  In x lines -> begins filters x more -> (exists c v, x = c :: v /\ word_byte c) -> Forall (fun r => plain_rune r /\ ~ punct r) (runes_of more) ->
  ExtractSet k chunk content broken filters set = Done (set', err) -> In x set'.
Proof. exact exact_missed. Qed.
Print Assumptions C112_short_refuted.
