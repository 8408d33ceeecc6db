(** Property C116: links that are found by prefixes are exactly those that are seen in files (pkg/burl_links/extract_org.go:192-231, extract_txt.go:104-141). *)
From Verif Require Import GoBase GoSlice Utf8 Flags LinkTypes LinkTree Emacs Backend BackendSpec ScannerSpec Extract ExtractSpec ExtractWitness SetSpec Real OrgFoundSpec SetFoundSpec SetFoundWitness
  SetExactSpec SetExact SetExactWitness.

(** C116.  Links of a file ... *)
Theorem C116_file : forall k chunk content broken filters lines err set lss,
  prefixes_ok filters -> simple_prefixes filters -> seen_lines content broken lines err -> Forall2 (holds k filters true) lines lss ->
  exists set', ExtractSet k chunk content broken filters set = Done (set', err) /\ forall x, In x set' <-> In x set \/ (In x (concat lss) /\ starts_with filters x).
Proof. exact set_exact. Qed.
Print Assumptions C116_file.

(** ... and of a reply. *)
Theorem C116_reply : forall e users bk qs g tr g' ts i o p u c chunk,
  booted e users g -> steps e (initializer bk) (g, serving bk qs) tr (g', ts) ->
  nth_error qs i = Some (o, QLinkSet p) -> fair_orders o -> ext bk = real u c chunk -> forall urls, replied (of_thread i tr) (PLinkSet urls) -> simple_prefixes p ->
  forall found, files_hold p (srcFiles bk) (own_reads (of_thread i tr)) found -> NoDup urls /\ forall x, In x urls <-> In x found /\ starts_with p x.
Proof. exact linkset_exact. Qed.
Print Assumptions C116_reply.

Example C116_example : prefixes_ok l_prefixes /\ simple_prefixes l_prefixes /\ holds Org l_prefixes true (b l_org) l_links /\ holds Txt l_prefixes true (b l_txt) l_words /\
  files_hold l_prefixes [(Org, b "a.org"); (Txt, b "b.txt")] [(b "a.org", RData (w_lines [l_org]) false); (b "b.txt", RData (w_lines [l_txt]) false)] (l_links ++ l_words) /\
  ExtractSet Org (fun _ => 7%N) (w_lines [l_org]) false l_prefixes [] = Done (l_links, None) /\
  ExtractSet Txt (fun _ => 7%N) (w_lines [l_txt]) false l_prefixes [] = Done (l_words, None).
Proof.
  split; [exact l_prefixes_ok|]. split; [exact l_simple|]. split; [exact org_holds|]. split; [exact txt_holds|]. split; [exact files_example|]. split; vm_compute; reflexivity.
Qed.
