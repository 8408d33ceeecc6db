(** Properties C27, C69-C71: replies to urlMentions requests and results of other requests in JSON (pkg/burl_links/node_count.go:51-88,
    pkg/burl_links/link_tree.go:51-65, pkg/burl_rpc/burl_rpc.go, cmd/burl_backend/burl_backend.go:167-200). *)
From Verif Require Import GoBase GoSlice Utf8 Utf8Proofs Flags LinkTypes LinkSpec LinkTree Emacs Backend BackendSpec BackendProofs BackendConc
  BackendWitness Scanner ScannerSpec Extract ExtractSpec OrgProofs ExtractMain ExtractWitness Real RealProofs JsonSpec Json ReplyJson ReplySpec ReplyProofs ReplyMain ReplyWitness.
From Coq Require Import Permutation.
From Verif Require SchemeRepeat.

(** C27.  Serialisation fails if and only if there is a node for a skipped level of an outline (or without properties at all). *)
Theorem C27_crash : forall c, MarshalJSON c = Panic <-> exists p, In p (inner_props c) /\ missing p.
Proof. exact marshal_panic. Qed.
Print Assumptions C27_crash.

(** Notes without skipped levels never cause a failure. *)
Theorem C27_regular : forall e users bk qs g tr g' ts i o q c u sc chunk,
  booted e users g -> steps e (initializer bk) (g, serving bk qs) tr (g', ts) ->
  nth_error qs i = Some (o, QMentions q) -> fair_orders o -> replied (of_thread i tr) (PMentions c) -> ext bk = real u sc chunk ->
  (forall src content broken lines hs, In src (srcFiles bk) -> fst src = Org -> In (snd src, RData content broken) (initial_reads (map snd tr)) ->
     seen_lines content broken lines None -> headings_of 1 lines hs -> regular 0 hs) ->
  exists j, MarshalJSON c = Done j.
Proof. exact mentions_safe. Qed.
Print Assumptions C27_regular.

Definition ex_chunk : nat -> N := fun _ => 4096%N.
Definition ex_u : rune -> bool := fun _ => false.
Definition ex_c : schemeRe := match UpdateRe [b "https?"] with Some c => c | None => mkSchemeRe reHeading reHeading end.
Definition ex_org : str := w_lines ["* A ""q"""; "[[http://a.org/x][<d>]]"; "** B"; "[[https://a.org/x]]"; "[[http://b]]"]%string.
Definition ex_txt : str := w_lines [""; "http://a.org/x"]%string.
Definition ex_skipped : str := w_lines ["** B"; "[[https://a.org/x]]"]%string.
Definition ex_backend : backend := mkBackend [(Org, b "1.org"); (Txt, b "2.txt")] false (real ex_u ex_c ex_chunk) (fun r => r).
Definition ex_cfg : emacs_cfg := mkEmacs (mkSlice 0 1) (b "emacsclient").
Definition ex_glob : glob := mkGlob [[b "-snotes"]] ONew.
Definition ex_orders : orders := mkOrders [(b "https:", b "http:"); (b "http:", b "https:")] (@rev str).
Definition ex_query : UrlMentionsQuery := mkMentions [b "http://a.org/x"; []] None.
Example ex_booted : booted ex_cfg [b "-snotes"] ex_glob.
Proof. split; [reflexivity|]. split; [cbn; auto|]. split; reflexivity. Qed.
Example ex_fair : fair_orders ex_orders.
Proof. split; [apply perm_swap|]. intros l. apply Permutation_sym, Permutation_rev. Qed.
Definition ex_requests : list (orders * request) := [(ex_orders, QMentions ex_query)].
Definition ex_schedule (org txt : str) : list (nat * input) := [(0, succ); (0, IRead (RData org false)); (0, IRead (RData txt false)); (0, succ); (0, succ)].
Definition ex_run (org txt : str) := run ex_cfg (initializer ex_backend) ex_glob (serving ex_backend ex_requests) (ex_schedule org txt).
Definition ex_reply (org txt : str) : option (outcome str) :=
  match ex_run org txt with
  | Some (tr, _, _) =>
      match rev tr with
      | (_, LReply (PMentions c)) :: _ => Some (let! j := MarshalJSON c in Done (encode j))
      | _ => None
      end
  | None => None
  end.
Definition ex_json : str :=
  b "{""_type"":""FileGroup"",""children"":["
  ++ b "{""_type"":""File"",""children"":[{""_type"":""Heading"",""children"":["
  ++ b "{""_type"":""Body"",""filtered"":1,""links"":[{""url"":""http://a.org/x"",""descr"":""\u003cd\u003e"",""lineNo"":2,""_type"":""Link""}],""total"":1},"
  ++ b "{""_type"":""Heading"",""children"":[{""_type"":""Body"",""filtered"":1,""links"":[{""url"":""https://a.org/x"",""lineNo"":4,""_type"":""Link""}],""total"":1}],"
  ++ b """filtered"":1,""lineNo"":3,""rawText"":""B"",""total"":1}],""filtered"":2,""lineNo"":1,""rawText"":""A \""q\"""",""total"":2}],"
  ++ b """filtered"":2,""path"":""1.org"",""total"":2},"
  ++ b "{""_type"":""File"",""children"":[{""_type"":""Body"",""filtered"":1,""links"":[{""url"":""http://a.org/x"",""lineNo"":2,""_type"":""Link""}],""total"":1}],"
  ++ b """filtered"":1,""path"":""2.txt"",""total"":1}],""filtered"":3,""total"":3}".
Example C27_example : ex_reply ex_org ex_txt = Some (Done ex_json) /\ ex_reply ex_skipped ex_txt = Some Panic.
Proof. split; vm_compute; reflexivity. Qed.

(** A crash caused by a skipped level *)
Theorem C27_any_notes_refuted : ~ forall e users bk qs g tr g' ts i o q c u sc chunk,
  booted e users g -> steps e (initializer bk) (g, serving bk qs) tr (g', ts) ->
  nth_error qs i = Some (o, QMentions q) -> fair_orders o -> replied (of_thread i tr) (PMentions c) -> ext bk = real u sc chunk ->
  exists j, MarshalJSON c = Done j.
Proof. exact skipped_crash. Qed.
Print Assumptions C27_any_notes_refuted.

(** C69.  Each link of a reply is in the file, at the line and under headings that are shown. *)
Theorem C69_found : forall e users bk qs g tr g' ts i o q c u sc chunk,
  booted e users g -> steps e (initializer bk) (g, serving bk qs) tr (g', ts) ->
  nth_error qs i = Some (o, QMentions q) -> fair_orders o -> replied (of_thread i tr) (PMentions c) -> ext bk = real u sc chunk ->
  forall ps l, In (ps, l) (cpaths c) -> (Forall valid_utf8 (mqVariants q) -> wanted q (URL l)) /\
  exists src content broken lines hs', In src (srcFiles bk) /\ In (snd src, RData content broken) (initial_reads (map snd tr)) /\
    seen_lines content broken lines None /\
    ps = PFileGroup :: PFile (snd src) :: map PHeading hs' /\
    (fst src = Txt -> hs' = []) /\
    (fst src = Org -> forall hs, headings_of 1 lines hs -> regular 0 hs -> hs' = map Some (enclosing (LineNo l) hs)) /\
    (forall variants ss, variants_of variants ss -> UpdateRe variants = Some sc ->
      1 <= LineNo l /\ exists line x y, nth_error lines (LineNo l - 1) = Some line /\ line = x ++ URL l ++ y).
Proof. exact mentions_found. Qed.
Print Assumptions C69_found.

Definition ex_h (n : nat) (t : string) : heading := mkHeading n (b t).
Example C69_example :
  match ex_run ex_org ex_txt with
  | Some (tr, _, _) => match rev tr with (_, LReply (PMentions c)) :: _ => cpaths c | _ => [] end
  | None => []
  end = [([PFileGroup; PFile (b "1.org"); PHeading (Some (ex_h 1 "A ""q"""))], mkLink (b "http://a.org/x") (b "<d>") 2);
         ([PFileGroup; PFile (b "1.org"); PHeading (Some (ex_h 1 "A ""q""")); PHeading (Some (ex_h 3 "B"))], mkLink (b "https://a.org/x") [] 4);
         ([PFileGroup; PFile (b "2.txt")], mkLink (b "http://a.org/x") [] 2)] /\
  enclosing 4 [Some (1, ex_h 1 "A ""q"""); None; Some (2, ex_h 3 "B"); None; None] = [ex_h 1 "A ""q"""; ex_h 3 "B"].
Proof. split; vm_compute; reflexivity. Qed.

(** C70.  What is sent is a JSON document, any receiver gets the same value. *)
Theorem C70_document : forall r j, result_json r = Done j ->
  (exists v, jdocument v (encode j)) /\ forall v, jdocument v (encode j) -> result_shown r v.
Proof. exact result_document. Qed.
Print Assumptions C70_document.

Theorem C70_always : forall r, result_json r = Panic <-> exists c p, r = PMentions c /\ In p (inner_props c) /\ missing p.
Proof. exact result_panic. Qed.
Print Assumptions C70_always.

Example C70_example :
  (let! j := result_json (PHello (b "org-protocol") (b "0.2") []) in Done (encode j)) =
    Done (b "{""format"":""org-protocol"",""version"":""0.2"",""capabilities"":null,""options"":{""clipboardForBody"":false}}") /\
  (let! j := result_json (PLinkSet [b "http://a"; b "x&y"]) in Done (encode j)) = Done (b "{""urls"":[""http://a"",""x\u0026y""]}") /\
  jdocument (VObj [(name (b "urls"), VArr [text (b "x&")])]) (b " {""ur\u006cs"" : [ ""x&"" ] } ").
Proof.
  split; [vm_compute; reflexivity|]. split; [vm_compute; reflexivity|]. exact spaced_document.
Qed.

(** C71.  Nothing is missed if there are not too many links: a line that is a link in brackets is mentioned, unless the same URL
    is shown under the same heading. *)
Theorem C71_complete : forall e users bk qs g tr g' ts i o q c variants ss u sc chunk n src nm content broken lines k s w x d,
  booted e users g -> steps e (initializer bk) (g, serving bk qs) tr (g', ts) ->
  nth_error qs i = Some (o, QMentions q) -> fair_orders o -> Forall valid_utf8 (mqVariants q) -> replied (of_thread i tr) (PMentions c) ->
  ext bk = real u sc chunk -> variants_of variants ss -> UpdateRe variants = Some sc ->
  nth_error (srcFiles bk) n = Some src -> fst src = Org ->
  nth_error (initial_reads (map snd tr)) n = Some (nm, RData content broken) -> seen_lines content broken lines None ->
  nth_error lines k = Some (bracket_line (w ++ b ":" ++ x) d) -> In s ss -> word s w -> no_brackets (w ++ b ":" ++ x) -> no_brackets d ->
  wanted q (w ++ b ":" ++ x) ->
  let limit := match mqLimit q with Some l => l | None => 8%Z end in
  (1 <= limit)%Z -> (ccount c <= limit)%Z -> (ccount c * limit <= maxint)%Z ->
  exists hs l, In (PFileGroup :: PFile (snd src) :: hs, l) (cpaths c) /\ URL l = w ++ b ":" ++ x.
Proof. exact SchemeRepeat.mentions_complete_all. Qed.
Print Assumptions C71_complete.

Example C71_example : exists tr g' ts c,
  steps ex_cfg (initializer ex_backend) (ex_glob, serving ex_backend ex_requests) tr (g', ts) /\
  replied (of_thread 0 tr) (PMentions c) /\ ccount c = 3%Z /\
  nth_error (initial_reads (map snd tr)) 0 = Some (b "1.org", RData ex_org false) /\
  In (PFileGroup :: PFile (b "1.org") :: [PHeading (Some (ex_h 1 "A ""q""")); PHeading (Some (ex_h 3 "B"))], mkLink (b "https://a.org/x") [] 4) (cpaths c).
Proof.
  destruct (ex_run ex_org ex_txt) as [[[tr g] ts]|] eqn:E; [|vm_compute in E; discriminate].
  exists tr, g, ts. eexists. split; [exact (BackendWitness.run_ok _ _ _ _ _ _ _ _ E)|]. vm_compute in E. injection E as <- <- <-.
  split; [vm_compute; do 4 right; left; reflexivity|]. split; [reflexivity|]. split; [vm_compute; reflexivity|]. vm_compute. tauto.
Qed.
