(** Properties C51-C57, C64, C65: handling of requests (cmd/burl_backend/burl_backend.go, pkg/burl_emacs, pkg/burl_links/link_source.go). *)
From Verif Require Import GoBase Utf8 Utf8Proofs Url UrlSpec Flags LinkTypes LinkTree LinkSpec LinkMain Fuzzy FuzzySpec Emacs Backend BackendSpec
  BackendProofs BackendConc BackendMain BackendNotes BackendWitness.
From Coq Require Import Permutation.

(** Examples: two files, each line is a link *)
Definition ex_ext : extractors := mkX
  (fun _ content _ => Done (Some (Inner PNil [Leaf [mkLink content (b "text") 1]]), None))
  (fun _ content _ _ set => Done (content :: set, None)).
Definition ex_backend : backend := mkBackend [(Org, b "1.org"); (Txt, b "2.txt")] false ex_ext (fun r => r).
Definition ex_cfg : emacs_cfg := mkEmacs (mkSlice 0 1) (b "emacsclient").
Definition ex_glob (capacity : nat) : glob := mkGlob [b "-snotes" :: repeat [] capacity] ONew.
Definition ex_orders : orders := mkOrders [(b "https:", b "http:"); (b "http:", b "https:")] (@rev str).
Example ex_booted : booted ex_cfg [b "-snotes"] (ex_glob 3).
Proof. split; [reflexivity|]. split; [cbn; auto|]. split; reflexivity. Qed.
Example ex_fair : fair_orders ex_orders.
Proof. split; [apply perm_swap|]. intros l. apply Permutation_sym, Permutation_rev. Qed.
Definition ex_visit (path : str) : request := QVisit (mkLocation path 12).
Definition ex_capture (u : str) : request := QCapture (mkCapture (b "org-protocol") u false).
Definition ex_uri := b "org-protocol:/capture?x=1".
(** A capture request from the beginning to the end *)
Example ex_history : exists g, history ex_cfg ex_backend (ex_glob 3) g /\ gmem g <> gmem (ex_glob 3).
Proof.
  destruct (run ex_cfg (initializer ex_backend) (ex_glob 3) [TRun (handle ex_backend ex_orders (ex_capture ex_uri))] (times 20 0)) as [[[tr g] ts]|] eqn:E;
    [|vm_compute in E; discriminate].
  assert (D : match ts with [TOver r] => gmem g <> gmem (ex_glob 3) | _ => False end).
  { vm_compute in E. injection E as <- <- <-. vm_compute. discriminate. }
  destruct ts as [|[| | | |r|] [|]]; try contradiction. exists g. split; [|exact D].
  econstructor; [exact (run_one _ _ _ _ _ _ _ _ E)|constructor].
Qed.

(** C51.  Any request after any sequence of requests that are handled one at a time. *)
Theorem C51_visit : forall e users bk g0 g o q tr g' t',
  booted e users g0 -> history e bk g0 g ->
  tsteps e (initializer bk) (g, TRun (handle bk o (QVisit q))) tr (g', t') ->
  visit_ok e users bk q tr.
Proof. exact visit_sequential. Qed.
Print Assumptions C51_visit.

Example C51_example : exists tr g' t',
  tsteps ex_cfg (initializer ex_backend) (ex_glob 3, TRun (handle ex_backend ex_orders (ex_visit (b "2.txt")))) tr (g', t') /\
  replied tr PVisit /\
  commands tr = [map b ["emacsclient"; "-snotes"; "--quiet"; "--alternate-editor=sh -c ""exit 9"""; "--eval"]%string ++ [EnsureFrameLisp];
                 map b ["emacsclient"; "-snotes"; "--quiet"; "--alternate-editor=sh -c ""exit 9"""; "--no-wait"; "+12"; "2.txt"]%string].
Proof.
  destruct (run ex_cfg (initializer ex_backend) (ex_glob 3) [TRun (handle ex_backend ex_orders (ex_visit (b "2.txt")))] (times 13 0)) as [[[tr g] ts]|] eqn:E;
    [|vm_compute in E; discriminate].
  assert (D : match ts with [TOver r] => True | _ => False end).
  { vm_compute in E. injection E as <- <- <-. exact I. }
  destruct ts as [|[| | | |r|] [|]]; try contradiction. exists (map snd tr), g, (TOver r).
  split; [exact (run_one _ _ _ _ _ _ _ _ E)|]. vm_compute in E. injection E as <- <- <-. split; [vm_compute; tauto|]. vm_compute. reflexivity.
Qed.

(** Even with races a path that is not configured is never passed to the editor by its request. *)
Theorem C51_prohibited : forall e users bk qs g tr g' ts i o q,
  booted e users g -> steps e (initializer bk) (g, serving bk qs) tr (g', ts) ->
  nth_error qs i = Some (o, QVisit q) -> ~ visit_allowed bk q ->
  commands (of_thread i tr) = [] /\ forall r, replied (of_thread i tr) r -> r = PError EProhibited.
Proof. exact prohibited. Qed.
Print Assumptions C51_prohibited.

(** C52. *)
Theorem C52_capture : forall e users bk g0 g o q tr g' t',
  booted e users g0 -> history e bk g0 g ->
  tsteps e (initializer bk) (g, TRun (handle bk o (QCapture q))) tr (g', t') ->
  capture_ok e users q tr.
Proof. exact capture_sequential. Qed.
Print Assumptions C52_capture.

(** Arguments that begin with a dash are options. *)
Theorem C52_not_option : forall q, capture_allowed q -> forall rest, cqUrl q <> b "-" ++ rest.
Proof. exact not_option. Qed.
Print Assumptions C52_not_option.

Example C52_example : exists tr g' t',
  tsteps ex_cfg (initializer ex_backend) (ex_glob 3, TRun (handle ex_backend ex_orders (ex_capture ex_uri))) tr (g', t') /\
  replied tr (PCapture false (b "success")) /\
  commands tr = [map b ["emacsclient"; "-snotes"; "--quiet"; "--alternate-editor=sh -c ""exit 9"""; "--eval"]%string ++ [CheckOrgProtocolLisp];
                 map b ["emacsclient"; "-snotes"; "--quiet"; "--alternate-editor=sh -c ""exit 9"""; "--eval"]%string ++ [EnsureFrameLisp];
                 map b ["emacsclient"; "-snotes"; "--quiet"; "--alternate-editor=sh -c ""exit 9"""; "org-protocol:/capture?x=1"]%string].
Proof.
  destruct (run ex_cfg (initializer ex_backend) (ex_glob 3) [TRun (handle ex_backend ex_orders (ex_capture ex_uri))] (times 20 0)) as [[[tr g] ts]|] eqn:E;
    [|vm_compute in E; discriminate].
  assert (D : match ts with [TOver r] => True | _ => False end).
  { vm_compute in E. injection E as <- <- <-. exact I. }
  destruct ts as [|[| | | |r|] [|]]; try contradiction. exists (map snd tr), g, (TOver r).
  split; [exact (run_one _ _ _ _ _ _ _ _ E)|]. vm_compute in E. injection E as <- <- <-. split; [vm_compute; tauto|]. vm_compute. reflexivity.
Qed.

(** C53.  Commands of any request after any sequence of requests that are handled one at a time. *)
Theorem C53_exact : forall e users bk g0 g o q tr g' t',
  booted e users g0 -> history e bk g0 g ->
  tsteps e (initializer bk) (g, TRun (handle bk o q)) tr (g', t') ->
  Forall (fun argv => exists own, own_args bk q own /\ argv = cmdline e users own) (commands tr).
Proof. exact sequential_exact. Qed.
Print Assumptions C53_exact.

Example C53_example : booted ex_cfg [b "-snotes"] (ex_glob 3) /\
  exists g, history ex_cfg ex_backend (ex_glob 3) g /\ gmem g <> gmem (ex_glob 3).
Proof. split; [exact ex_booted|exact ex_history]. Qed.

(** C54.  Two captures are reported as successful, but one URI is passed twice and another one is lost. *)
Theorem C54_race_refuted : exists e users bk g o1 q1 o2 q2 tr g' ts,
  booted e users g /\ steps e (initializer bk) (g, serving bk [(o1, QCapture q1); (o2, QCapture q2)]) tr (g', ts) /\
  cqUrl q1 <> cqUrl q2 /\
  replied (of_thread 0 tr) (PCapture false (b "success")) /\ replied (of_thread 1 tr) (PCapture false (b "success")) /\
  (forall argv, In argv (commands (map snd tr)) -> ~ In (cqUrl q1) argv) /\
  length (filter (fun argv => existsb (str_eqb (cqUrl q2)) argv) (commands (map snd tr))) = 2.
Proof. exact race_lost. Qed.
Print Assumptions C54_race_refuted.

(** It can not happen if there is no spare capacity. *)
Theorem C54_no_spare_capacity : forall e users bk qs g tr g' ts i o q,
  booted e users g -> steps e (initializer bk) (g, serving bk qs) tr (g', ts) ->
  length (array (gmem g) (arr (UserArgs e))) <= length users + 2 -> nth_error qs i = Some (o, q) ->
  Forall (fun argv => exists own, own_args bk q own /\ argv = cmdline e users own) (commands (of_thread i tr)) /\
  (forall v, q = QVisit v -> visit_ok e users bk v (of_thread i tr)) /\
  (forall c, q = QCapture c -> capture_ok e users c (of_thread i tr)).
Proof. exact full_safe. Qed.
Print Assumptions C54_no_spare_capacity.

Example C54_example : booted ex_cfg [b "-snotes"] (ex_glob 2) /\
  length (array (gmem (ex_glob 2)) (arr (UserArgs ex_cfg))) <= length [b "-snotes"] + 2 /\
  exists tr g' ts, steps ex_cfg (initializer ex_backend) (ex_glob 2, serving ex_backend [cap_req uri1; cap_req uri2]) tr (g', ts) /\
    last (commands (of_thread 0 tr)) [] = map b ["emacsclient"; "-snotes"; "--quiet"; "--alternate-editor=sh -c ""exit 9"""]%string ++ [uri1] /\
    last (commands (of_thread 1 tr)) [] = map b ["emacsclient"; "-snotes"; "--quiet"; "--alternate-editor=sh -c ""exit 9"""]%string ++ [uri2].
Proof.
  split; [repeat split; cbn; auto|]. split; [cbn; auto|].
  destruct (run ex_cfg (initializer ex_backend) (ex_glob 2) (serving ex_backend [cap_req uri1; cap_req uri2])
             (times 12 0 ++ times 12 1 ++ times 4 0 ++ times 4 1 ++ times 3 0 ++ times 3 1)) as [[[tr g] ts]|] eqn:E; [|vm_compute in E; discriminate].
  exists tr, g, ts. split; [exact (run_ok _ _ _ _ _ _ _ _ E)|]. vm_compute in E. injection E as <- <- <-. split; vm_compute; reflexivity.
Qed.

(** C65.  Whatever the schedule is, the program, user and standard arguments are intact and any other argument belongs
    to the same position of a command of one of requests. *)
Theorem C65_race_bounded : forall e users bk qs g tr g' ts i o q,
  booted e users g -> steps e (initializer bk) (g, serving bk qs) tr (g', ts) ->
  nth_error qs i = Some (o, q) ->
  Forall (fun argv => exists own rest, own_args bk q own /\ argv = cmdline e users rest /\ length rest = length own /\
     forall j x, nth_error rest j = Some x -> exists o' q' own', In (o', q') qs /\ own_args bk q' own' /\ nth_error own' j = Some x)
    (commands (of_thread i tr)).
Proof. exact race_bounded. Qed.
Print Assumptions C65_race_bounded.

Example C65_example : exists tr g' ts,
  steps dflt_cfg (initializer dflt_backend) (dflt_glob, serving dflt_backend [cap_req uri1; cap_req uri2]) tr (g', ts) /\
  last (commands (of_thread 0 tr)) [] = cmdline dflt_cfg [] [uri2].
Proof.
  destruct (run dflt_cfg (initializer dflt_backend) dflt_glob (serving dflt_backend [cap_req uri1; cap_req uri2]) race) as [[[tr g] ts]|] eqn:E;
    [|vm_compute in E; discriminate].
  exists tr, g, ts. split; [exact (run_ok _ _ _ _ _ _ _ _ E)|]. vm_compute in E. injection E as <- <- <-. vm_compute. reflexivity.
Qed.

(** C55. *)
Theorem C55_hello : forall bk o q, exists r, handle bk o (QHello q) = HRet r /\
  ((exists v, offers q v /\ v <> []) \/ r = PError ETooOld) /\
  forall v, offers q v -> v <> [] -> exists caps, r = PHello (b "org-protocol") v caps /\
    (In (b "visit") caps <-> srcFiles bk <> []) /\ (In (b "urlMentions") caps <-> srcFiles bk <> []) /\
    (In (b "linkSet") caps <-> srcFiles bk <> [] /\ linkSetDisabled bk = false).
Proof. exact hello_ok. Qed.
Print Assumptions C55_hello.

Example C55_example :
  offers [(b "object", b "1"); (b "org-protocol", b "0.2"); (b "org-protocol", [])] (b "0.2") /\
  handle ex_backend ex_orders (QHello [(b "object", b "1"); (b "org-protocol", b "0.2"); (b "org-protocol", [])]) =
    HRet (PHello (b "org-protocol") (b "0.2") (map b ["visit"; "urlMentions"; "linkSet"]%string)).
Proof.
  split; [|reflexivity]. exists [(b "object", b "1")], [(b "org-protocol", [])]. split; [reflexivity|]. intros [H|[]]. discriminate.
Qed.

(** C56.  Concurrent requests: files are read at most once, answers are for the same notes [v]. *)
Theorem C56_snapshot : forall e users bk qs g tr g' ts,
  booted e users g -> steps e (initializer bk) (g, serving bk qs) tr (g', ts) ->
  beginning (map fst (initial_reads (map snd tr))) (map snd (srcFiles bk)) /\
  exists v, forall i o q, nth_error qs i = Some (o, q) -> fair_orders o -> needs_notes q ->
    own_reads (of_thread i tr) = [] /\
    forall r, replied (of_thread i tr) r ->
      notes_from (ext bk) (srcFiles bk) (initial_reads (map snd tr)) v /\ answered bk v q r.
Proof. exact snapshot. Qed.
Print Assumptions C56_snapshot.

(** linkSet reads files for itself. *)
Theorem C56_link_set : forall e users bk qs g tr g' ts i o p,
  booted e users g -> steps e (initializer bk) (g, serving bk qs) tr (g', ts) ->
  nth_error qs i = Some (o, QLinkSet p) -> fair_orders o ->
  beginning (map fst (own_reads (of_thread i tr))) (map snd (srcFiles bk)) /\
  forall r, replied (of_thread i tr) r ->
    (linkSetDisabled bk = true -> r = PError EDisabled) /\
    (linkSetDisabled bk = false -> 16 < length p -> r = PError ETooMany) /\
    (linkSetDisabled bk = true \/ 16 < length p -> own_reads (of_thread i tr) = []) /\
    (linkSetDisabled bk = false -> length p <= 16 ->
       exists set err, set_from (ext bk) p (srcFiles bk) (own_reads (of_thread i tr)) [] set err /\
         match err with Some e => r = PError e | None => exists urls, r = PLinkSet urls /\ Permutation urls set end).
Proof. exact linkset_served. Qed.
Print Assumptions C56_link_set.

Definition ex_mentions (u : str) : request := QMentions (mkMentions [[]; u] None).
Definition ex_requests : list (orders * request) :=
  [(ex_orders, ex_mentions (b "http://a/")); (ex_orders, ex_mentions (b "http://b")); (ex_orders, QLinkSet [b "http"])].
Definition ex_file (s : str) : input := IRead (RData s false).
Definition ex_schedule : list (nat * input) :=
  [(0, succ); (2, ex_file (b "http://b")); (0, ex_file (b "https://a")); (0, ex_file (b "http://b")); (0, succ); (0, succ);
   (1, succ); (1, succ); (2, ex_file (b "http://c")); (2, succ)].
Example C56_example : exists tr g' ts,
  steps ex_cfg (initializer ex_backend) (ex_glob 3, serving ex_backend ex_requests) tr (g', ts) /\
  initial_reads (map snd tr) = [(b "1.org", RData (b "https://a") false); (b "2.txt", RData (b "http://b") false)] /\
  replied (of_thread 0 tr) (PMentions (CInner 1 1 PFileGroup
    [CInner 1 1 (PFile (b "1.org")) [CLeaf 1 1 [mkLink (b "https://a") (b "text") 1]]])) /\
  replied (of_thread 1 tr) (PMentions (CInner 1 1 PFileGroup
    [CInner 1 1 (PFile (b "2.txt")) [CLeaf 1 1 [mkLink (b "http://b") (b "text") 1]]])) /\
  replied (of_thread 2 tr) (PLinkSet [b "http://b"; b "http://c"]).
Proof.
  destruct (run ex_cfg (initializer ex_backend) (ex_glob 3) (serving ex_backend ex_requests) ex_schedule) as [[[tr g] ts]|] eqn:E;
    [|vm_compute in E; discriminate].
  exists tr, g, ts. split; [exact (run_ok _ _ _ _ _ _ _ _ E)|]. vm_compute in E. injection E as <- <- <-.
  split; [vm_compute; reflexivity|]. vm_compute. tauto.
Qed.

(** C57. *)
Theorem C57_mentions : forall e users bk qs g tr g' ts i o q r,
  booted e users g -> steps e (initializer bk) (g, serving bk qs) tr (g', ts) ->
  nth_error qs i = Some (o, QMentions q) -> fair_orders o -> replied (of_thread i tr) r ->
  (Forall (fun u => u = []) (mqVariants q) /\ r = PError ENoUrls) \/
  ((exists u, In u (mqVariants q) /\ u <> []) /\
   ((exists err, notes_from (ext bk) (srcFiles bk) (initial_reads (map snd tr)) (Err err) /\ r = PError err) \/
    (exists tree c, notes_from (ext bk) (srcFiles bk) (initial_reads (map snd tr)) (Ok tree) /\ r = PMentions c /\ mentions_answer tree q c))).
Proof. exact mentions_served. Qed.
Print Assumptions C57_mentions.

Example C57_example : wanted (mkMentions [[]; b "http://a/"] None) (b "https://a") /\ ~ wanted (mkMentions [[]; b "http://a/"] None) (b "https://b").
Proof.
  assert (V : Forall valid_utf8 [[]; b "http://a/"]).
  { repeat constructor; apply valid_utf8_ascii; repeat constructor. }
  split.
  - apply (mentions_urls [(b "http:", b "https:"); (b "https:", b "http:")]); [apply Permutation_refl|exact V|]. vm_compute. tauto.
  - intros H. apply (mentions_urls [(b "http:", b "https:"); (b "https:", b "http:")]) in H; [|apply Permutation_refl|exact V].
    vm_compute in H. repeat (destruct H as [H|H]; [discriminate|]). exact H.
Qed.

(** C64. *)
Theorem C64_files : forall bk rd v, reads_to (initializer bk) rd (HRet v) -> notes_from (ext bk) (srcFiles bk) rd v.
Proof. exact init_notes. Qed.
Print Assumptions C64_files.

Example C64_example :
  reads_to (initializer ex_backend) [(b "1.org", RData (b "https://a") false); (b "2.txt", RNone)] (HRet (Err EOpen)) /\
  reads_to (initializer ex_backend) [(b "1.org", RData (b "https://a") false); (b "2.txt", RData (b "b:c") false)]
    (HRet (Ok (Inner PFileGroup [Inner (PFile (b "1.org")) [Leaf [mkLink (b "https://a") (b "text") 1]];
                                 Inner (PFile (b "2.txt")) [Leaf [mkLink (b "b:c") (b "text") 1]]]))).
Proof. split; repeat constructor. Qed.
