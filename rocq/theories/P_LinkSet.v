(** Properties C28-C30, C68: sets of links (pkg/burl_links/extract_org.go:82-83,173-231, extract_txt.go:104-141,
    cmd/burl_backend/burl_backend.go:252-275). *)
From Verif Require Import GoBase GoSlice Utf8 Utf8Proofs Flags LinkTypes LinkTree Emacs Backend BackendSpec BackendProofs BackendConc
  BackendWitness Scanner ScannerSpec Extract ExtractSpec OrgProofs ExtractMain ExtractWitness SetSpec SetProofs SetMain Real RealProofs.
From Coq Require Import Permutation.

Definition ex_chunk : nat -> N := fun _ => 7%N.
Definition ex_u : rune -> bool := fun _ => false.
Definition ex_c : schemeRe := match UpdateRe [b "http"] with Some c => c | None => mkSchemeRe reHeading reHeading end.
Definition ex_line : string := "see [[http://a/x][d]] and <http://a/ y> (http://a/yy), xhttp://a/z http://b [[https:q]] http://a/x".
Definition ex_text : str := w_lines [ex_line; "[[http://a/?q=(1|2)*][two words]]"]%string.
Definition ex_prefixes : list str := [b "http://a/"; b "https"].
Example ex_seen : seen_lines ex_text false [b ex_line; b "[[http://a/?q=(1|2)*][two words]]"] None.
Proof. apply (w_check [ex_line; "[[http://a/?q=(1|2)*][two words]]"]%string). vm_compute. reflexivity. Qed.
Example ex_prefixes_ok : prefixes_ok ex_prefixes.
Proof. apply prefixes_check; [discriminate|vm_compute; reflexivity..]. Qed.

(** C28.  Links of a file. *)
Theorem C28_file : forall k content broken filters lines err,
  prefixes_ok filters -> seen_lines content broken lines err ->
  exists found, Forall (fun x => exists line, In line lines /\ set_link k filters line x) found /\
    forall chunk set, exists set', ExtractSet k chunk content broken filters set = Done (set', err) /\
      (forall x, In x set' <-> In x set \/ In x found) /\ (NoDup set -> NoDup set').
Proof. exact set_found. Qed.
Print Assumptions C28_file.

Example C28_example :
  ExtractSet Org ex_chunk ex_text false ex_prefixes [b "mailto:c"] =
    Done ([b "mailto:c"; b "http://a/x"; b "http://a/ y"; b "http://a/yy"; b "https:q"; b "http://a/?q=(1|2)*"], None) /\
  ExtractSet Txt ex_chunk ex_text false ex_prefixes [] = Done ([b "http://a/yy"; b "http://a/?q=(1|2)"], None).
Proof. split; vm_compute; reflexivity. Qed.

(** U+FFFD in a prefix matches bytes that are not valid UTF-8, see [same_text]. *)
Theorem C28_exact_text_refuted : ~ (forall k chunk content broken filters set x,
  ExtractSet k chunk content broken filters [] = Done (set, None) -> In x set ->
  exists p q more, In p filters /\ full_prefix p q /\ x = q ++ more).
Proof. exact replacement_found. Qed.
Print Assumptions C28_exact_text_refuted.

(** Links of a reply. *)
Theorem C28_reply : forall e users bk qs g tr g' ts i o p u c chunk,
  booted e users g -> steps e (initializer bk) (g, serving bk qs) tr (g', ts) ->
  nth_error qs i = Some (o, QLinkSet p) -> fair_orders o -> ext bk = real u c chunk ->
  forall urls x, replied (of_thread i tr) (PLinkSet urls) -> In x urls ->
  exists src content broken lines line, In src (srcFiles bk) /\ In (snd src, RData content broken) (own_reads (of_thread i tr)) /\
    seen_lines content broken lines None /\ In line lines /\ set_link (fst src) p line x.
Proof. exact linkset_prefixes. Qed.
Print Assumptions C28_reply.

Definition ex_backend : backend := mkBackend [(Org, b "1.org"); (Txt, b "2.txt")] false (real ex_u ex_c ex_chunk) (fun r => r).
Definition ex_cfg : emacs_cfg := mkEmacs (mkSlice 0 1) (b "emacsclient").
Definition ex_glob : glob := mkGlob [[b "-snotes"]] ONew.
Definition ex_orders : orders := mkOrders [(b "https:", b "http:"); (b "http:", b "https:")] (@rev str).
Example ex_booted : booted ex_cfg [b "-snotes"] ex_glob.
Proof. split; [reflexivity|]. split; [cbn; auto|]. split; reflexivity. Qed.
Example ex_fair : fair_orders ex_orders.
Proof. split; [apply perm_swap|]. intros l. apply Permutation_sym, Permutation_rev. Qed.
Definition ex_requests : list (orders * request) :=
  [(ex_orders, QLinkSet ex_prefixes); (ex_orders, QLinkSet [b "http"; b "a b:"]); (ex_orders, QLinkSet (repeat (b "http") 17)); (ex_orders, QLinkSet [])].
Definition ex_input (s : str) : input := IRead (RData s false).
Definition ex_schedule : list (nat * input) :=
  [(0, ex_input ex_text); (1, ex_input (b "http:a")); (2, succ); (0, ex_input (b "* http://a/yy; http://a/zz")); (3, ex_input []);
   (0, succ); (1, succ); (3, succ)].
Example C28_reply_example : exists tr g' ts,
  steps ex_cfg (initializer ex_backend) (ex_glob, serving ex_backend ex_requests) tr (g', ts) /\
  replied (of_thread 0 tr) (PLinkSet [b "http://a/zz"; b "http://a/?q=(1|2)*"; b "https:q"; b "http://a/yy"; b "http://a/ y"; b "http://a/x"]) /\
  replied (of_thread 1 tr) (PError EPrefix) /\ replied (of_thread 2 tr) (PError ETooMany) /\ replied (of_thread 3 tr) (PError EPrefix).
Proof.
  destruct (run ex_cfg (initializer ex_backend) ex_glob (serving ex_backend ex_requests) ex_schedule) as [[[tr g] ts]|] eqn:E;
    [|vm_compute in E; discriminate].
  exists tr, g, ts. split; [exact (BackendWitness.run_ok _ _ _ _ _ _ _ _ E)|]. vm_compute in E. injection E as <- <- <-. vm_compute. tauto.
Qed.

(** C29. *)
Theorem C29_file : forall k chunk content broken filters set,
  ~ prefixes_ok filters -> ExtractSet k chunk content broken filters set = Done (set, Some EPrefix).
Proof. exact set_rejected. Qed.
Print Assumptions C29_file.

Example C29_example : ~ prefixes_ok [] /\ ~ prefixes_ok [b "http"; b "a b:"] /\ ~ prefixes_ok [b "mid:" ++ [ascii_of_nat 255]].
Proof.
  split; [intros [H _]; congruence|]. split; intros H; destruct (seen_exists [] false) as (lines & err & S);
    destruct (set_found Txt _ _ _ _ _ H S) as (found & _ & X); destruct (X ex_chunk []) as (set & E & _); vm_compute in E; injection E as _ <-;
    destruct (seen_unique _ _ _ _ _ _ S (w_check [] eq_refl)); discriminate.
Qed.

Theorem C29_reply : forall e users bk qs g tr g' ts i o p u c chunk,
  booted e users g -> steps e (initializer bk) (g, serving bk qs) tr (g', ts) ->
  nth_error qs i = Some (o, QLinkSet p) -> fair_orders o -> ext bk = real u c chunk -> forall r, replied (of_thread i tr) r ->
  (linkSetDisabled bk = true -> r = PError EDisabled) /\
  (linkSetDisabled bk = false -> 16 < length p -> r = PError ETooMany) /\
  (linkSetDisabled bk = false -> length p <= 16 -> ~ prefixes_ok p -> srcFiles bk <> [] ->
     exists src srcs, srcFiles bk = src :: srcs /\
       ((own_reads (of_thread i tr) = [(snd src, RNone)] /\ r = PError EOpen) \/
        exists content broken, own_reads (of_thread i tr) = [(snd src, RData content broken)] /\ r = PError EPrefix)).
Proof. exact linkset_checked. Qed.
Print Assumptions C29_reply.

(** Case is ignored, so U+017F and U+212A are accepted as letters, see [latin]. *)
Theorem C29_ascii_refuted : ~ (forall k chunk content broken filters set,
  ExtractSet k chunk content broken filters [] = Done (set, None) ->
  forall p scheme more, In p filters -> p = scheme ++ more -> ~ In ":"%char scheme -> Forall (fun c => (N_of_ascii c < 128)%N) scheme).
Proof. exact kelvin_accepted. Qed.
Print Assumptions C29_ascii_refuted.

(** C30. *)
Theorem C30_union : forall e users bk qs g tr g' ts i o p u c chunk,
  booted e users g -> steps e (initializer bk) (g, serving bk qs) tr (g', ts) ->
  nth_error qs i = Some (o, QLinkSet p) -> fair_orders o -> ext bk = real u c chunk ->
  forall urls, replied (of_thread i tr) (PLinkSet urls) ->
  linkSetDisabled bk = false /\ length p <= 16 /\ (srcFiles bk <> [] -> prefixes_ok p) /\
  NoDup urls /\ map fst (own_reads (of_thread i tr)) = map snd (srcFiles bk) /\
  (forall x, In x urls <-> exists src rd found, In (src, rd) (combine (srcFiles bk) (own_reads (of_thread i tr))) /\
     (exists content broken, rd = (snd src, RData content broken) /\ ExtractSet (fst src) chunk content broken p [] = Done (found, None)) /\
     In x found).
Proof. exact linkset_real. Qed.
Print Assumptions C30_union.
(** See [C28_reply_example]: "http://a/yy" is in both files. *)

(** C68. *)
Theorem C68_bracket : forall chunk content broken filters lines err set t d more,
  prefixes_ok filters -> seen_lines content broken lines err ->
  In (bracket_line t d) lines -> no_brackets t -> no_brackets d -> (exists p q, In p filters /\ full_prefix p q /\ t = q ++ more) ->
  exists set', ExtractSet Org chunk content broken filters set = Done (set', err) /\ In t set'.
Proof. exact set_whole. Qed.
Print Assumptions C68_bracket.

Example C68_example : let t := b "http://a/?q=(1|2)*" in
  In (bracket_line t (b "two words")) [b ex_line; b "[[http://a/?q=(1|2)*][two words]]"] /\ no_brackets t /\ no_brackets (b "two words") /\
  (exists p q, In p ex_prefixes /\ full_prefix p q /\ t = q ++ b "?q=(1|2)*").
Proof.
  split; [right; left; reflexivity|]. split; [|split].
  - intros c [<-|[<-|[]]]; cbn; intuition discriminate.
  - intros c [<-|[<-|[]]]; cbn; intuition discriminate.
  - exists (b "http://a/"), (b "http://a/"). split; [left; reflexivity|]. split; [|reflexivity]. left. split; [|reflexivity]. cbn. tauto.
Qed.
