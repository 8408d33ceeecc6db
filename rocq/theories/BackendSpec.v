(** Specification of handling of requests, independent of the handlers. *)
From Verif Require Import GoBase Utf8 Url UrlSpec Flags LinkTypes LinkSpec Fuzzy FuzzySpec Emacs Backend.
From Coq Require Import Permutation.

(** Command line of the editor *)
Definition cmdline (e : emacs_cfg) (users own : list str) : list str :=
  EmacsCommand e :: users ++ [b "--quiet"; b "--alternate-editor=sh -c ""exit 9"""] ++ own.

(** State of the program before the first request: [users] are arguments set by options. *)
Definition users_ok (e : emacs_cfg) (users : list str) (m : mem) : Prop :=
  arr (UserArgs e) < length m /\ len (UserArgs e) = length users /\ contents m (UserArgs e) = users.
Definition booted (e : emacs_cfg) (users : list str) (g : glob) : Prop :=
  gonce g = ONew /\ users_ok e users (gmem g).

(** Go maps are enumerated in any order *)
Definition fair_orders (o : orders) : Prop :=
  Permutation (schemes_order o) [(b "http:", b "https:"); (b "https:", b "http:")] /\
  forall l, Permutation (set_order o l) l.

(** Requests handled one at a time, each till its end *)
Inductive history (e : emacs_cfg) (bk : backend) : glob -> glob -> Prop :=
| h_nil g : history e bk g g
| h_cons g o q tr g1 r g2 :
    tsteps e (initializer bk) (g, TRun (handle bk o q)) tr (g1, TOver r) -> history e bk g1 g2 -> history e bk g g2.

(** Requests handled concurrently *)
Definition serving (bk : backend) (qs : list (orders * request)) : list (thread reply) :=
  map (fun '(o, q) => TRun (handle bk o q)) qs.

(** Labels of a thread *)
Definition of_thread {R} (i : nat) (tr : list (nat * label R)) : list (label R) :=
  map snd (filter (fun x => Nat.eqb (fst x) i) tr).

(** Commands that are started, their results, files that are read *)
Fixpoint commands {R} (tr : list (label R)) : list (list str) :=
  match tr with
  | [] => []
  | LStart argv :: tr' => argv :: commands tr'
  | _ :: tr' => commands tr'
  end.
Fixpoint results {R} (tr : list (label R)) : list xres :=
  match tr with
  | [] => []
  | LEnd r :: tr' => r :: results tr'
  | _ :: tr' => results tr'
  end.
Fixpoint own_reads {R} (tr : list (label R)) : list (str * rres) :=
  match tr with
  | [] => []
  | LRead n r :: tr' => (n, r) :: own_reads tr'
  | _ :: tr' => own_reads tr'
  end.
Fixpoint initial_reads {R} (tr : list (label R)) : list (str * rres) :=
  match tr with
  | [] => []
  | LInit n r :: tr' => (n, r) :: initial_reads tr'
  | _ :: tr' => initial_reads tr'
  end.
Definition replied {R} (tr : list (label R)) (r : R) : Prop := In (LReply r) tr.

(** [x] is the beginning of [y]. *)
Definition beginning {A} (x y : list A) : Prop := exists z, y = x ++ z.

(** Decimal notation *)
Definition denotes (d : str) (n : Z) : Prop :=
  d <> [] /\ Forall (fun c => 48 <= N_of_ascii c <= 57)%N d /\
  fold_left (fun acc c => 10 * acc + Z.of_N (N_of_ascii c - 48))%Z d 0%Z = n.

(** Successful command *)
Definition success (r : xres) : Prop := exists out, r = XOk out.

(** Reading of notes: each file is read in turn till the first failure.  [trees] are those of files with links. *)
Definition file_result (x : extractors) (src : source) (a : rres) (t : option node) (err : option berr) : Prop :=
  match a with
  | RNone => t = None /\ err = Some EOpen
  | RData content broken => exists t0, xtree x (fst src) content broken = Done (t0, err) /\
      match t0 with
      | Some (Inner _ (c :: ch)) => t = Some (Inner (PFile (snd src)) (c :: ch))
      | Some (Leaf ls) => t = Some (Leaf ls)
      | _ => t = None
      end
  end.
Definition trees_of (ts : list (option node)) : list node :=
  flat_map (fun t => match t with Some t => [t] | None => [] end) ts.
(** [reads]: names and contents *)
Inductive notes_from (x : extractors) (srcs : list source) (reads : list (str * rres)) : notes -> Prop :=
| nf_none : srcs = [] -> reads = [] -> notes_from x srcs reads (Err ENoFiles)
| nf_all ts : srcs <> [] -> map fst reads = map snd srcs ->
    Forall2 (fun '(s, r) t => file_result x s (snd r) t None) (combine srcs reads) ts -> trees_of ts <> [] ->
    notes_from x srcs reads (Ok (Inner PFileGroup (trees_of ts)))
| nf_empty ts : srcs <> [] -> map fst reads = map snd srcs ->
    Forall2 (fun '(s, r) t => file_result x s (snd r) t None) (combine srcs reads) ts -> trees_of ts = [] ->
    notes_from x srcs reads (Err ENoLinks)
| nf_error pre bad post ts rs r t e : srcs = pre ++ bad :: post -> reads = rs ++ [(snd bad, r)] -> map fst rs = map snd pre ->
    Forall2 (fun '(s, r) t => file_result x s (snd r) t None) (combine pre rs) ts ->
    file_result x bad r t (Some e) -> notes_from x srcs reads (Err e).

(** A URL that a urlMentions query is looking for *)
Definition variant (u v : str) : Prop := tail_variant u v \/ exists u', other_scheme u u' /\ tail_variant u' v.
Definition wanted (q : UrlMentionsQuery) (url : str) : Prop :=
  exists u, In u (mqVariants q) /\ u <> [] /\ variant u url.

(** Line number as an argument of the editor *)
Definition line_arg (n : Z) (l : list str) : Prop :=
  ((n <= 0)%Z /\ l = []) \/ ((0 < n)%Z /\ exists d, denotes d n /\ l = [b "+" ++ d]).

(** Requests that may execute commands *)
Definition capture_allowed (q : CaptureQuery) : Prop :=
  cqFormat q = b "org-protocol" /\ cqError q = false /\ exists rest, cqUrl q = b "org-protocol:" ++ rest.
Definition visit_allowed (bk : backend) (q : Location) : Prop := In (locFile q) (map snd (srcFiles bk)).

(** Own arguments of commands executed for a request *)
Inductive own_args (bk : backend) : request -> list str -> Prop :=
| oa_check q : capture_allowed q -> own_args bk (QCapture q) [b "--eval"; CheckOrgProtocolLisp]
| oa_frame_capture q : capture_allowed q -> own_args bk (QCapture q) [b "--eval"; EnsureFrameLisp]
| oa_uri q : capture_allowed q -> own_args bk (QCapture q) [cqUrl q]
| oa_frame_visit q : visit_allowed bk q -> own_args bk (QVisit q) [b "--eval"; EnsureFrameLisp]
| oa_open q line : visit_allowed bk q -> line_arg (locLine q) line ->
    own_args bk (QVisit q) ([b "--no-wait"] ++ line ++ [locFile q]).

(** Version of the first org-protocol format in a hello query *)
Definition offers (q : HelloQuery) (version : str) : Prop :=
  exists pre post, q = pre ++ (b "org-protocol", version) :: post /\ ~ In (b "org-protocol") (map fst pre).

(** Handling of a visit request *)
Definition visit_ok (e : emacs_cfg) (users : list str) (bk : backend) (q : Location) (tr : list (label reply)) : Prop :=
  (~ visit_allowed bk q -> commands tr = [] /\ forall r, replied tr r -> r = PError EProhibited) /\
  (visit_allowed bk q -> exists line, line_arg (locLine q) line /\
     beginning (commands tr) [cmdline e users [b "--eval"; EnsureFrameLisp];
                              cmdline e users ([b "--no-wait"] ++ line ++ [locFile q])] /\
     forall r, replied tr r ->
       (r = PVisit \/ exists err, r = PError err) /\
       (r = PVisit <-> exists o1 o2, results tr = [XOk o1; XOk o2])).

(** Handling of a capture request *)
Definition capture_ok (e : emacs_cfg) (users : list str) (q : CaptureQuery) (tr : list (label reply)) : Prop :=
  beginning (commands tr) [cmdline e users [b "--eval"; CheckOrgProtocolLisp]; cmdline e users [b "--eval"; EnsureFrameLisp];
                           cmdline e users [cqUrl q]] /\
  (commands tr <> [] -> capture_allowed q) /\
  forall r, replied tr r ->
    (r = PCapture false (b "success") <->
      exists v o2 o3, results tr = [XOk (b "org-protocol" ++ v); XOk o2; XOk o3]) /\
    (r = PCapture true (b "preview") <-> cqFormat q = b "org-protocol" /\ cqError q = true) /\
    (cqFormat q <> b "org-protocol" -> r = PError EFormat) /\
    (r = PCapture false (b "success") \/ r = PCapture true (b "preview") \/ exists err, r = PError err).

(** Answers from notes *)
Definition needs_notes (q : request) : Prop :=
  match q with
  | QMentions q => exists u, In u (mqVariants q) /\ u <> []
  | QSearch _ => True
  | _ => False
  end.
(** [f]: links that are searched.  There are no nodes without such links (except the root) and [f] is what is wanted, texts of
    queries are always valid. *)
Definition mentions_answer (tree : node) (q : UrlMentionsQuery) (c : cnode) : Prop :=
  exists f, (Forall valid_utf8 (mqVariants q) -> forall l, f l = true <-> wanted q (URL l)) /\
    pruned (fun t c => ccount c = nmatches f t /\ ctarget c = nlinks c /\
      match c with CInner _ _ _ ch => Forall (fun c => 0 < ccount c)%Z ch | CLeaf _ _ _ => True end) tree c /\
    Forall (fun l => f l = true) (call_links c) /\
    (let limit := match mqLimit q with Some l => l | None => 8 end in
     0 <= limit -> nmatches f tree * limit <= maxint ->
     nlinks c <= limit /\ (1 <= limit -> nmatches f tree <= limit -> complete f tree c))%Z.
Definition search_answer (u : rune -> rune) (tree : node) (q : SearchQuery) (r : reply) : Prop :=
  let limit := match sqLimit q with Some l => l | None => 10%Z end in
  let tol := match sqTolerance q with Some t => t | None => 5%Z end in
  (~ (1 <= limit < 100 /\ 0 <= tol)%Z -> r = PError EArguments) /\
  ((1 <= limit < 100 /\ 0 <= tol)%Z -> Forall (fun l => URL l <> []) (all_links tree) ->
   exists acc res, accepted u (Fields (sqQuery q)) tol (map URL (all_links tree)) acc /\ best_of (Z.to_nat limit) acc res /\
     r = PSearch (map Word res)).
Definition answered (bk : backend) (v : notes) (q : request) (r : reply) : Prop :=
  match v with
  | Err e => r = PError e
  | Ok tree =>
      match q with
      | QMentions q => exists c, r = PMentions c /\ mentions_answer tree q c
      | QSearch q => search_answer (lower bk) tree q r
      | _ => False
      end
  end.

(** Sets of links: each file is read in turn till the first failure *)
Inductive set_from (x : extractors) (filters : list str) : list source -> list (str * rres) -> list str -> list str -> option berr -> Prop :=
| sf_end set : set_from x filters [] [] set set None
| sf_open src srcs set : set_from x filters (src :: srcs) [(snd src, RNone)] set set (Some EOpen)
| sf_error src srcs content broken set set' e :
    xset x (fst src) content broken filters set = Done (set', Some e) ->
    set_from x filters (src :: srcs) [(snd src, RData content broken)] set set' (Some e)
| sf_file src srcs content broken reads set set' set'' err :
    xset x (fst src) content broken filters set = Done (set', None) ->
    set_from x filters srcs reads set' set'' err ->
    set_from x filters (src :: srcs) ((snd src, RData content broken) :: reads) set set'' err.

(** A program that only reads files: what is left of it after [reads] *)
Inductive reads_to {A} : hprog A -> list (str * rres) -> hprog A -> Prop :=
| rt_nil p : reads_to p [] p
| rt_cons n k r l p : reads_to (k r) l p -> reads_to (HRead n k) ((n, r) :: l) p.
