(** Proofs for the program. *)
From Verif Require Import GoBase GoSlice Utf8 Path FileSys FileUtil FileSpec FileProofs Flags FlagsSpec FlagsProofs Manifest Install InstallSpec InstallProofs ToolsSpec OutputSpec OptionsSpec OptionsProofs
  LinkTypes LinkTree Emacs Backend Extract Real Main MainSpec.

(** ** Command line and the rest *)
Definition run_config (usage version : str) (q : str -> option str) (letters : rune -> bool) (u : rune -> rune) (chunk : nat -> N) (schemes : list str) (c : config) : prog ending :=
  if Help c then Do (CStdout usage) (fun _ => Ret EInfo)
  else if Version c then Do (CStdout (version_text version)) (fun _ => Ret EInfo)
  else bind (processInstallFlags q u c) (fun r =>
      match r with
      | (_, Some e) => Ret (EInstall e)
      | (true, None) => Ret EDone
      | (false, None) => open_log (LogFile c) (serve letters u chunk schemes c)
      end).
Lemma main_config usage version q letters u chunk schemes users mozilla chrome args :
  backend_main usage version q letters u chunk schemes users mozilla chrome args =
  match parse_args (defaults schemes users mozilla chrome) args with
  | None => Ret EUsage
  | Some c => run_config usage version q letters u chunk schemes c
  end.
Proof. unfold backend_main, parse_args. destruct (Parse args _) as [[c rest]|]; reflexivity. Qed.

Lemma steps_out text (k : answer -> prog ending) r s0 p s : (forall a, k a = Ret r) -> FileSys.steps (Do (CStdout text) k, s0) (p, s) ->
  fs s = fs s0 /\ env s = env s0 /\ p <> Abort /\ (forall e, p = Ret e -> e = r) /\ exists t t', text = t ++ t' /\ out s = out s0 ++ t.
Proof.
  intros K R. remember (Do (CStdout text) k, s0) as x eqn:Ex. remember (p, s) as y eqn:Ey. revert text s0 Ex p s Ey.
  induction R as [x|x y z S R IH]; intros text s0 -> p s Ey.
  - injection Ey as <- <-. repeat split; try discriminate. exists [], text. split; [reflexivity|]. rewrite app_nil_r. reflexivity.
  - inversion S as [c k' s1 a s' D|q c1 c2 k' s1 c0 m F|c1 c2 k' s1]; subst.
    + rewrite K in R. apply FileSys.steps_ret in R. injection R as -> ->. inversion D as [? ? ? ? E|]; subst.
      * inversion E; subst. cbn. repeat split; [discriminate|congruence|]. exists text, []. rewrite app_nil_r. auto.
      * repeat split; [discriminate|congruence|]. exists [], text. rewrite app_nil_r. auto.
    + destruct (IH c2 (emit s0 c1) eq_refl p s eq_refl) as (A & B & C & D & t & t' & -> & O). repeat split; auto. exists (c1 ++ t), t'. rewrite <- app_assoc. split; [reflexivity|].
      rewrite O. cbn. rewrite <- app_assoc. reflexivity.
Qed.

Lemma install_empty q u c : ~ asks_files c <-> processInstallFlags q u c = Ret (false, None).
Proof.
  unfold asks_files, processInstallFlags. split.
  - intros N. destruct (WrapperPath c); [|exfalso; apply N; left; discriminate]. destruct (FirefoxManifest c); [|exfalso; apply N; right; left; discriminate].
    destruct (ChromeManifest c); [|exfalso; apply N; right; right; discriminate]. reflexivity.
  - intros E A. assert (C : count (fun f => negb (is_empty f)) [WrapperPath c; FirefoxManifest c; ChromeManifest c] <> 0).
    { destruct (WrapperPath c); [|discriminate]. destruct (FirefoxManifest c); [|discriminate]. destruct (ChromeManifest c); [|discriminate]. intuition congruence. }
    apply Nat.eqb_neq in C. rewrite C in E. cbv zeta in E. destruct (1 <? _)%nat; [discriminate|]. destruct (_ && _); [discriminate|]. destruct (_ && _); [discriminate|].
    unfold FixPaths in E. cbn [bind] in E. discriminate.
Qed.

(** a request of files is never followed by service *)
Lemma install_never q u c s0 e s : asks_files c -> FileSys.steps (processInstallFlags q u c, s0) (Ret (false, e), s) -> False.
Proof.
  intros A R. unfold processInstallFlags in R. cbv zeta in R.
  assert (C : count (fun f => negb (is_empty f)) [WrapperPath c; FirefoxManifest c; ChromeManifest c] <> 0).
  { destruct (WrapperPath c) eqn:E1; [|discriminate]. destruct (FirefoxManifest c) eqn:E2; [|discriminate]. destruct (ChromeManifest c) eqn:E3; [|discriminate]. unfold asks_files in A. intuition congruence. }
  apply Nat.eqb_neq in C. rewrite C in R.
  assert (T : forall (X : Type) (p : prog X) (f : X -> prog (bool * option ierr)) s s', (forall x s1, FileSys.steps (f x, s1) (Ret (false, e), s') -> False) ->
    FileSys.steps (bind p f, s) (Ret (false, e), s') -> False).
  { intros X p f s1 s2 H R'. apply steps_bind2 in R'. destruct R' as [(p' & s' & _ & N & Q)|(a & s' & _ & R')]; [|exact (H _ _ R')].
    injection Q as Q _. symmetry in Q. exact (bind_ret _ _ _ N Q). }
  destruct (1 <? _)%nat; [apply FileSys.steps_ret in R; discriminate|]. destruct (_ && _); [apply FileSys.steps_ret in R; discriminate|]. destruct (_ && _); [apply FileSys.steps_ret in R; discriminate|].
  revert R. apply T. intros [[exe c']|] s1 R; [|apply FileSys.steps_ret in R; discriminate].
  assert (REST : forall me wr s1, FileSys.steps (bind (write_wrapper q c' (Customized c) exe wr) (fun e0 => match e0 with Some e1 => Ret (true, Some e1) | None => bind (manifests u c' (if is_empty me then exe else me)) (fun e1 => Ret (true, e1)) end), s1) (Ret (false, e), s) -> False).
  { intros me wr s2. apply T. intros [e1|] s3 R1; [apply FileSys.steps_ret in R1; discriminate|]. revert R1. apply T. intros e1 s4 R1. apply FileSys.steps_ret in R1. discriminate. }
  destruct (negb (is_empty (WrapperPath c')) && negb (is_dash (WrapperPath c'))); [|exact (REST [] (WrapperPath c') s1 R)].
  revert R. apply T. intros [[path n]|] s2 R; [exact (REST path path s2 R)|apply FileSys.steps_ret in R; discriminate].
Qed.

(** ** Service *)
Lemma config_modified schemes users mozilla chrome args c : parse_args (defaults schemes users mozilla chrome) args = Some c ->
  IsModified (Scheme c) = false -> Flags.slice (Scheme c) = schemes.
Proof.
  intros P M. apply parsed_configured in P. destruct P as (l & rest & more & _ & _ & _ & _ & _ & _ & _ & _ & _ & _ & (V1 & V2) & _). rewrite V1.
  destruct (said [b "scheme"] l) as [|x y]; [cbn; apply app_nil_r|]. assert (IsModified (Scheme c) = true) by (apply V2; discriminate). congruence.
Qed.
Lemma open_log_runs name k s0 p s : FileSys.steps (open_log name k, s0) (p, s) ->
  (exists s1, log_opened s0 s1 name /\ FileSys.steps (k, s1) (p, s)) \/ s = s0 /\ name <> [] /\ name <> b "-" /\ (p = Ret ELog \/ p = open_log name k).
Proof.
  unfold open_log, is_empty, is_dash. destruct (str_eqb_spec name []) as [->|N1]; [intros R; left; exists s0; split; [left; auto|exact R]|].
  destruct (str_eqb_spec name (b "-")) as [->|N2]; [intros R; left; exists s0; split; [left; auto|exact R]|]. cbn [orb]. intros R.
  apply steps_simple in R; [|exact I]. destruct R as [E|(a & s' & D & R)]; [injection E as -> ->; right; auto|].
  inversion D as [? ? ? ? E|]; subst; [|apply FileSys.steps_ret in R; injection R as -> ->; right; auto].
  inversion E; subst.
  - left. exists s'. split; [|exact R]. right. split; [exact N1|]. split; [exact N2|]. left. split; [eauto|reflexivity].
  - left. eexists. split; [|exact R]. right. split; [exact N1|]. split; [exact N2|]. right. cbn. repeat split; auto.
    + intros x Nx. apply upd_other. exact Nx.
    + exists m1. split; [apply upd_same|assumption].
  - apply FileSys.steps_ret in R. injection R as -> ->. right. auto.
Qed.
Lemma serve_ends letters u chunk schemes users mozilla chrome args c : parse_args (defaults schemes users mozilla chrome) args = Some c ->
  (exists v, service_of letters u chunk c v /\ serve letters u chunk schemes c = Ret (EServe v)) \/
  UpdateRe (Flags.slice (Scheme c)) = None /\ (IsModified (Scheme c) = true /\ serve letters u chunk schemes c = Ret ESchemes \/ UpdateRe schemes = None /\ serve letters u chunk schemes c = Abort).
Proof.
  intros P. unfold serve, service_of. destruct (IsModified (Scheme c)) eqn:M.
  - destruct (UpdateRe (Flags.slice (Scheme c))) as [re|] eqn:E; [left; eexists; split; [exists re; split; reflexivity|reflexivity]|right; auto].
  - rewrite (config_modified _ _ _ _ _ _ P M). destruct (UpdateRe schemes) as [re|] eqn:E; [left; eexists; split; [exists re; split; reflexivity|reflexivity]|right; auto].
Qed.
Lemma service_fun letters u chunk c v v' : service_of letters u chunk c v -> service_of letters u chunk c v' -> v = v'.
Proof. intros (re & E & ->) (re' & E' & ->). congruence. Qed.

(** ** Modes *)
Lemma usage_runs usage version q letters u chunk schemes users mozilla chrome args s0 y : ~ (exists l rest, line args l rest /\ acceptable l) ->
  FileSys.steps (backend_main usage version q letters u chunk schemes users mozilla chrome args, s0) y -> y = (Ret EUsage, s0).
Proof. intros N R. apply (refused schemes users mozilla chrome) in N. rewrite main_config, N in R. apply FileSys.steps_ret in R. exact R. Qed.
Lemma config_runs usage version q letters u chunk schemes users mozilla chrome args c s0 p s : UpdateRe schemes <> None ->
  parse_args (defaults schemes users mozilla chrome) args = Some c ->
  FileSys.steps (backend_main usage version q letters u chunk schemes users mozilla chrome args, s0) (p, s) ->
  (Help c = true \/ Version c = true -> fs s = fs s0 /\ env s = env s0 /\ p <> Abort /\ (forall e, p = Ret e -> e = EInfo) /\
     exists t t', (if Help c then usage else version_text version) = t ++ t' /\ out s = out s0 ++ t) /\
  (Help c = false -> Version c = false -> asks_files c ->
     (forall e, p = Ret e -> e = EDone \/ exists x, e = EInstall x) /\ exists p' , FileSys.steps (processInstallFlags q u c, s0) (p', s) /\ (p = Ret EDone <-> p' = Ret (true, None))) /\
  (Help c = false -> Version c = false -> ~ asks_files c ->
     p <> Abort /\ (s = s0 \/ log_opened s0 s (LogFile c)) /\
     forall e, p = Ret e -> e = ELog /\ s = s0 /\ LogFile c <> [] /\ LogFile c <> b "-" \/
       e = ESchemes /\ UpdateRe (Flags.slice (Scheme c)) = None /\ log_opened s0 s (LogFile c) \/ exists v, e = EServe v /\ service_of letters u chunk c v /\ log_opened s0 s (LogFile c)).
Proof.
  intros US P R. rewrite main_config, P in R. unfold run_config in R. split; [|split].
  - intros H. destruct (Help c) eqn:HE; [eapply steps_out in R; [exact R|reflexivity]|]. destruct H as [H|H]; [discriminate|]. rewrite H in R. eapply steps_out in R; [exact R|reflexivity].
  - intros HE HV A. rewrite HE, HV in R. apply steps_bind2 in R. destruct R as [(p' & s' & R & N & E)|(a & s' & R & R2)].
    + injection E as -> ->. split; [intros e Q; exfalso; exact (bind_ret _ _ _ N Q)|]. exists p'. split; [exact R|]. split; [intros Q; exfalso; exact (bind_ret _ _ _ N Q)|]. intros ->. exfalso. eapply N. reflexivity.
    + destruct a as [[] [e|]].
      * apply FileSys.steps_ret in R2. injection R2 as -> ->. split; [intros e' [= <-]; right; eauto|]. eexists. split; [exact R|]. split; discriminate.
      * apply FileSys.steps_ret in R2. injection R2 as -> ->. split; [intros e' [= <-]; left; auto|]. eexists. split; [exact R|]. tauto.
      * exfalso. exact (install_never _ _ _ _ _ _ A R).
      * exfalso. exact (install_never _ _ _ _ _ _ A R).
  - intros HE HV A. rewrite HE, HV in R. apply (install_empty q u) in A. rewrite A in R. cbn [bind] in R. apply open_log_runs in R.
    destruct R as [(s1 & L & R)|(-> & N1 & N2 & [-> | ->])].
    + destruct (serve_ends letters u chunk _ _ _ _ _ _ P) as [(v & SV & E)|(NU & [(M & E)|(NS & E)])]; rewrite E in R.
      * apply FileSys.steps_ret in R. injection R as -> ->. split; [discriminate|]. split; [right; exact L|]. intros e [= <-]. right. right. eauto.
      * apply FileSys.steps_ret in R. injection R as -> ->. split; [discriminate|]. split; [right; exact L|]. intros e [= <-]. right. left. auto.
      * contradiction.
    + split; [discriminate|]. split; [left; reflexivity|]. intros e [= <-]. left. auto.
    + unfold open_log, is_empty, is_dash. destruct (str_eqb_spec (LogFile c) []); [contradiction|]. destruct (str_eqb_spec (LogFile c) (b "-")); [contradiction|]. cbn [orb].
      split; [discriminate|]. split; [left; reflexivity|]. intros e. discriminate.
Qed.
(** Requests are served unless something fails. *)
Lemma serves usage version q letters u chunk schemes users mozilla chrome args c s0 v : UpdateRe schemes <> None ->
  parse_args (defaults schemes users mozilla chrome) args = Some c ->
  Help c = false -> Version c = false -> ~ asks_files c -> fs s0 (LogFile c) <> Some Folder -> service_of letters u chunk c v ->
  (exists s, runs_exact (backend_main usage version q letters u chunk schemes users mozilla chrome args, s0) (Ret (EServe v), s)) /\
  (forall e s, runs_exact (backend_main usage version q letters u chunk schemes users mozilla chrome args, s0) (Ret e, s) -> e = EServe v).
Proof.
  intros US P HE HV A NF SV. rewrite main_config, P. unfold run_config. rewrite HE, HV. apply (install_empty q u) in A. rewrite A. cbn [bind].
  assert (E : serve letters u chunk schemes c = Ret (EServe v)).
  { destruct (serve_ends letters u chunk _ _ _ _ _ _ P) as [(v' & SV' & E)|(NU & _)].
    - rewrite E. rewrite (service_fun _ _ _ _ _ _ SV SV'). reflexivity.
    - destruct SV as (re & EU & _). congruence. }
  rewrite E. unfold open_log, is_empty, is_dash.
  assert (DIR : forall s1, (exists s, runs_exact (Ret (EServe v), s1) (Ret (EServe v), s)) /\ (forall e s, runs_exact (Ret (EServe v), s1) (Ret e, s) -> e = EServe v)).
  { intros s1. split; [exists s1; constructor|]. intros e s R. apply exact_ret in R. destruct R as [<- _]. reflexivity. }
  destruct (str_eqb (LogFile c) []); [apply DIR|]. destruct (str_eqb (LogFile c) (b "-")); [apply DIR|]. cbn [orb]. split.
  - destruct (fs s0 (LogFile c)) as [[ct m|]|] eqn:F; [|congruence|].
    + exists s0. eapply rx_more; [eapply x_append; exact F|constructor].
    + eexists. eapply rx_more; [apply (x_append_new _ _ _ 384%N); [exact F|reflexivity]|constructor].
  - intros e s R. apply exact_do in R. destruct R as (a & s' & E1 & R). inversion E1; subst; try congruence; apply exact_ret in R; destruct R as [<- _]; reflexivity.
Qed.

(** ** The wrapper *)
Lemma join_same ws : join_space ws = join_blank ws.
Proof. induction ws as [|w ws IH]; [reflexivity|]. cbn [join_space join_blank]. destruct ws; [reflexivity|]. rewrite IH. reflexivity. Qed.
Lemma assignment_word p e v : forallb safe_char p = true -> p <> [] -> quoted e v -> e <> [] -> sh_split (p ++ e) = Some [p ++ v].
Proof.
  intros S N Q NE. pose proof (quoted_prefix p e v S Q NE) as H. pose proof (split_join [p ++ e] [p ++ v]) as J. cbn [join_blank] in J. apply J. constructor; [exact H|constructor].
Qed.
Lemma wrapper_starts q exe qexe ws args : quoting q -> q exe = Some qexe -> sh_split (join_blank ws) = Some args -> script_starts (wrapper_content qexe ws) exe args.
Proof.
  intros HQ E S. destruct (HQ _ _ E) as [Q N].
  exists (b "BURL_BACKEND=" ++ qexe), [b "# Execution aborted on not found file even without ""-e"" option." ++ nl; b "# ""trap HANDLER EXIT"" is ignored as well. So a test is required." ++ nl], (join_blank ws),
    (b "err=""{\""error\"": \""$(printf '%s' ""$BURL_BACKEND"" | tr '\\""' ""/'""): file not found or not executable\""}""" ++ nl ++
  b "# platform endian-dependent hack" ++ nl ++
  b "/usr/bin/printf ""\\x$(printf '%x' ""${#err}"")\\x00\\x00\\x00""" ++ nl ++
  b "printf '%s' ""$err""" ++ nl). split; [|split; [|split]].
  - unfold wrapper_content. rewrite join_same. cbn [concat]. rewrite app_nil_r. unfold tab. rewrite <- !app_assoc. reflexivity.
  - apply assignment_word; [reflexivity|discriminate|exact Q|exact N].
  - repeat constructor; eexists; (split; [reflexivity|]); cbn; intuition discriminate.
  - exact S.
Qed.
Lemma with_paths_reachable schemes users mozilla chrome args u s c c' : parse_args (defaults schemes users mozilla chrome) args = Some c -> with_paths u s c c' ->
  reachable schemes users mozilla chrome c'.
Proof. intros P (log & -> & _). exists args, c. split; [exact P|]. eauto. Qed.
Lemma service_same letters u chunk c c' v : same_backend c c' -> service_of letters u chunk c v <-> service_of letters u chunk c' v.
Proof. intros (E1 & E2 & E3 & E4 & E5 & E6 & E7 & E8). unfold service_of. rewrite E2, E3, E4, E6, E8. tauto. Qed.
Lemma wrapper_serves usage version q letters u chunk schemes users mozilla chrome args c s0 dest content :
  UpdateRe schemes <> None -> quoting q -> parse_args (defaults schemes users mozilla chrome) args = Some c -> generated q u s0 c dest content 493 ->
  exists args' c', script_starts content (real_path s0 (self (env s0))) args' /\ with_paths u s0 c c' /\
  forall s1,
    (forall s p, FileSys.steps (backend_main usage version q letters u chunk schemes users mozilla chrome args', s1) (p, s) ->
      p <> Abort /\ (s = s1 \/ log_opened s1 s (LogFile c')) /\
      forall e, p = Ret e -> e = ELog \/ e = ESchemes /\ UpdateRe (Flags.slice (Scheme c)) = None \/ exists v, e = EServe v /\ service_of letters u chunk c' v) /\
    (forall v, service_of letters u chunk c' v -> fs s1 (LogFile c') <> Some Folder ->
      exists s, runs_exact (backend_main usage version q letters u chunk schemes users mozilla chrome args', s1) (Ret (EServe v), s)).
Proof.
  intros US HQ P G. inversion G as [dest' c' qexe ws exe WP QE SH WN DN RS|m]; subst.
  destruct (wrapper_round_trip schemes users mozilla chrome q c' HQ (with_paths_reachable _ _ _ _ _ _ _ _ _ P WP)) as (r & E & H).
  rewrite SH in E. injection E as <-. destruct (H ws eq_refl) as (args' & c2 & S & P2 & SB & W1 & W2 & W3 & H1 & H2).
  assert (NA : ~ asks_files c2) by (unfold asks_files; rewrite W1, W2, W3; intuition congruence).
  exists args', c'. split; [eapply wrapper_starts; eassumption|]. split; [exact WP|]. intros s1. split.
  - intros s p R. destruct (config_runs _ _ _ _ _ _ _ _ _ _ _ _ _ _ _ US P2 R) as (_ & _ & T). destruct (T H1 H2 NA) as (A & B & C).
    assert (EL : LogFile c2 = LogFile c') by (destruct SB; congruence). rewrite EL in B. split; [exact A|]. split; [exact B|]. intros e Q. destruct (C e Q) as [(-> & _)|[(-> & NU & _)|(v & -> & SV & _)]]; [auto| |].
    + right. left. split; [reflexivity|]. destruct SB as (_ & _ & _ & ES & _). rewrite <- ES in NU. destruct WP as (log & -> & _). exact NU.
    + right. right. exists v. split; [reflexivity|]. apply (service_same _ _ _ _ _ _ SB). exact SV.
  - intros v SV NF. apply (service_same _ _ _ _ _ _ SB) in SV. assert (EL : LogFile c2 = LogFile c') by (destruct SB; congruence). rewrite <- EL in NF.
    exact (proj1 (serves usage version q _ _ _ _ _ _ _ _ _ _ _ US P2 H1 H2 NA NF SV)).
Qed.
Lemma codes e : (exit_code e = Some 0%N <-> e = EInfo \/ e = EDone) /\ (exit_code e = Some 2%N <-> e = EUsage) /\
  (exit_code e = None <-> exists v, e = EServe v) /\ (exit_code e = Some 1%N <-> e = ELog \/ e = ESchemes \/ exists x, e = EInstall x).
Proof.
  destruct e; cbn; repeat split; intros H; try discriminate; try (destruct H as [H|H]; discriminate); try (destruct H; discriminate); try (destruct H as [H|[H|[? H]]]; discriminate); eauto.
Qed.
