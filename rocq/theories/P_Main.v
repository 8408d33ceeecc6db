(** Properties C101-C104: the command line of the backend and what is done in accordance with it *)
From Verif Require Import GoBase GoSlice Utf8 Fuzzy Path FileSys FileUtil FileSpec Flags FlagsSpec FlagsProofs Manifest Install InstallSpec ToolsSpec OutputSpec OptionsSpec OptionsProofs
  LinkTypes LinkTree Emacs Backend Extract Real Main MainSpec MainProofs MainSuccess MainWitness.

(** C101.  Options are what the command line tells. *)
Theorem C101_options : forall schemes users mozilla chrome args c,
  parse_args (defaults schemes users mozilla chrome) args = Some c -> configured schemes users mozilla chrome args c.
Proof. exact parsed_configured. Qed.
Print Assumptions C101_options.

(** Other command lines, and only they, are refused. *)
Theorem C101_refused : forall schemes users mozilla chrome args,
  parse_args (defaults schemes users mozilla chrome) args = None <-> ~ exists l rest, line args l rest /\ acceptable l.
Proof. exact refused. Qed.
Print Assumptions C101_refused.

(** A command line has one meaning. *)
Theorem C101_unique : forall args l rest l' rest', line args l rest -> line args l' rest' -> l' = l /\ rest' = rest.
Proof. exact (fun args l rest l' rest' H H' => line_fun l args rest H l' rest' H'). Qed.
Print Assumptions C101_unique.

Definition ex_args : list str := map b ["-log"; "/d/log"; "--scheme=mid"; "-org=/d/n.txt"; "--disable-link-set"; "-force=F"; "-log="; "a.org"; "-b"]%string.
Example C101_example : exists c, parse_args (defaults ex_schemes [] [b "x@y"] [b "abc"]) ex_args = Some c /\
  line ex_args [(b "log", b "/d/log"); (b "scheme", b "mid"); (b "org", b "/d/n.txt"); (b "disable-link-set", b "true"); (b "force", b "F"); (b "log", [])] [b "a.org"; b "-b"] /\
  LogFile c = [] /\ LinkSources c = [(Org, b "/d/n.txt"); (Org, b "a.org"); (Txt, b "-b")] /\ DisableLinkSet c = true.
Proof.
  eexists. split; [vm_compute; reflexivity|]. split; [|cbn; auto].
  apply (l_setting (b "log") (b "/d/log") [b "-log"; b "/d/log"]); [cbn; auto|exists (b "-"); split; [left; reflexivity|left; reflexivity]|].
  apply (l_setting (b "scheme") (b "mid") [b "--scheme=mid"]); [cbn; tauto|exists (b "--"); split; [right; reflexivity|right; reflexivity]|].
  apply (l_setting (b "org") (b "/d/n.txt") [b "-org=/d/n.txt"]); [cbn; tauto|exists (b "-"); split; [left; reflexivity|right; reflexivity]|].
  apply (l_on (b "disable-link-set") (b "--")); [cbn; tauto|right; reflexivity|].
  apply (l_switch (b "force") (b "F") (b "-")); [cbn; tauto|left; reflexivity|].
  apply (l_setting (b "log") [] [b "-log="]); [cbn; auto|exists (b "-"); split; [left; reflexivity|right; reflexivity]|].
  apply l_rest, rem_plain. intros x Q. discriminate Q.
Qed.
Example C101_refused_example : parse_args (defaults ex_schemes [] [b "x@y"] [b "abc"]) (map b ["--scheme=mid"; "--scheme="]%string) = None.
Proof. reflexivity. Qed.

(** C102.  A wrong command line: nothing is done. *)
Theorem C102_usage : forall usage version q letters u chunk schemes users mozilla chrome args s0 y,
  ~ (exists l rest, line args l rest /\ acceptable l) ->
  FileSys.steps (backend_main usage version q letters u chunk schemes users mozilla chrome args, s0) y -> y = (Ret EUsage, s0).
Proof. exact usage_runs. Qed.
Print Assumptions C102_usage.

(** [c] is described by C101.  Help and version have precedence, then files are created, only otherwise
    the program serves requests.  [(p, s)] is any state of a run. *)
Theorem C102_modes : forall usage version q letters u chunk schemes users mozilla chrome args c s0 p s, UpdateRe schemes <> None ->
  parse_args (defaults schemes users mozilla chrome) args = Some c ->
  FileSys.steps (backend_main usage version q letters u chunk schemes users mozilla chrome args, s0) (p, s) ->
  (Help c = true \/ Version c = true -> fs s = fs s0 /\ env s = env s0 /\ p <> Abort /\ (forall e, p = Ret e -> e = EInfo) /\
     exists t t', (if Help c then usage else version_text version) = t ++ t' /\ out s = out s0 ++ t) /\
  (Help c = false -> Version c = false -> asks_files c ->
     (forall e, p = Ret e -> e = EDone \/ exists x, e = EInstall x) /\
     exists p', FileSys.steps (processInstallFlags q u c, s0) (p', s) /\ (p = Ret EDone <-> p' = Ret (true, None))) /\
  (Help c = false -> Version c = false -> ~ asks_files c ->
     p <> Abort /\ (s = s0 \/ log_opened s0 s (LogFile c)) /\
     forall e, p = Ret e -> e = ELog /\ s = s0 /\ LogFile c <> [] /\ LogFile c <> b "-" \/
       e = ESchemes /\ UpdateRe (Flags.slice (Scheme c)) = None /\ log_opened s0 s (LogFile c) \/
       exists v, e = EServe v /\ service_of letters u chunk c v /\ log_opened s0 s (LogFile c)).
Proof. exact config_runs. Qed.
Print Assumptions C102_modes.

(** Requests are served unless a system call fails. *)
Theorem C102_serves : forall usage version q letters u chunk schemes users mozilla chrome args c s0 v, UpdateRe schemes <> None ->
  parse_args (defaults schemes users mozilla chrome) args = Some c ->
  Help c = false -> Version c = false -> ~ asks_files c -> fs s0 (LogFile c) <> Some Folder -> service_of letters u chunk c v ->
  (exists s, runs_exact (backend_main usage version q letters u chunk schemes users mozilla chrome args, s0) (Ret (EServe v), s)) /\
  (forall e s, runs_exact (backend_main usage version q letters u chunk schemes users mozilla chrome args, s0) (Ret e, s) -> e = EServe v).
Proof. exact serves. Qed.
Print Assumptions C102_serves.

(** Exit codes: failures differ from success. *)
Theorem C102_codes : forall e, (exit_code e = Some 0%N <-> e = EInfo \/ e = EDone) /\ (exit_code e = Some 2%N <-> e = EUsage) /\
  (exit_code e = None <-> exists v, e = EServe v) /\ (exit_code e = Some 1%N <-> e = ELog \/ e = ESchemes \/ exists x, e = EInstall x).
Proof. exact codes. Qed.
Print Assumptions C102_codes.

Example C102_example : (exists re, UpdateRe ex_schemes = Some re) /\
  (exists s, runs_exact (ex_main (map b ["-v"; "-wrapper"; "w"]%string), ex_state) (Ret EInfo, s) /\ out s = version_text (b "1.0")) /\
  (exists v s, runs_exact (ex_main (map b ["-log"; "/d/log"; "-scheme"; "mid"; "-emacsarg"; "-n"; "a.org"]%string), ex_state) (Ret (EServe v), s) /\
    v_users v = [b "-n"] /\ v_command v = b "emacsclient" /\ fs s (b "/d/log") = Some (File [] 384)).
Proof. split; [eexists; vm_compute; reflexivity|]. exact (conj info_run serve_run). Qed.

(** C103.  The wrapper, as it is read by sh, starts the backend with options that have been given to the installer,
    names of files are absolute; the backend serves requests. *)
Theorem C103_wrapper : forall usage version q letters u chunk schemes users mozilla chrome args c s0 dest content,
  UpdateRe schemes <> None -> quoting q -> parse_args (defaults schemes users mozilla chrome) args = Some c -> generated q u s0 c dest content 493 ->
  exists args' c', script_starts content (real_path s0 (self (env s0))) args' /\ with_paths u s0 c c' /\
  forall s1,
    (forall s p, FileSys.steps (backend_main usage version q letters u chunk schemes users mozilla chrome args', s1) (p, s) ->
      p <> Abort /\ (s = s1 \/ log_opened s1 s (LogFile c')) /\
      forall e, p = Ret e -> e = ELog \/ e = ESchemes /\ UpdateRe (Flags.slice (Scheme c)) = None \/ exists v, e = EServe v /\ service_of letters u chunk c' v) /\
    (forall v, service_of letters u chunk c' v -> fs s1 (LogFile c') <> Some Folder ->
      exists s, runs_exact (backend_main usage version q letters u chunk schemes users mozilla chrome args', s1) (Ret (EServe v), s)).
Proof. exact wrapper_serves. Qed.
Print Assumptions C103_wrapper.

Definition ex_wrapper_args : list str := map b ["-wrapper"; "w"; "-log"; "it's"; "n.org"]%string.
Definition ex_words : list str := map b ["--log"; "'/d/it'\''s'"; "--emacsclient='emacsclient'"; "--org='/d/n.org'"]%string.
Example C103_example : exists c, parse_args (defaults ex_schemes [] [b "x@y"] [b "abc"]) ex_wrapper_args = Some c /\
  generated simple_quote ex_tables ex_state c (b "/d/w") (wrapper_content (b "'/bin/burl'") (match AsShellCommand simple_quote (with_sources (with_log c (b "/d/it's")) [(Org, b "/d/n.org")]) with Done (Some ws) => ws | _ => [] end)) 493 /\
  script_starts (wrapper_content (b "'/bin/burl'") ex_words) (b "/bin/burl") (map b ["--log"; "/d/it's"; "--emacsclient=emacsclient"; "--org=/d/n.org"]%string).
Proof.
  eexists. split; [vm_compute; reflexivity|]. split.
  - apply g_wrapper with (with_sources (with_log (match parse_args (defaults ex_schemes [] [b "x@y"] [b "abc"]) ex_wrapper_args with Some c => c | None => defaults [] [] [] [] end) (b "/d/it's")) [(Org, b "/d/n.org")]).
    + eexists. split; [vm_compute; reflexivity|]. right. split; [discriminate|]. exists (b "it's"). right. split; [discriminate|]. right.
      split; [left; split; reflexivity|]. split; [reflexivity|]. split; [intros N; exfalso; apply N; reflexivity|]. split; [reflexivity|]. intros N. exfalso. apply N. reflexivity.
    + reflexivity.
    + vm_compute. reflexivity.
    + discriminate.
    + discriminate.
    + exists (b "w"). right. split; [discriminate|]. right.
      split; [left; split; reflexivity|]. split; [reflexivity|]. split; [intros N; exfalso; apply N; reflexivity|]. split; [reflexivity|]. intros N. exfalso. apply N. reflexivity.
  - apply wrapper_starts with simple_quote; [exact simple_quote_ok|reflexivity|vm_compute; reflexivity].
Qed.

(** C104.  Success is reported if files are created, they are printed or have generated content.  The exceptions:
    the wrapper is not created over the backend if options are default ones, [Force] allows a manifest to overwrite
    another file that has just been created. *)
Theorem C104_success : forall q u c s0 s, sane s0 -> FileSys.steps (processInstallFlags q u c, s0) (Ret (true, None), s) ->
  (WrapperPath c <> [] -> exists dest n, resolves u s0 (WrapperPath c) Install.no_options dest n /\
     (dest = real_path s0 (self (env s0)) /\ Customized c = false \/
      exists content, generated q u s0 c dest content 493 /\ (delivered s0 s (Force c) dest content \/
        Force c = true /\ exists m, (FirefoxManifest c <> [] /\ firefox_manifest u s0 c m \/ ChromeManifest c <> [] /\ chrome_manifest u s0 c m) /\ mFile m = dest))) /\
  (FirefoxManifest c <> [] -> exists m, firefox_manifest u s0 c m /\ (delivered s0 s (Force c) (mFile m) (MarshalIndent m ++ nl) \/
     Force c = true /\ ChromeManifest c <> [] /\ exists m', chrome_manifest u s0 c m' /\ mFile m' = mFile m)) /\
  (ChromeManifest c <> [] -> exists m, chrome_manifest u s0 c m /\ delivered s0 s (Force c) (mFile m) (MarshalIndent m ++ nl)) /\
  (Customized c = true -> WrapperPath c <> []).
Proof. exact success. Qed.
Print Assumptions C104_success.

Example C104_example : exists s text, runs_exact (processInstallFlags simple_quote ex_tables ex_same, ex_state) (Ret (true, None), s) /\
  fs s (b "/d/x.json") = Some (File text 420) /\ firstn 1 text = b "{".
Proof. exact same_path_run. Qed.

(** No wrapper is necessary if and only if options of the service are not touched, then the backend started without options
    serves requests in the same way. *)
Theorem C104_plain : forall schemes users mozilla chrome args c, parse_args (defaults schemes users mozilla chrome) args = Some c ->
  (Customized c = false <-> LogFile c = b "-" /\ LinkSources c = [] /\ DisableLinkSet c = false /\ Command c = b "emacsclient" /\
     forall l rest, line args l rest -> said [b "scheme"] l = [] /\ said [b "emacsarg"] l = []) /\
  (Customized c = false -> forall letters u chunk v, service_of letters u chunk c v <-> service_of letters u chunk (defaults schemes users mozilla chrome) v).
Proof. exact customized_meaning. Qed.
Print Assumptions C104_plain.
Example C104_plain_example : exists c, parse_args (defaults ex_schemes [] [b "x@y"] [b "abc"]) (map b ["-manifest-firefox=/d/x.json"; "-log=-"]%string) = Some c /\ Customized c = false.
Proof. eexists. split; [vm_compute; reflexivity|reflexivity]. Qed.

(** The claim that the wrapper exists after success is false: a manifest may be written to the same file. *)
Theorem C104_overwritten_refuted : ~ (forall q u c s0 s, sane s0 -> FileSys.steps (processInstallFlags q u c, s0) (Ret (true, None), s) ->
  WrapperPath c <> [] -> Customized c = true -> exists dest content, generated q u s0 c dest content 493 /\ delivered s0 s (Force c) dest content).
Proof. exact same_path_refuted. Qed.
Print Assumptions C104_overwritten_refuted.
