(** Properties C47-C50: names of files, manifests, the installer *)
From Verif Require Import GoBase Utf8 Fuzzy Path FileSys FileUtil FileSpec FileProofs Flags Manifest Install InstallSpec InstallProofs.

Definition ex_tables : rune -> rune := fun r => r.
Definition ex_files (p : str) : option node :=
  if str_eqb p (b "/") || str_eqb p (b "/d") || str_eqb p (b "/d/a") then Some Folder
  else if str_eqb p (b "/bin/burl") then Some (File (b "ELF") 493) else None.
Definition ex_state : state := mkState ex_files [] (mkEnv (b "/d") (b "/bin/burl") (fun p => p)).
Lemma ex_sane : sane ex_state.
Proof. split; [reflexivity|]. split; [reflexivity|]. cbn. auto. Qed.

(** C47 *)
Theorem C47_contract u f o s p s' : steps (AsAbsFileName u f o, s) (p, s') ->
  s' = s /\ p <> Abort /\ forall path name, p = Ret (Some (path, name)) -> resolves u s f o path name.
Proof. exact (C47_lemma u f o s p s'). Qed.
Print Assumptions C47_contract.

(** nothing acceptable is refused unless a system call fails *)
Theorem C47_complete u f o s r s' path name : runs_exact (AsAbsFileName u f o, s) (Ret r, s') ->
  resolves u s f o path name -> r = Some (path, name).
Proof. exact (C47_complete_lemma u f o s r s' path name). Qed.
Print Assumptions C47_complete.

Theorem C47_absolute u s f o path name : sane s -> f <> b "-" -> resolves u s f o path name -> IsAbs path = true /\ Clean path = path.
Proof. exact (C47_absolute_lemma u s f o path name). Qed.
Print Assumptions C47_absolute.

Theorem C47_name_and_extension u s f o path name : sane s -> f <> b "-" -> oExt o = b ".json" -> ToLower u (b ".json") = b ".json" ->
  ~ In "/"%char name -> resolves u s f o path name -> exists e, Base path = name ++ e /\ ToLower u e = b ".json".
Proof. exact (C47_named_lemma u s f o path name). Qed.
Print Assumptions C47_name_and_extension.

(** a name with a slash *)
Theorem C47_any_name_refuted : ~ (forall u s f o path name, sane s -> f <> b "-" -> oExt o = b ".json" -> ToLower u (b ".json") = b ".json" ->
  resolves u s f o path name -> exists e, Base path = name ++ e /\ ToLower u e = b ".json").
Proof.
  intros H. destruct (H ex_tables ex_state (b "/d") (mkOpts (b "a/x") [] (b ".json")) (b "/d/a/x.json") (b "a/x") ex_sane) as (e & E & _).
  - discriminate.
  - reflexivity.
  - vm_compute. reflexivity.
  - right. split; [discriminate|]. left. split; [reflexivity|]. split; [reflexivity|]. split; [discriminate|vm_compute; reflexivity].
  - vm_compute in E. discriminate.
Qed.
Print Assumptions C47_any_name_refuted.

Example C47_example_file : resolves ex_tables ex_state (b "../d/./x.JSON") (mkOpts [] (b "dflt") (b ".json")) (b "/d/x.JSON") (b "x").
Proof.
  right. split; [discriminate|]. right. split; [left; split; vm_compute; reflexivity|]. split; [vm_compute; reflexivity|].
  split; [intros N; exfalso; apply N; reflexivity|]. split; [discriminate|]. intros _. split; vm_compute; reflexivity.
Qed.
Example C47_example_directory : resolves ex_tables ex_state (b ".") (mkOpts [] (b "dflt") (b ".json")) (b "/d/dflt.json") (b "dflt").
Proof.
  right. split; [discriminate|]. left. split; [vm_compute; reflexivity|]. split; [reflexivity|]. split; [discriminate|]. vm_compute. reflexivity.
Qed.
Example C47_example_run : runs_exact (AsAbsFileName ex_tables (b ".") (mkOpts [] (b "dflt") (b ".json")), ex_state)
  (Ret (Some (b "/d/dflt.json", b "dflt")), ex_state).
Proof.
  eapply rx_more; [apply x_getwd|]. cbv iota. eapply rx_more; [apply (x_stat_dir _ _ 493%N); vm_compute; reflexivity|]. apply rx_refl.
Qed.

(** C48 *)
Theorem C48_exactly_valid u m :
  (valid_manifest u m ->
    Init u m = Some (mkManifest (mName m) (mDescription m) (mPath m) (b "stdio") (mOrigins m) (mExtensions m) (mFile m))) /\
  (~ valid_manifest u m -> Init u m = None).
Proof. exact (C48_lemma u m). Qed.
Print Assumptions C48_exactly_valid.
Example C48_example : valid_manifest ex_tables (mkManifest (b "burl") [] (b "/bin/burl") [] [] [b "x@y"] (b "/d/burl.Json")) /\
  ~ valid_manifest ex_tables (mkManifest (b "burl") [] (b "/bin/burl") [] [] [b "x@y"] (b "/d/other.json")) /\
  ~ valid_manifest ex_tables (mkManifest (b "burl") [] (b "/bin/burl") [] [b "o"] [b "x@y"] (b "-")).
Proof.
  split; [|split].
  - repeat split; cbn; try discriminate; [left; split; [reflexivity|discriminate]|]. right. split; vm_compute; reflexivity.
  - intros (_ & _ & _ & _ & [H|[H _]]); [discriminate|vm_compute in H; discriminate].
  - intros ([[H _]|[_ H]] & _); discriminate.
Qed.

(** C49.  [(p, s)] is any state of a run of the installer, also of an interrupted one. *)
Theorem C49_files q u c s0 p s : sane s0 -> steps (processInstallFlags q u c, s0) (p, s) ->
  (forall x, accounted (generated q u s0 c) s0 s x) /\ output_ok (generated q u s0 c) s0 s.
Proof. exact (C49_lemma q u c s0 p s). Qed.
Print Assumptions C49_files.

Definition ex_config : config := with_chrome (defaults [] [] [b "x@y"] [b "abc"]) (b "-").
Definition ex_manifest : manifest :=
  mkManifest AppName Description (b "/bin/burl") (b "stdio") [b "chrome-extension://abc/"] [] (b "-").
Example C49_example : steps (processInstallFlags Some ex_tables ex_config, ex_state)
  (Ret (true, None), emit ex_state (MarshalIndent ex_manifest ++ nl)).
Proof.
  unfold processInstallFlags.
  eapply steps_more; [apply s_call, d_exact, x_executable|]. cbv iota.
  eapply steps_more; [apply s_call, d_exact, x_eval|].
  eapply steps_more; [apply s_call, d_exact, x_stdout|].
  apply steps_refl.
Qed.
Example C49_example_text : MarshalIndent ex_manifest = b
"{
  ""name"": ""io.github.maxnikulin.burl"",
  ""description"": ""Burl - LinkRemark interface to Emacs"",
  ""path"": ""/bin/burl"",
  ""type"": ""stdio"",
  ""allowed_origins"": [
    ""chrome-extension://abc/""
  ]
}".
Proof. vm_compute. reflexivity. Qed.

(** C50 *)
Theorem C50_nothing_requested q u c s0 y : WrapperPath c = [] -> FirefoxManifest c = [] -> ChromeManifest c = [] ->
  steps (processInstallFlags q u c, s0) y -> y = (Ret (false, None), s0).
Proof. exact (C50_nothing_lemma q u c s0 y). Qed.
Print Assumptions C50_nothing_requested.

Theorem C50_refused q u c s0 y :
  (FirefoxManifest c = b "-" /\ ChromeManifest c = b "-" \/
   WrapperPath c = b "-" /\ (FirefoxManifest c <> [] \/ ChromeManifest c <> []) \/
   WrapperPath c = [] /\ (FirefoxManifest c <> [] \/ ChromeManifest c <> []) /\ Customized c = true) ->
  steps (processInstallFlags q u c, s0) y -> exists e, y = (Ret (true, Some e), s0).
Proof. exact (C50_refused_lemma q u c s0 y). Qed.
Print Assumptions C50_refused.
Example C50_refused_example : steps (processInstallFlags Some ex_tables (with_disable ex_config true), ex_state) (Ret (true, Some INeedWrapper), ex_state).
Proof. apply steps_refl. Qed.

Theorem C50_not_over_itself q u c s0 p s : sane s0 -> Customized c = true -> WrapperPath c <> [] ->
  (exists n, resolves u s0 (WrapperPath c) no_options (real_path s0 (self (env s0))) n) ->
  steps (processInstallFlags q u c, s0) (p, s) -> s = s0 /\ p <> Ret (true, None) /\ p <> Ret (false, None) /\ p <> Abort.
Proof. exact (C50_self_lemma q u c s0 p s). Qed.
Print Assumptions C50_not_over_itself.
Example C50_self_example : exists n, resolves ex_tables ex_state (b "../bin/burl") no_options (real_path ex_state (self (env ex_state))) n.
Proof.
  exists (b "burl"). right. split; [discriminate|]. right. split; [right; exists (b "ELF"), 493%N; vm_compute; reflexivity|].
  split; [vm_compute; reflexivity|]. split; [intros N; exfalso; apply N; reflexivity|]. split; [reflexivity|]. intros N. exfalso. apply N. reflexivity.
Qed.
