(** Properties C99-C100: output of burl_tool and manifests as JSON documents. *)
From Coq Require Import Permutation.
From Verif Require Import GoBase Path FileSys FileUtil FileSpec FileProofs Manifest Install InstallSpec Utf8 Utf8Dec UrlSpec Regex RegexParse Patterns Url Flags LinkTypes LinkTree LinkSpec LinkMain ScannerSpec Emacs Backend BackendSpec Extract ExtractSpec SetSpec Real JsonSpec ReplySpec
  Tools ToolsSpec ToolsProofs Print PrintSpec Output OutputSpec OutputProofs.

(** C99.  Links: a part of the tree of all links is printed as a JSON document with indentation; a crash if it contains a missing heading;
    nothing is printed if there is no tree.  The exit code is 0 if there was no error. *)
Theorem C99_tree : forall u c chunk entries order args files url more reads out fin, tool_line args files [] (url :: more) ->
  gives (tool_program u c chunk entries order args) reads (out, fin) ->
  exists srcs group err, tool_sources files more srcs /\ gives (ExtractLinksFromFileGroup (real u c chunk) srcs) reads (group, err) /\
    match group with
    | None => out = [] /\ (fin = Exit0 <-> err = None) /\ (fin = Exit1 false <-> err <> None)
    | Some tree => exists part,
        (nmatches (fun _ => true) tree * 8 <= maxint -> pruned (reply_node (fun _ => true)) tree part /\ nlinks part <= 8 /\
          (nmatches (fun _ => true) tree <= 8 -> complete (fun _ => true) tree part))%Z /\
        ((exists p, In p (inner_props part) /\ missing p) /\ out = [] /\ fin = Crash \/
         ~ (exists p, In p (inner_props part) /\ missing p) /\ (exists v, shown part v /\ shown_text v out) /\ (fin = Exit0 <-> err = None) /\ (fin = Exit1 false <-> err <> None))
    end.
Proof. exact output_tree. Qed.
Print Assumptions C99_tree.

(** Sets: one link in each line, without repetitions, nothing if there was an error. *)
Theorem C99_set : forall u c chunk entries order args files prefixes rest reads out fin, tool_line args files prefixes rest -> prefixes <> [] -> rest <> [] ->
  (forall l, Permutation (order l) l) -> gives (tool_program u c chunk entries order args) reads (out, fin) ->
  exists srcs found err, tool_sources files rest srcs /\ set_from (real u c chunk) prefixes srcs reads [] found err /\
    (err <> None -> out = [] /\ fin = Exit1 false) /\
    (err = None -> fin = Exit0 /\ prefixes_ok prefixes /\ exists keys, lines_text keys out /\ NoDup keys /\ Permutation keys found /\
      forall x, In x keys -> exists src content broken lines line, In src srcs /\ In (snd src, RData content broken) reads /\ seen_lines content broken lines None /\
        In line lines /\ set_link (fst src) prefixes line x).
Proof. exact output_set. Qed.
Print Assumptions C99_set.

(** Other command lines: nothing is read or printed, exit codes are 0 for help, 1 with usage if there are only options, 2 if options are wrong. *)
Theorem C99_other : forall u c chunk entries order args reads out fin, (forall files prefixes rest, tool_line args files prefixes rest -> rest = []) ->
  gives (tool_program u c chunk entries order args) reads (out, fin) ->
  reads = [] /\ out = [] /\ (fin = Exit0 <-> tool_help args) /\ (fin = Exit1 true <-> exists files prefixes, tool_line args files prefixes []) /\
  (fin = Exit2 <-> ~ (tool_help args \/ exists files prefixes rest, tool_line args files prefixes rest)).
Proof. exact output_other. Qed.
Print Assumptions C99_other.

Definition ex_scheme : option schemeRe := UpdateRe [b "http"; b "ftp"].
Definition ex_nl : str := [ascii_of_N 10].
Definition ex_content : str := b "* Head" ++ ex_nl ++ b "see [[http://a.org/x][A]]" ++ ex_nl.
Definition ex_run (args : list string) (reads : list (str * rres)) : option (str * finish) :=
  match ex_scheme with
  | Some c => answers (tool_program (fun _ => false) c (fun _ => 4096%N) [] (fun l => l) (map b args)) reads
  | None => None
  end.
Lemma ex_run_gives args reads r : ex_run args reads = Some r -> exists c, gives (tool_program (fun _ => false) c (fun _ => 4096%N) [] (fun l => l) (map b args)) reads r.
Proof. unfold ex_run. destruct ex_scheme as [c|]; [|discriminate]. intros H. exists c. apply answers_gives, H. Qed.
Definition ex_tree_text : str := b
"{
  ""_type"": ""File"",
  ""children"": [
    {
      ""_type"": ""Heading"",
      ""children"": [
        {
          ""_type"": ""Body"",
          ""filtered"": 1,
          ""links"": [
            {
              ""url"": ""http://a.org/x"",
              ""descr"": ""A"",
              ""lineNo"": 2,
              ""_type"": ""Link""
            }
          ],
          ""total"": 1
        }
      ],
      ""filtered"": 1,
      ""lineNo"": 1,
      ""rawText"": ""Head"",
      ""total"": 1
    }
  ],
  ""filtered"": 1,
  ""path"": ""n.org"",
  ""total"": 1
}
".
Example C99_tree_example : ex_run ["-org"; "n.org"; "http:"]%string [(b "n.org", RData ex_content false)] = Some (ex_tree_text, Exit0).
Proof. vm_compute. reflexivity. Qed.
Example C99_line_example : tool_line (map b ["-org"; "n.org"; "--set=ftp"; "--"; "-x"]%string) [(Org, b "n.org")] [b "ftp"] [b "-x"].
Proof. apply line_parsed. vm_compute. reflexivity. Qed.
Definition ex_text : str := b "see ftp://a.org/x and http://b.org/z" ++ ex_nl ++ b "ftp://a.org/y ftp://a.org/x" ++ ex_nl.
Example C99_set_example :
  ex_run ["--set=ftp"; "a.txt"]%string [(b "a.txt", RData ex_text false)] = Some (b "ftp://a.org/x" ++ ex_nl ++ b "ftp://a.org/y" ++ ex_nl, Exit0) /\
  ex_run ["--set=ftp"; "a.txt"; "b.txt"]%string [(b "a.txt", RData ex_text false); (b "b.txt", RNone)] = Some ([], Exit1 false).
Proof. split; vm_compute; reflexivity. Qed.
Example C99_other_example :
  ex_run ["-set"; "ftp"; "-h"]%string [] = Some ([], Exit0) /\ ex_run ["-set"]%string [] = Some ([], Exit2) /\ ex_run []%string [] = Some ([], Exit1 true).
Proof. repeat split; vm_compute; reflexivity. Qed.

(** What is printed may be incomplete: the tree is printed when a file can not be read, the exit code is 1 then. *)
Example C99_error_example : ex_run ["-org"; "n.org"; "http:"; "m.txt"]%string [(b "n.org", RData ex_content false); (b "m.txt", RNone)] = Some (ex_tree_text, Exit1 false).
Proof. vm_compute. reflexivity. Qed.
Theorem C99_success_refuted : ~ forall u c chunk entries order args reads out fin, gives (tool_program u c chunk entries order args) reads (out, fin) -> out <> [] -> fin = Exit0.
Proof.
  intros H. destruct (ex_run_gives _ _ _ C99_error_example) as (c & G). apply H in G; [discriminate|]. discriminate.
Qed.
Print Assumptions C99_success_refuted.

(** (finding) Files from options are not enough for sets: another argument is required, it is read as a file. *)
Theorem C99_files_refuted : ~ forall u c chunk entries order args files prefixes rest reads out fin, tool_line args files prefixes rest -> prefixes_ok prefixes -> files <> [] ->
  gives (tool_program u c chunk entries order args) reads (out, fin) -> fin <> Exit1 true.
Proof.
  intros H. destruct (ex_run_gives ["-org"; "n.org"; "-set"; "ftp:"]%string [] ([], Exit1 true)) as (c & G); [vm_compute; reflexivity|].
  assert (P : prefixes_ok [b "ftp:"]).
  { assert (X : ExtractSet Txt (fun _ => 4096%N) (b "ftp://x") false [b "ftp:"] [] = Done ([b "ftp://x"], None)) by (vm_compute; reflexivity).
    destruct (RealProofs.set_once _ _ _ _ _ _ _ X) as (P & _). exact P. }
  refine (H (fun _ => false) c (fun _ => 4096%N) [] (fun l => l) (map b ["-org"; "n.org"; "-set"; "ftp:"]%string) [(Org, b "n.org")] [b "ftp:"] [] [] [] (Exit1 true) _ P _ _ eq_refl).
  - apply line_parsed. vm_compute. reflexivity.
  - discriminate.
  - exact G.
Qed.
Print Assumptions C99_files_refuted.

(** C100.  Manifests are JSON documents: members are fields that are not empty lists ... *)
Theorem C100_manifest : forall m, shown_text (manifest_value m) (MarshalIndent m ++ nl).
Proof. exact manifest_shown. Qed.
Print Assumptions C100_manifest.
(** ... so every file that is created by the installer, it is not the wrapper, is such a document ... *)
Theorem C100_installed : forall q u s0 c dest content, generated q u s0 c dest content 420 ->
  exists m, valid_manifest u m /\ manifest_target u s0 c (mPath m) /\ dest = mFile m /\ mType m = b "stdio" /\ shown_text (manifest_value m) content.
Proof. exact installed_shown. Qed.
Print Assumptions C100_installed.
(** ... the browser gets the path of the executable if and only if it is valid UTF-8. *)
Theorem C100_path : forall m v, jdocument v (MarshalIndent m ++ nl) ->
  exists l rs, v = VObj l /\ In (name (b "path"), VStr rs) l /\ (string_of rs = mPath m <-> valid_utf8 (mPath m)).
Proof. exact manifest_path. Qed.
Print Assumptions C100_path.
Example C100_example : manifest_value (mkManifest (b "burl") (b "B") (b "/bin/burl") (b "stdio") [] [b "x@y"; b "z"] (b "-")) =
  VObj [(name (b "name"), text (b "burl")); (name (b "description"), text (b "B")); (name (b "path"), text (b "/bin/burl")); (name (b "type"), text (b "stdio"));
        (name (b "allowed_extensions"), VArr [text (b "x@y"); text (b "z")])].
Proof. reflexivity. Qed.

(** (finding) The installer does not refuse other paths. *)
Definition ex_tables : rune -> rune := fun r => r.
Definition ex_exe : str := b "/" ++ [ascii_of_N 255].
Definition ex_state : state := mkState (fun p => if str_eqb p (b "/") then Some Folder else None) [] (mkEnv (b "/") ex_exe (fun p => p)).
Lemma ex_sane : sane ex_state.
Proof. split; [reflexivity|]. split; [reflexivity|]. cbn. auto. Qed.
Definition ex_config : config := with_chrome (defaults [] [] [b "x@y"] [b "abc"]) (b "-").
Definition ex_manifest : manifest := mkManifest AppName Install.Description ex_exe (b "stdio") [b "chrome-extension://abc/"] [] (b "-").
Example C100_install_example : FileSys.steps (processInstallFlags Some ex_tables ex_config, ex_state) (Ret (true, None), emit ex_state (MarshalIndent ex_manifest ++ nl)).
Proof.
  unfold processInstallFlags.
  eapply FileSys.steps_more; [apply FileSys.s_call, FileSys.d_exact, x_executable|]. cbv iota.
  eapply FileSys.steps_more; [apply FileSys.s_call, FileSys.d_exact, x_eval|].
  eapply FileSys.steps_more; [apply FileSys.s_call, FileSys.d_exact, x_stdout|].
  apply FileSys.steps_refl.
Qed.
Theorem C100_path_refuted : ~ forall q u c s0 err s v l rs, sane s0 -> FileSys.steps (processInstallFlags q u c, s0) (Ret (true, err), s) -> out s0 = [] -> err = None -> ChromeManifest c = b "-" -> WrapperPath c = [] ->
  jdocument v (out s) -> v = VObj l -> In (name (b "path"), VStr rs) l -> string_of rs = real_path s0 (self (env s0)).
Proof.
  intros H. destruct (C100_manifest ex_manifest) as (x & _ & _ & D).
  specialize (H Some ex_tables ex_config ex_state None _ (manifest_value ex_manifest) _ (runes_of ex_exe)
    ex_sane C100_install_example eq_refl eq_refl eq_refl eq_refl (proj2 (D _) eq_refl) eq_refl (or_intror (or_intror (or_introl eq_refl)))).
  vm_compute in H. discriminate.
Qed.
Print Assumptions C100_path_refuted.
