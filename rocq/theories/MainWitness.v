(** Witnesses for P_Main.v *)
From Verif Require Import LinkTypes LinkTree Emacs Backend Extract Real GoBase GoSlice Utf8 Path FileSys FileUtil FileSpec FileProofs Flags FlagsSpec Manifest Main MainSpec Install InstallSpec InstallProofs.

(** Execution of a program without failures: the random number of a temporary file is 1 *)
Definition star_free (s : str) : bool := negb (existsb (fun a => Ascii.eqb a "*"%char) s).
Definition exec_call (s : state) (c : call) : option (answer * state) :=
  match c with
  | CStat p => match fs s p with Some (File _ m) => Some (AStat false m, s) | Some Folder => Some (AStat true 493, s) | None => Some (ANotExist, s) end
  | COpen p => match fs s p with Some _ => Some (AUnit, s) | None => Some (ANotExist, s) end
  | CRead p n => match fs s p with Some (File (x :: y) _) => Some (AStr (firstn (N.to_nat n) (x :: y)), s) | _ => None end
  | CChmod p m => match fs s p with Some (File t _) => Some (AUnit, set_fs s p (Some (File t m))) | _ => None end
  | CTemp dir pattern => let t := Join dir (pattern ++ b "1") in
      if star_free pattern then match fs s t with None => Some (AStr t, set_fs s t (Some (File [] 384))) | _ => None end else None
  | CWrite p t => match fs s p with Some (File t0 m) => Some (AUnit, set_fs s p (Some (File (t0 ++ t) m))) | _ => None end
  | CRename p q => if str_eqb p q then None else
      match fs s p, fs s q with Some (File t m), (Some (File _ _) | None) => Some (AUnit, set_fs (set_fs s q (Some (File t m))) p None) | _, _ => None end
  | CStdout t => Some (AUnit, emit s t)
  | CGetwd => Some (AStr (cwd (env s)), s)
  | CExecutable => Some (AStr (self (env s)), s)
  | CEvalSymlinks p => Some (AStr (FileSys.real (env s) p), s)
  | CAppend p m => match fs s p with Some (File _ _) => Some (AUnit, s) | None => Some (AUnit, set_fs s p (Some (File [] m))) | Some Folder => None end
  | CRemove p => None
  end.
Fixpoint exec {A} (p : prog A) (s : state) (n : nat) : option (A * state) :=
  match n, p with
  | _, Ret a => Some (a, s)
  | S n, Do c k => match exec_call s c with Some (a, s') => exec (k a) s' n | None => None end
  | _, _ => None
  end.
Lemma exec_call_exact s c a s' : exec_call s c = Some (a, s') -> exact s c a s'.
Proof.
  destruct c; cbn [exec_call].
  all: try (destruct (fs s p) as [[[|x y] m1|]|] eqn:E; intros Q; try discriminate; injection Q as <- <-; econstructor; eauto; discriminate).
  all: try (intros Q; try discriminate; injection Q as <- <-; econstructor; eauto; fail).
  - destruct (star_free pattern) eqn:SF; [|discriminate]. destruct (fs s (Join dir (pattern ++ b "1"))) eqn:E; [discriminate|]. intros Q. injection Q as <- <-.
    apply x_temp; [exact E|]. exists pattern, [], (b "1"). split; [split; [discriminate|constructor; [cbn; auto|constructor]]|]. split; [reflexivity|]. right. split; [reflexivity|]. split; [reflexivity|].
    intros I. unfold star_free in SF. apply negb_true_iff in SF. assert (X : existsb (fun a => Ascii.eqb a "*"%char) pattern = true) by (apply existsb_exists; exists "*"%char; split; [exact I|reflexivity]). congruence.
  - destruct (fs s p) as [[t m|]|] eqn:E; try discriminate. intros Q. injection Q as <- <-. apply x_write. exact E.
  - destruct (str_eqb_spec p q) as [|N]; [discriminate|]. destruct (fs s p) as [[t m|]|] eqn:E1; try discriminate. destruct (fs s q) as [[t1 m1|]|] eqn:E2; try discriminate; intros Q; injection Q as <- <-; (apply x_rename; [exact E1|congruence|exact N]).
  - destruct (fs s p) as [[t m1|]|] eqn:E; try discriminate; intros Q; injection Q as <- <-; [eapply x_append; exact E|apply x_append_new; [exact E|apply N.land_diag]].
Qed.
Lemma exec_runs {A} n : forall (p : prog A) s a s', exec p s n = Some (a, s') -> runs_exact (p, s) (Ret a, s').
Proof.
  induction n as [|n IH]; intros p s a s' E.
  - destruct p; cbn in E; try discriminate. injection E as <- <-. constructor.
  - destruct p as [x| |c k]; cbn in E; try discriminate; [injection E as <- <-; constructor|].
    destruct (exec_call s c) as [[x s1]|] eqn:C; [|discriminate]. eapply rx_more; [apply exec_call_exact; exact C|]. apply IH. exact E.
Qed.

(** ** A wrapper and a manifest in the same file *)
Definition ex_tables : rune -> rune := fun r => r.
Definition ex_files (p : str) : option node :=
  if str_eqb p (b "/") || str_eqb p (b "/d") then Some Folder
  else if str_eqb p (b "/bin/burl") then Some (File (b "ELF") 493) else None.
Definition ex_state : state := mkState ex_files [] (mkEnv (b "/d") (b "/bin/burl") (fun p => p)).
Definition ex_schemes : list str := [b "doi"; b "https?"; b "mid"].
Definition ex_same_args : list str := map b ["-force"; "-disable-link-set"; "-wrapper"; "x.json"; "-manifest-firefox"; "x.json"]%string.
Definition ex_same : config := match parse_args (defaults ex_schemes [] [b "x@y"] [b "abc"]) ex_same_args with Some c => c | None => defaults [] [] [] [] end.
Lemma ex_sane : sane ex_state.
Proof. split; [reflexivity|]. split; [reflexivity|]. cbn. auto. Qed.
Lemma same_path_exec : exists s text, exec (processInstallFlags simple_quote ex_tables ex_same) ex_state 100 = Some ((true, None), s) /\
  fs s (b "/d/x.json") = Some (File text 420) /\ firstn 1 text = b "{".
Proof.
  assert (E : match exec (processInstallFlags simple_quote ex_tables ex_same) ex_state 100 with
    | Some ((true, None), s) => match fs s (b "/d/x.json") with Some (File text 420) => str_eqb (firstn 1 text) (b "{") | _ => false end | _ => false end = true) by (vm_compute; reflexivity).
  destruct (exec (processInstallFlags simple_quote ex_tables ex_same) ex_state 100) as [[[[] [e|]] s]|]; try discriminate E.
  destruct (fs s (b "/d/x.json")) as [[text m|]|] eqn:F; try discriminate E. exists s, text. split; [reflexivity|]. rewrite F.
  destruct (N.eq_dec m 420) as [->|N]; [split; [reflexivity|]; apply str_eqb_eq; exact E|]. exfalso. revert E. clear - N.
  destruct m as [|m]; [discriminate|]. repeat (destruct m as [m|m|]; try discriminate). congruence.
Qed.
Lemma same_path_run : exists s text, runs_exact (processInstallFlags simple_quote ex_tables ex_same, ex_state) (Ret (true, None), s) /\
  fs s (b "/d/x.json") = Some (File text 420) /\ firstn 1 text = b "{".
Proof. destruct same_path_exec as (s & text & E & F). exists s, text. split; [apply exec_runs with 100%nat; exact E|exact F]. Qed.

Lemma same_path_refuted : ~ (forall q u c s0 s, sane s0 -> FileSys.steps (processInstallFlags q u c, s0) (Ret (true, None), s) ->
  WrapperPath c <> [] -> Customized c = true -> exists dest content, generated q u s0 c dest content 493 /\ delivered s0 s (Force c) dest content).
Proof.
  intros H. destruct same_path_run as (s & text & R & F & T). apply exact_steps in R.
  destruct (H _ _ _ _ _ ex_sane R) as (dest & content & G & D); [discriminate|reflexivity|]. clear H R.
  inversion G as [d c' qexe ws exe WP QE SH WN DN [n RS]|]; subst.
  assert (RX : resolves ex_tables ex_state (WrapperPath ex_same) no_options (b "/d/x.json") (b "x.json")).
  { right. split; [discriminate|]. right. split; [left; split; reflexivity|]. split; [reflexivity|]. split; [intros N; exfalso; apply N; reflexivity|]. split; [reflexivity|]. intros N. exfalso. apply N. reflexivity. }
  destruct (resolves_fun _ _ _ _ _ _ _ _ RS RX) as [-> _]. destruct D as [(E & _)|(_ & extra & m & E & _)]; [discriminate E|].
  rewrite F in E. injection E as -> _. vm_compute in T. discriminate.
Qed.

(** ** Service *)
Definition ex_main (args : list str) : prog ending :=
  backend_main (b "help") (b "1.0") simple_quote (fun _ => false) ex_tables (fun _ => 0%N) ex_schemes [] [b "x@y"] [b "abc"] args.
Lemma info_run : exists s, runs_exact (ex_main (map b ["-v"; "-wrapper"; "w"]%string), ex_state) (Ret EInfo, s) /\ out s = version_text (b "1.0").
Proof.
  assert (E : match exec (ex_main (map b ["-v"; "-wrapper"; "w"]%string)) ex_state 10 with Some (EInfo, s) => str_eqb (out s) (version_text (b "1.0")) | _ => false end = true) by (vm_compute; reflexivity).
  destruct (exec _ ex_state 10) as [[[] s]|] eqn:X; try discriminate E. exists s. split; [apply exec_runs with 10%nat; exact X|]. apply str_eqb_eq. exact E.
Qed.
Lemma serve_run : exists v s, runs_exact (ex_main (map b ["-log"; "/d/log"; "-scheme"; "mid"; "-emacsarg"; "-n"; "a.org"]%string), ex_state) (Ret (EServe v), s) /\
  v_users v = [b "-n"] /\ v_command v = b "emacsclient" /\ fs s (b "/d/log") = Some (File [] 384).
Proof.
  assert (E : match exec (ex_main (map b ["-log"; "/d/log"; "-scheme"; "mid"; "-emacsarg"; "-n"; "a.org"]%string)) ex_state 10 with
    | Some (EServe v, s) => match fs s (b "/d/log"), v_users v with Some (File [] m), [x] => (m =? 384)%N && str_eqb x (b "-n") && str_eqb (v_command v) (b "emacsclient") | _, _ => false end | _ => false end = true) by (vm_compute; reflexivity).
  destruct (exec _ ex_state 10) as [[[| | | | | |v] s]|] eqn:X; try discriminate E. exists v, s. split; [apply exec_runs with 10%nat; exact X|]. clear X.
  destruct (fs s (b "/d/log")) as [[[|x y] m|]|]; try discriminate E. destruct (v_users v) as [|x [|y z]]; try discriminate E.
  apply andb_true_iff in E. destruct E as [E E3]. apply andb_true_iff in E. destruct E as [E1 E2]. apply str_eqb_eq in E2, E3. apply N.eqb_eq in E1. subst. auto.
Qed.
