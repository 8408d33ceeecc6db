(** Properties C42-C46: writing of generated files *)
From Verif Require Import GoBase Utf8 Path FileSys FileUtil FileSpec FileProofs.
Local Open Scope N_scope.

Definition ex_env : environment := mkEnv (b "/home") (b "/bin/burl") (fun p => p).
Definition ex_state (n : option node) : state := mkState (fun p => if str_eqb p (b "/d/f") then n else None) [] ex_env.
Definition ex_path : str := b "/d/f".
Lemma ex_normal : normal ex_path.
Proof. split; [reflexivity|]. split; [vm_compute; reflexivity|discriminate]. Qed.

(** C42.  [(p, s)] is any state of a run, also of an interrupted one. *)
Theorem C42_atomic path content mode force s0 p s : normal path -> steps (WriteFile path content mode force, s0) (p, s) ->
  out s = out s0 /\ intact_or_complete s0 s path content mode /\ others_untouched s0 s path content.
Proof. exact (C42_lemma path content mode force s0 p s). Qed.
Print Assumptions C42_atomic.

Theorem C42_no_temporary_file path content mode force s0 s : normal path ->
  steps (WriteFile path content mode force, s0) (Ret (Ok tt), s) -> forall x, x <> path -> fs s x = fs s0 x.
Proof. exact (C42_tidy_lemma path content mode force s0 s). Qed.
Print Assumptions C42_no_temporary_file.

Theorem C42_stdout content mode force s0 p s : steps (WriteFile (b "-") content mode force, s0) (p, s) ->
  (forall x, fs s x = fs s0 x) /\ exists c1 c2, content = c1 ++ c2 /\ out s = out s0 ++ c1 /\ (p = Ret (Ok tt) -> c2 = []).
Proof. exact (C42_stdout_lemma content mode force s0 p s). Qed.
Print Assumptions C42_stdout.

(** a half of the content is in the temporary file, the destination has its previous content *)
Example C42_example : exists p s, steps (WriteFile ex_path (b "new!") 420 true, ex_state (Some (File (b "old") 420))) (p, s) /\
  fs s (b "/d/f7") = Some (File (b "ne") 420) /\ fs s ex_path = Some (File (b "old") 420) /\ (forall r, p <> Ret r).
Proof.
  eexists. eexists. split; [|split; [|split]].
  - unfold WriteFile. cbn [str_eqb ex_path b list_ascii_of_string Ascii.eqb Bool.eqb andb].
    eapply steps_more; [apply s_call, d_exact; eapply x_stat_file; reflexivity|].
    eapply steps_more; [apply s_call, d_exact; eapply x_open; reflexivity|].
    eapply steps_more; [apply s_call, d_exact; eapply x_read; [reflexivity|discriminate]|].
    match goal with |- steps (_, ?s) ?z => change (steps (replace_file ex_path (b "new!") 420, s) z) end.
    eapply steps_more; [apply s_call, d_exact; apply (x_temp _ _ _ (b "/d/f7") 384); [reflexivity|]|].
    { exists (b "f"), [], (b "7"). split; [split; [discriminate|]; repeat constructor; cbn; tauto|]. split; [reflexivity|].
      right. split; [reflexivity|]. split; [reflexivity|]. cbn. intros [H|[]]; discriminate. }
    eapply steps_more; [apply s_call, d_exact; eapply x_chmod; reflexivity|].
    eapply steps_more; [apply (s_write (b "/d/f7") (b "ne") (b "w!") _ _ [] 420); reflexivity|].
    apply steps_refl.
  - reflexivity.
  - reflexivity.
  - discriminate.
Qed.

(** C43 *)
Theorem C43_not_modified path content mode s0 p s n : normal path -> fs s0 path = Some n -> (forall m, n <> File content m) ->
  steps (WriteFile path content mode false, s0) (p, s) -> same_files s0 s /\ p <> Ret (Ok tt) /\ p <> Abort.
Proof. exact (C43_lemma path content mode s0 p s n). Qed.
Print Assumptions C43_not_modified.
Example C43_example : steps (WriteFile ex_path (b "new") 420 false, ex_state (Some (File (b "old") 420)))
  (Ret (Err EExist), ex_state (Some (File (b "old") 420))).
Proof.
  unfold WriteFile. cbn [str_eqb ex_path b list_ascii_of_string Ascii.eqb Bool.eqb andb].
  eapply steps_more; [apply s_call, d_exact; eapply x_stat_file; reflexivity|].
  eapply steps_more; [apply s_call, d_exact; eapply x_open; reflexivity|].
  eapply steps_more; [apply s_call, d_exact; eapply x_read; [reflexivity|discriminate]|]. apply steps_refl.
Qed.

(** C44 *)
Theorem C44_success path content mode force s0 s : normal path -> steps (WriteFile path content mode force, s0) (Ret (Ok tt), s) ->
  (exists m, fs s path = Some (File content m)) \/
  (force = true /\ taken_for_same s0 path content /\ exists extra m, fs s path = Some (File (content ++ extra) m)).
Proof. exact (C44_lemma path content mode force s0 s). Qed.
Print Assumptions C44_success.

Theorem C44_error path content mode force s0 s e : normal path -> steps (WriteFile path content mode force, s0) (Ret (Err e), s) ->
  fs s path = fs s0 path.
Proof. exact (C44_error_lemma path content mode force s0 s e). Qed.
Print Assumptions C44_error.

(** The exception exists: the file has an extra byte. *)
Definition ex_page : str := repeat "x"%char (64 * 64).
Definition ex_longer : state := ex_state (Some (File (ex_page ++ b "y") 420)).
Theorem C44_always_complete_refuted : ~ (forall path content mode force s0 s, normal path ->
  steps (WriteFile path content mode force, s0) (Ret (Ok tt), s) -> exists m, fs s path = Some (File content m)).
Proof.
  intros H. destruct (H ex_path ex_page 420 true ex_longer ex_longer ex_normal) as (m & E).
  - apply exact_steps. apply settled_exists; [exact ex_normal|]. exists (ex_page ++ b "y"), 420.
    split; [reflexivity|]. split; [discriminate|]. split; [vm_compute; reflexivity|]. split; [intros F; discriminate F|]. right. discriminate.
  - assert (L : option_map (fun n => match n with File c _ => nlen c | Folder => 0 end) (fs ex_longer ex_path) = Some 4097) by (vm_compute; reflexivity).
    rewrite E in L. vm_compute in L. discriminate L.
Qed.
Print Assumptions C44_always_complete_refuted.

(** C45.  [s1]: state after successful writing; the second run succeeds unless a system call fails, and it never changes anything. *)
Theorem C45_idempotent path content mode force s0 s1 : normal path -> content <> [] -> (force = true \/ length content <> (64 * 64)%nat) ->
  steps (WriteFile path content mode force, s0) (Ret (Ok tt), s1) ->
  runs_exact (WriteFile path content mode force, s1) (Ret (Ok tt), s1) /\
  (forall r s2, runs_exact (WriteFile path content mode force, s1) (Ret r, s2) -> r = Ok tt) /\
  (forall p s2, steps (WriteFile path content mode force, s1) (p, s2) -> s2 = s1).
Proof. exact (C45_lemma path content mode force s0 s1). Qed.
Print Assumptions C45_idempotent.

Theorem C45_empty path mode force s0 s1 : normal path -> steps (WriteFile path [] mode force, s0) (Ret (Ok tt), s1) ->
  (exists m, fs s1 path = Some (File [] m)) /\ forall r s2, runs_exact (WriteFile path [] mode force, s1) (Ret r, s2) -> r = Err ERead.
Proof. exact (C45_empty_lemma path mode force s0 s1). Qed.
Print Assumptions C45_empty.

Theorem C45_page path content mode s0 s1 : normal path -> length content = (64 * 64)%nat -> fs s0 path = None ->
  steps (WriteFile path content mode false, s0) (Ret (Ok tt), s1) ->
  fs s1 path = Some (File content mode) /\ forall r s2, runs_exact (WriteFile path content mode false, s1) (Ret r, s2) -> r = Err ETooLarge.
Proof. exact (C45_4096_lemma path content mode s0 s1). Qed.
Print Assumptions C45_page.

(** creation of a new file *)
Lemma ex_create content : exists s, steps (WriteFile ex_path content 420 false, ex_state None) (Ret (Ok tt), s).
Proof.
  eexists. unfold WriteFile. cbn [str_eqb ex_path b list_ascii_of_string Ascii.eqb Bool.eqb andb].
  eapply steps_more; [apply s_call, d_exact, x_stat_none; reflexivity|].
  eapply steps_more; [apply s_call, d_exact; apply (x_temp _ _ _ (b "/d/f7") 384); [reflexivity|]|].
  { exists (b "f"), [], (b "7"). split; [split; [discriminate|]; repeat constructor; cbn; tauto|]. split; [reflexivity|].
    right. split; [reflexivity|]. split; [reflexivity|]. cbn. intros [H|[]]; discriminate. }
  eapply steps_more; [apply s_call, d_exact; eapply x_chmod; reflexivity|].
  eapply steps_more; [apply s_call, d_exact; eapply x_write; reflexivity|].
  eapply steps_more; [apply s_call, d_exact; eapply x_rename; [reflexivity|discriminate|discriminate]|].
  apply steps_refl.
Qed.
Example C45_example : exists s1, steps (WriteFile ex_path (b "text") 420 false, ex_state None) (Ret (Ok tt), s1) /\
  runs_exact (WriteFile ex_path (b "text") 420 false, s1) (Ret (Ok tt), s1).
Proof.
  destruct (ex_create (b "text")) as [s1 R]. exists s1. split; [exact R|].
  apply (C45_idempotent _ _ _ _ _ _ ex_normal) in R; [tauto|discriminate|right; discriminate].
Qed.
Example C45_empty_example : exists s1, steps (WriteFile ex_path [] 420 false, ex_state None) (Ret (Ok tt), s1).
Proof. apply ex_create. Qed.
Example C45_page_example : exists s1, steps (WriteFile ex_path ex_page 420 false, ex_state None) (Ret (Ok tt), s1).
Proof. apply ex_create. Qed.

(** C46: 320 is 0500 *)
Theorem C46_mode_kept path content mode force s0 s1 m : normal path -> fs s0 path = Some (File content m) -> content <> [] ->
  N.land m 320 <> 0 -> (force = true \/ length content <> (64 * 64)%nat) -> steps (WriteFile path content mode force, s0) (Ret (Ok tt), s1) -> s1 = s0.
Proof. exact (mode_kept path content mode force s0 s1 m). Qed.
Print Assumptions C46_mode_kept.

(** 64 is 0100, 493 is 0755, 420 is 0644 *)
Theorem C46_executable_refuted : ~ (forall path content mode force s0 s, normal path -> N.land mode 64 <> 0 ->
  steps (WriteFile path content mode force, s0) (Ret (Ok tt), s) -> exists c m, fs s path = Some (File c m) /\ N.land m 64 <> 0).
Proof.
  intros H. set (s0 := ex_state (Some (File (b "#!/bin/sh") 420))).
  destruct (H ex_path (b "#!/bin/sh") 493 true s0 s0 ex_normal) as (c & m & E & N).
  - discriminate.
  - apply exact_steps. apply settled_exists; [exact ex_normal|]. exists (b "#!/bin/sh"), 420.
    split; [reflexivity|]. split; [discriminate|]. split; [vm_compute; reflexivity|]. split; [discriminate|]. right. discriminate.
  - cbn in E. injection E as _ <-. apply N. reflexivity.
Qed.
Print Assumptions C46_executable_refuted.
