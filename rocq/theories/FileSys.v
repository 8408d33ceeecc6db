(** Files and system calls made by package burl_fileutil and by the installer: a program is a tree
    of calls, its runs are steps of a relation.  Any call may fail and a run may be interrupted between
    any two steps.  Operating system, not code of /repo. *)
From Verif Require Import GoBase Path.
Local Open Scope N_scope.

(** Regular files and directories.  Symbolic links and special files are not modelled; permission
    bits of files are kept, other attributes and permissions of directories are not.  No other process
    modifies files during a run. *)
Inductive node := File (content : str) (perm : N) | Folder.

(** what does not change: current directory, path of the running program, a path with expanded symbolic links *)
Record environment := mkEnv { cwd : str; self : str; real : str -> str }.
Record state := mkState { fs : str -> option node; out : str; env : environment }.
Definition upd (f : str -> option node) (p : str) (n : option node) : str -> option node :=
  fun x => if str_eqb x p then n else f x.
Definition set_fs (s : state) (p : str) (n : option node) : state := mkState (upd (fs s) p n) (out s) (env s).
Definition emit (s : state) (c : str) : state := mkState (fs s) (out s ++ c) (env s).

Inductive call :=
| CStat (p : str)
| COpen (p : str)
| CRead (p : str) (n : N)
| CChmod (p : str) (m : N)
| CTemp (dir pattern : str)
| CWrite (p : str) (c : str)
| CRename (p q : str)
| CRemove (p : str)
| CStdout (c : str)
| CGetwd
| CExecutable
| CEvalSymlinks (p : str)
| CAppend (p : str) (m : N). (* os.OpenFile with O_APPEND|O_CREATE|O_WRONLY, [m]: permissions of a new file *)

(** [AErr]: an error other than os.ErrNotExist *)
Inductive answer := AErr | ANotExist | AUnit | AStat (dir : bool) (perm : N) | AStr (s : str).

(** Ioutil.TempFile(dir, pattern): a random number replaces the last "*" or is appended *)
Definition digits (r : str) : Prop := r <> [] /\ Forall (fun a => In a (b "0123456789")) r.
Definition temp_name (dir pattern t : str) : Prop :=
  exists p s r, digits r /\ t = Join dir (p ++ r ++ s) /\
    (pattern = p ++ b "*" ++ s /\ ~ In "*"%char s \/ pattern = p /\ s = [] /\ ~ In "*"%char p).

(** a call that works *)
Inductive exact : state -> call -> answer -> state -> Prop :=
| x_stat_file s p c m : fs s p = Some (File c m) -> exact s (CStat p) (AStat false m) s
| x_stat_dir s p m : fs s p = Some Folder -> exact s (CStat p) (AStat true m) s
| x_stat_none s p : fs s p = None -> exact s (CStat p) ANotExist s
| x_open s p n : fs s p = Some n -> exact s (COpen p) AUnit s
| x_open_none s p : fs s p = None -> exact s (COpen p) ANotExist s
(* a regular file: all available bytes are returned *)
| x_read s p n c m : fs s p = Some (File c m) -> c <> [] -> exact s (CRead p n) (AStr (firstn (N.to_nat n) c)) s
(* io.EOF *)
| x_read_empty s p n m : fs s p = Some (File [] m) -> exact s (CRead p n) AErr s
| x_read_dir s p n : fs s p = Some Folder -> exact s (CRead p n) AErr s
| x_chmod s p m c m0 : fs s p = Some (File c m0) -> exact s (CChmod p m) AUnit (set_fs s p (Some (File c m)))
| x_temp s dir pattern t m : fs s t = None -> temp_name dir pattern t ->
    exact s (CTemp dir pattern) (AStr t) (set_fs s t (Some (File [] m)))
| x_write s p c0 m c : fs s p = Some (File c0 m) -> exact s (CWrite p c) AUnit (set_fs s p (Some (File (c0 ++ c) m)))
| x_rename s p q c m : fs s p = Some (File c m) -> fs s q <> Some Folder -> p <> q ->
    exact s (CRename p q) AUnit (set_fs (set_fs s q (Some (File c m))) p None)
| x_rename_dir s p q : fs s q = Some Folder -> exact s (CRename p q) AErr s
| x_remove s p c m : fs s p = Some (File c m) -> exact s (CRemove p) AUnit (set_fs s p None)
| x_stdout s c : exact s (CStdout c) AUnit (emit s c)
| x_getwd s : exact s CGetwd (AStr (cwd (env s))) s
| x_executable s : exact s CExecutable (AStr (self (env s))) s
| x_eval s p : exact s (CEvalSymlinks p) (AStr (real (env s) p)) s
| x_append s p m c m0 : fs s p = Some (File c m0) -> exact s (CAppend p m) AUnit s
(* umask may take permissions away *)
| x_append_new s p m m1 : fs s p = None -> N.land m1 m = m1 -> exact s (CAppend p m) AUnit (set_fs s p (Some (File [] m1)))
| x_append_dir s p m : fs s p = Some Folder -> exact s (CAppend p m) AErr s.

(** a call that works or fails *)
Inductive does : state -> call -> answer -> state -> Prop :=
| d_exact s c a s' : exact s c a s' -> does s c a s'
| d_fail s c : does s c AErr s.

Inductive prog (A : Type) : Type :=
| Ret (a : A)
| Abort (* a Go panic *)
| Do (c : call) (k : answer -> prog A).
Arguments Ret {A} _. Arguments Abort {A}. Arguments Do {A} _ _.

Fixpoint bind {A B} (p : prog A) (f : A -> prog B) : prog B :=
  match p with
  | Ret a => f a
  | Abort => Abort
  | Do c k => Do c (fun a => bind (k a) f)
  end.

(** Writing may be split into several parts. *)
Inductive step {A} : prog A * state -> prog A * state -> Prop :=
| s_call c k s a s' : does s c a s' -> step (Do c k, s) (k a, s')
| s_write p c1 c2 k s c0 m : fs s p = Some (File c0 m) ->
    step (Do (CWrite p (c1 ++ c2)) k, s) (Do (CWrite p c2) k, set_fs s p (Some (File (c0 ++ c1) m)))
| s_stdout c1 c2 k s : step (Do (CStdout (c1 ++ c2)) k, s) (Do (CStdout c2) k, emit s c1).

Inductive steps {A} : prog A * state -> prog A * state -> Prop :=
| steps_refl x : steps x x
| steps_more x y z : step x y -> steps y z -> steps x z.

(** a run without failures *)
Inductive runs_exact {A} : prog A * state -> prog A * state -> Prop :=
| rx_refl x : runs_exact x x
| rx_more c k s a s' z : exact s c a s' -> runs_exact (k a, s') z -> runs_exact (Do c k, s) z.

(** ** Facts *)
Lemma exact_steps {A} (x y : prog A * state) : runs_exact x y -> steps x y.
Proof. induction 1; [constructor|]. econstructor; [|eassumption]. constructor. constructor. assumption. Qed.

Lemma upd_same f p n : upd f p n p = n.
Proof. unfold upd. rewrite str_eqb_refl. reflexivity. Qed.
Lemma upd_other f p n x : x <> p -> upd f p n x = f x.
Proof. unfold upd. destruct (str_eqb_spec x p); [contradiction|reflexivity]. Qed.

Lemma steps_ret {A} (a : A) s y : steps (Ret a, s) y -> y = (Ret a, s).
Proof. intros H. inversion H as [|? ? ? S]; subst; [reflexivity|]. inversion S. Qed.
Lemma steps_abort {A} s y : steps (@Abort A, s) y -> y = (Abort, s).
Proof. intros H. inversion H as [|? ? ? S]; subst; [reflexivity|]. inversion S. Qed.

(** A run of a sequence is in the first part or the first part has ended. *)
Lemma steps_bind {A B} (f : A -> prog B) x y : steps x y -> forall p s, x = (bind p f, s) ->
  (exists p' s', steps (p, s) (p', s') /\ y = (bind p' f, s')) \/
  (exists a s', steps (p, s) (Ret a, s') /\ steps (f a, s') y).
Proof.
  induction 1 as [x|x y z S R IH]; intros p s ->.
  - left. exists p, s. split; [constructor|reflexivity].
  - destruct p as [a| |c k]; cbn [bind] in *.
    + right. exists a, s. split; [constructor|]. econstructor; eassumption.
    + inversion S.
    + inversion S; subst.
      * destruct (IH (k a) s' eq_refl) as [(p' & s2 & R' & ->)|(a' & s2 & R' & R2)].
        -- left. exists p', s2. split; [|reflexivity]. econstructor; [|exact R']. constructor. assumption.
        -- right. exists a', s2. split; [|exact R2]. econstructor; [|exact R']. constructor. assumption.
      * destruct (IH (Do (CWrite p c2) k) _ eq_refl) as [(p' & s2 & R' & ->)|(a' & s2 & R' & R2)].
        -- left. exists p', s2. split; [|reflexivity]. econstructor; [|exact R']. econstructor. eassumption.
        -- right. exists a', s2. split; [|exact R2]. econstructor; [|exact R']. econstructor. eassumption.
      * destruct (IH (Do (CStdout c2) k) _ eq_refl) as [(p' & s2 & R' & ->)|(a' & s2 & R' & R2)].
        -- left. exists p', s2. split; [|reflexivity]. econstructor; [|exact R']. econstructor.
        -- right. exists a', s2. split; [|exact R2]. econstructor; [|exact R']. econstructor.
Qed.

(** Calls other than writing. *)
Definition simple_call (c : call) : Prop := match c with CWrite _ _ | CStdout _ => False | _ => True end.
Lemma steps_simple {A} c (k : answer -> prog A) s y : simple_call c -> steps (Do c k, s) y ->
  y = (Do c k, s) \/ exists a s', does s c a s' /\ steps (k a, s') y.
Proof.
  intros C H. inversion H as [|? ? ? S R]; subst; [left; reflexivity|]. right. inversion S; subst; cbn in C; try contradiction. eauto.
Qed.
Lemma steps_out {A} c (k : answer -> prog A) s y : steps (Do (CStdout c) k, s) y ->
  exists c1 c2, c = c1 ++ c2 /\
  ((y = (Do (CStdout c2) k, emit s c1)) \/ steps (k AErr, emit s c1) y \/ (c2 = [] /\ steps (k AUnit, emit s c) y)).
Proof.
  intros H. remember (Do (CStdout c) k, s) as x eqn:E. revert c s E. induction H as [x|x y z S R IH]; intros c s ->.
  - exists [], c. split; [reflexivity|]. left. unfold emit. rewrite app_nil_r. destruct s; reflexivity.
  - inversion S; subst.
    + match goal with D : does _ _ _ _ |- _ => inversion D as [? ? ? ? X|]; subst end.
      * inversion X; subst. exists c, []. rewrite app_nil_r. split; [reflexivity|]. right; right. auto.
      * exists [], c. split; [reflexivity|]. right; left. unfold emit. rewrite app_nil_r. destruct s'; exact R.
    + destruct (IH _ _ eq_refl) as (d1 & d2 & -> & Q). exists (c1 ++ d1), d2. rewrite app_assoc. split; [reflexivity|].
      unfold emit in *; cbn [out fs env] in *. rewrite <- !app_assoc in Q. rewrite <- !app_assoc. exact Q.
Qed.
Lemma steps_write {A} p c (k : answer -> prog A) s c0 m y : fs s p = Some (File c0 m) -> steps (Do (CWrite p c) k, s) y ->
  exists c1 c2 s1, c = c1 ++ c2 /\ fs s1 p = Some (File (c0 ++ c1) m) /\ (forall x, x <> p -> fs s1 x = fs s x) /\ out s1 = out s /\
  ((y = (Do (CWrite p c2) k, s1)) \/ steps (k AErr, s1) y \/ (c2 = [] /\ steps (k AUnit, s1) y)).
Proof.
  intros F H. remember (Do (CWrite p c) k, s) as x eqn:E. revert c s c0 F E. induction H as [x|x y z S R IH]; intros c s c0 F ->.
  - exists [], c, s. rewrite app_nil_r. repeat split; auto.
  - inversion S; subst.
    + match goal with D : does _ _ _ _ |- _ => inversion D as [? ? ? ? X|]; subst end.
      * inversion X; subst. match goal with Q : fs s p = Some (File _ _) |- _ => rewrite F in Q; injection Q as <- <- end.
        exists c, [], (set_fs s p (Some (File (c0 ++ c) m))). rewrite app_nil_r. split; [reflexivity|].
        split; [apply upd_same|]. split; [intros x N; apply upd_other; exact N|]. split; [reflexivity|]. right; right. auto.
      * exists [], c, s'. rewrite app_nil_r. repeat split; auto.
    + match goal with Q : fs s p = Some (File _ _) |- _ => rewrite F in Q; injection Q as <- <- end.
      destruct (IH c2 (set_fs s p (Some (File (c0 ++ c1) m))) (c0 ++ c1) (upd_same _ _ _) eq_refl) as (d1 & d2 & s1 & -> & A1 & A2 & A3 & A4).
      exists (c1 ++ d1), d2, s1. rewrite <- app_assoc in A1. split; [apply app_assoc|]. split; [exact A1|].
      split; [|split; [exact A3|exact A4]]. intros x N. rewrite A2 by exact N. apply upd_other. exact N.
Qed.

Lemma steps_env {A} (x y : prog A * state) : steps x y -> env (snd y) = env (snd x).
Proof.
  induction 1 as [|x y z S R IH]; [reflexivity|]. rewrite IH. inversion S; subst; cbn [snd]; try reflexivity.
  match goal with D : does _ _ _ _ |- _ => inversion D as [? ? ? ? E|]; subst; [inversion E; reflexivity|reflexivity] end.
Qed.
