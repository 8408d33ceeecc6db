From Verif Require Import GoBase Utf8 Fuzzy Path FileSys FileUtil FileSpec FileProofs Flags Manifest Install InstallSpec.

Lemma steps_folders {A} (x y : prog A * state) : steps x y -> same_folders (snd x) (snd y).
Proof.
  induction 1 as [x|x y z S R IH]; [intros p; tauto|].
  assert (Q : same_folders (snd x) (snd y)).
  { inversion S; subst; cbn [snd].
    - match goal with D : does _ _ _ _ |- _ => inversion D as [? ? ? ? E|]; subst end; [|intros p; tauto].
      assert (U : forall s0 p c m n, fs s0 p = Some (File c m) \/ fs s0 p = None -> n <> Some Folder -> same_folders s0 (set_fs s0 p n)).
      { intros s0 p c1 m n F N x. cbn. unfold upd. destruct (str_eqb_spec x p) as [->|]; [|tauto].
        split; [intros; contradiction|]. destruct F; congruence. }
      assert (T : forall s1 s2 s3, same_folders s1 s2 -> same_folders s2 s3 -> same_folders s1 s3).
      { intros s1 s2 s3 A1 A2 x. exact (iff_trans (A2 x) (A1 x)). }
      inversion E; subst; try (intros p0; tauto; fail).
      + eapply U; [left; eassumption|discriminate].
      + apply (U _ _ [] 0%N); [right; assumption|discriminate].
      + eapply U; [left; eassumption|discriminate].
      + apply T with (set_fs s q (Some (File c0 m))).
        * intros x. cbn. unfold upd. destruct (str_eqb_spec x q) as [->|]; [|tauto]. split; [discriminate|contradiction].
        * apply (U _ _ c0 m); [left|discriminate]. cbn. rewrite upd_other by assumption. assumption.
      + eapply U; [left; eassumption|discriminate].
      + apply (U _ _ [] 0%N); [right; assumption|discriminate].
    - intros x. cbn. unfold upd. destruct (str_eqb_spec x p) as [->|]; [|tauto]. split; [discriminate|congruence].
    - intros x. cbn. tauto. }
  intros p. exact (iff_trans (IH p) (Q p)).
Qed.

Lemma base_parts x : x = firstn (length x - length (Ext x)) x ++ Ext x.
Proof.
  destruct (Ext_suffix x) as [s E]. set (e := Ext x) in *. clearbody e. subst x.
  rewrite app_length. replace (length s + length e - length e) with (length s) by lia.
  rewrite firstn_app, Nat.sub_diag, firstn_all, firstn_O, app_nil_r. reflexivity.
Qed.

Lemma nameFromPath_ok u o p n : nameFromPath u o p = Some n <-> named_file u o p n.
Proof.
  unfold nameFromPath, named_file. cbv zeta.
  destruct (str_eqb_spec (oName o) []) as [N|N]; cbn [negb andb].
  - destruct (str_eqb_spec (oExt o) []) as [X|X].
    + split; [intros [= <-]; repeat split; congruence|]. intros (_ & A & _). rewrite A by exact X. reflexivity.
    + destruct (str_eqb_spec (ToLower u (Ext (Base p))) (oExt o)) as [E|E]; cbn [negb].
      * split; [intros [= <-]; repeat split; try congruence; apply base_parts|].
        intros (_ & _ & A). destruct (A X) as [B _]. f_equal. pose proof (base_parts (Base p)) as Q. rewrite B in Q at 1.
        apply app_inv_tail in Q. congruence.
      * split; [discriminate|]. intros (_ & _ & A). destruct (A X). contradiction.
  - destruct (str_eqb_spec (Base p) (oName o ++ oExt o)) as [B|B]; cbn [negb].
    + destruct (str_eqb_spec (oExt o) []) as [X|X].
      * split; [intros [= <-]; repeat split; congruence|]. intros (_ & A & _). rewrite A by exact X. reflexivity.
      * destruct (str_eqb_spec (ToLower u (Ext (Base p))) (oExt o)) as [E|E]; cbn [negb].
        -- split; [intros [= <-]; repeat split; try congruence; apply base_parts|].
           intros (_ & _ & A). destruct (A X) as [B' _]. f_equal. pose proof (base_parts (Base p)) as Q. rewrite B' in Q at 1.
           apply app_inv_tail in Q. congruence.
        -- split; [discriminate|]. intros (_ & _ & A). destruct (A X). contradiction.
    + split; [discriminate|]. intros (A & _). specialize (A N). contradiction.
Qed.

Lemma abs_call_runs {A} p (k : option str -> prog A) s y : steps (abs_call p k, s) y ->
  (snd y = s /\ (forall r, fst y <> Ret r) /\ fst y <> Abort) \/ steps (k (Some (absolute s p)), s) y \/ steps (k None, s) y.
Proof.
  unfold abs_call, absolute. destruct (IsAbs p).
  - intros R. right; left. exact R.
  - intros R. apply steps_simple in R; [|exact I]. destruct R as [->|(a & s' & D & R)].
    + left. repeat split; discriminate.
    + inversion D as [? ? ? ? E|]; subst; [inversion E; subst|].
      * right; left. exact R.
      * right; right. exact R.
Qed.

Lemma stat_same s p a s' : does s (CStat p) a s' -> s' = s.
Proof. intros D. inversion D as [? ? ? ? E|]; subst; [inversion E; reflexivity|reflexivity]. Qed.

Lemma AsAbs_runs u f o s y : steps (AsAbsFileName u f o, s) y -> snd y = s /\ fst y <> Abort /\
  forall path name, fst y = Ret (Some (path, name)) -> resolves u s f o path name.
Proof.
  intros R. unfold AsAbsFileName in R. cbv zeta in R.
  assert (RQ : (if negb (str_eqb (oName o) []) then oName o else oDefault o) = match oName o with [] => oDefault o | n => n end).
  { destruct (oName o); reflexivity. }
  rewrite RQ in R. clear RQ.
  destruct (str_eqb_spec f (b "-")) as [->|ND].
  - apply steps_ret in R. subst y. split; [reflexivity|]. split; [discriminate|]. intros path name [= <- <-]. left. auto.
  - apply abs_call_runs in R. destruct R as [(E & N1 & N2)|[R|R]].
    + split; [exact E|]. split; [exact N2|]. intros path name E2. exfalso. exact (N1 _ E2).
    + set (a := absolute s f) in *.
      assert (NF : forall s1 y0, s1 = s -> (fs s1 a = None /\ fs s1 (Dir a) = Some Folder \/ exists c m, fs s1 a = Some (File c m)) ->
         steps (match nameFromPath u o a with Some n => Ret (Some (a, n)) | None => Ret None end, s1) y0 ->
         snd y0 = s /\ fst y0 <> Abort /\ forall path name, fst y0 = Ret (Some (path, name)) -> resolves u s f o path name).
      { intros s1 y0 -> C R0. destruct (nameFromPath u o a) as [n|] eqn:NP; apply steps_ret in R0; subst y0.
        - split; [reflexivity|]. split; [discriminate|]. intros path name [= <- <-]. right. split; [exact ND|].
          right. split; [exact C|]. split; [reflexivity|]. apply nameFromPath_ok. exact NP.
        - split; [reflexivity|]. split; [discriminate|]. intros path name [=]. }
      apply steps_simple in R; [|exact I]. destruct R as [->|(st & s' & D & R)].
      { split; [reflexivity|]. split; [discriminate|]. intros path name [=]. }
      pose proof (stat_same _ _ _ _ D) as ->.
      destruct st as [| | |[|] perm|].
      * apply steps_ret in R. subst y. split; [reflexivity|]. split; [discriminate|]. intros path name [=].
      * assert (F : fs s a = None) by (inversion D as [? ? ? ? E|]; subst; inversion E; subst; assumption). clear D.
        apply steps_simple in R; [|exact I]. destruct R as [->|(st & s' & D & R)].
        { split; [reflexivity|]. split; [discriminate|]. intros path name [=]. }
        pose proof (stat_same _ _ _ _ D) as ->.
        destruct st as [| | |[|] perm|]; try (apply steps_ret in R; subst y; split; [reflexivity|]; split; [discriminate|]; intros path name [=]).
        eapply NF; [reflexivity| |exact R]. left. split; [exact F|].
        inversion D as [? ? ? ? E|]; subst; inversion E; subst; assumption.
      * apply steps_ret in R. subst y. split; [reflexivity|]. split; [discriminate|]. intros path name [=].
      * assert (F : fs s a = Some Folder) by (inversion D as [? ? ? ? E|]; subst; inversion E; subst; assumption). clear D.
        set (n := match oName o with [] => oDefault o | _ => _ end) in *.
        destruct (str_eqb_spec n []) as [NE|NE]; cbn [negb] in R; apply steps_ret in R; subst y.
        -- split; [reflexivity|]. split; [discriminate|]. intros path name [=].
        -- split; [reflexivity|]. split; [discriminate|]. intros path name [= <- <-]. right. split; [exact ND|].
           left. auto.
      * eapply NF; [reflexivity| |exact R]. right. inversion D as [? ? ? ? E|]; subst; inversion E; subst; eauto.
      * apply steps_ret in R. subst y. split; [reflexivity|]. split; [discriminate|]. intros path name [=].
    + apply steps_ret in R. subst y. split; [reflexivity|]. split; [discriminate|]. intros path name [=].
Qed.

Lemma absolute_abs s p : sane s -> exists cs, Forall good cs /\ absolute s p = abs_path cs.
Proof.
  intros (_ & AD & _). unfold absolute. destruct (IsAbs p) eqn:A; [apply clean_abs; exact A|].
  unfold Join. destruct (cwd (env s)) as [|x d]; [discriminate|]. apply clean_abs. cbn in *. exact AD.
Qed.
Lemma real_abs s p : sane s -> exists cs, Forall good cs /\ real_path s p = abs_path cs.
Proof.
  intros S. destruct (absolute_abs s p S) as (cs & G & E). destruct S as (_ & _ & R). unfold real_path. rewrite E.
  destruct (R (abs_path cs) eq_refl (clean_abs_path cs G)) as [A C]. apply clean_abs in A. destruct A as (cs' & G' & E'). exists cs'. split; [exact G'|]. congruence.
Qed.
Lemma resolves_abs u s f o path name : sane s -> f <> b "-" -> resolves u s f o path name -> exists cs, Forall good cs /\ path = abs_path cs.
Proof.
  intros S ND [(E & _)|(_ & H)]; [contradiction|]. destruct (absolute_abs s f S) as (cs & G & E). cbv zeta in H. rewrite E in H.
  destruct H as [(_ & _ & _ & ->)|(_ & -> & _)]; [|eauto].
  destruct (Join_abs_any cs (name ++ oExt o) G) as (cs' & G' & E'). eauto.
Qed.
Lemma resolves_dash u s o path name : resolves u s (b "-") o path name -> path = b "-".
Proof. intros [(_ & E & _)|(N & _)]; [exact E|congruence]. Qed.
Lemma abs_not_dash cs : abs_path cs <> b "-".
Proof. discriminate. Qed.
Lemma abs_normal cs : Forall good cs -> abs_path cs <> b "/" -> normal (abs_path cs).
Proof. intros G N. split; [reflexivity|]. split; [apply clean_abs_path; exact G|exact N]. Qed.

Lemma Init_valid u m m' : Init u m = Some m' <->
  valid_manifest u m /\ m' = mkManifest (mName m) (mDescription m) (mPath m) (b "stdio") (mOrigins m) (mExtensions m) (mFile m).
Proof.
  unfold Init, valid_manifest. cbv zeta.
  assert (L : forall x : bool, Bool.eqb x x = true) by (intros []; reflexivity).
  destruct (Bool.eqb (empty (mOrigins m)) (empty (mExtensions m))) eqn:E1.
  { split; [discriminate|]. intros ((H & _) & _). destruct (mOrigins m), (mExtensions m); cbn in E1; try discriminate; destruct H as [[? ?]|[? ?]]; congruence. }
  assert (ONE : mOrigins m = [] /\ mExtensions m <> [] \/ mOrigins m <> [] /\ mExtensions m = []).
  { destruct (mOrigins m), (mExtensions m); cbn in E1; try discriminate; [left|right]; split; congruence. }
  destruct (str_eqb_spec (mName m) []) as [N|N]; [split; [discriminate|intros ((_ & H & _) & _); contradiction]|].
  destruct (str_eqb_spec (mPath m) []) as [P|P]; cbn [orb].
  { split; [discriminate|]. intros ((_ & _ & H & _) & _). rewrite P in H. discriminate. }
  destruct (IsAbs (mPath m)) eqn:A; cbn [negb]; [|split; [discriminate|intros ((_ & _ & H & _) & _); discriminate]].
  destruct (str_eqb_spec (mFile m) []) as [F|F]; [split; [discriminate|intros ((_ & _ & _ & H & _) & _); contradiction]|].
  destruct (str_eqb_spec (mFile m) (b "-")) as [D|D].
  { split; [intros [= <-]; repeat split; auto|]. intros (_ & ->). reflexivity. }
  destruct (str_eqb_spec (ToLower u (Ext (Base (mFile m)))) (b ".json")) as [X|X]; cbn [negb].
  2:{ split; [discriminate|]. intros ((_ & _ & _ & _ & [H|[_ H]]) & _); contradiction. }
  destruct (str_eqb_spec (firstn (length (Base (mFile m)) - length (Ext (Base (mFile m)))) (Base (mFile m))) (mName m)) as [B|B]; cbn [negb].
  - split; [|intros (_ & ->); reflexivity]. intros [= <-]. split; [|reflexivity]. split; [exact ONE|]. repeat split; auto.
    right. split; [|exact X]. rewrite <- B. apply base_parts.
  - split; [discriminate|]. intros ((_ & _ & _ & _ & [H|[H _]]) & _); [contradiction|]. exfalso. apply B.
    pose proof (base_parts (Base (mFile m))) as Q. rewrite H in Q at 1. apply app_inv_tail in Q. congruence.
Qed.

(** ** Programs that do not modify files *)
Definition quiet {A} (p : prog A) (s : state) (P : A -> Prop) : Prop :=
  forall y, steps (p, s) y -> snd y = s /\ fst y <> Abort /\ forall r, fst y = Ret r -> P r.

Lemma steps_bind2 {A B} (f : A -> prog B) p s y : steps (bind p f, s) y ->
  (exists p' s', steps (p, s) (p', s') /\ (forall a, p' <> Ret a) /\ y = (bind p' f, s')) \/
  (exists a s', steps (p, s) (Ret a, s') /\ steps (f a, s') y).
Proof.
  intros H. destruct (steps_bind f _ _ H p s eq_refl) as [(p' & s' & R & ->)|Q]; [|right; exact Q].
  destruct p' as [a| |c k].
  - right. exists a, s'. split; [exact R|constructor].
  - left. exists Abort, s'. split; [exact R|]. split; [discriminate|reflexivity].
  - left. exists (Do c k), s'. split; [exact R|]. split; [discriminate|reflexivity].
Qed.
Lemma bind_ret {A B} (p : prog A) (f : A -> prog B) r : (forall a, p <> Ret a) -> bind p f <> Ret r.
Proof. destruct p as [a| |c k]; cbn; intros H; [exfalso; exact (H a eq_refl)|discriminate|discriminate]. Qed.
Lemma bind_abort {A B} (p : prog A) (f : A -> prog B) : (forall a, p <> Ret a) -> p <> Abort -> bind p f <> Abort.
Proof. destruct p as [a| |c k]; cbn; intros H N; [exfalso; exact (H a eq_refl)|congruence|discriminate]. Qed.

Lemma quiet_ret {A} (a : A) s (P : A -> Prop) : P a -> quiet (Ret a) s P.
Proof. intros H y R. apply steps_ret in R. subst y. split; [reflexivity|]. split; [discriminate|]. intros r [= <-]. exact H. Qed.
Lemma quiet_bind {A B} (p : prog A) (f : A -> prog B) s P Q : quiet p s P -> (forall r, P r -> quiet (f r) s Q) -> quiet (bind p f) s Q.
Proof.
  intros H F y R. apply steps_bind2 in R. destruct R as [(p' & s' & R & N & ->)|(a & s' & R & R2)].
  - destruct (H _ R) as (E & NA & _). cbn [fst snd] in *. split; [exact E|]. split; [apply bind_abort; assumption|].
    intros r Q'. exfalso. exact (bind_ret _ _ _ N Q').
  - destruct (H _ R) as (E & _ & PA). cbn [fst snd] in *. subst s'. apply (F a (PA a eq_refl)). exact R2.
Qed.
Lemma quiet_weaken {A} (p : prog A) s (P Q : A -> Prop) : quiet p s P -> (forall r, P r -> Q r) -> quiet p s Q.
Proof. intros H I y R. destruct (H y R) as (A1 & A2 & A3). split; [exact A1|]. split; [exact A2|]. auto. Qed.

Lemma AsAbs_quiet u f o s : quiet (AsAbsFileName u f o) s (fun r => match r with Some (path, name) => resolves u s f o path name | None => True end).
Proof.
  intros y R. apply AsAbs_runs in R. destruct R as (A & B & C). split; [exact A|]. split; [exact B|]. intros [[path name]|] E; [|exact I].
  apply C. exact E.
Qed.
Lemma RealPath_quiet p s : quiet (RealPath p) s (fun r => match r with Some x => x = real_path s p | None => True end).
Proof.
  intros y R. unfold RealPath in R. apply abs_call_runs in R. destruct R as [(E & N1 & N2)|[R|R]].
  - split; [exact E|]. split; [exact N2|]. intros r E2. exfalso. exact (N1 _ E2).
  - apply steps_simple in R; [|exact I]. destruct R as [->|(x & s' & D & R)].
    + split; [reflexivity|]. split; discriminate.
    + inversion D as [? ? ? ? E|]; subst; [inversion E; subst|]; apply steps_ret in R; subst y;
        (split; [reflexivity|]; split; [discriminate|]; intros r [= <-]); [reflexivity|exact I].
  - apply steps_ret in R. subst y. split; [reflexivity|]. split; [discriminate|]. intros r [= <-]. exact I.
Qed.
Lemma fix_sources_quiet l s : quiet (fix_sources l) s (fun r => match r with
  | Some l' => l' = map (fun x => (fst x, real_path s (snd x))) l
  | None => True end).
Proof.
  induction l as [|[k name] l IH]; cbn [fix_sources].
  - apply quiet_ret. reflexivity.
  - eapply quiet_bind; [apply RealPath_quiet|]. intros [p|]; [|intros _; apply quiet_ret; exact I].
    intros ->. eapply quiet_bind; [exact IH|]. intros [r|]; [|intros _; apply quiet_ret; exact I].
    intros ->. apply quiet_ret. reflexivity.
Qed.
Lemma with_log_same c : with_log c (LogFile c) = c.
Proof. destruct c; reflexivity. Qed.
Lemma FixPaths_quiet u c s : quiet (FixPaths u c) s (fun r => match r with
  | Some (exe, c') => exe = real_path s (self (env s)) /\ with_paths u s c c'
  | None => True end).
Proof.
  unfold FixPaths. intros y R. apply steps_simple in R; [|exact I]. destruct R as [->|(x & s' & D & R)].
  { split; [reflexivity|]. split; discriminate. }
  inversion D as [? ? ? ? E|]; subst; [inversion E; subst|apply steps_ret in R; subst y; split; [reflexivity|]; split; [discriminate|]; intros r [= <-]; exact I].
  revert y R. change (quiet (bind (RealPath (self (env s'))) (fun p0 =>
          match p0 with
          | None => Ret None
          | Some exe =>
              let sources c := bind (fix_sources (LinkSources c)) (fun r =>
                match r with Some l => Ret (Some (exe, with_sources c l)) | None => Ret None end) in
              if negb (str_eqb (LogFile c) []) && negb (str_eqb (LogFile c) (b "-")) then
                bind (AsAbsFileName u (LogFile c) no_options) (fun r =>
                  match r with Some (p, _) => sources (with_log c p) | None => Ret None end)
              else sources c
          end)) s' (fun r => match r with
    | Some (exe, c') => exe = real_path s' (self (env s')) /\ with_paths u s' c c'
    | None => True end)).
  eapply quiet_bind; [apply RealPath_quiet|]. intros [exe|]; [|intros _; apply quiet_ret; exact I]. intros EXE. cbv zeta.
  assert (S : forall log, (LogFile c = [] /\ log = [] \/ LogFile c <> [] /\ exists n, resolves u s' (LogFile c) no_options log n) ->
     quiet (bind (fix_sources (LinkSources (with_log c log))) (fun r =>
                match r with Some l => Ret (Some (exe, with_sources (with_log c log) l)) | None => Ret None end)) s'
       (fun r => match r with Some (exe, c') => exe = real_path s' (self (env s')) /\ with_paths u s' c c' | None => True end)).
  { intros log L. eapply quiet_bind; [apply fix_sources_quiet|]. intros [l|]; [|intros _; apply quiet_ret; exact I].
    intros ->. apply quiet_ret. split; [exact EXE|]. exists log. split; [reflexivity|exact L]. }
  destruct (str_eqb_spec (LogFile c) []) as [N1|N1]; cbn [negb andb].
  - specialize (S (LogFile c)). rewrite with_log_same in S. apply S. left. auto.
  - destruct (str_eqb_spec (LogFile c) (b "-")) as [N2|N2]; cbn [negb].
    + specialize (S (LogFile c)). rewrite with_log_same in S. apply S. right. split; [exact N1|]. exists []. left. auto.
    + eapply quiet_bind; [apply AsAbs_quiet|]. intros [[path name]|]; [|intros _; apply quiet_ret; exact I].
      intros H. apply S. right. split; [exact N1|]. eauto.
Qed.

(** ** Phases of installation *)
Definition triple {A} (I : state -> Prop) (p : prog A) (K : state -> Prop) (J : A -> state -> Prop) : Prop :=
  forall s y, I s -> steps (p, s) y -> K (snd y) /\ forall r, fst y = Ret r -> J r (snd y).

Lemma triple_ret {A} (a : A) (I K : state -> Prop) (J : A -> state -> Prop) : (forall s, I s -> K s) -> (forall s, I s -> J a s) -> triple I (Ret a) K J.
Proof. intros H1 H2 s y Hs R. apply steps_ret in R. subst y. split; [apply H1; exact Hs|]. intros r [= <-]. apply H2. exact Hs. Qed.
Lemma triple_bind {A B} (p : prog A) (f : A -> prog B) I K J L : triple I p K J -> (forall r, triple (fun s => J r s /\ K s) (f r) K L) -> triple I (bind p f) K L.
Proof.
  intros H F s y Hs R. apply steps_bind2 in R. destruct R as [(p' & s' & R & N & ->)|(a & s' & R & R2)].
  - destruct (H _ _ Hs R) as (E & _). cbn [fst snd] in *. split; [exact E|]. intros r Q. exfalso. exact (bind_ret _ _ _ N Q).
  - destruct (H _ _ Hs R) as (KA & PA). cbn [fst snd] in *. exact (F a s' y (conj (PA a eq_refl) KA) R2).
Qed.
Lemma triple_quiet {A} (p : prog A) (I K : state -> Prop) (P : state -> A -> Prop) :
  (forall s, I s -> K s) -> (forall s, I s -> quiet p s (P s)) -> triple I p K (fun r s => I s /\ P s r).
Proof. intros H1 H2 s y Hs R. destruct (H2 s Hs y R) as (-> & _ & PR). split; [apply H1; exact Hs|]. intros r E. split; [exact Hs|]. apply PR. exact E. Qed.

Definition steady (g : str -> str -> N -> Prop) (s0 s : state) (x : str) : Prop :=
  fs s x = fs s0 x \/ exists content mode, g x content mode /\ (fs s x = Some (File content mode) \/ bits_added s0 s x content mode).
Definition leftover (g : str -> str -> N -> Prop) (s0 s : state) (x : str) : Prop :=
  exists dest content mode c1 c2 m, g dest content mode /\ fs s0 x = None /\ Dir x = Dir dest /\ content = c1 ++ c2 /\ fs s x = Some (File c1 m).
Record inv (g : str -> str -> N -> Prop) (s0 : state) (printed : bool) (s : state) : Prop := {
  i_steady : forall x, steady g s0 s x;
  i_folders : same_folders s0 s;
  i_env : env s = env s0;
  i_out : if printed then exists content mode, g (b "-") content mode /\ out s = out s0 ++ content else out s = out s0 }.
Definition crash (g : str -> str -> N -> Prop) (s0 s : state) : Prop :=
  (forall x, steady g s0 s x \/ leftover g s0 s x) /\ output_ok g s0 s.

Lemma inv_crash g s0 printed s : inv g s0 printed s -> crash g s0 s.
Proof.
  intros []. split; [intros x; left; apply i_steady0|]. unfold output_ok. destruct printed; [|left; assumption].
  destruct i_out0 as (content & mode & G & E). right. exists content, mode, content, []. rewrite app_nil_r. auto.
Qed.
Lemma steady_same g s0 s s' x : fs s' x = fs s x -> steady g s0 s x -> steady g s0 s' x.
Proof.
  intros E [H|(content & mode & G & H)]; [left; congruence|]. right. exists content, mode. split; [exact G|].
  destruct H as [H|(extra & m & A & B & C & D)]; [left; congruence|]. right. exists extra, m. repeat split; congruence.
Qed.
Lemma steady_none g s0 s x : steady g s0 s x -> fs s x = None -> fs s0 x = None.
Proof.
  intros [H|(content & mode & G & [H|(extra & m & A & B & C & D)])] E; congruence.
Qed.

Lemma land_lor m : N.land (N.lor m 320) 320 <> 0%N.
Proof. rewrite N.land_lor_distr_l. intros Q. apply N.lor_eq_0_iff in Q. destruct Q as [_ Q]. discriminate. Qed.

Lemma write_phase (g : str -> str -> N -> Prop) s0 printed dest content mode force :
  (forall d c m, g d c m -> N.land m 320 <> 0%N) -> g dest content mode ->
  (dest = b "-" /\ printed = false \/ normal dest) ->
  triple (inv g s0 printed) (WriteFile dest content mode force) (crash g s0)
    (fun r s => match r with Ok _ => inv g s0 (printed || str_eqb dest (b "-")) s | Err _ => True end).
Proof.
  intros GM G D s y IS R. pose proof (steps_env _ _ R) as EV. cbn [snd] in EV. destruct D as [(-> & ->)|NP].
  - apply WriteFile_stdout in R. destruct R as (F & c1 & c2 & EC & EO & OK & _). pose proof (i_out _ _ _ _ IS) as O. cbv iota in O.
    split.
    + split.
      * intros x. left. apply (steady_same g s0 s); [rewrite F; reflexivity|]. apply (i_steady _ _ _ _ IS).
      * right. exists content, mode, c1, c2. rewrite EO, O. auto.
    + intros [[]|e] E; [|exact I]. specialize (OK E). subst c2. rewrite app_nil_r in EC. subst c1. cbn [orb]. change (str_eqb (b "-") (b "-")) with true.
      constructor.
      * intros x. apply (steady_same g s0 s); [rewrite F; reflexivity|]. apply (i_steady _ _ _ _ IS).
      * intros x. rewrite F. apply (i_folders _ _ _ _ IS).
      * rewrite EV. apply (i_env _ _ _ _ IS).
      * exists content, mode. rewrite EO, O. auto.
  - assert (FO : same_folders s (snd y)) by exact (steps_folders _ _ R).
    apply WriteFile_runs in R; [|exact NP]. pose proof (r_out _ _ _ _ _ _ R) as O.
    assert (OO : forall p : bool, (if p then exists content mode, g (b "-") content mode /\ out s = out s0 ++ content else out s = out s0) ->
       (if p then exists content mode, g (b "-") content mode /\ out (snd y) = out s0 ++ content else out (snd y) = out s0)).
    { rewrite O. auto. }
    assert (SD : steady g s0 (snd y) dest).
    { destruct (r_dest _ _ _ _ _ _ R) as [Q|[Q|(extra & m & Q1 & Q2 & Q3 & Q4)]].
      - apply (steady_same g s0 s); [exact Q|]. apply (i_steady _ _ _ _ IS).
      - right. exists content, mode. auto.
      - right. exists content, mode. split; [exact G|]. right. exists extra, m. repeat split; auto.
        destruct (i_steady _ _ _ _ IS dest) as [S|(content' & mode' & G' & [S|(extra' & m' & S1 & S2 & S3 & S4)])].
        + congruence.
        + exfalso. rewrite Q1 in S. injection S as _ <-. exact (GM _ _ _ G' Q2).
        + exfalso. rewrite Q1 in S4. injection S4 as _ ->. exact (land_lor m' Q2). }
    split.
    + split.
      * intros x. destruct (str_dec x dest) as [->|N]; [left; exact SD|].
        destruct (r_others _ _ _ _ _ _ R) as [Q|(t & c1 & c2 & m & (F1 & F2 & F3 & F4) & Q2 & Q3 & Q4)].
        -- left. apply (steady_same g s0 s); [apply Q; exact N|]. apply (i_steady _ _ _ _ IS).
        -- destruct (str_dec x t) as [->|N2].
           ++ right. exists dest, content, mode, c1, c2, m. split; [exact G|].
              split; [apply (steady_none g s0 s); [apply (i_steady _ _ _ _ IS)|exact F1]|]. auto.
           ++ left. apply (steady_same g s0 s); [apply Q4; assumption|]. apply (i_steady _ _ _ _ IS).
      * assert (C := proj2 (inv_crash _ _ _ _ IS)). destruct C as [C|(content' & mode' & c1 & c2 & C1 & C2 & C3)]; [left; congruence|].
        right. exists content', mode', c1, c2. rewrite O. auto.
    + intros [[]|e] E; [|exact I]. destruct (r_ok _ _ _ _ _ _ R E) as (X & _).
      assert (DN : str_eqb dest (b "-") = false). { destruct (str_eqb_spec dest (b "-")) as [->|]; [destruct NP; discriminate|reflexivity]. }
      rewrite DN, orb_false_r. constructor.
      * intros x. destruct (str_dec x dest) as [->|N]; [exact SD|]. apply (steady_same g s0 s); [apply X; exact N|]. apply (i_steady _ _ _ _ IS).
      * intros x. exact (iff_trans (FO x) (i_folders _ _ _ _ IS x)).
      * rewrite EV. apply (i_env _ _ _ _ IS).
      * apply OO. apply (i_out _ _ _ _ IS).
Qed.

Lemma generated_mode q u s0 c d content mode : generated q u s0 c d content mode -> N.land mode 320 <> 0%N.
Proof. intros []; discriminate. Qed.

Lemma inv_start g s : inv g s false s.
Proof. constructor; [intros x; left; reflexivity|intros x; tauto|reflexivity|reflexivity]. Qed.

Lemma triple_weaken {A} (I I' : state -> Prop) (p : prog A) K J : (forall s, I' s -> I s) -> triple I p K J -> triple I' p K J.
Proof. intros H T s y Hs R. exact (T s y (H s Hs) R). Qed.
Lemma triple_pure {A} (P : Prop) (I : state -> Prop) (p : prog A) K J : (P -> triple I p K J) -> triple (fun s => I s /\ P) p K J.
Proof. intros H s y [Hs HP] R. exact (H HP s y Hs R). Qed.

Definition no_error (g : str -> str -> N -> Prop) (s0 : state) (printed : bool) (r : option ierr) (s : state) : Prop :=
  match r with None => inv g s0 printed s | Some _ => True end.

Lemma wrapper_phase q u s0 c c' custom exe wrapper : exe = real_path s0 (self (env s0)) -> with_paths u s0 c c' -> exe <> b "-" ->
  (wrapper = [] /\ custom = false \/ WrapperPath c <> [] /\ (exists n, resolves u s0 (WrapperPath c) no_options wrapper n) /\ (wrapper = b "-" \/ normal wrapper)) ->
  triple (inv (generated q u s0 c) s0 false) (write_wrapper q c' custom exe wrapper) (crash (generated q u s0 c) s0)
    (no_error (generated q u s0 c) s0 (str_eqb wrapper (b "-"))).
Proof.
  intros EX WP ED W. unfold write_wrapper, is_empty. set (g := generated q u s0 c).
  assert (SAME : forall s, inv g s0 false s -> crash g s0 s) by (intros s; apply inv_crash).
  destruct W as [(-> & ->)|(WN & RS & D)].
  - change (str_eqb [] [] ) with true. cbn [negb orb]. apply triple_ret; [exact SAME|]. intros s H. exact H.
  - assert (WE : wrapper <> []) by (destruct D as [->|(A & _)]; [discriminate|intros ->; discriminate]).
    destruct (str_eqb_spec wrapper []); [contradiction|]. cbn [negb orb].
    destruct (str_eqb_spec wrapper exe) as [EE|NE]; cbn [negb].
    + destruct custom; (apply triple_ret; [exact SAME|]).
      * intros s _. exact I.
      * intros s H. unfold no_error. destruct (str_eqb_spec wrapper (b "-")); [congruence|exact H].
    + destruct (q exe) as [qexe|] eqn:QE; [|apply triple_ret; [exact SAME|intros s _; exact I]].
      destruct (AsShellCommand q c') as [[args|]|] eqn:AS.
      * eapply triple_bind.
        -- apply write_phase with (printed := false).
           ++ intros d0 c0 m0 Q. exact (generated_mode _ _ _ _ _ _ _ Q).
           ++ apply g_wrapper with c'; try assumption; rewrite <- EX; assumption.
           ++ destruct D as [D|D]; [left|right]; auto.
        -- intros [[]|e]; cbn [orb]; (apply triple_ret; [intros s [_ H]; exact H|]); intros s [H _]; exact H.
      * apply triple_ret; [exact SAME|intros s _; exact I].
      * intros s y H R. apply steps_abort in R. subst y. split; [apply SAME; exact H|]. intros r [=].
Qed.

Lemma manifest_normal u m : valid_manifest u m -> (exists cs, Forall good cs /\ mFile m = abs_path cs) -> normal (mFile m).
Proof.
  intros (_ & _ & _ & _ & H) (cs & G & E). rewrite E. apply abs_normal; [exact G|]. intros Q. rewrite <- E in Q. rewrite Q in H.
  destruct H as [H|[_ H]]; [discriminate|]. cbn in H. discriminate.
Qed.

Lemma origin_ok id : chrome_origin id (origin id).
Proof.
  unfold chrome_origin, origin. destruct (has_prefix id (b "chrome-extension://")) eqn:E.
  - left. split; [|reflexivity]. apply has_prefix_iff in E. exact E.
  - right. split; [|reflexivity]. intros t Q. assert (has_prefix id (b "chrome-extension://") = true) by (apply has_prefix_iff; eauto). congruence.
Qed.
Lemma origins_ok l : Forall2 chrome_origin l (map origin l).
Proof. induction l; cbn; constructor; auto using origin_ok. Qed.

Lemma manifest_phase q u s0 c c' target file origins extensions printed : sane s0 ->
  Name c' = Name c -> Force c' = Force c ->
  manifest_target u s0 c target -> (file = b "-" -> printed = false) ->
  (origins = [] /\ extensions = slice (MozillaExtensionID c) /\ file = FirefoxManifest c \/
   extensions = [] /\ Forall2 chrome_origin (slice (ChromeExtensionID c)) origins /\ file = ChromeManifest c) ->
  triple (inv (generated q u s0 c) s0 printed) (one_manifest u c' target file origins extensions) (crash (generated q u s0 c) s0)
    (no_error (generated q u s0 c) s0 (printed || str_eqb file (b "-"))).
Proof.
  intros SA EN EF MT PR LI. unfold one_manifest. set (g := generated q u s0 c).
  assert (SAME : forall s, inv g s0 printed s -> crash g s0 s) by (intros s; apply inv_crash).
  destruct (str_eqb_spec file []) as [FE|FE].
  { apply triple_ret; [exact SAME|]. intros s H. unfold no_error. rewrite FE. change (str_eqb [] (b "-")) with false. rewrite orb_false_r. exact H. }
  eapply triple_bind.
  { apply triple_quiet; [exact SAME|]. intros s _. apply AsAbs_quiet. }
  intros [[path name]|]; [|apply triple_ret; [intros s [_ K]; exact K|intros s _; exact I]]. cbv beta iota.
  intros s y [[IS RS] _] R. unfold writeManifest in R.
  destruct (Init u _) as [m'|] eqn:IN.
  2:{ apply steps_ret in R. subst y. split; [apply SAME; exact IS|]. intros r [= <-]. exact I. }
  apply Init_valid in IN. destruct IN as (V & ->). cbn [mName mDescription mPath mType mOrigins mExtensions mFile] in *.
  set (m := mkManifest name Description target (b "stdio") origins extensions path) in *.
  assert (V' : valid_manifest u m) by exact V.
  assert (ND : file <> b "-" -> normal path).
  { intros N. change path with (mFile m). apply (manifest_normal u); [exact V'|]. refine (resolves_abs _ _ _ _ _ _ _ N RS).
    destruct SA as (S1 & S2 & S3). unfold sane. rewrite (i_env _ _ _ _ IS). split; [apply (i_folders _ _ _ _ IS); exact S1|auto]. }
  assert (PD : str_eqb path (b "-") = str_eqb file (b "-")).
  { destruct (str_eqb_spec file (b "-")) as [->|N].
    - apply resolves_dash in RS. rewrite RS. reflexivity.
    - destruct (str_eqb_spec path (b "-")) as [->|]; [|reflexivity]. destruct (ND N). discriminate. }
  assert (G : g (mFile m) (MarshalIndent m ++ nl) 420%N).
  { apply g_manifest with file s; auto.
    - exact (i_folders _ _ _ _ IS).
    - exact (i_env _ _ _ _ IS).
    - unfold manifest_options in RS. rewrite EN in RS. exact RS. }
  assert (T : triple (inv g s0 printed) (bind (WriteFile path (MarshalIndent m ++ nl) 420 (Force c')) (fun r =>
        match r with Ok _ => Ret None | Err e => Ret (Some (IManifest e)) end)) (crash g s0) (no_error g s0 (printed || str_eqb file (b "-")))).
  { eapply triple_bind.
    - apply write_phase with (printed := printed).
      + intros d0 c0 m0 Q. exact (generated_mode _ _ _ _ _ _ _ Q).
      + exact G.
      + destruct (str_eqb_spec file (b "-")) as [N|N]; [left|right; auto]. split; [apply str_eqb_eq; rewrite PD; reflexivity|auto].
    - rewrite PD. intros [[]|e]; (apply triple_ret; [intros s1 [_ H]; exact H|]); intros s1 [H _]; exact H. }
  exact (T s y IS R).
Qed.

Lemma with_paths_fields u s c c' : with_paths u s c c' ->
  Name c' = Name c /\ Force c' = Force c /\ WrapperPath c' = WrapperPath c /\ FirefoxManifest c' = FirefoxManifest c /\
  ChromeManifest c' = ChromeManifest c /\ MozillaExtensionID c' = MozillaExtensionID c /\ ChromeExtensionID c' = ChromeExtensionID c.
Proof. intros (log & -> & _). destruct c; cbn. repeat split. Qed.

Lemma manifests_phase q u s0 c c' target printed : sane s0 ->
  with_paths u s0 c c' -> manifest_target u s0 c target ->
  (FirefoxManifest c = b "-" -> printed = false /\ ChromeManifest c <> b "-") -> (ChromeManifest c = b "-" -> printed = false) ->
  triple (inv (generated q u s0 c) s0 printed) (manifests u c' target) (crash (generated q u s0 c) s0) (fun _ _ => True).
Proof.
  intros SA WP MT P1 P2. unfold manifests. destruct (with_paths_fields _ _ c c' WP) as (E1 & E2 & E3 & E4 & E5 & E6 & E7).
  eapply triple_bind.
  { apply manifest_phase with (c := c) (printed := printed) (q := q) (s0 := s0); auto.
    - rewrite E4. intros Q. apply P1 in Q. tauto.
    - left. rewrite E4, E6. auto. }
  intros [e|].
  - apply triple_ret; [intros s [_ H]; exact H|auto].
  - unfold no_error at 1.
    assert (T : triple (inv (generated q u s0 c) s0 (printed || str_eqb (FirefoxManifest c') (b "-")))
      (one_manifest u c' target (ChromeManifest c') (map origin (slice (ChromeExtensionID c'))) [])
      (crash (generated q u s0 c) s0) (no_error (generated q u s0 c) s0 ((printed || str_eqb (FirefoxManifest c') (b "-")) || str_eqb (ChromeManifest c') (b "-")))).
    { apply manifest_phase; auto.
      - rewrite E5, E4. intros Q. rewrite (P2 Q). cbn [orb]. destruct (str_eqb_spec (FirefoxManifest c) (b "-")) as [Z|]; [|reflexivity].
        destruct (P1 Z). contradiction.
      - right. rewrite E5, E7. split; [reflexivity|]. split; [apply origins_ok|reflexivity]. }
    intros s y [H _] R. destruct (T s y H R) as [K _]. split; [exact K|auto].
Qed.

Lemma install_runs q u c s0 y : sane s0 -> steps (processInstallFlags q u c, s0) y ->
  crash (generated q u s0 c) s0 (snd y).
Proof.
  intros SA R.
  assert (TRIV : snd y = s0 -> crash (generated q u s0 c) s0 (snd y)).
  { intros ->. apply inv_crash with false. apply inv_start. }
  unfold processInstallFlags in R. cbv zeta in R.
  destruct (count (fun f => negb (is_empty f)) [WrapperPath c; FirefoxManifest c; ChromeManifest c] =? 0)%nat.
  { apply steps_ret in R. subst y. apply TRIV. reflexivity. }
  destruct (1 <? count is_dash [WrapperPath c; FirefoxManifest c; ChromeManifest c])%nat eqn:CD.
  { apply steps_ret in R. subst y. apply TRIV. reflexivity. }
  destruct (is_dash (WrapperPath c) && (negb (is_empty (FirefoxManifest c)) || negb (is_empty (ChromeManifest c)))) eqn:WD.
  { apply steps_ret in R. subst y. apply TRIV. reflexivity. }
  destruct (is_empty (WrapperPath c) && Customized c) eqn:EC.
  { apply steps_ret in R. subst y. apply TRIV. reflexivity. }
  assert (P1 : FirefoxManifest c = b "-" -> ChromeManifest c <> b "-" /\ WrapperPath c <> b "-").
  { intros E. rewrite E in CD, WD. cbn in CD. unfold is_dash in CD, WD.
    destruct (str_eqb_spec (WrapperPath c) (b "-")) as [E2|N2]; [cbn in WD; discriminate|]. split; [|exact N2].
    intros E3. rewrite E3 in CD. cbn in CD. destruct (str_eqb (WrapperPath c) (b "-")); cbn in CD; discriminate. }
  assert (P2 : ChromeManifest c = b "-" -> WrapperPath c <> b "-").
  { intros E E2. rewrite E, E2 in WD. unfold is_dash, is_empty in WD. cbn in WD. rewrite orb_true_r in WD. discriminate. }
  clear CD WD. apply steps_bind2 in R. destruct R as [(p' & s' & R & N & ->)|(a & s' & R & R2)].
  { apply TRIV. destruct (FixPaths_quiet u c s0 _ R) as (E & _). exact E. }
  destruct (FixPaths_quiet u c s0 _ R) as (E & _ & PA). cbn [fst snd] in *. subst s'. specialize (PA a eq_refl). clear R.
  destruct a as [[exe c']|].
  2:{ apply steps_ret in R2. subst y. apply TRIV. reflexivity. }
  destruct PA as (EX & WP). destruct (with_paths_fields _ _ c c' WP) as (E1 & E2 & E3 & E4 & E5 & E6 & E7).
  assert (ED : exe <> b "-") by (destruct (real_abs s0 (self (env s0)) SA) as (ecs & _ & Q); rewrite EX, Q; discriminate). set (g := generated q u s0 c).
  assert (REST : forall manifestExe wrapper,
    manifest_target u s0 c (if is_empty manifestExe then exe else manifestExe) ->
    (wrapper = [] /\ Customized c = false \/
      WrapperPath c <> [] /\ (exists n, resolves u s0 (WrapperPath c) no_options wrapper n) /\ (wrapper = b "-" \/ normal wrapper)) ->
    (wrapper = b "-" -> WrapperPath c = b "-") ->
    triple (inv g s0 false) (bind (write_wrapper q c' (Customized c) exe wrapper) (fun e =>
              match e with
              | Some e => Ret (true, Some e)
              | None =>
                  bind (manifests u c' (if is_empty manifestExe then exe else manifestExe)) (fun e => Ret (true, e))
              end)) (crash g s0) (fun _ _ => True)).
  { intros me wr MT W WD. eapply triple_bind.
    - apply wrapper_phase with (c := c) (u := u) (s0 := s0); auto.
    - intros [e|]; [apply triple_ret; [intros s [_ H]; exact H|auto]|]. unfold no_error.
      apply triple_weaken with (inv g s0 (str_eqb wr (b "-"))); [intros s [H _]; exact H|]. eapply triple_bind.
      + apply manifests_phase with (c := c) (q := q) (s0 := s0); [exact SA|exact WP|exact MT| |].
        * intros Q. destruct (P1 Q) as [A B]. split; [|exact A]. destruct (str_eqb_spec wr (b "-")) as [Z|]; [|reflexivity]. apply WD in Z. contradiction.
        * intros Q. apply P2 in Q. destruct (str_eqb_spec wr (b "-")) as [Z|]; [|reflexivity]. apply WD in Z. contradiction.
      + intros e. apply triple_ret; [intros s [_ H]; exact H|auto]. }
  rewrite E3 in R2. unfold is_empty at 1, is_dash at 1 in R2.
  destruct (str_eqb_spec (WrapperPath c) []) as [WE|WE]; cbn [negb andb] in R2.
  - destruct (REST [] (WrapperPath c)) with (s := s0) (y := y) as [K _]; auto.
    + unfold manifest_target. rewrite WE. exact EX.
    + left. split; [exact WE|]. rewrite WE in EC. exact EC.
    + apply inv_start.
  - destruct (str_eqb_spec (WrapperPath c) (b "-")) as [WDA|WDA]; cbn [negb] in R2.
    + destruct (REST [] (WrapperPath c)) with (s := s0) (y := y) as [K _]; auto.
      * unfold manifest_target. rewrite WDA. exact EX.
      * right. split; [exact WE|]. split; [|left; exact WDA]. exists []. left. auto.
      * apply inv_start.
    + apply steps_bind2 in R2. destruct R2 as [(p' & s' & R & N & ->)|(a & s' & R & R2)].
      { destruct (AsAbs_quiet _ _ _ _ _ R) as (E & _). cbn [snd] in *. subst s'. apply inv_crash with false. apply inv_start. }
      destruct (AsAbs_quiet _ _ _ _ _ R) as (E & _ & PA). cbn [fst snd] in *. subst s'. specialize (PA a eq_refl). clear R.
      destruct a as [[path n]|].
      2:{ apply steps_ret in R2. subst y. apply inv_crash with false. apply inv_start. }
      pose proof (resolves_abs _ _ _ _ _ _ SA WDA PA) as (cs & CG & ->).
      assert (NP : normal (abs_path cs)).
      { apply abs_normal; [exact CG|]. intros Q. destruct PA as [(? & _)|(_ & PA)]; [contradiction|]. cbv zeta in PA.
        destruct PA as [(_ & Z1 & Z2 & _)|(C & Z & _)]; [cbn in Z1; congruence|]. rewrite <- Z, Q in C.
        destruct SA as (ROOT & _).
        destruct C as [[C _]|(? & ? & C)]; congruence. }
      destruct (REST (abs_path cs) (abs_path cs)) with (s := s0) (y := y) as [K _]; auto.
      * unfold manifest_target. destruct (str_eqb_spec (WrapperPath c) []); [contradiction|].
        destruct (str_eqb_spec (WrapperPath c) (b "-")); [contradiction|]. cbn [orb]. exists n. exact PA.
      * right. split; [exact WE|]. split; [eauto|right; exact NP].
      * intros Q. discriminate.
      * apply inv_start.
Qed.

(** ** Lemmas for theorems *)
Lemma C47_lemma u f o s p s' : steps (AsAbsFileName u f o, s) (p, s') ->
  s' = s /\ p <> Abort /\ forall path name, p = Ret (Some (path, name)) -> resolves u s f o path name.
Proof. intros R. apply AsAbs_runs in R. exact R. Qed.

Lemma exact_abs_call {A} f (k : option str -> prog A) s r s' : runs_exact (abs_call f k, s) (Ret r, s') ->
  runs_exact (k (Some (absolute s f)), s) (Ret r, s').
Proof.
  unfold abs_call, absolute. destruct (IsAbs f); [auto|]. intros R. apply exact_do in R. destruct R as (a & s1 & E & R).
  inversion E; subst. exact R.
Qed.
Lemma C47_complete_lemma u f o s r s' path name : runs_exact (AsAbsFileName u f o, s) (Ret r, s') ->
  resolves u s f o path name -> r = Some (path, name).
Proof.
  intros R H. unfold AsAbsFileName in R. cbv zeta in R.
  assert (RQ : (if negb (str_eqb (oName o) []) then oName o else oDefault o) = match oName o with [] => oDefault o | n => n end).
  { destruct (oName o); reflexivity. }
  rewrite RQ in R. clear RQ.
  destruct H as [(-> & -> & ->)|(ND & H)].
  - change (str_eqb (b "-") (b "-")) with true in R. cbv iota in R. apply exact_ret in R. destruct R as [<- _]. reflexivity.
  - destruct (str_eqb_spec f (b "-")); [contradiction|]. apply exact_abs_call in R. cbv zeta in H. set (a := absolute s f) in *.
    apply exact_do in R. destruct R as (st & s1 & E & R).
    destruct H as [(F & -> & NE & ->)|(C & -> & NF)].
    + inversion E; subst; try congruence. cbv iota in R.
      match type of R with context [negb (str_eqb ?x [])] => destruct (str_eqb_spec x []) end; [contradiction|].
      cbn [negb] in R. apply exact_ret in R. destruct R as [<- _]. reflexivity.
    + apply nameFromPath_ok in NF. destruct C as [(F1 & F2)|(c & m & F)].
      * inversion E; subst; try congruence. cbv iota in R. apply exact_do in R. destruct R as (st & s2 & E2 & R).
        inversion E2; subst; try congruence. cbv iota in R. rewrite NF in R. apply exact_ret in R. destruct R as [<- _]. reflexivity.
      * inversion E; subst; try congruence. cbv iota in R. rewrite NF in R. apply exact_ret in R. destruct R as [<- _]. reflexivity.
Qed.
Lemma C47_absolute_lemma u s f o path name : sane s -> f <> b "-" -> resolves u s f o path name -> IsAbs path = true /\ Clean path = path.
Proof. intros S N H. apply resolves_abs in H; [|exact S|exact N]. destruct H as (cs & G & ->). split; [reflexivity|]. apply clean_abs_path. exact G. Qed.
Lemma good_json name : ~ In "/"%char name -> good (name ++ b ".json").
Proof.
  intros N. repeat split.
  - destruct name; discriminate.
  - intros I. apply in_app_or in I. destruct I as [I|I]; [contradiction|]. cbn in I. repeat (destruct I as [I|I]; [discriminate|]). destruct I.
  - destruct name as [|x [|y t]]; discriminate.
  - destruct name as [|x [|y [|z t]]]; discriminate.
Qed.
Lemma C47_named_lemma u s f o path name : sane s -> f <> b "-" -> oExt o = b ".json" -> ToLower u (b ".json") = b ".json" ->
  ~ In "/"%char name -> resolves u s f o path name -> exists e, Base path = name ++ e /\ ToLower u e = b ".json".
Proof.
  intros S N EX LO NS [(E & _)|(_ & H)]; [contradiction|]. cbv zeta in H. destruct (absolute_abs s f S) as (cs & G & E). rewrite E in H.
  destruct H as [(_ & _ & _ & ->)|(_ & _ & NF)].
  - exists (b ".json"). split; [|exact LO]. rewrite EX. rewrite Join_abs by (auto using good_json). apply Base_abs. apply good_json. exact NS.
  - destruct NF as (_ & _ & NF). rewrite EX in NF. exists (Ext (Base path)). apply NF. discriminate.
Qed.

Lemma C48_lemma u m : (valid_manifest u m ->
    Init u m = Some (mkManifest (mName m) (mDescription m) (mPath m) (b "stdio") (mOrigins m) (mExtensions m) (mFile m))) /\
  (~ valid_manifest u m -> Init u m = None).
Proof.
  split.
  - intros V. apply Init_valid. auto.
  - intros N. destruct (Init u m) eqn:E; [|reflexivity]. apply Init_valid in E. destruct E. contradiction.
Qed.

Lemma C49_lemma q u c s0 p s : sane s0 -> steps (processInstallFlags q u c, s0) (p, s) ->
  (forall x, accounted (generated q u s0 c) s0 s x) /\ output_ok (generated q u s0 c) s0 s.
Proof.
  intros S R. apply install_runs in R; [|exact S]. destruct R as [A B]. split; [|exact B]. intros x. destruct (A x) as [[H|H]|H].
  - left. exact H.
  - right; left. exact H.
  - right; right. exact H.
Qed.

Lemma resolves_fun u s f o p1 n1 p2 n2 : resolves u s f o p1 n1 -> resolves u s f o p2 n2 -> p1 = p2 /\ n1 = n2.
Proof.
  intros [(A1 & A2 & A3)|(A1 & A)] [(B1 & B2 & B3)|(B1 & B)]; try contradiction.
  - subst. auto.
  - cbv zeta in A, B. destruct A as [(F1 & E1 & _ & P1)|(C1 & P1 & N1)], B as [(F2 & E2 & _ & P2)|(C2 & P2 & N2)].
    + subst. auto.
    + exfalso. destruct C2 as [[C2 _]|(? & ? & C2)]; congruence.
    + exfalso. destruct C1 as [[C1 _]|(? & ? & C1)]; congruence.
    + subst. apply nameFromPath_ok in N1, N2. rewrite N1 in N2. injection N2 as ->. auto.
Qed.

Lemma C50_nothing_lemma q u c s0 y : WrapperPath c = [] -> FirefoxManifest c = [] -> ChromeManifest c = [] ->
  steps (processInstallFlags q u c, s0) y -> y = (Ret (false, None), s0).
Proof. intros A B C R. unfold processInstallFlags in R. rewrite A, B, C in R. cbn in R. apply steps_ret in R. exact R. Qed.

Lemma C50_refused_lemma q u c s0 y :
  (FirefoxManifest c = b "-" /\ ChromeManifest c = b "-" \/
   WrapperPath c = b "-" /\ (FirefoxManifest c <> [] \/ ChromeManifest c <> []) \/
   WrapperPath c = [] /\ (FirefoxManifest c <> [] \/ ChromeManifest c <> []) /\ Customized c = true) ->
  steps (processInstallFlags q u c, s0) y -> exists e, y = (Ret (true, Some e), s0).
Proof.
  intros H R. unfold processInstallFlags in R. cbv zeta in R.
  assert (NE : (count (fun f => negb (is_empty f)) [WrapperPath c; FirefoxManifest c; ChromeManifest c] =? 0)%nat = false).
  { unfold count, is_empty. cbn [filter]. destruct (str_eqb_spec (WrapperPath c) []) as [E1|E1], (str_eqb_spec (FirefoxManifest c) []) as [E2|E2],
      (str_eqb_spec (ChromeManifest c) []) as [E3|E3]; cbn; try reflexivity. exfalso.
    destruct H as [(A & _)|[(A & _)|(_ & [A|A] & _)]]; [rewrite A in E2; discriminate|rewrite A in E1; discriminate|contradiction|contradiction]. }
  rewrite NE in R.
  destruct (1 <? count is_dash [WrapperPath c; FirefoxManifest c; ChromeManifest c])%nat eqn:CD.
  { apply steps_ret in R. eauto. }
  destruct (is_dash (WrapperPath c) && (negb (is_empty (FirefoxManifest c)) || negb (is_empty (ChromeManifest c)))) eqn:WD.
  { apply steps_ret in R. eauto. }
  destruct (is_empty (WrapperPath c) && Customized c) eqn:EC.
  { apply steps_ret in R. eauto. }
  exfalso. destruct H as [(A & B)|[(A & B)|(A & B & C)]].
  - rewrite A, B in CD. unfold count in CD. cbn [filter] in CD. destruct (is_dash (WrapperPath c)); cbn in CD; discriminate.
  - rewrite A in WD. unfold is_empty in WD. cbn in WD. destruct (str_eqb_spec (FirefoxManifest c) []) as [E1|E1], (str_eqb_spec (ChromeManifest c) []) as [E2|E2];
      cbn in WD; try discriminate. destruct B; contradiction.
  - rewrite A, C in EC. discriminate.
Qed.

Lemma C50_self_lemma q u c s0 p s : sane s0 -> Customized c = true -> WrapperPath c <> [] ->
  (exists n, resolves u s0 (WrapperPath c) no_options (real_path s0 (self (env s0))) n) ->
  steps (processInstallFlags q u c, s0) (p, s) -> s = s0 /\ p <> Ret (true, None) /\ p <> Ret (false, None) /\ p <> Abort.
Proof.
  intros SA CU WE (n & RS) R.
  assert (WD : WrapperPath c <> b "-").
  { destruct (real_abs s0 (self (env s0)) SA) as (ecs & EG & EX). rewrite EX in RS. intros Q. rewrite Q in RS. apply resolves_dash in RS. discriminate. }
  enough (Q : quiet (processInstallFlags q u c) s0 (fun r => r <> (true, None) /\ r <> (false, None))).
  { destruct (Q _ R) as (A & B & C). cbn [fst snd] in *. split; [exact A|]. split; [|split; [|exact B]].
    - intros E. apply C in E. destruct E. congruence.
    - intros E. apply C in E. destruct E. congruence. }
  clear R p s. unfold processInstallFlags. cbv zeta.
  destruct (count (fun f => negb (is_empty f)) _ =? 0)%nat eqn:NE.
  { exfalso. unfold count, is_empty in NE. cbn [filter] in NE. destruct (str_eqb_spec (WrapperPath c) []); [contradiction|]. cbn in NE. discriminate. }
  assert (T : forall e, quiet (Ret (true, Some e)) s0 (fun r : bool * option ierr => r <> (true, None) /\ r <> (false, None))).
  { intros e. apply quiet_ret. split; discriminate. }
  destruct (1 <? count is_dash _)%nat; [apply T|].
  destruct (is_dash (WrapperPath c) && _); [apply T|].
  destruct (is_empty (WrapperPath c) && Customized c); [apply T|].
  eapply quiet_bind; [apply FixPaths_quiet|]. intros [[exe c']|]; [|intros _; apply T]. intros (EX & WP).
  destruct (with_paths_fields _ _ c c' WP) as (E1 & E2 & E3 & E4 & E5 & E6 & E7).
  unfold is_empty at 1, is_dash at 1. rewrite E3.
  destruct (str_eqb_spec (WrapperPath c) []); [contradiction|]. destruct (str_eqb_spec (WrapperPath c) (b "-")); [contradiction|]. cbn [negb andb].
  eapply quiet_bind; [apply AsAbs_quiet|]. intros [[path nm]|]; [|intros _; apply T]. intros H.
  destruct (resolves_fun _ _ _ _ _ _ _ _ H RS) as (-> & _). rewrite <- EX. rewrite CU.
  unfold write_wrapper. rewrite orb_true_r, str_eqb_refl. cbn [negb bind]. apply T.
Qed.
