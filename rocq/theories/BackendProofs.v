(** Proofs: threads, argument lists, once. *)
From Verif Require Import GoBase GoSlice Flags LinkTypes LinkSpec Emacs Backend BackendSpec.
From Coq Require Import Lia ZifyBool ZifyNat.

(** ** Ideal runs: a thread that has arguments of commands for itself.
    [Rel]: what may be passed instead of arguments, [V]: what may be stored by the initializer. *)
Inductive ideal {R} (e : emacs_cfg) (users : list str) (Rel : list str -> list str -> Prop) (V : notes -> Prop)
  : hprog R -> list (label R) -> thread R -> Prop :=
| i_stop p : ideal e users Rel V p [] (TRun p)
| i_start args k rest : Rel args rest -> ideal e users Rel V (HExec args k) [LStart (cmdline e users rest)] (TWait k)
| i_exec args k rest r tr t : Rel args rest -> ideal e users Rel V (k r) tr t ->
    ideal e users Rel V (HExec args k) (LStart (cmdline e users rest) :: LEnd r :: tr) t
| i_read n k r tr t : ideal e users Rel V (k r) tr t -> ideal e users Rel V (HRead n k) (LRead n r :: tr) t
| i_once k v tr t : V v -> ideal e users Rel V (k v) tr t -> ideal e users Rel V (HOnce k) tr t
| i_init_panic k : ideal e users Rel V (HOnce k) [LPanic] TCrash
| i_ret r : ideal e users Rel V (HRet r) [LReply r] (TOver r)
| i_panic : ideal e users Rel V HPanic [LPanic] TCrash.

Definition visible1 {R} (l : label R) : list (label R) :=
  match l with LTau | LInit _ _ => [] | _ => [l] end.
Definition visible {R} (tr : list (label R)) : list (label R) := flat_map visible1 tr.

Lemma ideal_app {R} e users Rel V (p : hprog R) tr p' tr' t :
  ideal e users Rel V p tr (TRun p') -> ideal e users Rel V p' tr' t -> ideal e users Rel V p (tr ++ tr') t.
Proof.
  intros H. remember (TRun p') as t0 eqn:E. revert E.
  induction H; intros E; inversion E; subst; cbn [app]; intros H'; auto; try discriminate; try (econstructor; eauto; fail).
Qed.
Lemma ideal_end {R} e users Rel V (p : hprog R) tr k r :
  ideal e users Rel V p tr (TWait k) -> ideal e users Rel V p (tr ++ [LEnd r]) (TRun (k r)).
Proof.
  intros H. remember (TWait k) as t0 eqn:E. revert E.
  induction H; intros E; inversion E; subst; cbn [app]; try (econstructor; eauto; constructor).
Qed.
Lemma ideal_mono {R} e users (Rel Rel' : list str -> list str -> Prop) (V V' : notes -> Prop) (p : hprog R) tr t :
  (forall a r, Rel a r -> Rel' a r) -> (forall v, V v -> V' v) ->
  ideal e users Rel V p tr t -> ideal e users Rel' V' p tr t.
Proof. intros H1 H2 H. induction H; try (econstructor; eauto; fail). Qed.

(** ** Arrays *)
Definition writes (todo : list (nat * str)) (l : list str) : list str :=
  fold_left (fun l ix => replace_at l (fst ix) (snd ix)) todo l.

Lemma replace_at_none {A} (l : list A) i x : length l <= i -> replace_at l i x = l.
Proof. revert i; induction l as [|y l IH]; intros [|i]; cbn; intros; try lia; auto. f_equal. apply IH. lia. Qed.
Lemma array_poke m a i x a' : array (poke m a i x) a' = if Nat.eqb a a' then (if a <? length m then replace_at (array m a) i x else []) else array m a'.
Proof.
  unfold poke, array. destruct (Nat.eqb_spec a a') as [->|N].
  - destruct (Nat.ltb_spec a' (length m)).
    + apply nth_error_nth. apply replace_at_same. assumption.
    + apply nth_overflow. rewrite replace_at_length. assumption.
  - pose proof (replace_at_other m a a' (replace_at (nth a m []) i x) N) as E.
    destruct (nth_error m a') as [y|] eqn:F.
    + rewrite (nth_error_nth _ _ _ E), (nth_error_nth _ _ _ F). reflexivity.
    + rewrite !nth_overflow; auto; apply nth_error_None; congruence.
Qed.
Lemma length_poke m a i x : length (poke m a i x) = length m.
Proof. apply replace_at_length. Qed.
Lemma writes_length todo : forall l, length (writes todo l) = length l.
Proof. induction todo as [|[i x] todo IH]; intros l; cbn; [reflexivity|]. unfold writes in IH. rewrite IH. apply replace_at_length. Qed.

Lemma replace_at_app {A} (c : list A) y t x : replace_at (c ++ y :: t) (length c) x = c ++ x :: t.
Proof. induction c; cbn; [reflexivity|f_equal; assumption]. Qed.

(** Consecutive writes *)
Lemma writes_fill xs : forall c l, length c + length xs <= length l -> firstn (length c) l = c ->
  writes (combine (seq (length c) (length xs)) xs) l = c ++ xs ++ skipn (length c + length xs) l.
Proof.
  induction xs as [|x xs IH]; intros c l HL HC; cbn [length seq combine].
  - cbn. rewrite Nat.add_0_r. etransitivity; [symmetry; apply (firstn_skipn (length c))|]. rewrite HC. reflexivity.
  - cbn [length] in HL.
    assert (E : l = c ++ skipn (length c) l) by (etransitivity; [symmetry; apply (firstn_skipn (length c))|]; rewrite HC; reflexivity).
    destruct (skipn (length c) l) as [|y t] eqn:F.
    { exfalso. rewrite app_nil_r in E. rewrite E in HL. lia. }
    unfold writes. cbn [fold_left fst snd]. rewrite E at 1. rewrite replace_at_app.
    specialize (IH (c ++ [x]) (c ++ x :: t)). rewrite app_length in IH. cbn [length] in IH.
    replace (length c + 1) with (S (length c)) in IH by lia.
    unfold writes in IH. rewrite IH.
    + rewrite <- app_assoc. cbn [app]. f_equal. f_equal. f_equal.
      rewrite E. replace (length c + S (length xs)) with (length c + (1 + length xs)) by lia.
      replace (S (length c) + length xs) with (length c + (1 + length xs)) by lia.
      rewrite !skipn_app. rewrite !skipn_all2 by lia. cbn [app].
      replace (length c + (1 + length xs) - length c) with (1 + length xs) by lia. reflexivity.
    + rewrite E in HL. rewrite !app_length in *. cbn [length] in *. lia.
    + rewrite firstn_app. replace (S (length c) - length c) with 1 by lia.
      rewrite firstn_all2 by lia. reflexivity.
Qed.

(** After remaining writes the slice has given contents. *)
Definition filled (m : mem) (s : slice) (todo : list (nat * str)) (c : list str) : Prop :=
  arr s < length m /\ len s = length c /\ firstn (len s) (writes todo (array m (arr s))) = c.

Lemma filled_contents m s c : filled m s [] c -> contents m s = c.
Proof. intros (_ & _ & H). exact H. Qed.
Lemma filled_write m s i x todo c : filled m s ((i, x) :: todo) c -> filled (poke m (arr s) i x) s todo c.
Proof.
  intros (A & B & C). unfold filled. rewrite length_poke, array_poke, Nat.eqb_refl.
  destruct (Nat.ltb_spec (arr s) (length m)); [|lia]. auto.
Qed.
Lemma array_app m x a : a < length m -> array (m ++ [x]) a = array m a.
Proof. intros H. unfold array. rewrite app_nth1 by assumption. reflexivity. Qed.
Lemma array_new m x : array (m ++ [x]) (length m) = x.
Proof. unfold array. rewrite app_nth2 by lia. rewrite Nat.sub_diag. reflexivity. Qed.

Lemma filled_append m s c xs m' s' todo : filled m s [] c -> appended m s xs m' s' todo -> filled m' s' todo (c ++ xs).
Proof.
  intros (A & B & C) H. cbn [writes fold_left] in C.
  assert (LC : len s <= cap m s).
  { unfold cap. assert (Q : length c = length (firstn (len s) (array m (arr s)))) by (rewrite C; reflexivity).
    rewrite firstn_length in Q. lia. }
  inversion H as [I|extra I]; subst m' s' todo; unfold filled; cbn [arr len].
  - split; [assumption|]. rewrite app_length. split; [lia|].
    unfold cap in *. rewrite B in *. rewrite writes_fill by (assumption || lia).
    rewrite app_assoc, firstn_app. rewrite app_length. rewrite Nat.sub_diag. cbn [firstn]. rewrite app_nil_r.
    apply firstn_all2. rewrite app_length. lia.
  - rewrite app_length. cbn [length]. split; [lia|]. rewrite app_length. split; [lia|]. rewrite array_new.
    cbn [writes fold_left]. unfold contents. rewrite C. rewrite B, app_assoc.
    rewrite firstn_app, app_length, Nat.sub_diag. cbn [firstn]. rewrite app_nil_r. apply firstn_all2. rewrite app_length. lia.
Qed.

Lemma Args_std : Args = [b "--quiet"; b "--alternate-editor=sh -c ""exit 9"""].
Proof. reflexivity. Qed.
Lemma cmdline_eq e users own : cmdline e users own = EmacsCommand e :: users ++ Args ++ own.
Proof. reflexivity. Qed.

(** ** One thread at a time *)
Definition after (k : nat) (todo : list (nat * str)) : Prop := Forall (fun ix => k <= fst ix) todo.
Definition seq_abs {R} (users : list str) (m : mem) (t it : thread R) : Prop :=
  match t with
  | TBuild s todo more k => exists args, it = TRun (HExec args k) /\ after (length users) todo /\
      match more with
      | Some a => a = args /\ filled m s todo (users ++ Args)
      | None => filled m s todo (users ++ Args ++ args)
      end
  | TInit _ k => it = TRun (HOnce k)
  | _ => it = t
  end.

Lemma users_filled e users m : users_ok e users m -> filled m (UserArgs e) [] users.
Proof. intros (A & B & C). split; [assumption|split; [assumption|exact C]]. Qed.
Lemma after_seq k n xs : after k (combine (seq k n) xs).
Proof.
  unfold after. apply Forall_forall. intros [i x] H. apply in_combine_l in H. apply in_seq in H. cbn. lia.
Qed.
Lemma after_le k k' todo : k <= k' -> after k' todo -> after k todo.
Proof. intros H. apply Forall_impl. intros; lia. Qed.
Lemma replace_at_firstn {A} (l : list A) k i x : k <= i -> firstn k (replace_at l i x) = firstn k l.
Proof.
  revert k i; induction l as [|y l IH]; intros [|k] [|i] H; cbn; auto; try lia. f_equal. apply IH. lia.
Qed.
Lemma users_poke e users m a i x : length users <= i -> users_ok e users m -> users_ok e users (poke m a i x).
Proof.
  intros H (A & B & C). unfold users_ok, contents in *. rewrite length_poke. split; [assumption|]. split; [assumption|].
  rewrite array_poke. destruct (Nat.eqb_spec a (arr (UserArgs e))) as [->|]; [|assumption].
  destruct (Nat.ltb_spec (arr (UserArgs e)) (length m)); [|lia]. rewrite replace_at_firstn by lia. assumption.
Qed.
Lemma users_appended e users m s xs m' s' todo : appended m s xs m' s' todo -> users_ok e users m -> users_ok e users m'.
Proof.
  intros H (A & B & C). destruct H; [repeat split; assumption|].
  unfold users_ok, contents in *. rewrite app_length. cbn. split; [lia|]. split; [assumption|]. rewrite array_app by assumption. assumption.
Qed.
Lemma appended_after m s xs m' s' todo k : appended m s xs m' s' todo -> k <= len s -> after k todo.
Proof. intros H L. inversion H; subst; [|constructor]. eapply after_le; [exact L|]. apply after_seq. Qed.

Lemma seq_step {R} e users init g (t : thread R) l g' t' it (V : notes -> Prop) :
  users_ok e users (gmem g) -> tstep e init (g, t) l (g', t') -> seq_abs users (gmem g) t it -> (forall v, gonce g' = ODone v -> V v) ->
  users_ok e users (gmem g') /\
  exists it', seq_abs users (gmem g') t' it' /\
    forall p tr, ideal e users eq V p tr it -> ideal e users eq V p (tr ++ visible1 l) it'.
Proof.
  intros U H A HV. inversion H; subst; cbn [gmem gonce visible1 seq_abs] in *; try subst it.
  - (* append 1 *)
    split; [eapply users_appended; eassumption|]. exists (TRun (HExec args k)). split.
    + exists args. split; [reflexivity|]. split.
      * eapply appended_after; [eassumption|]. destruct U as (_ & -> & _). lia.
      * split; [reflexivity|]. eapply filled_append; [|eassumption]. apply users_filled. assumption.
    + intros p tr I. rewrite app_nil_r. exact I.
  - destruct A as (args & -> & AF & F). inversion AF as [|? ? HI HT]; subst. cbn [fst] in HI.
    split; [apply users_poke; assumption|]. exists (TRun (HExec args k)). split.
    + exists args. split; [reflexivity|]. split; [exact HT|].
      destruct more; [destruct F as (-> & F); split; [reflexivity|]|]; apply filled_write; assumption.
    + intros p tr I. rewrite app_nil_r. exact I.
  - destruct A as (args0 & -> & _ & -> & F).
    split; [eapply users_appended; eassumption|]. exists (TRun (HExec args0 k)). split.
    + exists args0. split; [reflexivity|]. split.
      * eapply appended_after; [eassumption|]. destruct F as (_ & -> & _). rewrite app_length. lia.
      * rewrite app_assoc. eapply filled_append; eassumption.
    + intros p tr I. rewrite app_nil_r. exact I.
  - destruct A as (args & -> & _ & F). split; [assumption|]. exists (TWait k). split; [reflexivity|].
    intros p tr I. apply filled_contents in F. rewrite F. eapply ideal_app; [exact I|].
    rewrite <- cmdline_eq. constructor. reflexivity.
  - split; [assumption|]. eexists. split; [reflexivity|]. intros p tr I. apply ideal_end. exact I.
  - split; [assumption|]. eexists. split; [reflexivity|]. intros p tr I. eapply ideal_app; [exact I|]. repeat constructor.
  - split; [assumption|]. eexists. split; [reflexivity|]. intros p tr I. rewrite app_nil_r. exact I.
  - split; [assumption|]. eexists. split; [reflexivity|]. intros p0 tr I. rewrite app_nil_r. exact I.
  - split; [assumption|]. eexists. split; [reflexivity|]. intros p tr I. eapply ideal_app; [exact I|]. econstructor; [apply HV; reflexivity|constructor].
  - split; [assumption|]. eexists. split; [reflexivity|]. intros p tr I. eapply ideal_app; [exact I|]. econstructor; [apply HV; reflexivity|constructor].
  - split; [assumption|]. eexists. split; [reflexivity|]. intros p tr I. eapply ideal_app; [exact I|]. constructor.
  - split; [assumption|]. eexists. split; [reflexivity|]. intros p tr I. eapply ideal_app; [exact I|]. constructor.
  - split; [assumption|]. eexists. split; [reflexivity|]. intros p tr I. eapply ideal_app; [exact I|]. constructor.
Qed.

Definition anyV : notes -> Prop := fun _ => True.

Lemma seq_steps {R} e users init x tr y : @tsteps R e init x tr y -> forall it p tr0,
  users_ok e users (gmem (fst x)) -> seq_abs users (gmem (fst x)) (snd x) it -> ideal e users eq anyV p tr0 it ->
  users_ok e users (gmem (fst y)) /\
  exists it', seq_abs users (gmem (fst y)) (snd y) it' /\ ideal e users eq anyV p (tr0 ++ visible tr) it'.
Proof.
  induction 1 as [x|x l y tr z S T IH]; intros it p tr0 U A I.
  - split; [assumption|]. exists it. split; [assumption|]. cbn. rewrite app_nil_r. exact I.
  - destruct x as [g t], y as [g' t']. cbn [fst snd] in *.
    destruct (seq_step e users init g t l g' t' it anyV U S A) as (U' & it' & A' & II). { intros; exact Logic.I. }
    destruct (IH it' p (tr0 ++ visible1 l) U' A' (II _ _ I)) as (U2 & it2 & A2 & I2).
    split; [assumption|]. exists it2. split; [assumption|]. cbn [visible flat_map]. rewrite app_assoc. exact I2.
Qed.

Lemma seq_run {R} e users init g (p : hprog R) tr g' t' : users_ok e users (gmem g) -> tsteps e init (g, TRun p) tr (g', t') ->
  users_ok e users (gmem g') /\ exists it, seq_abs users (gmem g') t' it /\ ideal e users eq anyV p (visible tr) it.
Proof.
  intros U S. destruct (seq_steps e users init _ _ _ S (TRun p) p [] U) as (A & it & B & C); [reflexivity|constructor|].
  split; [exact A|]. exists it. split; [exact B|exact C].
Qed.
Lemma history_users e users bk g g' : history e bk g g' -> users_ok e users (gmem g) -> users_ok e users (gmem g').
Proof.
  induction 1 as [|g o q tr g1 r g2 S H IH]; intros U; [assumption|]. apply IH.
  destruct (seq_run e users _ _ _ _ _ _ U S) as (U' & _). exact U'.
Qed.

(** Projections of traces *)
Lemma commands_visible {R} (tr : list (label R)) : commands (visible tr) = commands tr.
Proof. unfold visible. induction tr as [|l tr IH]; [reflexivity|]. destruct l; cbn; congruence. Qed.
Lemma results_visible {R} (tr : list (label R)) : results (visible tr) = results tr.
Proof. unfold visible. induction tr as [|l tr IH]; [reflexivity|]. destruct l; cbn; congruence. Qed.
Lemma own_reads_visible {R} (tr : list (label R)) : own_reads (visible tr) = own_reads tr.
Proof. unfold visible. induction tr as [|l tr IH]; [reflexivity|]. destruct l; cbn; congruence. Qed.
Lemma replied_visible {R} (tr : list (label R)) r : replied (visible tr) r <-> replied tr r.
Proof.
  unfold replied. induction tr as [|l tr IH]; cbn; [reflexivity|]. unfold visible in IH. rewrite in_app_iff, IH.
  destruct l; cbn; intuition congruence.
Qed.
