(** Proofs: any number of concurrent requests. *)
From Verif Require Import GoBase GoSlice Flags LinkTypes LinkSpec Emacs Backend BackendSpec BackendProofs.
From Coq Require Import Lia ZifyBool ZifyNat.

(** Programs that execute only commands with arguments [Q] *)
Fixpoint calls_only {A} (Q : list str -> Prop) (p : hprog A) : Prop :=
  match p with
  | HRet _ | HPanic => True
  | HExec args k => Q args /\ forall r, calls_only Q (k r)
  | HRead _ k => forall r, calls_only Q (k r)
  | HOnce k => forall v, calls_only Q (k v)
  end.
Definition ok_it {R} (Q : list str -> Prop) (t : thread R) : Prop :=
  match t with
  | TRun p => calls_only Q p
  | TWait k => forall r, calls_only Q (k r)
  | _ => True
  end.

Definition cell (m : mem) (a i : nat) : option str := nth_error (array m a) i.
Definition A0 (e : emacs_cfg) : nat := arr (UserArgs e).

Inductive building (e : emacs_cfg) (users : list str) (Q : list str -> Prop) (c0 : nat) (m : mem)
  (s : slice) (todo : list (nat * str)) (more : option (list str)) (args : list str) : Prop :=
| b_shared1 j : arr s = A0 e -> len s = length users + 2 -> len s <= c0 -> more = Some args ->
    todo = skipn j (combine (seq (length users) 2) Args) ->
    (forall i, i < j -> i < 2 -> cell m (A0 e) (length users + i) = nth_error Args i) -> building e users Q c0 m s todo more args
| b_shared2 j : arr s = A0 e -> len s = length users + 2 + length args -> len s <= c0 -> more = None ->
    todo = skipn j (combine (seq (length users + 2) (length args)) args) ->
    (forall i, i < 2 -> cell m (A0 e) (length users + i) = nth_error Args i) ->
    (forall i, i < j -> i < length args -> exists args' x, Q args' /\ nth_error args' i = Some x /\ cell m (A0 e) (length users + 2 + i) = Some x) ->
    building e users Q c0 m s todo more args
| b_private : arr s <> A0 e ->
    match more with
    | Some a => a = args /\ filled m s todo (users ++ Args)
    | None => filled m s todo (users ++ Args ++ args)
    end -> building e users Q c0 m s todo more args.

Definition shared_ok (e : emacs_cfg) (users : list str) (c0 : nat) (m : mem) : Prop :=
  users_ok e users m /\ length (array m (A0 e)) = c0.

Definition uses {R} (t : thread R) : option nat := match t with TBuild s _ _ _ => Some (arr s) | _ => None end.

Record evolves (e : emacs_cfg) (users : list str) (Q : list str -> Prop) (m m' : mem) (u : option nat) : Prop := mkEv {
  ev_len : length m <= length m';
  ev_other : forall x, x < length m -> Some x <> u -> x <> A0 e -> array m' x = array m x;
  ev_shared_len : length (array m' (A0 e)) = length (array m (A0 e));
  ev_args : forall i, i < 2 -> cell m' (A0 e) (length users + i) = cell m (A0 e) (length users + i) \/
              cell m' (A0 e) (length users + i) = nth_error Args i;
  ev_rest : forall i, cell m' (A0 e) (length users + 2 + i) = cell m (A0 e) (length users + 2 + i) \/
              exists args' x, Q args' /\ nth_error args' i = Some x /\ cell m' (A0 e) (length users + 2 + i) = Some x }.

Lemma evolves_same e users Q m u : evolves e users Q m m u.
Proof. constructor; auto. Qed.

Lemma building_evolves e users Q c0 m m' u s todo more args :
  building e users Q c0 m s todo more args -> evolves e users Q m m' u -> (Some (arr s) <> u \/ arr s = A0 e) ->
  building e users Q c0 m' s todo more args.
Proof.
  intros [j A B C D E F|j A B C D E F G|A B] [L O S X Y] U.
  - apply b_shared1 with (j := j); auto. intros i I1 I2. destruct (X i I2) as [->|Z]; auto.
  - apply b_shared2 with (j := j); auto.
    + intros i I2. destruct (X i I2) as [->|Z]; auto.
    + intros i I1 I2. destruct (Y i) as [->|Z]; auto.
  - apply b_private; [assumption|]. destruct U as [U|U]; [|contradiction].
    assert (K : forall c, filled m s todo c -> filled m' s todo c).
    { intros c (F1 & F2 & F3). split; [lia|]. split; [assumption|]. rewrite O by assumption. assumption. }
    destruct more; [destruct B; split; auto|auto].
Qed.

Definition conc_abs {R} e users Q c0 (m : mem) (t it : thread R) : Prop :=
  ok_it Q it /\
  match t with
  | TBuild s todo more k => exists args, it = TRun (HExec args k) /\ building e users Q c0 m s todo more args
  | TInit _ k => it = TRun (HOnce k)
  | _ => it = t
  end.

Lemma conc_abs_evolves {R} e users Q c0 m m' u (t it : thread R) :
  conc_abs e users Q c0 m t it -> evolves e users Q m m' u -> (forall a, uses t = Some a -> Some a <> u \/ a = A0 e) ->
  conc_abs e users Q c0 m' t it.
Proof.
  intros [K A] E U. split; [exact K|]. destruct t; auto. destruct A as (args & -> & B). exists args. split; [reflexivity|].
  eapply building_evolves; [exact B|exact E|]. apply U. reflexivity.
Qed.

Definition mixed (Q : list str -> Prop) (args rest : list str) : Prop :=
  length rest = length args /\ forall j x, nth_error rest j = Some x -> exists args', Q args' /\ nth_error args' j = Some x.
Definition may_mix (users : list str) (Q : list str -> Prop) (c0 : nat) (args rest : list str) : Prop :=
  rest = args \/ (length users + 2 + length args <= c0 /\ mixed Q args rest).

Lemma nth_error_replace {A} (l : list A) i j x : nth_error (replace_at l i x) j = if (Nat.eqb i j && (j <? length l))%bool then Some x else nth_error l j.
Proof.
  destruct (Nat.eqb_spec i j) as [->|N]; cbn [andb].
  - destruct (Nat.ltb_spec j (length l)); [apply replace_at_same; assumption|]. rewrite replace_at_none by assumption. reflexivity.
  - apply replace_at_other. assumption.
Qed.

Lemma skipn_cons_nth {A} (l : list A) j x t : skipn j l = x :: t -> nth_error l j = Some x /\ skipn (S j) l = t.
Proof.
  revert j; induction l as [|y l IH]; intros [|j] H; cbn in *; try discriminate.
  - injection H as -> ->. auto.
  - apply IH in H. exact H.
Qed.
Lemma nth_error_seq s n j i : nth_error (seq s n) j = Some i -> i = s + j /\ j < n.
Proof.
  revert s j; induction n as [|n IH]; intros s [|j] H; cbn in *; try discriminate.
  - injection H as <-. lia.
  - apply IH in H. lia.
Qed.
Lemma nth_error_combine {A B} (l : list A) (l' : list B) j x y : nth_error (combine l l') j = Some (x, y) ->
  nth_error l j = Some x /\ nth_error l' j = Some y.
Proof.
  revert l' j; induction l as [|a l IH]; intros [|c l'] [|j] H; cbn in *; try discriminate.
  - injection H as -> ->. auto.
  - apply IH in H. exact H.
Qed.

Lemma cell_poke m a i x a' j : a < length m -> cell (poke m a i x) a' j = if (Nat.eqb a a' && Nat.eqb i j && (j <? length (array m a)))%bool then Some x else cell m a' j.
Proof.
  intros H. unfold cell. rewrite array_poke. destruct (Nat.eqb_spec a a') as [->|]; [|reflexivity].
  destruct (Nat.ltb_spec a' (length m)); [|lia]. apply nth_error_replace.
Qed.

(** A write to the shared array *)
Lemma evolves_poke_shared e users Q m i x :
  A0 e < length m ->
  (exists j, j < 2 /\ i = length users + j /\ nth_error Args j = Some x) \/
  (exists j args, Q args /\ nth_error args j = Some x /\ i = length users + 2 + j) ->
  evolves e users Q m (poke m (A0 e) i x) (Some (A0 e)).
Proof.
  intros HA H. constructor.
  - rewrite length_poke. lia.
  - intros y Y _ N. rewrite array_poke. destruct (Nat.eqb_spec (A0 e) y); congruence.
  - rewrite array_poke, Nat.eqb_refl. destruct (Nat.ltb_spec (A0 e) (length m)); [apply replace_at_length|lia].
  - intros j J. rewrite cell_poke by assumption. rewrite Nat.eqb_refl. cbn [andb].
    destruct (Nat.eqb_spec i (length users + j)) as [E|]; cbn [andb]; [|auto].
    destruct (Nat.ltb_spec (length users + j) (length (array m (A0 e)))); cbn; [|auto].
    destruct H as [(j' & J' & -> & E')|(j' & args & _ & _ & ->)]; [|lia].
    right. assert (j = j') by lia. subst. auto.
  - intros j. rewrite cell_poke by assumption. rewrite Nat.eqb_refl. cbn [andb].
    destruct (Nat.eqb_spec i (length users + 2 + j)) as [E|]; cbn [andb]; [|auto].
    destruct (Nat.ltb_spec (length users + 2 + j) (length (array m (A0 e)))); cbn; [|auto].
    destruct H as [(j' & J' & -> & E')|(j' & args & q & n & ->)]; [lia|].
    right. assert (j = j') by lia. subst. eauto.
Qed.
Lemma evolves_poke_private e users Q m a i x : a <> A0 e -> evolves e users Q m (poke m a i x) (Some a).
Proof.
  intros N. assert (E : array (poke m a i x) (A0 e) = array m (A0 e)).
  { rewrite array_poke. destruct (Nat.eqb_spec a (A0 e)); congruence. }
  constructor; unfold cell; rewrite ?E; auto.
  - rewrite length_poke. lia.
  - intros y Y U _. rewrite array_poke. destruct (Nat.eqb_spec a y); congruence.
Qed.
Lemma evolves_new e users Q m x u : A0 e < length m -> evolves e users Q m (m ++ [x]) u.
Proof.
  intros H. constructor; unfold cell; rewrite ?(array_app m x (A0 e) H); auto.
  - rewrite app_length. lia.
  - intros y Y _ _. apply array_app. assumption.
Qed.

Lemma shared_evolves e users Q c0 m m' u : shared_ok e users c0 m -> evolves e users Q m m' u ->
  firstn (length users) (array m' (A0 e)) = firstn (length users) (array m (A0 e)) -> shared_ok e users c0 m'.
Proof.
  intros ((A & B & C) & D) E F. split; [|rewrite (ev_shared_len _ _ _ _ _ _ E); assumption].
  pose proof (ev_len _ _ _ _ _ _ E). unfold users_ok, contents in *. split; [lia|]. split; [assumption|].
  rewrite B in *. fold (A0 e) in *. congruence.
Qed.

(** Contents of a slice in the shared array *)
Lemma split_users {A} (l u : list A) x y : firstn (length u) l = u -> nth_error l (length u) = Some x -> nth_error l (length u + 1) = Some y ->
  exists t, l = u ++ x :: y :: t.
Proof.
  intros F X Y. assert (E : l = u ++ skipn (length u) l) by (etransitivity; [symmetry; apply (firstn_skipn (length u))|]; rewrite F; reflexivity).
  rewrite E in X, Y. rewrite nth_error_app2 in X, Y by lia. rewrite Nat.sub_diag in X. replace (length u + 1 - length u) with 1 in Y by lia.
  destruct (skipn (length u) l) as [|x' [|y' t]]; cbn in X, Y; try discriminate. injection X as ->. injection Y as ->. eauto.
Qed.

Lemma shared_contents1 e users c0 m s j : shared_ok e users c0 m -> arr s = A0 e -> len s = length users + 2 -> len s <= c0 ->
  [] = skipn j (combine (seq (length users) 2) Args) ->
  (forall i, i < j -> i < 2 -> cell m (A0 e) (length users + i) = nth_error Args i) ->
  filled m s [] (users ++ Args).
Proof.
  intros ((A & B & C) & D) E F G H I.
  assert (J : 2 <= j). { assert (K : length (skipn j (combine (seq (length users) 2) Args)) = 0) by (rewrite <- H; reflexivity). rewrite skipn_length, combine_length, seq_length in K. change (length Args) with 2 in K. lia. }
  pose proof (I 0 ltac:(lia) ltac:(lia)) as I0. pose proof (I 1 ltac:(lia) ltac:(lia)) as I1. rewrite Nat.add_0_r in I0. cbn [nth_error Args] in I0, I1.
  unfold contents in C. rewrite B in C. fold (A0 e) in *.
  destruct (split_users _ _ _ _ C I0 I1) as (t & T).
  split; [rewrite E; exact A|]. split; [rewrite app_length; exact F|]. cbn [writes fold_left]. rewrite E, T, F.
  replace (users ++ b "--quiet" :: b "--alternate-editor=sh -c ""exit 9""" :: t) with ((users ++ Args) ++ t) by (rewrite <- app_assoc; reflexivity).
  rewrite firstn_app, app_length. cbn [Args length]. replace (length users + 2 - (length users + 2)) with 0 by lia. cbn [firstn].
  rewrite app_nil_r. apply firstn_all2. rewrite app_length. cbn. lia.
Qed.

Lemma shared_contents2 e users Q c0 m s args j : shared_ok e users c0 m -> arr s = A0 e -> len s = length users + 2 + length args -> len s <= c0 ->
  [] = skipn j (combine (seq (length users + 2) (length args)) args) ->
  (forall i, i < 2 -> cell m (A0 e) (length users + i) = nth_error Args i) ->
  (forall i, i < j -> i < length args -> exists args' x, Q args' /\ nth_error args' i = Some x /\ cell m (A0 e) (length users + 2 + i) = Some x) ->
  exists rest, contents m s = users ++ Args ++ rest /\ mixed Q args rest.
Proof.
  intros ((A & B & C) & D) E F G H I K.
  assert (J : length args <= j).
  { assert (X : length (skipn j (combine (seq (length users + 2) (length args)) args)) = 0) by (rewrite <- H; reflexivity).
    rewrite skipn_length, combine_length, seq_length in X. lia. }
  pose proof (I 0 ltac:(lia)) as I0. pose proof (I 1 ltac:(lia)) as I1. rewrite Nat.add_0_r in I0. cbn [nth_error Args] in I0, I1.
  unfold contents in C. rewrite B in C. fold (A0 e) in *.
  destruct (split_users _ _ _ _ C I0 I1) as (t & T).
  assert (T' : array m (A0 e) = (users ++ Args) ++ t) by (rewrite T, <- app_assoc; reflexivity).
  assert (LA : length (users ++ Args) = length users + 2) by (rewrite app_length; reflexivity).
  exists (firstn (length args) t). unfold contents. rewrite E, F, T'. split.
  - rewrite firstn_app, LA. replace (length users + 2 + length args - (length users + 2)) with (length args) by lia.
    rewrite firstn_all2 by lia. rewrite <- app_assoc. reflexivity.
  - assert (LT : length args <= length t).
    { rewrite T', app_length, LA in D. lia. }
    split; [rewrite firstn_length; lia|]. intros i x Hx.
    assert (i < length args). { assert (Y : nth_error (firstn (length args) t) i <> None) by congruence. apply nth_error_Some in Y. rewrite firstn_length in Y. lia. }
    destruct (K i ltac:(lia) H0) as (args' & y & q & n & c). exists args'. split; [exact q|].
    unfold cell in c. rewrite T' in c. rewrite nth_error_app2 in c by lia. rewrite LA in c. replace (length users + 2 + i - (length users + 2)) with i in c by lia.
    rewrite n. f_equal. enough (Some y = Some x) by congruence. rewrite <- c. rewrite <- Hx.
    rewrite <- (firstn_skipn (length args) t) at 1. rewrite nth_error_app1 by (rewrite firstn_length; lia). reflexivity.
Qed.

Lemma firstn_poke_ge m a i x n a' : n <= i -> firstn n (array (poke m a i x) a') = firstn n (array m a') \/ length m <= a.
Proof.
  intros H. rewrite array_poke. destruct (Nat.eqb_spec a a') as [->|]; [|auto].
  destruct (Nat.ltb_spec a' (length m)); [|auto]. left. apply replace_at_firstn. assumption.
Qed.

(** append, for a slice of the shared array and for a private one *)
Lemma append_shared1 e users Q c0 m s args m' s' todo : shared_ok e users c0 m -> filled m s [] (users ++ Args) ->
  (arr s = A0 e -> forall i, i < 2 -> cell m (A0 e) (length users + i) = nth_error Args i) ->
  appended m s args m' s' todo -> building e users Q c0 m' s' todo None args.
Proof.
  intros SO F HC H. pose proof (filled_append _ _ _ _ _ _ _ F H) as F'. rewrite <- app_assoc in F'.
  destruct (Nat.eq_dec (arr s') (A0 e)) as [E|N]; [|apply b_private; assumption].
  inversion H; subst.
  - cbn [arr] in E. assert (LS : len s = length users + 2) by (destruct F as (_ & -> & _); rewrite app_length; reflexivity).
    apply b_shared2 with (j := 0); cbn [arr len]; auto.
    + destruct SO as (_ & <-). rewrite <- E. assumption.
    + rewrite LS. reflexivity.
    + intros; lia.
  - cbn [arr] in E. destruct SO as ((X & _) & _). fold (A0 e) in X. lia.
Qed.

Lemma conc_step {R} e users Q c0 init g (t : thread R) l g' t' it (V : notes -> Prop) :
  shared_ok e users c0 (gmem g) -> tstep e init (g, t) l (g', t') -> conc_abs e users Q c0 (gmem g) t it -> (forall v, gonce g' = ODone v -> V v) ->
  evolves e users Q (gmem g) (gmem g') (uses t) /\ shared_ok e users c0 (gmem g') /\
  (uses t' = None \/ uses t' = uses t \/ uses t' = Some (A0 e) \/ (uses t' = Some (length (gmem g)) /\ length (gmem g) < length (gmem g'))) /\
  exists it', conc_abs e users Q c0 (gmem g') t' it' /\
    forall p tr, ideal e users (may_mix users Q c0) V p tr it -> ideal e users (may_mix users Q c0) V p (tr ++ visible1 l) it'.
Proof.
  intros SO H [K A] HV.
  assert (LA : A0 e < length (gmem g)) by (destruct SO as ((X & _) & _); exact X).
  inversion H; subst; cbn [gmem gonce visible1 uses] in *; cbn [conc_abs] in *; try subst it;
    try (split; [apply evolves_same|split; [assumption|split; [auto|]]]).
  - (* append 1 *)
    assert (EV : evolves e users Q m m' None).
    { match goal with X : appended _ _ _ _ _ _ |- _ => inversion X; subst end; [apply evolves_same|apply evolves_new; assumption]. }
    split; [exact EV|]. split.
    { eapply shared_evolves; [exact SO|exact EV|]. match goal with X : appended _ _ _ _ _ _ |- _ => inversion X; subst end; [reflexivity|]. rewrite array_app by assumption. reflexivity. }
    split.
    { match goal with X : appended _ _ _ _ _ _ |- _ => inversion X; subst end; cbn; [auto|]. do 3 right. split; [reflexivity|]. rewrite app_length; cbn; lia. }
    exists (TRun (HExec args k)). split.
    + split; [exact K|]. exists args. split; [reflexivity|].
      match goal with X : appended _ _ _ _ _ _ |- _ => rename X into AP end.
      assert (F := filled_append _ _ _ _ _ _ _ (users_filled _ _ _ (proj1 SO)) AP).
      destruct (Nat.eq_dec (arr s) (A0 e)) as [E|N].
      * inversion AP; subst; cbn [arr] in E; [|lia]. apply b_shared1 with (j := 0); cbn [arr len]; auto; try (intros; lia).
        -- destruct SO as ((_ & -> & _) & _). reflexivity.
        -- destruct SO as (_ & <-). unfold cap in *. fold (A0 e) in *. assumption.
        -- destruct SO as ((_ & -> & _) & _). reflexivity.
      * apply b_private; [assumption|]. split; [reflexivity|exact F].
    + intros p tr I. rewrite app_nil_r. exact I.
  - (* a write *)
    destruct A as (args & -> & B).
    assert (EV : evolves e users Q m (poke m (arr s) i x) (Some (arr s)) /\ building e users Q c0 (poke m (arr s) i x) s todo more args /\ (arr s = A0 e -> length users <= i)).
    { destruct B as [j B1 B2 B3 B4 B5 B6|j B1 B2 B3 B4 B5 B6 B7|B1 B2].
      - symmetry in B5. destruct (skipn_cons_nth _ _ _ _ B5) as (N & SK). destruct (nth_error_combine _ _ _ _ _ N) as (N1 & N2).
        destruct (nth_error_seq _ _ _ _ N1) as (-> & J2). rewrite B1.
        assert (EV : evolves e users Q m (poke m (A0 e) (length users + j) x) (Some (A0 e))).
        { apply evolves_poke_shared; [assumption|]. left. exists j. auto. }
        split; [exact EV|]. split; [|intros; lia].
        apply b_shared1 with (j := S j); auto. intros i I1 I2.
        destruct (ev_args _ _ _ _ _ _ EV i I2) as [E|E]; [|exact E].
        destruct (Nat.eq_dec i j) as [->|]; [|rewrite E; apply B6; lia].
        rewrite cell_poke by assumption. rewrite !Nat.eqb_refl. cbn [andb].
        destruct (Nat.ltb_spec (length users + j) (length (array m (A0 e)))); [auto|]. destruct SO as (_ & SO). lia.
      - symmetry in B5. destruct (skipn_cons_nth _ _ _ _ B5) as (N & SK). destruct (nth_error_combine _ _ _ _ _ N) as (N1 & N2).
        destruct (nth_error_seq _ _ _ _ N1) as (-> & J2). rewrite B1.
        assert (QA : Q args) by (cbn in K; tauto).
        assert (EV : evolves e users Q m (poke m (A0 e) (length users + 2 + j) x) (Some (A0 e))).
        { apply evolves_poke_shared; [assumption|]. right. exists j, args. auto. }
        split; [exact EV|]. split; [|intros; lia].
        apply b_shared2 with (j := S j); auto.
        + intros i I2. destruct (ev_args _ _ _ _ _ _ EV i I2) as [E|E]; [|exact E]. rewrite E. apply B6. assumption.
        + intros i I1 I2. destruct (ev_rest _ _ _ _ _ _ EV i) as [E|E]; [|exact E].
          destruct (Nat.eq_dec i j) as [->|]; [|rewrite E; apply B7; lia].
          exists args, x. split; [exact QA|]. split; [exact N2|]. rewrite cell_poke by assumption. rewrite !Nat.eqb_refl. cbn [andb].
          destruct (Nat.ltb_spec (length users + 2 + j) (length (array m (A0 e)))); [auto|]. destruct SO as (_ & SO). lia.
      - split; [apply evolves_poke_private; assumption|]. split; [|intros; contradiction].
        apply b_private; [assumption|]. destruct more; [destruct B2 as (-> & B2); split; [reflexivity|]|]; apply filled_write; assumption. }
    destruct EV as (EV & B' & GE). split; [exact EV|]. split.
    { eapply shared_evolves; [exact SO|exact EV|]. rewrite array_poke. destruct (Nat.eqb_spec (arr s) (A0 e)) as [E|]; [|reflexivity].
      destruct (Nat.ltb_spec (arr s) (length m)); [|lia]. rewrite E. apply replace_at_firstn. auto. }
    split; [auto|]. exists (TRun (HExec args k)). split.
    + split; [exact K|]. exists args. split; [reflexivity|exact B'].
    + intros p tr I. rewrite app_nil_r. exact I.
  - (* append 2 *)
    destruct A as (args0 & -> & B).
    match goal with X : appended _ _ _ _ _ _ |- _ => rename X into AP end.
    assert (EV : evolves e users Q m m' (Some (arr s))).
    { inversion AP; subst; [apply evolves_same|apply evolves_new; assumption]. }
    split; [exact EV|]. split.
    { eapply shared_evolves; [exact SO|exact EV|]. inversion AP; subst; [reflexivity|]. rewrite array_app by assumption. reflexivity. }
    split.
    { inversion AP; subst; cbn; [auto|]. do 3 right. split; [reflexivity|]. rewrite app_length; cbn; lia. }
    exists (TRun (HExec args0 k)). split; [|intros p tr I; rewrite app_nil_r; exact I].
    split; [exact K|]. exists args0. split; [reflexivity|].
    destruct B as [j B1 B2 B3 B4 B5 B6|j B1 B2 B3 B4 B5 B6 B7|B1 B2].
    + injection B4 as ->.
      pose proof (shared_contents1 e users c0 m s j SO B1 B2 B3 B5 B6) as F.
      eapply append_shared1; eauto. intros _ i I. apply B6; [|assumption].
      assert (X : length (skipn j (combine (seq (length users) 2) Args)) = 0) by (rewrite <- B5; reflexivity). rewrite skipn_length, combine_length, seq_length in X. change (length Args) with 2 in X. lia.
    + discriminate.
    + destruct B2 as (-> & F). eapply append_shared1; eauto. intros; contradiction.
  - (* start *)
    destruct A as (args & -> & B). exists (TWait k). split; [split; [intros r; apply K|reflexivity]|].
    intros p tr I. eapply ideal_app; [exact I|].
    destruct B as [j B1 B2 B3 B4 B5 B6|j B1 B2 B3 B4 B5 B6 B7|B1 B2]; [discriminate| |].
    + destruct (shared_contents2 e users Q c0 m s args j SO B1 B2 B3 B5 B6 B7) as (rest & -> & M).
      rewrite <- cmdline_eq. constructor. right. split; [lia|exact M].
    + apply filled_contents in B2. rewrite B2. rewrite <- cmdline_eq. constructor. left. reflexivity.
  - exists (TRun (k r)). split; [split; [apply K|reflexivity]|]. intros p tr I. apply ideal_end. exact I.
  - exists (TRun (k r)). split; [split; [apply K|reflexivity]|]. intros p tr I. eapply ideal_app; [exact I|]. repeat constructor.
  - exists (TRun (HOnce k)). split; [split; [exact K|reflexivity]|]. intros p tr I. rewrite app_nil_r. exact I.
  - exists (TRun (HOnce k)). split; [split; [exact K|reflexivity]|]. intros p0 tr I. rewrite app_nil_r. exact I.
  - exists (TRun (k v)). split; [split; [apply K|reflexivity]|]. intros p tr I. eapply ideal_app; [exact I|]. econstructor; [apply HV; reflexivity|constructor].
  - exists (TRun (k v)). split; [split; [apply K|reflexivity]|]. intros p tr I. eapply ideal_app; [exact I|]. econstructor; [apply HV; reflexivity|constructor].
  - exists (TOver r). split; [split; [exact Logic.I|reflexivity]|]. intros p tr I. eapply ideal_app; [exact I|]. constructor.
  - exists TCrash. split; [split; [exact Logic.I|reflexivity]|]. intros p tr I. eapply ideal_app; [exact I|]. constructor.
  - exists TCrash. split; [split; [exact Logic.I|reflexivity]|]. intros p tr I. eapply ideal_app; [exact I|]. constructor.
Qed.

(** ** All threads *)
Definition once_value (g : glob) (v : notes) : Prop := gonce g = ODone v.

Record conc_inv {R} e users Q c0 (ps : list (hprog R)) (tr : list (nat * label R)) (g : glob) (ts : list (thread R)) : Prop := mkConc {
  ci_shared : shared_ok e users c0 (gmem g);
  ci_len : length ts = length ps;
  ci_thread : forall i p t, nth_error ps i = Some p -> nth_error ts i = Some t ->
    exists it, conc_abs e users Q c0 (gmem g) t it /\
      ideal e users (may_mix users Q c0) (once_value g) p (visible (of_thread i tr)) it;
  ci_apart : forall i j ti tj a, i <> j -> nth_error ts i = Some ti -> nth_error ts j = Some tj ->
    uses ti = Some a -> uses tj = Some a -> a = A0 e }.

Lemma uses_bound {R} e users Q c0 m (t it : thread R) a : shared_ok e users c0 m -> conc_abs e users Q c0 m t it -> uses t = Some a -> a < length m.
Proof.
  intros SO [_ A] U. destruct t; try discriminate. cbn in U. injection U as <-. destruct A as (args & _ & [j B1|j B1|B1 B2]).
  - rewrite B1. destruct SO as ((X & _) & _). exact X.
  - rewrite B1. destruct SO as ((X & _) & _). exact X.
  - destruct more; [destruct B2 as (_ & X & _)|destruct B2 as (X & _)]; exact X.
Qed.

Lemma of_thread_app {R} i (tr tr' : list (nat * label R)) : of_thread i (tr ++ tr') = of_thread i tr ++ of_thread i tr'.
Proof. unfold of_thread. rewrite filter_app, map_app. reflexivity. Qed.
Lemma of_thread_one {R} i j (l : label R) : of_thread i [(j, l)] = if Nat.eqb j i then [l] else [].
Proof. unfold of_thread. cbn. destruct (Nat.eqb j i); reflexivity. Qed.

Lemma once_keeps {R} e init g (t : thread R) l g' t' v : tstep e init (g, t) l (g', t') ->
  (forall p k, t = TInit p k -> gonce g = OBusy) -> gonce g = ODone v -> gonce g' = ODone v.
Proof. intros H NI E. inversion H; subst; cbn in *; auto; try discriminate. rewrite (NI _ _ eq_refl) in E. discriminate. Qed.

Lemma nth_error_mid {A} (pre : list A) x post i : nth_error (pre ++ x :: post) i =
  if Nat.eqb i (length pre) then Some x else nth_error (pre ++ post) (if i <? length pre then i else i - 1).
Proof.
  destruct (Nat.eqb_spec i (length pre)) as [->|N].
  - rewrite nth_error_app2 by lia. rewrite Nat.sub_diag. reflexivity.
  - destruct (Nat.ltb_spec i (length pre)).
    + rewrite !nth_error_app1 by assumption. reflexivity.
    + rewrite !nth_error_app2 by lia. replace (i - length pre) with (S (i - 1 - length pre)) by lia. reflexivity.
Qed.
Lemma nth_error_mid_same {A} (pre : list A) x post : nth_error (pre ++ x :: post) (length pre) = Some x.
Proof. rewrite nth_error_mid, Nat.eqb_refl. reflexivity. Qed.
Lemma nth_error_mid_other {A} (pre : list A) x y post i : i <> length pre -> nth_error (pre ++ y :: post) i = nth_error (pre ++ x :: post) i.
Proof. intros N. rewrite !nth_error_mid. destruct (Nat.eqb_spec i (length pre)); [contradiction|reflexivity]. Qed.

Lemma conc_inv_step {R} e users Q c0 init (ps : list (hprog R)) tr g ts l g' ts' :
  conc_inv e users Q c0 ps tr g ts -> (forall t p k, In t ts -> t = TInit p k -> gonce g = OBusy) ->
  step e init (g, ts) l (g', ts') -> conc_inv e users Q c0 ps (tr ++ [l]) g' ts'.
Proof.
  intros I NI S. inversion S as [g0 pre t post l0 g1 t' NC T]; subst. destruct I as [SO LEN TH AP].
  assert (HV : forall v, once_value g v -> once_value g' v).
  { intros v. eapply once_keeps; [exact T|]. intros p k E. eapply NI; [|exact E]. apply in_or_app. right. left. reflexivity. }
  assert (Pi : exists p, nth_error ps (length pre) = Some p).
  { destruct (nth_error ps (length pre)) as [p|] eqn:E; [eauto|]. apply nth_error_None in E. rewrite <- LEN, app_length in E. cbn in E. lia. }
  destruct Pi as (p & Pi). destruct (TH _ _ _ Pi (nth_error_mid_same _ _ _)) as (it & CA & ID).
  destruct (conc_step e users Q c0 init g t l0 g' t' it (once_value g') SO T CA ltac:(auto)) as (EV & SO' & US & it' & CA' & EX).
  constructor.
  - exact SO'.
  - rewrite <- LEN, !app_length. reflexivity.
  - intros i p' t0 Hp Ht. rewrite of_thread_app, of_thread_one. destruct (Nat.eqb_spec (length pre) i) as [<-|N].
    + rewrite nth_error_mid_same in Ht. injection Ht as <-. rewrite Pi in Hp. injection Hp as <-.
      exists it'. split; [exact CA'|]. unfold visible. rewrite flat_map_app. cbn [flat_map]. rewrite app_nil_r. apply EX.
      eapply ideal_mono; [| |exact ID]; auto.
    + rewrite app_nil_r. rewrite (nth_error_mid_other pre t t' post i) in Ht by congruence.
      destruct (TH _ _ _ Hp Ht) as (it0 & CA0 & ID0). exists it0. split; [|eapply ideal_mono; [| |exact ID0]; auto].
      eapply conc_abs_evolves; [exact CA0|exact EV|]. intros a Ha.
      destruct (Nat.eq_dec a (A0 e)) as [|NA]; [auto|left]. intros E. apply NA. symmetry in E.
      eapply AP with (i := i) (j := length pre); eauto. apply nth_error_mid_same.
  - assert (KEY : forall i tj a, i <> length pre -> nth_error (pre ++ t :: post) i = Some tj -> uses tj = Some a -> uses t' = Some a -> a = A0 e).
    { intros i tj a N Ht Ha Ua. destruct US as [U|[U|[U|[U _]]]]; rewrite U in Ua.
      - discriminate.
      - eapply AP with (i := i) (j := length pre); eauto. apply nth_error_mid_same.
      - congruence.
      - injection Ua as <-. exfalso.
        assert (Q0 : exists p0, nth_error ps i = Some p0).
        { destruct (nth_error ps i) as [p0|] eqn:E; [eauto|]. apply nth_error_None in E. rewrite <- LEN in E. apply nth_error_None in E. congruence. }
        destruct Q0 as (p0 & Q0). destruct (TH _ _ _ Q0 Ht) as (it0 & CA0 & _). pose proof (uses_bound _ _ _ _ _ _ _ _ SO CA0 Ha). lia. }
    intros i j ti tj a N Hi Hj Ui Uj.
    destruct (Nat.eq_dec i (length pre)) as [->|Ni].
    + rewrite nth_error_mid_same in Hi. injection Hi as <-. rewrite (nth_error_mid_other pre t t' post j) in Hj by congruence. eapply KEY; eauto.
    + rewrite (nth_error_mid_other pre t t' post i) in Hi by congruence. destruct (Nat.eq_dec j (length pre)) as [->|Nj].
      * rewrite nth_error_mid_same in Hj. injection Hj as <-. eapply KEY; eauto.
      * rewrite (nth_error_mid_other pre t t' post j) in Hj by congruence. eapply AP with (i := i) (j := j); eauto.
Qed.

(** ** once.Do *)
Lemma reads_snoc {A} (p : hprog A) l n k r : reads_to p l (HRead n k) -> reads_to p (l ++ [(n, r)]) (k r).
Proof.
  intros H. remember (HRead n k) as q eqn:E. revert E. induction H; intros ->; cbn [app]; repeat constructor; auto.
Qed.

Definition is_init {R} (t : thread R) : bool := match t with TInit _ _ => true | _ => false end.
Definition no_init {R} (ts : list (thread R)) : Prop := Forall (fun t => is_init t = false) ts.
Definition once_inv {R} (init : hprog notes) (tr : list (nat * label R)) (g : glob) (ts : list (thread R)) : Prop :=
  let rd := initial_reads (map snd tr) in
  match gonce g with
  | ONew => rd = [] /\ no_init ts
  | OBusy => exists p, reads_to init rd p /\ exists pre t post, ts = pre ++ t :: post /\ no_init pre /\ no_init post /\
       ((exists k, t = TInit p k) \/ t = TCrash)
  | ODone v => reads_to init rd (HRet v) /\ no_init ts
  end.

Lemma initial_reads_app {R} (a c : list (label R)) : initial_reads (a ++ c) = initial_reads a ++ initial_reads c.
Proof. induction a as [|l a IH]; [reflexivity|]. destruct l; cbn; congruence. Qed.

Lemma no_init_mid {R} (pre : list (thread R)) t post : no_init (pre ++ t :: post) <-> no_init pre /\ is_init t = false /\ no_init post.
Proof. unfold no_init. rewrite Forall_app, Forall_cons_iff. tauto. Qed.

(** Replacement of a thread that is not the initialising one *)
Lemma mid_cases {A} (pre : list A) t post pre' t' post' : pre ++ t :: post = pre' ++ t' :: post' ->
  (pre = pre' /\ t = t' /\ post = post') \/ (exists x, pre' = pre ++ t :: x /\ post = x ++ t' :: post') \/
  (exists x, pre = pre' ++ t' :: x /\ post' = x ++ t :: post).
Proof.
  revert pre'; induction pre as [|a pre IH]; intros [|a' pre'] H; cbn in H; injection H as E1 E2.
  - left. auto.
  - right; left. exists pre'. subst. auto.
  - right; right. exists pre. subst. auto.
  - subst. destruct (IH _ E2) as [(-> & -> & ->)|[(x & -> & ->)|(x & -> & ->)]]; [left; auto|right; left; exists x; auto|right; right; exists x; auto].
Qed.

Lemma once_inv_other {R} init (tr : list (nat * label R)) g g' pre t t' post i l :
  once_inv init tr g (pre ++ t :: post) -> is_init t = false -> t <> TCrash -> is_init t' = false ->
  gonce g' = gonce g -> initial_reads [l] = [] ->
  once_inv init (tr ++ [(i, l)]) g' (pre ++ t' :: post).
Proof.
  intros I T NC T' G L. unfold once_inv in *. rewrite map_app, initial_reads_app. cbn [map snd]. rewrite L, app_nil_r, G.
  destruct (gonce g) as [| |v].
  - destruct I as (I & N). split; [exact I|]. rewrite no_init_mid in *. tauto.
  - destruct I as (p & P & pre0 & t0 & post0 & E & N1 & N2 & K). exists p. split; [exact P|].
    destruct (mid_cases _ _ _ _ _ _ E) as [(-> & -> & ->)|[(x & -> & ->)|(x & -> & ->)]].
    + destruct K as [(k & ->)|K]; [discriminate|contradiction].
    + rewrite no_init_mid in N1. exists (pre ++ t' :: x), t0, post0. rewrite <- app_assoc. cbn. split; [reflexivity|]. rewrite no_init_mid. tauto.
    + rewrite no_init_mid in N2. exists pre0, t0, (x ++ t' :: post). rewrite <- app_assoc. cbn. split; [reflexivity|]. rewrite no_init_mid. tauto.
  - destruct I as (I & N). split; [exact I|]. rewrite no_init_mid in *. tauto.
Qed.

Lemma once_inv_busy {R} init (tr : list (nat * label R)) g ts t p k : once_inv init tr g ts -> In t ts -> t = TInit p k -> gonce g = OBusy.
Proof.
  intros I HI ->. unfold once_inv in I. destruct (gonce g); auto; destruct I as (_ & N); unfold no_init in N; rewrite Forall_forall in N;
  specialize (N _ HI); discriminate.
Qed.
Lemma once_inv_init {R} init (tr : list (nat * label R)) g pre p k post : once_inv init tr g (pre ++ TInit p k :: post) ->
  gonce g = OBusy /\ reads_to init (initial_reads (map snd tr)) p /\ no_init pre /\ no_init post.
Proof.
  intros I. assert (B : gonce g = OBusy). { eapply once_inv_busy; [exact I| |reflexivity]. apply in_or_app. right. left. reflexivity. }
  split; [exact B|]. unfold once_inv in I. rewrite B in I. destruct I as (p0 & P & pre0 & t0 & post0 & E & N1 & N2 & K).
  destruct (mid_cases _ _ _ _ _ _ E) as [(-> & <- & ->)|[(x & -> & ->)|(x & -> & ->)]].
  - destruct K as [(k0 & K)|K]; [injection K as -> ->|discriminate]. auto.
  - rewrite no_init_mid in N1. destruct N1 as (_ & F & _). discriminate.
  - rewrite no_init_mid in N2. destruct N2 as (_ & F & _). discriminate.
Qed.

Lemma once_inv_step {R} e init tr g (ts : list (thread R)) l g' ts' :
  once_inv init tr g ts -> step e init (g, ts) l (g', ts') -> once_inv init (tr ++ [l]) g' ts'.
Proof.
  intros I S. inversion S as [g0 pre t post l0 g1 t' NC T]; subst.
  assert (NCt : t <> TCrash).
  { rewrite Forall_forall in NC. apply (NC t). apply in_or_app. right. left. reflexivity. }
  inversion T; subst; try (eapply once_inv_other; eauto; fail).
  - (* once, first *)
    unfold once_inv in *. cbn [gonce] in *. destruct I as (E & N). rewrite map_app, initial_reads_app. cbn [map snd initial_reads].
    rewrite app_nil_r, E. exists init. split; [constructor|]. rewrite no_init_mid in N. exists pre, (TInit init k), post. intuition eauto.
  - destruct (once_inv_init _ _ _ _ _ _ _ I) as (B & P & N1 & N2). unfold once_inv. rewrite B, map_app, initial_reads_app. cbn [map snd initial_reads].
    exists (p r). split; [apply reads_snoc; exact P|]. exists pre, (TInit (p r) k), post. intuition eauto.
  - destruct (once_inv_init _ _ _ _ _ _ _ I) as (B & P & N1 & N2). unfold once_inv. cbn [gonce]. rewrite map_app, initial_reads_app. cbn [map snd initial_reads].
    rewrite app_nil_r. split; [exact P|]. rewrite no_init_mid. auto.
  - destruct (once_inv_init _ _ _ _ _ _ _ I) as (B & P & N1 & N2). unfold once_inv. rewrite B, map_app, initial_reads_app. cbn [map snd initial_reads].
    rewrite app_nil_r. exists HPanic. split; [exact P|]. exists pre, TCrash, post. intuition eauto.
Qed.

Lemma run_inv {R} e users Q c0 init (ps : list (hprog R)) x tr y : steps e init x tr y -> forall tr0,
  conc_inv e users Q c0 ps tr0 (fst x) (snd x) -> once_inv init tr0 (fst x) (snd x) ->
  conc_inv e users Q c0 ps (tr0 ++ tr) (fst y) (snd y) /\ once_inv init (tr0 ++ tr) (fst y) (snd y).
Proof.
  induction 1 as [x|[g ts] l [g' ts'] tr z S T IH]; intros tr0 C O.
  - rewrite app_nil_r. auto.
  - cbn [fst snd] in *. specialize (IH (tr0 ++ [l])). rewrite <- app_assoc in IH. cbn [app] in IH. apply IH.
    + eapply conc_inv_step; [exact C| |exact S]. intros t p k HI E. eapply once_inv_busy; eauto.
    + eapply once_inv_step; eauto.
Qed.

Theorem run_ideal {R} e users Q init (ps : list (hprog R)) g tr g' ts : booted e users g ->
  Forall (calls_only Q) ps -> steps e init (g, map TRun ps) tr (g', ts) ->
  (forall i p, nth_error ps i = Some p -> exists it,
     ideal e users (may_mix users Q (length (array (gmem g) (A0 e)))) (once_value g') p (visible (of_thread i tr)) it) /\
  once_inv init tr g' ts.
Proof.
  intros (ON & U) CO S.
  destruct (run_inv e users Q (length (array (gmem g) (A0 e))) init ps _ _ _ S []) as (C & O); cbn [fst snd].
  - constructor.
    + split; [exact U|reflexivity].
    + apply map_length.
    + intros i p t Hp Ht. rewrite nth_error_map, Hp in Ht. injection Ht as <-. exists (TRun p). split; [|constructor].
      split; [|reflexivity]. cbn. rewrite Forall_forall in CO. apply CO. eapply nth_error_In; eauto.
    + intros i j ti tj a _ Hi _ Ui. rewrite nth_error_map in Hi. destruct (nth_error ps i); [injection Hi as <-|]; discriminate.
  - unfold once_inv. rewrite ON. split; [reflexivity|]. unfold no_init. apply Forall_map, Forall_forall. reflexivity.
  - cbn [app] in *. split; [|exact O]. intros i p Hp. destruct C as [_ LEN TH _].
    destruct (nth_error ts i) as [t|] eqn:Ht.
    + destruct (TH _ _ _ Hp Ht) as (it & _ & I). eauto.
    + apply nth_error_None in Ht. cbn [snd] in LEN. rewrite LEN in Ht. apply nth_error_None in Ht. congruence.
Qed.
