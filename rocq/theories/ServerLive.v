(** Lemmas about the server: it comes to an end. *)
From Coq Require Import Permutation ZifyBool ZifyNat ZifyN.
From Verif Require Import GoBase GoSlice Frame FrameSpec Flags LinkTypes JsonSpec Json Emacs Backend BackendSpec ReplyJson ReplySpec ReplyProofs ReplyMain
  Server ServerSpec ServerProofs ServerMain.

(** ** Threads *)
Definition tless (e : emacs_cfg) (init : hprog notes) (t' t : thread reply) : Prop := exists g l g', tstep e init (g, t) l (g', t').
Ltac tinv H := destruct H as (? & ? & ? & H); inversion H; subst; clear H.
Lemma over_acc e init r : Acc (tless e init) (TOver r).
Proof. constructor. intros t H. tinv H. Qed.
Lemma crash_acc e init : Acc (tless e init) TCrash.
Proof. constructor. intros t H. tinv H. Qed.
Lemma wait_acc e init k : (forall r, Acc (tless e init) (TRun (k r))) -> Acc (tless e init) (TWait k).
Proof. intros A. constructor. intros t H. tinv H. apply A. Qed.
Lemma build_acc e init k : (forall r, Acc (tless e init) (TRun (k r))) -> forall more s todo, Acc (tless e init) (TBuild s todo more k).
Proof.
  intros A. assert (N : forall todo s, Acc (tless e init) (TBuild s todo None k)).
  { induction todo as [|x todo IH]; intros s; constructor; intros t H; tinv H; [apply wait_acc, A|apply IH]. }
  intros [args|] s todo; [|apply N]. revert s. induction todo as [|x todo IH]; intros s; constructor; intros t H; tinv H; [apply N|apply IH].
Qed.
Lemma init_acc e init k : (forall v, Acc (tless e init) (TRun (k v))) -> forall p, Acc (tless e init) (TInit p k).
Proof. intros A. induction p as [v| |args p IH|n p IH|p IH]; constructor; intros t H; tinv H; [apply A|apply crash_acc|apply IH]. Qed.
Lemma run_acc e init p : Acc (tless e init) (TRun p).
Proof.
  induction p as [v| |args k IH|n k IH|k IH]; constructor; intros t H; tinv H.
  - apply over_acc.
  - apply crash_acc.
  - apply build_acc, IH.
  - apply IH.
  - apply init_acc, IH.
  - apply IH.
Qed.
Lemma thread_acc e init t : Acc (tless e init) t.
Proof.
  destruct t as [p|s todo more k|k|p k|r|].
  - apply run_acc.
  - apply build_acc. intros r. apply run_acc.
  - apply wait_acc. intros r. apply run_acc.
  - apply init_acc. intros v. apply run_acc.
  - apply over_acc.
  - apply crash_acc.
Qed.

(** ** Senders *)
Definition xless (x' x : sender) : Prop := exists k cn l cn', send k (cn, x) l (cn', x').
Ltac xinv H := destruct H as (? & ? & ? & ? & H); inversion H; subst; clear H.
Lemma sender_acc x : Acc xless x.
Proof.
  assert (A1 : Acc xless SOver) by (constructor; intros y H; xinv H).
  assert (A2 : Acc xless SPanic) by (constructor; intros y H; xinv H).
  assert (A3 : Acc xless SUnlock) by (constructor; intros y H; xinv H; exact A1).
  assert (A4 : forall n todo, length todo <= n -> Acc xless (SWrite todo)).
  { induction n as [|n IH]; intros todo L; constructor; intros y H; xinv H; try exact A3.
    - exfalso. destruct d; [congruence|cbn in L; lia].
    - apply IH. destruct d; [congruence|]. cbn in L. rewrite app_length in L. lia. }
  assert (A5 : Acc xless SHeader) by (constructor; intros y H; xinv H; eapply A4; reflexivity).
  assert (A6 : forall a, Acc xless (SEncode a)) by (intros a; constructor; intros y H; xinv H; assumption).
  destruct x; auto; [|eapply A4; reflexivity]. constructor; intros y H; xinv H; apply A6.
Qed.

(** ** Calls *)
Definition jless (c : config) (j' j : job) : Prop :=
  (exists t t', j = JRun t /\ j' = JRun t' /\ tless (c_emacs c) (initializer (c_back c)) t' t) \/
  (exists x a, j = JRun (TOver x) /\ j' = JSend (SLock a)) \/
  (exists x x', j = JSend x /\ j' = JSend x' /\ xless x' x).
Lemma job_acc c j : Acc (jless c) j.
Proof.
  assert (A : forall x, Acc (jless c) (JSend x)).
  { intros x. induction (sender_acc x) as [x _ IH]. constructor. intros j' [(t & t' & E & _)|[(y & a & E & _)|(y & y' & E & -> & L)]]; try discriminate E.
    injection E as <-. apply IH, L. }
  destruct j as [t|x]; [|apply A]. induction (thread_acc (c_emacs c) (initializer (c_back c)) t) as [t _ IH]. constructor.
  intros j' [(t0 & t' & E & -> & L)|[(y & a & E & ->)|(y & y' & E & _)]]; [injection E as <-; apply IH, L|apply A|discriminate E].
Qed.
Definition lless (c : config) (cs' cs : list call) : Prop :=
  exists pre k j j' post, cs = pre ++ mkCall k j :: post /\ cs' = pre ++ mkCall k j' :: post /\ jless c j' j.
Lemma calls_acc c cs : Acc (lless c) cs.
Proof.
  induction cs as [|[k j] cs IH]; [constructor; intros cs' (pre & k & j & j' & post & E & _); destruct pre; discriminate|].
  revert cs IH. induction (job_acc c j) as [j _ IHj]. intros cs A. pose proof A as A0. induction A0 as [cs _ IHc].
  constructor. intros cs' (pre & k' & j1 & j2 & post & E & -> & L). destruct pre as [|cl pre]; cbn [app] in *.
  - injection E as -> -> ->. apply IHj; assumption.
  - injection E as <- E. assert (Lc : lless c (pre ++ mkCall k' j2 :: post) cs) by (exists pre, k', j1, j2, post; auto).
    apply IHc; [exact Lc|]. apply (Acc_inv A), Lc.
Qed.

(** ** The reader *)
Inductive rless : list packet * reader -> list packet * reader -> Prop :=
| rl_call p rest : rless (rest, RRead) (p :: rest, RRead)
| rl_error p rest k x : rless (rest, RSend k x) (p :: rest, RRead)
| rl_send inp k x x' : xless x' x -> rless (inp, RSend k x') (inp, RSend k x)
| rl_sent inp k : rless (inp, RRead) (inp, RSend k SOver)
| rl_end : rless ([], RWait) ([], RRead)
| rl_close inp : rless (inp, RClosed) (inp, RWait).
Lemma reader_acc ir : Acc rless ir.
Proof.
  assert (A1 : forall inp, Acc rless (inp, RClosed)) by (intros inp; constructor; intros y H; inversion H).
  assert (A2 : forall inp, Acc rless (inp, RWait)) by (intros inp; constructor; intros y H; inversion H; subst; apply A1).
  assert (A3 : forall inp, Acc rless (inp, RRead) -> forall k x, Acc rless (inp, RSend k x)).
  { intros inp A k x. induction (sender_acc x) as [x _ IH]. constructor. intros y H. inversion H; subst; [apply IH; assumption|exact A]. }
  assert (A4 : forall inp, Acc rless (inp, RRead)).
  { induction inp as [|p inp IH]; constructor; intros y H; inversion H; subst; [apply A2|exact IH|apply A3, IH]. }
  destruct ir as [inp []]; auto.
Qed.

(** ** The server *)
Definition sless (c : config) (s' s : server) : Prop := exists l, sstep c s l s'.
Lemma server_acc c s : Acc (sless c) s.
Proof.
  destruct s as [g inp n r cs cn]. remember (inp, r) as ir eqn:E. revert g inp n r cs cn E. induction (reader_acc ir) as [ir _ IHr]. intros g inp n r cs cn ->.
  revert g n cn. induction (calls_acc c cs) as [cs _ IHc]. intros g n cn. constructor. intros s' (l & St).
  inversion St; subst; try (eapply IHr; [|reflexivity]; constructor; fail).
  - eapply IHr; [|reflexivity]. constructor. red. eauto.
  - apply IHc. exists pre, k, (JRun t), (JRun t'), post. split; [reflexivity|]. split; [reflexivity|]. left. exists t, t'. split; [reflexivity|]. split; [reflexivity|]. red. eauto.
  - apply IHc. eexists pre, k, _, _, post. split; [reflexivity|]. split; [reflexivity|]. right. left. eauto.
  - apply IHc. eexists pre, k, _, _, post. split; [reflexivity|]. split; [reflexivity|]. right. right. eexists _, _. split; [reflexivity|]. split; [reflexivity|]. red. eauto.
Qed.
Lemma no_infinite c (f : nat -> server) (ls : nat -> slabel) : ~ forall n, sstep c (f n) (ls n) (f (S n)).
Proof.
  intros H. assert (K : forall s, Acc (sless c) s -> forall n, f n <> s).
  { induction 1 as [s _ IH]. intros n E. refine (IH (f (S n)) _ (S n) eq_refl). exists (ls n). rewrite <- E. apply H. }
  exact (K (f 0) (server_acc c (f 0)) 0 eq_refl).
Qed.

(** ** Progress *)

(** Programs that only read files *)
Fixpoint only_reads {A} (p : hprog A) : Prop :=
  match p with
  | HRet _ | HPanic => True
  | HRead _ k => forall r, only_reads (k r)
  | HExec _ _ | HOnce _ => False
  end.
Lemma only_bind {A B} (p : hprog A) (f : A -> hprog B) : only_reads p -> (forall a, only_reads (f a)) -> only_reads (hbind p f).
Proof. intros H F. induction p as [v| |args k IH|n k IH|k IH]; cbn in *; auto; contradiction. Qed.
Lemma only_file x src : only_reads (ExtractLinksFromFile x src).
Proof.
  destruct src as [k name]. cbn [ExtractLinksFromFile only_reads]. intros [|content broken]; [exact Logic.I|].
  destruct (xtree x k content broken) as [[[t|] err]|]; exact Logic.I.
Qed.
Lemma only_group x srcs : forall acc, only_reads (group_loop x srcs acc).
Proof.
  induction srcs as [|src srcs IH]; intros acc; cbn [group_loop]; [exact Logic.I|]. apply only_bind; [apply only_file|]. intros [t err].
  destruct err; [exact Logic.I|]. apply IH.
Qed.
Lemma only_initializer bk : only_reads (initializer bk).
Proof.
  unfold initializer. destruct (srcFiles bk) as [|src srcs]; [exact Logic.I|]. apply only_bind.
  - unfold ExtractLinksFromFileGroup. apply only_bind; [apply only_group|]. intros [ts err]. exact Logic.I.
  - intros [group err]. destruct err, group; exact Logic.I.
Qed.

Definition initialising (j : job) : Prop := exists p k, j = JRun (TInit p k).
Record live (s : server) : Prop := mkLive {
  l_init : forall k0 p k, In (mkCall k0 (JRun (TInit p k))) (scalls s) -> only_reads p;
  l_busy : gonce (sglob s) = OBusy -> alive s -> exists cl, In cl (scalls s) /\ initialising (cjob cl);
  l_lock : length (filter holding (map snd (senders s))) = if locked (sconn s) then 1 else 0 }.

Lemma send_lock k cn x l cn' x' (rest : nat) : send k (cn, x) l (cn', x') ->
  (if holding x then S rest else rest) = (if locked cn then 1 else 0) ->
  (if holding x' then S rest else rest) = (if locked cn' then 1 else 0).
Proof. intros H E. inversion H; subst; cbn in *; try assumption; repeat match goal with x : bool |- _ => destruct x end; lia. Qed.

Lemma live_start g input : gonce g <> OBusy -> live (start g input).
Proof. intros N. constructor; cbn; [contradiction|congruence|reflexivity]. Qed.

Lemma holders_mid r pre cl post : length (filter holding (map snd (reader_senders r ++ call_senders (pre ++ cl :: post)))) =
  length (filter holding (map snd (call_senders [cl]))) + length (filter holding (map snd (reader_senders r ++ call_senders (pre ++ post)))).
Proof.
  rewrite !call_senders_app. change (cl :: post) with ([cl] ++ post). rewrite call_senders_app, !map_app, !filter_app, !app_length. lia.
Qed.
Lemma tstep_init e bk g (t : thread reply) l g' t' : tstep e (initializer bk) (g, t) l (g', t') ->
  (forall p k, t = TInit p k -> only_reads p) -> forall p k, t' = TInit p k -> only_reads p.
Proof.
  intros T O p k ->. inversion T; subst.
  - apply only_initializer.
  - exact (O _ _ eq_refl r).
Qed.
Lemma live_step c s l s' : live s -> sstep c s l s' -> live s'.
Proof.
  intros [L1 L2 L3] St. destruct St as [g p rest n cs cn q o A RR|g p rest n cs cn msg A RR|g inp n k x cs cn l cn' x' A Sd|g inp n k cs cn A|g n cs cn A|g inp n cs cn A
      |g inp n r pre k t post cn l g' t' A T|g inp n r pre k x post cn A|g inp n r pre k x post cn l cn' x' A Sd];
    cbn [sglob sinput sseq sreader scalls sconn] in *; unfold senders in *; cbn [sreader scalls reader_senders app] in *.
  - constructor; unfold senders; cbn [sglob sreader scalls sconn reader_senders app locked].
    + intros k0 p0 k I. apply in_app_or in I. destruct I as [I|[I|[]]]; [exact (L1 _ _ _ I)|discriminate I].
    + intros B _. destruct (L2 B A) as (cl & I & J). exists cl. split; [apply in_or_app; auto|exact J].
    + rewrite call_senders_app. cbn. rewrite app_nil_r. exact L3.
  - constructor; unfold senders; cbn [sglob sreader scalls sconn reader_senders app locked]; [exact L1|intros B _; exact (L2 B A)|exact L3].
  - constructor; unfold senders; cbn [sglob sreader scalls sconn reader_senders app]; [exact L1|intros B _; exact (L2 B A)|].
    cbn [map snd filter] in *. pose proof (send_lock _ _ _ _ _ _ (length (filter holding (map snd (call_senders cs)))) Sd) as Z. destruct (holding x), (holding x'); exact (Z L3).
  - constructor; unfold senders; cbn [sglob sreader scalls sconn reader_senders app]; [exact L1|intros B _; exact (L2 B A)|exact L3].
  - constructor; unfold senders; cbn [sglob sreader scalls sconn reader_senders app]; [exact L1|intros B _; exact (L2 B A)|exact L3].
  - constructor; unfold senders; cbn [sglob sreader scalls sconn reader_senders app locked]; [exact L1| |exact L3].
    intros B Al. apply L2; [exact B|]. destruct Al as [Al _]. split; [exact Al|discriminate].
  - constructor; unfold senders; cbn [sglob sreader scalls sconn reader_senders app].
    + assert (O : forall p k, t' = TInit p k -> only_reads p).
      { eapply tstep_init; [exact T|]. intros p k1 ->. eapply L1. apply in_or_app. right. left. reflexivity. }
      intros k0 p k1 I. apply in_app_or in I. destruct I as [I|[I|I]]; [eapply L1, in_or_app; left; exact I|injection I as _ ->; eapply O; reflexivity|eapply L1, in_or_app; right; right; exact I].
    + intros B Al.
      assert (Z : initialising (JRun t') \/ (gonce g = OBusy /\ ~ initialising (JRun t)) \/ t' = TCrash).
      { unfold initialising. inversion T; subst; cbn [gonce] in *; try (right; left; split; [assumption|intros (? & ? & E); discriminate E]; fail); try discriminate B; eauto. }
      destruct Z as [Z|[[B' N]| ->]].
      * exists (mkCall k (JRun t')). split; [apply in_or_app; right; left; reflexivity|exact Z].
      * destruct (L2 B' A) as (cl & I & J). exists cl. split; [|exact J]. apply in_app_or in I. apply in_or_app. destruct I as [I|[<-|I]]; [auto|contradiction|right; right; exact I].
      * exfalso. destruct Al as [Al _]. cbn [scalls] in Al. apply Forall_app in Al. destruct Al as [_ Al]. inversion Al as [|? ? N _]; subst. apply N. left. reflexivity.
    + rewrite holders_mid in *. exact L3.
  - constructor; unfold senders; cbn [sglob sreader scalls sconn reader_senders app].
    + intros k0 p k1 I. apply in_app_or in I. destruct I as [I|[I|I]]; [eapply L1, in_or_app; left; exact I|discriminate I|eapply L1, in_or_app; right; right; exact I].
    + intros B _. destruct (L2 B A) as (cl & I & J). exists cl. split; [|exact J]. apply in_app_or in I. apply in_or_app. destruct I as [I|[<-|I]]; [auto| |right; right; exact I].
      destruct J as (p & k1 & E). discriminate E.
    + rewrite holders_mid in *. exact L3.
  - constructor; unfold senders; cbn [sglob sreader scalls sconn reader_senders app].
    + intros k0 p k1 I. apply in_app_or in I. destruct I as [I|[I|I]]; [eapply L1, in_or_app; left; exact I|discriminate I|eapply L1, in_or_app; right; right; exact I].
    + intros B _. destruct (L2 B A) as (cl & I & J). exists cl. split; [|exact J]. apply in_app_or in I. apply in_or_app. destruct I as [I|[<-|I]]; [auto| |right; right; exact I].
      destruct J as (p & k1 & E). discriminate E.
    + rewrite holders_mid in *. cbn [call_senders flat_map cjob cseq app map snd filter] in *.
      pose proof (send_lock _ _ _ _ _ _ (length (filter holding (map snd (reader_senders r ++ call_senders (pre ++ post))))) Sd) as Z. destruct (holding x), (holding x'); exact (Z L3).
Qed.
Lemma live_run c s tr s' : srun c s tr s' -> live s -> live s'.
Proof. induction 1; auto. intros L. apply IHsrun. eapply live_step; eassumption. Qed.

(** A thread waits only for initialisation by another one. *)
Lemma thread_progress e init g (t : thread reply) : ~ crashed t -> (forall r, t <> TOver r) -> (forall p k, t = TInit p k -> only_reads p) ->
  (exists l g' t', tstep e init (g, t) l (g', t')) \/ gonce g = OBusy.
Proof.
  intros C O I. destruct g as [m o]. destruct t as [p|s todo more k|k|p k|r|].
  - destruct p as [r| |args k|n k|k].
    + left. eexists _, _, _. apply t_ret.
    + left. eexists _, _, _. apply t_panic.
    + left. destruct (Nat.le_gt_cases (len (UserArgs e) + length Args) (cap m (UserArgs e))) as [H|H];
        eexists _, _, _; constructor; [apply app_in_place|apply (app_copy _ _ _ 0)]; exact H.
    + left. eexists _, _, _. apply t_read with (r := RNone).
    + destruct o; [left; eexists _, _, _; constructor|right; reflexivity|left; eexists _, _, _; constructor].
  - left. destruct todo as [|[i x] todo]; [|eexists _, _, _; constructor]. destruct more as [args|]; [|eexists _, _, _; constructor].
    destruct (Nat.le_gt_cases (len s + length args) (cap m s)) as [H|H]; eexists _, _, _; constructor; [apply app_in_place|apply (app_copy _ _ _ 0)]; exact H.
  - left. eexists _, _, _. apply t_end with (r := XOk []).
  - left. specialize (I _ _ eq_refl). destruct p as [v| |args p|n p|p]; cbn in I; try contradiction; [eexists _, _, _; constructor|eexists _, _, _; constructor|].
    eexists _, _, _. apply t_init_read with (r := RNone).
  - exfalso. exact (O r eq_refl).
  - exfalso. apply C. reflexivity.
Qed.
Lemma send_progress k cn x : holding x = true -> x <> SPanic -> exists l cn' x', l <> VFail /\ send k (cn, x) l (cn', x').
Proof.
  destruct cn as [m lk buf out]. destruct x as [a|a| |todo| | |]; cbn; intros H N; try discriminate; try congruence.
  - destruct (taken k m) as [id|] eqn:T; [|eexists VTau, _, _; split; [discriminate|apply s_encode_none; exact T]].
    destruct (response id a) as [t|] eqn:R; [eexists VTau, _, _; split; [discriminate|eapply s_encode; eassumption]|eexists VCrash, _, _; split; [discriminate|eapply s_encode_panic; eassumption]].
  - eexists VTau, _, _. split; [discriminate|constructor].
  - destruct todo as [|c todo]; [eexists VTau, _, _; split; [discriminate|constructor]|]. eexists (VOut [c]), _, _. split; [discriminate|]. apply (s_write k m lk buf out [c] todo). discriminate.
  - eexists VTau, _, _. split; [discriminate|constructor].
Qed.
Lemma in_senders cs k x : In (k, x) (call_senders cs) -> exists pre post, cs = pre ++ mkCall k (JSend x) :: post.
Proof.
  intros I. unfold call_senders in I. apply in_flat_map in I. destruct I as ([k' j] & I & J). destruct j as [t|y]; [contradiction|]. destruct J as [J|[]]. cbn [cseq] in J. injection J as <- <-.
  apply in_split in I. exact I.
Qed.
Lemma alive_call s cl : alive s -> In cl (scalls s) -> ~ panicked (cjob cl).
Proof. intros [A _] I. rewrite Forall_forall in A. exact (A _ I). Qed.
Lemma progress c s : live s -> alive s -> sreader s <> RClosed -> exists l s', l <> VFail /\ sstep c s l s'.
Proof.
  intros [L1 L2 L3] A NC. destruct s as [g inp n r cs cn]. cbn [sglob sinput sseq sreader scalls sconn] in *. unfold senders in *. cbn [sreader scalls] in *.
  (* a goroutine that holds the mutex *)
  assert (H1 : locked cn = true -> exists l s', l <> VFail /\ sstep c (mkServer g inp n r cs cn) l s').
  { intros Lk. rewrite Lk in L3. destruct (filter holding (map snd (reader_senders r ++ call_senders cs))) as [|x [|]] eqn:F; cbn in L3; try discriminate L3.
    assert (J : In x (map snd (reader_senders r ++ call_senders cs)) /\ holding x = true) by (rewrite <- filter_In, F; left; reflexivity).
    destruct J as [J Hx]. apply in_map_iff in J. destruct J as ([k y] & E & J). cbn [snd] in E. subst y. apply in_app_or in J. destruct J as [J|J].
    - destruct r; cbn in J; try contradiction. destruct J as [J|[]]. injection J as -> ->.
      assert (Np : x <> SPanic) by (intros ->; destruct A as [_ A]; exact (A k eq_refl)).
      destruct (send_progress k cn x Hx Np) as (l & cn' & x' & Nl & Sd). eexists l, _. split; [exact Nl|]. apply v_error_send; eassumption.
    - apply in_senders in J. destruct J as (pre & post & ->).
      assert (Np : x <> SPanic).
      { intros ->. refine (alive_call _ (mkCall k (JSend SPanic)) A _ _); [apply in_or_app; right; left; reflexivity|right; reflexivity]. }
      destruct (send_progress k cn x Hx Np) as (l & cn' & x' & Nl & Sd). eexists l, _. split; [exact Nl|]. eapply v_send; eassumption. }
  (* initialisation *)
  assert (H2 : gonce g = OBusy -> exists l s', l <> VFail /\ sstep c (mkServer g inp n r cs cn) l s').
  { intros B. destruct (L2 B A) as ([k0 j] & I & p & k & E). cbn [cjob] in E. subst j. pose proof (L1 _ _ _ I) as O. apply in_split in I. destruct I as (pre & post & ->).
    assert (X : exists l g' t', tstep (c_emacs c) (initializer (c_back c)) (g, TInit p k) l (g', t')).
    { destruct g as [m o]. destruct p as [v| |args p|nm p|p]; cbn in O; try contradiction; [eexists _, _, _; constructor|eexists _, _, _; constructor|]. eexists _, _, _. apply t_init_read with (r := RNone). }
    destruct X as (l & g' & t' & X). eexists (VBack (length pre) l), _. split; [discriminate|]. eapply v_back; eassumption. }
  (* calls *)
  assert (H3 : Forall (fun cl => cjob cl = JSend SOver) cs \/ exists l s', l <> VFail /\ sstep c (mkServer g inp n r cs cn) l s').
  { destruct (Forall_Exists_dec (fun cl => cjob cl = JSend SOver)) with (l := cs) as [F|F]; [|left; exact F|right].
    - intros [k j]. cbn. destruct j as [t|[]]; try (right; discriminate). left. reflexivity.
    - apply Exists_exists in F. destruct F as ([k j] & I & N). cbn [cjob] in N. pose proof (alive_call _ _ A I) as Np. cbn [cjob] in Np.
      pose proof I as I0. apply in_split in I. destruct I as (pre & post & ->). destruct j as [t|x].
      + assert (Z : (exists x, t = TOver x) \/ forall x, t <> TOver x) by (destruct t; [right; discriminate..|left; eauto|right; discriminate]).
        destruct Z as [(x & ->)|Z]; [eexists VTau, _; split; [discriminate|apply v_over; exact A]|].
        destruct (thread_progress (c_emacs c) (initializer (c_back c)) g t) as [(l & g' & t' & T)|B]; [|exact Z| | |exact (H2 B)].
        * intros E. apply Np. left. unfold crashed in E. subst t. reflexivity.
        * intros p k1 ->. eapply L1, I0.
        * eexists (VBack (length pre) l), _. split; [discriminate|]. eapply v_back; eassumption.
      + destruct (holding x) eqn:Hx.
        * assert (Nx : x <> SPanic) by (intros ->; apply Np; right; reflexivity).
          destruct (send_progress k cn x Hx Nx) as (l & cn' & x' & Nl & Sd). eexists l, _. split; [exact Nl|]. eapply v_send; eassumption.
        * destruct x; try discriminate Hx; [|congruence]. destruct (locked cn) eqn:Lk; [exact (H1 eq_refl)|]. destruct cn as [m lk buf out]. cbn in Lk. subst lk.
          eexists VTau, _. split; [discriminate|]. eapply v_send; [exact A|constructor]. }
  destruct r as [|k x| |]; [| | |congruence].
  - destruct inp as [|p rest]; [eexists VTau, _; split; [discriminate|apply v_end; exact A]|]. destruct (readRequest (c_dec c) p) as [q|msg] eqn:R.
    + eexists (VAccept p (Some (mkOrders [] (fun l => l)))), _. split; [discriminate|]. eapply v_call; eassumption.
    + eexists _, _. split; [|eapply v_error; eassumption]. discriminate.
  - destruct (holding x) eqn:Hx.
    + assert (Np : x <> SPanic) by (intros ->; destruct A as [_ A]; exact (A k eq_refl)).
      destruct (send_progress k cn x Hx Np) as (l & cn' & x' & Nl & Sd). eexists l, _. split; [exact Nl|]. apply v_error_send; eassumption.
    + destruct x; try discriminate Hx; [|eexists VTau, _; split; [discriminate|apply v_error_sent; exact A]].
      destruct (locked cn) eqn:Lk; [exact (H1 eq_refl)|]. destruct cn as [m lk buf out]. cbn in Lk. subst lk. eexists VTau, _. split; [discriminate|]. eapply v_error_send; [exact A|constructor].
  - destruct H3 as [F|H3]; [|exact H3]. eexists VClose, _. split; [discriminate|]. apply v_close. exact F.
Qed.

(** ** Ends of executions *)
Lemma send_panic k cn x l cn' x' : send k (cn, x) l (cn', x') -> (l = VCrash <-> x' = SPanic).
Proof. intros H. inversion H; subst; split; congruence. Qed.
Lemma tstep_panic e init g (t : thread reply) l g' t' : tstep e init (g, t) l (g', t') -> (l = LPanic <-> t' = TCrash).
Proof. intros H. inversion H; subst; split; congruence. Qed.
Lemma step_alive c s l s' : sstep c s l s' -> alive s.
Proof.
  intros H. inversion H; subst; try assumption. split; [|discriminate]. cbn [scalls]. eapply Forall_impl; [|eassumption].
  intros cl E [P|P]; congruence.
Qed.
Lemma alive_mid g inp n r pre cl post cn g' cn' cl' : alive (mkServer g inp n r (pre ++ cl :: post) cn) -> ~ panicked (cjob cl') -> alive (mkServer g' inp n r (pre ++ cl' :: post) cn').
Proof.
  intros [A B] N. cbn [scalls sreader] in *. split; [|exact B]. cbn [scalls] in *. apply Forall_app in A. destruct A as [A1 A2]. inversion A2; subst. apply Forall_app. split; [assumption|]. constructor; assumption.
Qed.
Definition quiet (s : server) : Prop := sreader s = RClosed -> Forall (fun x => cjob x = JSend SOver) (scalls s).
Lemma quiet_step c s l s' : quiet s -> sstep c s l s' -> quiet s' /\ sreader s <> RClosed /\ (fatal l <-> ~ alive s' \/ sreader s' = RClosed).
Proof.
  intros Q St. unfold quiet, fatal in *. pose proof (step_alive _ _ _ _ St) as A0.
  destruct St as [g p rest n cs cn q o A RR|g p rest n cs cn msg A RR|g inp n k x cs cn l cn' x' A Sd|g inp n k cs cn A|g n cs cn A|g inp n cs cn A
      |g inp n r pre k t post cn l g' t' A T|g inp n r pre k x post cn A|g inp n r pre k x post cn l cn' x' A Sd];
    cbn [sglob sinput sseq sreader scalls sconn] in *.
  - split; [discriminate|]. split; [discriminate|]. split; [intros [?|[?|[? ?]]]; discriminate|]. intros [N|?]; [|discriminate]. exfalso. apply N. destruct A as [A _]. split; [|discriminate].
    cbn [scalls] in *. apply Forall_app. split; [exact A|]. constructor; [|constructor]. intros [P|P]; discriminate P.
  - split; [discriminate|]. split; [discriminate|]. split; [intros [?|[?|[? ?]]]; discriminate|]. intros [N|?]; [|discriminate]. exfalso. apply N. destruct A as [A _]. split; [exact A|discriminate].
  - split; [discriminate|]. split; [discriminate|]. pose proof (send_panic _ _ _ _ _ _ Sd) as Z. split.
    + intros [->|[->|(i & ->)]]; [inversion Sd| |inversion Sd]. left. intros [_ B]. apply (B k). cbn [sreader]. f_equal. apply Z. reflexivity.
    + intros [N|?]; [|discriminate]. right. left. apply Z. destruct x'; try reflexivity; exfalso; apply N; (split; [apply A|discriminate]).
  - split; [discriminate|]. split; [discriminate|]. split; [intros [?|[?|[? ?]]]; discriminate|]. intros [N|?]; [|discriminate]. exfalso. apply N. destruct A as [A _]. split; [exact A|discriminate].
  - split; [discriminate|]. split; [discriminate|]. split; [intros [?|[?|[? ?]]]; discriminate|]. intros [N|?]; [|discriminate]. exfalso. apply N. destruct A as [A _]. split; [exact A|discriminate].
  - split; [auto|]. split; [discriminate|]. split; [auto|]. auto.
  - assert (NC : r <> RClosed).
    { intros ->. specialize (Q eq_refl). apply Forall_app in Q. destruct Q as [_ Q]. inversion Q; subst. discriminate. }
    split; [congruence|]. split; [exact NC|]. pose proof (tstep_panic _ _ _ _ _ _ _ T) as Z. split.
    + intros [?|[?|(i & E)]]; try discriminate. injection E as _ ->. left. intros [B _]. cbn [scalls] in B. apply Forall_app in B. destruct B as [_ B]. inversion B as [|? ? N _]; subst.
      apply N. left. cbn [cjob]. f_equal. apply Z. reflexivity.
    + intros [N|?]; [|contradiction]. right. right. exists (length pre). f_equal. apply Z. destruct t'; try reflexivity; exfalso; apply N; eapply alive_mid; try exact A; intros [P|P]; discriminate P.
  - assert (NC : r <> RClosed).
    { intros ->. specialize (Q eq_refl). apply Forall_app in Q. destruct Q as [_ Q]. inversion Q; subst. discriminate. }
    split; [congruence|]. split; [exact NC|]. split; [intros [?|[?|[? ?]]]; discriminate|]. intros [N|?]; [|contradiction]. exfalso. apply N. eapply alive_mid; [exact A|]. intros [P|P]; discriminate P.
  - assert (NC : r <> RClosed).
    { intros ->. specialize (Q eq_refl). apply Forall_app in Q. destruct Q as [_ Q]. inversion Q as [|? ? E _]; subst. injection E as ->. inversion Sd. }
    split; [congruence|]. split; [exact NC|]. pose proof (send_panic _ _ _ _ _ _ Sd) as Z. split.
    + intros [->|[->|(i & ->)]]; [inversion Sd| |inversion Sd]. left. intros [B _]. cbn [scalls] in B. apply Forall_app in B. destruct B as [_ B]. inversion B as [|? ? N _]; subst.
      apply N. right. cbn [cjob]. f_equal. apply Z. reflexivity.
    + intros [N|?]; [|contradiction]. right. left. apply Z. destruct x'; try reflexivity; exfalso; apply N; eapply alive_mid; try exact A; intros [P|P]; discriminate P.
Qed.
Lemma quiet_run c s tr s' : srun c s tr s' -> quiet s -> quiet s'.
Proof. induction 1; auto. intros Q. apply IHsrun. eapply quiet_step; eassumption. Qed.
(** Nothing happens after closing or a panic. *)
Lemma fatal_last c s tr s' : quiet s -> srun c s tr s' -> forall tr1 l tr2, tr = tr1 ++ l :: tr2 -> fatal l -> tr2 = [].
Proof.
  intros Q R. induction R as [s|s l s1 tr s2 St R IH]; intros tr1 l0 tr2 E F; [destruct tr1; discriminate E|].
  destruct (quiet_step _ _ _ _ Q St) as (Q1 & _ & Z). destruct tr1 as [|l1 tr1].
  - injection E as -> ->. apply Z in F. inversion R as [|? l' s'' ? ? St' R']; subst; [reflexivity|]. exfalso.
    destruct F as [F|F]; [apply F; eapply step_alive, St'|]. destruct (quiet_step _ _ _ _ Q1 St') as (_ & N & _). contradiction.
  - injection E as -> ->. eapply IH; eauto.
Qed.
Lemma srun_app c s tr s1 tr' s2 : srun c s tr s1 -> srun c s1 tr' s2 -> srun c s (tr ++ tr') s2.
Proof. induction 1; intros H'; cbn [app]; [exact H'|econstructor; eauto]. Qed.
(** Every execution can be finished and, since there are no infinite ones, it will be. *)
Lemma server_ends c s : live s -> quiet s -> alive s -> sreader s <> RClosed -> exists tr l s', srun c s (tr ++ [l]) s' /\ fatal l /\ ~ In VFail tr.
Proof.
  induction (server_acc c s) as [s _ IH]. intros L Q A N. destruct (progress c s L A N) as (l & s' & Nl & St). destruct (quiet_step _ _ _ _ Q St) as (Q' & _ & Z).
  assert (D : fatal l \/ ~ fatal l).
  { unfold fatal. destruct l as [|i []| | | | |]; auto; try (right; intros [?|[?|(? & ?)]]; discriminate). left. right. right. eauto. }
  destruct D as [D|D].
  - exists [], l, s'. split; [econstructor; [exact St|constructor]|]. auto.
  - assert (A' : alive s').
    { destruct (Forall_dec (fun cl => ~ panicked (cjob cl))) with (l := scalls s') as [F|F].
      - intros [k j]. cbn. unfold panicked. destruct j as [[]|[]]; try (left; intros [?|?]; discriminate); right; intros X; apply X; auto.
      - split; [exact F|]. intros k E. apply D, Z. left. intros [_ B]. exact (B k E).
      - exfalso. apply D, Z. left. intros [B _]. contradiction. }
    destruct (IH s') as (tr & l' & s2 & R & Fl & NF); [red; eauto|eapply live_step; eassumption|exact Q'|exact A'|intros E; apply D, Z; auto|].
    exists (l :: tr), l', s2. split; [econstructor; eassumption|]. split; [exact Fl|]. intros [E|I]; [congruence|contradiction].
Qed.
Lemma start_quiet g input : quiet (start g input).
Proof. discriminate. Qed.
Lemma start_alive g input : alive (start g input).
Proof. split; [constructor|discriminate]. Qed.
Lemma run_ended c s tr s' : quiet s -> alive s -> sreader s <> RClosed -> srun c s tr s' -> (finished tr <-> ~ alive s' \/ sreader s' = RClosed).
Proof.
  intros Q A N R. destruct tr as [|l tr _] using rev_ind.
  - inversion R; subst. split; [intros (tr & l & E & _); destruct tr; discriminate E|tauto].
  - apply srun_snoc in R. destruct R as (s1 & R & St). destruct (quiet_step _ _ _ _ (quiet_run _ _ _ _ R Q) St) as (_ & _ & Z). rewrite <- Z. split.
    + intros (tr' & l' & E & F). apply app_inj_tail in E. destruct E as [_ ->]. exact F.
    + intros F. exists tr, l. auto.
Qed.
Lemma alive_dec s : alive s \/ ~ alive s.
Proof.
  destruct (Forall_dec (fun cl => ~ panicked (cjob cl))) with (l := scalls s) as [F|F].
  - intros [k j]. cbn. unfold panicked. destruct j as [[]|[]]; try (left; intros [?|?]; discriminate); right; intros X; apply X; auto.
  - assert (D : (exists k, sreader s = RSend k SPanic) \/ forall k, sreader s <> RSend k SPanic) by (destruct (sreader s) as [|k []| |]; eauto; right; discriminate).
    destruct D as [(k & E)|D]; [right; intros [_ B]; exact (B k E)|left; split; assumption].
  - right. intros [B _]. contradiction.
Qed.
Lemma closed_dec s : sreader s = RClosed \/ sreader s <> RClosed.
Proof. destruct (sreader s); auto; right; discriminate. Qed.
(** The server stops at and only at closing of the connection and a panic. *)
Lemma server_stuck c g input tr s : gonce g <> OBusy -> srun c (start g input) tr s -> ((forall l s', ~ sstep c s l s') <-> finished tr).
Proof.
  intros G R. pose proof (run_ended _ _ _ _ (start_quiet g input) (start_alive g input) ltac:(discriminate) R) as Z. pose proof (quiet_run _ _ _ _ R (start_quiet g input)) as Q.
  pose proof (live_run _ _ _ _ R (live_start g input G)) as L. rewrite Z. split.
  - intros N. destruct (alive_dec s) as [A|A]; [|auto]. destruct (closed_dec s) as [C|C]; [auto|]. exfalso. destruct (progress c s L A C) as (l & s' & _ & St). exact (N _ _ St).
  - intros [A|C] l s' St; [apply A; eapply step_alive, St|]. destruct (quiet_step _ _ _ _ Q St) as (_ & N & _). contradiction.
Qed.
(** It can be finished without failures of writing. *)
Lemma server_finish c g input tr s : gonce g <> OBusy -> srun c (start g input) tr s ->
  exists tr' s', srun c (start g input) (tr ++ tr') s' /\ finished (tr ++ tr') /\ ~ In VFail tr'.
Proof.
  intros G R. pose proof (run_ended _ _ _ _ (start_quiet g input) (start_alive g input) ltac:(discriminate) R) as Z. pose proof (quiet_run _ _ _ _ R (start_quiet g input)) as Q.
  pose proof (live_run _ _ _ _ R (live_start g input G)) as L.
  destruct (alive_dec s) as [A|A]; [destruct (closed_dec s) as [C|C]|]; [exists [], s; rewrite app_nil_r; tauto| |exists [], s; rewrite app_nil_r; tauto].
  destruct (server_ends c s L Q A C) as (tr' & l & s' & R' & F & NF). exists (tr' ++ [l]), s'. split; [eapply srun_app; eassumption|]. split; [exists (tr ++ tr'), l; rewrite app_assoc; auto|].
  intros I. apply in_app_or in I. destruct I as [I|[->|[]]]; [contradiction|]. destruct F as [F|[F|(? & F)]]; discriminate F.
Qed.
Lemma server_fatal_last c g input tr l tr' s : srun c (start g input) (tr ++ l :: tr') s -> fatal l -> tr' = [].
Proof. intros R F. eapply fatal_last; [apply start_quiet|exact R|reflexivity|exact F]. Qed.

(** ** Causes of panics *)
Definition replies (tr : list slabel) (a : answer) : Prop := (exists msg, a = AError msg) \/ exists i r, In (VBack i (LReply r)) tr /\ a = AResult r.
Definition source_of (tr : list slabel) (x : sender) : Prop := match x with SLock a | SEncode a => replies tr a | _ => True end.
Definition caused (tr : list slabel) (j : job) : Prop := match j with JRun (TOver r) => exists i, In (VBack i (LReply r)) tr | JRun _ => True | JSend x => source_of tr x end.
Definition sourced (tr : list slabel) (s : server) : Prop :=
  Forall (fun cl => caused tr (cjob cl)) (scalls s) /\ match sreader s with RSend _ x => source_of tr x | _ => True end.
Lemma replies_more tr tr' a : replies tr a -> replies (tr ++ tr') a.
Proof. intros [H|(i & r & I & E)]; [left; exact H|right; exists i, r; split; [apply in_or_app; auto|exact E]]. Qed.
Lemma source_more tr tr' x : source_of tr x -> source_of (tr ++ tr') x.
Proof. destruct x; cbn; auto; apply replies_more. Qed.
Lemma caused_more tr tr' j : caused tr j -> caused (tr ++ tr') j.
Proof. destruct j as [[]|x]; cbn [caused]; auto; [intros (i & I); exists i; apply in_or_app; auto|apply source_more]. Qed.
Lemma send_source tr k cn x l cn' x' : send k (cn, x) l (cn', x') -> source_of tr x -> source_of tr x'.
Proof. intros H S0. inversion H; subst; cbn in *; auto. Qed.
Lemma sourced_run c g input tr s : srun c (start g input) tr s -> sourced tr s.
Proof.
  revert s. induction tr as [|l tr IH] using rev_ind; intros s R; [inversion R; subst; split; [constructor|exact Logic.I]|].
  apply srun_snoc in R. destruct R as (s1 & R & St). destruct (IH _ R) as [C D]. clear IH R.
  assert (M : forall cs, Forall (fun cl => caused tr (cjob cl)) cs -> Forall (fun cl => caused (tr ++ [l]) (cjob cl)) cs) by (intros cs; apply Forall_impl; intros cl; apply caused_more).
  destruct St as [g' p rest n cs cn q o A RR|g' p rest n cs cn msg A RR|g' inp n k x cs cn l cn' x' A Sd|g' inp n k cs cn A|g' n cs cn A|g' inp n cs cn A
      |g' inp n r pre k t post cn l g'' t' A T|g' inp n r pre k x post cn A|g' inp n r pre k x post cn l cn' x' A Sd];
    unfold sourced in *; cbn [sreader scalls] in *.
  - split; [|exact Logic.I]. apply Forall_app. split; [apply M, C|]. constructor; [exact Logic.I|constructor].
  - split; [apply M, C|]. left. eauto.
  - split; [apply M, C|]. eapply source_more, send_source; eassumption.
  - split; [apply M, C|exact Logic.I].
  - split; [apply M, C|exact Logic.I].
  - split; [apply M, C|exact Logic.I].
  - apply Forall_app in C. destruct C as [C1 C2]. inversion C2 as [|? ? C3 C4]; subst. split; [|destruct r; auto; apply source_more; exact D].
    apply Forall_app. split; [apply M, C1|]. constructor; [|apply M, C4]. cbn [cjob caused] in *. destruct t'; auto. exists (length pre). apply in_or_app. right. left. inversion T; subst. reflexivity.
  - apply Forall_app in C. destruct C as [C1 C2]. inversion C2 as [|? ? C3 C4]; subst. split; [|destruct r; auto; apply source_more; exact D].
    apply Forall_app. split; [apply M, C1|]. constructor; [|apply M, C4]. cbn [cjob caused source_of] in *. apply replies_more. destruct C3 as (i & I).
    destruct x; [left; eexists; reflexivity|right; eexists i, _; split; [exact I|reflexivity]..].
  - apply Forall_app in C. destruct C as [C1 C2]. inversion C2 as [|? ? C3 C4]; subst. split; [|destruct r; auto; apply source_more; exact D].
    apply Forall_app. split; [apply M, C1|]. constructor; [|apply M, C4]. cbn [cjob caused] in *. eapply source_more, send_source; eassumption.
Qed.
(** Encoding of a response fails only for links under a heading whose level is skipped. *)
Lemma crash_cause c g input tr s : srun c (start g input) (tr ++ [VCrash]) s ->
  exists i r p, In (VBack i (LReply (PMentions r))) tr /\ In p (inner_props r) /\ missing p.
Proof.
  intros R. apply srun_snoc in R. destruct R as (s1 & R & St). destruct (sourced_run _ _ _ _ _ R) as [C D].
  assert (Z : forall k cn x cn' x', send k (cn, x) VCrash (cn', x') -> source_of tr x -> exists i r p, In (VBack i (LReply (PMentions r))) tr /\ In p (inner_props r) /\ missing p).
  { intros k cn x cn' x' Sd So. inversion Sd; subst. cbn [source_of] in So. destruct So as [(msg & ->)|(i & r & I & ->)]; [discriminate|].
    assert (J : result_json r = Panic). { match goal with H : response _ _ = Panic |- _ => cbn [response] in H; destruct (result_json r); [discriminate H|reflexivity] end. }
    apply result_panic in J. destruct J as (cc & p & -> & Ip & Mp). eauto 10. }
  inversion St; subst; cbn [scalls sreader] in *; [eapply Z; eassumption|]. apply Forall_app in C. destruct C as [_ C]. inversion C as [|? ? C1 _]; subst. cbn [cjob caused] in C1. eapply Z; eassumption.
Qed.

(** ** Summaries *)
Lemma meaning_ok d p r : meaning d p r -> readRequest d p = r.
Proof.
  intros H. unfold readRequest. inversion H; subst.
  - apply route_unknown in H0. rewrite H0. reflexivity.
  - apply route_exact in H0. rewrite H0, H1. reflexivity.
  - apply route_exact in H0. rewrite H0, H1. inversion H2; subst; cbn [argument rmap]; rewrite H3; reflexivity.
Qed.
Lemma meaning_same d p r r' : meaning d p r -> meaning d p r' -> r = r'.
Proof. intros H H'. apply meaning_ok in H. apply meaning_ok in H'. congruence. Qed.
Lemma called_in d tr qs k o : called d tr qs -> In (k, o) (started 0 tr) -> exists p q, nth_error (received tr) k = Some p /\ meaning d p (Ok q).
Proof.
  unfold called. induction 1 as [|[k' o'] [o2 q] l l' (E & p & N & M) F IH]; [contradiction|]. cbn [fst snd] in *. intros [I|I]; [|exact (IH I)]. injection I as -> ->. eauto.
Qed.
Lemma unserved d p q : (forall m, ~ serves (pmethod p) m) -> ~ meaning d p (Ok q).
Proof. intros N H. inversion H; subst. exact (N _ H0). Qed.
(** A request with an unknown name *)
Lemma server_unknown c g input tr s k p : srun c (start g input) tr s -> nth_error (received tr) k = Some p -> (forall m, ~ serves (pmethod p) m) ->
  (forall o, ~ In (k, o) (started 0 tr)) /\
  forall t, responds c tr k t -> response_shown (pid p) VNull (text (b "rpc: can't find service unknown." ++ pmethod p)) t.
Proof.
  intros R N U. destruct (server_calls _ _ _ _ _ R) as (_ & qs & ts & C & _). split.
  - intros o I. destruct (called_in _ _ _ _ _ C I) as (p' & q & N' & M). replace p' with p in M by congruence. exact (unserved _ _ _ U M).
  - intros t H. destruct H as [p' e N' M Sh|p' q i o e N' M _ _ _|p' q i o r v N' M _ _ _ _ _]; replace p' with p in * by congruence.
    + assert (E := meaning_same _ _ _ _ M (me_unknown _ _ U)). injection E as ->. exact Sh.
    + destruct (unserved _ _ _ U M).
    + destruct (unserved _ _ _ U M).
Qed.
Lemma no_search d tr qs : called d tr qs -> forall o q, ~ In (o, QSearch q) qs.
Proof.
  unfold called. induction 1 as [|[k' o'] [o2 q'] l l' (E & p & N & M) F IH]; intros o q; [intros []|]. cbn [fst snd] in *. intros [I|I]; [|exact (IH _ _ I)]. injection I as -> ->.
  inversion M; subst. inversion H1.
Qed.
Lemma responds_same c tr tr' k t : received tr = received tr' -> started 0 tr = started 0 tr' -> inner tr = inner tr' -> responds c tr k t -> responds c tr' k t.
Proof. intros E1 E2 E3 H. destruct H; [eapply re_bad|eapply re_error|eapply re_result]; rewrite <- ?E1, <- ?E2, <- ?E3; eassumption. Qed.
Lemma server_end c g input tr s : srun c (start g input) tr s -> In VClose tr -> ~ In VFail tr ->
  received tr = input /\
  exists done fs, sent tr = concat fs /\ Forall2 framed (map snd done) fs /\ Permutation (map fst done) (seq 0 (length input)) /\
    Forall (fun kt => responds c tr (fst kt) (snd kt)) done.
Proof.
  intros R I NF. apply in_split in I. destruct I as (tr0 & tr1 & ->). assert (tr1 = []) as -> by (eapply server_fatal_last; [exact R|left; reflexivity]).
  assert (NF' : ~ In VFail tr0) by (intros I; apply NF, in_or_app; auto). destruct (server_closed _ _ _ _ _ R NF') as (A & done & fs & B1 & B2 & B3 & B4).
  rewrite received_app, sent_app, started_app || rewrite received_app, sent_app. cbn [received sent]. rewrite !app_nil_r. split; [exact A|]. exists done, fs. split; [exact B1|]. split; [exact B2|]. split; [exact B3|].
  eapply Forall_impl; [|exact B4]. intros kt. apply responds_same; rewrite ?received_app, ?started_app, ?inner_app; cbn [received started inner]; rewrite ?app_nil_r; reflexivity.
Qed.
