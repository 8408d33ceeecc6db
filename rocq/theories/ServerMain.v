(** Lemmas about the server: executions. *)
From Coq Require Import Permutation ZifyBool ZifyNat ZifyN.
From Verif Require Import GoBase GoSlice Frame FrameSpec FrameProofs Flags LinkTypes JsonSpec JsonStr Json JsonProofs Emacs Backend BackendSpec ReplyJson ReplySpec
  ReplyProofs ReplyMain Compact CompactProofs Server ServerSpec ServerProofs.

Lemma Forall2_weaken {A B} (P Q : A -> B -> Prop) l l' : (forall x y, P x y -> Q x y) -> Forall2 P l l' -> Forall2 Q l l'.
Proof. intros H. induction 1; constructor; auto. Qed.

Lemma Forall2_size {A B} (P : A -> B -> Prop) l l' : Forall2 P l l' -> length l = length l'.
Proof. induction 1; cbn; congruence. Qed.

(** ** Observations *)
Lemma received_app x y : received (x ++ y) = received x ++ received y.
Proof. induction x as [|[] x IH]; cbn [app received]; rewrite ?IH; reflexivity. Qed.
Lemma inner_app x y : inner (x ++ y) = inner x ++ inner y.
Proof. induction x as [|[] x IH]; cbn [app inner]; rewrite ?IH; reflexivity. Qed.
Lemma sent_app x y : sent (x ++ y) = sent x ++ sent y.
Proof. induction x as [|[] x IH]; cbn [app sent]; rewrite ?IH, ?app_assoc; reflexivity. Qed.
Lemma started_app x y : forall k, started k (x ++ y) = started k x ++ started (k + length (received x)) y.
Proof.
  induction x as [|l x IH]; intros k; cbn [app started received length]; [rewrite Nat.add_0_r; reflexivity|].
  destruct l as [p [o|]|i l|d| | | |]; cbn [length]; rewrite IH; cbn [app]; rewrite ?Nat.add_succ_r; reflexivity.
Qed.
Lemma started_range tr : forall k n o, In (n, o) (started k tr) -> k <= n < k + length (received tr).
Proof.
  induction tr as [|l tr IH]; intros k n o; cbn [started received]; [contradiction|].
  destruct l as [p [o'|]|i l|d| | | |]; cbn [length]; try (apply IH).
  - intros [[= <- <-]|I]; [lia|]. apply IH in I. lia.
  - intros I. apply IH in I. lia.
Qed.
Lemma of_thread_app {R} i (x y : list (nat * label R)) : of_thread i (x ++ y) = of_thread i x ++ of_thread i y.
Proof. unfold of_thread. rewrite filter_app, map_app. reflexivity. Qed.
Lemma steps_snoc {R} e init (x : glob * list (thread R)) tr y l z : steps e init x tr y -> step e init y l z -> steps e init x (tr ++ [l]) z.
Proof. induction 1; intros St; cbn [app]; econstructor; eauto. constructor. Qed.
(** One more thread *)
Lemma steps_more {R} e init (g : glob) (ts : list (thread R)) tr g' ts' t : ~ crashed t -> steps e init (g, ts) tr (g', ts') -> steps e init (g, ts ++ [t]) tr (g', ts' ++ [t]).
Proof.
  intros N H. remember (g, ts) as x eqn:Ex. remember (g', ts') as y eqn:Ey. revert g ts Ex. induction H as [x|x l x1 tr y St H IH]; intros g ts ->.
  - injection Ey as -> ->. constructor.
  - inversion St; subst. econstructor; [|apply (IH eq_refl _ _ eq_refl)]. rewrite <- !app_assoc. cbn [app]. constructor; [|assumption].
    rewrite Forall_app in H2 |- *. destruct H2 as [A B]. inversion B; subst. split; [exact A|]. constructor; [assumption|]. apply Forall_app. auto.
Qed.

Definition failed (tr : list slabel) : bool := existsb (fun l => match l with VFail => true | _ => false end) tr.
Lemma failed_snoc tr l : failed (tr ++ [l]) = false -> failed tr = false /\ l <> VFail.
Proof.
  unfold failed. rewrite existsb_app. intros H. apply orb_false_iff in H. destruct H as [H1 H2]. split; [exact H1|]. intros ->. discriminate H2.
Qed.
Lemma failed_in tr : ~ In VFail tr -> failed tr = false.
Proof.
  induction tr as [|l tr IH]; [reflexivity|]. intros N. cbn. fold (failed tr). rewrite IH by (intros I; apply N; right; exact I). destruct l; try reflexivity. exfalso. apply N. left. reflexivity.
Qed.

(** ** The invariant *)
Definition running (cs : list call) : list nat := flat_map (fun c => match cjob c with JRun _ => [cseq c] | JSend _ => [] end) cs.
Definition call_senders (cs : list call) : list (nat * sender) := flat_map (fun c => match cjob c with JRun _ => [] | JSend x => [(cseq c, x)] end) cs.
Definition reader_senders (r : reader) : list (nat * sender) := match r with RSend k x => [(k, x)] | _ => [] end.
Definition senders (s : server) : list (nat * sender) := reader_senders (sreader s) ++ call_senders (scalls s).
Definition idof (ps : list packet) (k : nat) : option str := match nth_error ps (k - 1) with Some p => pid p | None => None end.
Definition right (c : config) (tr : list slabel) (k : nat) (a : answer) : Prop :=
  exists p, nth_error (received tr) (k - 1) = Some p /\
    ((exists msg, readRequest (c_dec c) p = Err msg /\ a = AError msg) \/
     (exists q i o r, readRequest (c_dec c) p = Ok q /\ nth_error (started 0 tr) i = Some (k - 1, o) /\ In (LReply r) (of_thread i (inner tr)) /\ a = answer_of (c_text c) r)).
Definition call_thread (cl : call) (t : thread reply) : Prop := match cjob cl with JRun t' => t = t' | JSend _ => exists r, t = TOver r end.

Record inv (c : config) (g0 : glob) (input : list packet) (tr : list slabel) (s : server)
    (qs : list (orders * request)) (ts : list (thread reply)) (done : list (nat * str)) : Prop := mkInv {
  i_input : input = received tr ++ sinput s;
  i_seq : sseq s = length (received tr);
  i_steps : steps (c_emacs c) (initializer (c_back c)) (g0, serving (c_back c) qs) (inner tr) (sglob s, ts);
  i_threads : Forall2 call_thread (scalls s) ts;
  i_over : forall i x, nth_error ts i = Some (TOver x) -> In (LReply x) (of_thread i (inner tr));
  i_numbers : Forall2 (fun cl (ko : nat * orders) => cseq cl = S (fst ko)) (scalls s) (started 0 tr);
  i_called : Forall2 (fun (ko : nat * orders) oq => snd ko = fst oq /\ exists p, nth_error (received tr) (fst ko) = Some p /\ readRequest (c_dec c) p = Ok (snd oq))
               (started 0 tr) qs;
  i_sent : cout (sconn s) = sent tr;
  i_reader : sreader s = RClosed \/ sreader s = RWait -> sinput s = [];
  i_closed : sreader s = RClosed -> Forall (fun cl => cjob cl = JSend SOver) (scalls s);
  i_core : failed tr = false -> core (right c tr) (idof (received tr)) (sseq s) (running (scalls s)) (senders s) (sconn s) done }.

Lemma right_app c tr l k a : right c tr k a -> right c (tr ++ [l]) k a.
Proof.
  intros (p & E & H). exists p. rewrite received_app. split; [rewrite nth_error_app1; [exact E|]; apply nth_error_Some; congruence|].
  destruct H as [H|(q & i & o & r & A & B & C & D)]; [left; exact H|right]. exists q, i, o, r. split; [exact A|].
  split; [rewrite started_app, nth_error_app1; [exact B|]; apply nth_error_Some; congruence|].
  split; [|exact D]. rewrite inner_app, of_thread_app. apply in_or_app. auto.
Qed.
Lemma idof_app ps p k : 1 <= k <= length ps -> idof ps k = idof (ps ++ [p]) k.
Proof. intros R. unfold idof. rewrite nth_error_app1 by lia. reflexivity. Qed.
Lemma running_app x y : running (x ++ y) = running x ++ running y.
Proof. apply flat_map_app. Qed.
Lemma call_senders_app x y : call_senders (x ++ y) = call_senders x ++ call_senders y.
Proof. apply flat_map_app. Qed.
Lemma call_keys cs : Permutation (running cs ++ map fst (call_senders cs)) (map cseq cs).
Proof.
  induction cs as [|[k j] cs IH]; [constructor|]. cbn [running call_senders flat_map cjob cseq map]. fold (running cs) (call_senders cs).
  destruct j; cbn [app map fst]; [constructor; exact IH|]. etransitivity; [symmetry; apply Permutation_middle|]. constructor. exact IH.
Qed.

(** Steps that are not observed in requests *)
Definition quiet (l : slabel) : Prop := match l with VAccept _ _ | VBack _ _ => False | _ => True end.
Lemma quiet_same tr l : quiet l -> received (tr ++ [l]) = received tr /\ started 0 (tr ++ [l]) = started 0 tr /\ inner (tr ++ [l]) = inner tr.
Proof.
  intros Q. rewrite received_app, started_app, inner_app. destruct l; cbn in Q; try contradiction; cbn; rewrite ?app_nil_r; auto.
Qed.
Lemma inv_quiet c g0 input tr l s s' qs ts done done' : quiet l -> inv c g0 input tr s qs ts done ->
  sglob s' = sglob s -> sinput s' = sinput s -> sseq s' = sseq s -> Forall2 call_thread (scalls s') ts -> map cseq (scalls s') = map cseq (scalls s) ->
  cout (sconn s') = cout (sconn s) ++ sent [l] -> (sreader s' = RClosed \/ sreader s' = RWait -> sinput s = []) ->
  (sreader s' = RClosed -> Forall (fun cl => cjob cl = JSend SOver) (scalls s')) ->
  (failed (tr ++ [l]) = false -> core (right c tr) (idof (received tr)) (sseq s) (running (scalls s')) (senders s') (sconn s') done') ->
  inv c g0 input (tr ++ [l]) s' qs ts done'.
Proof.
  intros Q [H1 H2 H3 H4 H5 H6 H7 H8 H9 H10 H11] E1 E2 E3 E4 E5 E6 E7 E8 E9. destruct (quiet_same tr l Q) as (R & St & Inn).
  constructor; rewrite ?R, ?St, ?Inn, ?E1, ?E2, ?E3; auto.
  - clear - E5 H6. revert E5. generalize (scalls s'). induction H6 as [|x y l1 l2 E F IH]; intros [|z zs] E5; try discriminate; [constructor|].
    injection E5 as E5 E5'. constructor; [congruence|auto].
  - rewrite sent_app, E6, H8. reflexivity.
  - intros Fl. eapply core_right; [|exact (E9 Fl)]. intros k a. apply right_app.
Qed.

Lemma threads_alive cs ts : Forall2 call_thread cs ts -> Forall (fun cl => ~ panicked (cjob cl)) cs -> Forall (fun t => ~ crashed t) ts.
Proof.
  induction 1 as [|cl t cs ts H F IH]; intros A; [constructor|]. inversion A; subst. constructor; [|auto]. unfold call_thread in H. unfold panicked in H2. unfold crashed.
  destruct (cjob cl) as [t'|x]; [subst; intros ->; apply H2; auto|destruct H as (r & ->); discriminate].
Qed.

Lemma send_quiet k x l y : send k x l y -> quiet l.
Proof. intros H. inversion H; exact Logic.I. Qed.
Lemma send_out k cn x l cn' x' : send k (cn, x) l (cn', x') -> cout cn' = cout cn ++ sent [l].
Proof. intros H. inversion H; subst; cbn [cout sent]; rewrite ?app_nil_r; reflexivity. Qed.

Lemma inv_step c g0 input tr s qs ts done l s' : inv c g0 input tr s qs ts done -> sstep c s l s' ->
  exists qs' ts' done', inv c g0 input (tr ++ [l]) s' qs' ts' done'.
Proof.
  intros I St. pose proof (failed_snoc tr l) as FT. destruct St as [g p rest n cs cn q o A RR|g p rest n cs cn msg A RR|g inp n k x cs cn l cn' x' A Sd|g inp n k cs cn A|g n cs cn A|g inp n cs cn A
      |g inp n r pre k t post cn l g' t' A T|g inp n r pre k x post cn A|g inp n r pre k x post cn l cn' x' A Sd].
  - (* a call *)
    destruct I as [H1 H2 H3 H4 H5 H6 H7 H8 H9 H10 H11]. cbn [sglob sinput sseq sreader scalls sconn] in *.
    set (t := TRun (handle (c_back c) o q)). exists (qs ++ [(o, q)]), (ts ++ [t]), done.
    assert (Rc : received (tr ++ [VAccept p (Some o)]) = received tr ++ [p]) by (rewrite received_app; reflexivity).
    assert (Sc : started 0 (tr ++ [VAccept p (Some o)]) = started 0 tr ++ [(n, o)]) by (rewrite started_app, H2; reflexivity).
    assert (Ic : inner (tr ++ [VAccept p (Some o)]) = inner tr) by (rewrite inner_app; apply app_nil_r).
    constructor; cbn [sglob sinput sseq sreader scalls sconn]; rewrite ?Rc, ?Sc, ?Ic.
    + rewrite <- app_assoc. exact H1.
    + rewrite app_length, H2. cbn. lia.
    + unfold serving. rewrite map_app. cbn [map]. fold (serving (c_back c) qs). apply steps_more; [discriminate|exact H3].
    + apply Forall2_app; [exact H4|]. constructor; [reflexivity|constructor].
    + intros i x E. destruct (Nat.lt_ge_cases i (length ts)) as [L|L]; [rewrite nth_error_app1 in E by exact L; auto|].
      rewrite nth_error_app2 in E by exact L. destruct (i - length ts) as [|[|]]; discriminate E.
    + apply Forall2_app; [exact H6|]. constructor; [reflexivity|constructor].
    + apply Forall2_app.
      * eapply Forall2_weaken; [|exact H7]. intros ko oq (E & p' & N & R). split; [exact E|]. exists p'. split; [|exact R]. rewrite nth_error_app1; [exact N|]. apply nth_error_Some. congruence.
      * constructor; [|constructor]. split; [reflexivity|]. exists p. split; [|exact RR]. cbn [fst]. rewrite nth_error_app2 by lia. rewrite H2, Nat.sub_diag. reflexivity.
    + cbn [cout]. rewrite sent_app, H8. cbn. rewrite app_nil_r. reflexivity.
    + intros [E|E]; discriminate.
    + discriminate.
    + intros Fl. specialize (H11 (proj1 (FT Fl))). rewrite running_app. unfold senders in *. cbn [sreader scalls reader_senders app] in *. rewrite call_senders_app. cbn [running call_senders flat_map cjob cseq app]. fold (running cs) (call_senders cs). rewrite app_nil_r.
      apply core_right with (right := right c tr); [intros k a; apply right_app|].
      destruct H11 as [K1 K2 K3 K4 K5 K6 K7 K8 K9].
      assert (Nn : ~ In (S n) (running cs ++ map fst (call_senders cs))) by (intros J; apply K2 in J; lia).
      assert (Tk : forall k, 1 <= k <= n -> taken k ((S n, pid p) :: pend cn) = taken k (pend cn)).
      { intros k R. unfold taken. cbn [find fst]. replace (S n =? k) with false by lia. reflexivity. }
      assert (Idn : forall k, 1 <= k <= n -> idof (received tr) k = idof (received tr ++ [p]) k) by (intros k R; apply idof_app; lia).
      constructor; cbn [pend locked cbuf cout]; [..|exact K8|exact K9].
      * rewrite <- app_assoc. cbn [app]. apply NoDup_Add with (a := S n) (l := running cs ++ map fst (call_senders cs)); [apply Add_app|]. auto.
      * intros k J. rewrite <- app_assoc in J. apply in_app_or in J. destruct J as [J|[<-|J]]; [|lia|]; assert (1 <= k <= n) by (apply K2, in_or_app; auto); lia.
      * intros k R. destruct (Nat.eq_dec k (S n)) as [->|Nk]; [left; apply in_or_app; right; left; reflexivity|].
        destruct (K3 k) as [J|J]; [lia|left; apply in_or_app; auto|auto].
      * exact K4.
      * eapply Forall_impl; [|exact K5]. intros kt (R & a & X & Y). split; [lia|]. exists a. rewrite <- Idn by exact R. auto.
      * apply Forall_app. split.
        -- rewrite Forall_forall in *. intros k J. assert (R : 1 <= k <= n) by (apply K2, in_or_app; auto). rewrite Tk, <- Idn by exact R. auto.
        -- constructor; [|constructor]. split.
           ++ unfold taken, idof. cbn [find fst]. rewrite Nat.eqb_refl. cbn [snd]. rewrite nth_error_app2 by lia. replace (S n - 1 - length (received tr)) with 0 by lia. reflexivity.
           ++ intros J. apply in_map_iff in J. destruct J as ([k' t'] & E & J). cbn [fst] in E. subst k'. rewrite Forall_forall in K5. apply K5 in J. cbn [fst] in J. lia.
      * rewrite Forall_forall in *. intros [k x] J. specialize (K7 _ J). assert (R : 1 <= k <= n) by (apply K2, in_or_app; right; apply (in_map fst) in J; exact J).
        cbn [valid pend cbuf cout] in *. rewrite Tk, <- Idn by exact R. exact K7.
  - (* an error *)
    destruct I as [H1 H2 H3 H4 H5 H6 H7 H8 H9 H10 H11]. cbn [sglob sinput sseq sreader scalls sconn] in *.
    exists qs, ts, done.
    assert (Rc : received (tr ++ [VAccept p None]) = received tr ++ [p]) by (rewrite received_app; reflexivity).
    assert (Sc : started 0 (tr ++ [VAccept p None]) = started 0 tr) by (rewrite started_app; apply app_nil_r).
    assert (Ic : inner (tr ++ [VAccept p None]) = inner tr) by (rewrite inner_app; apply app_nil_r).
    constructor; cbn [sglob sinput sseq sreader scalls sconn]; rewrite ?Rc, ?Sc, ?Ic; [|..|].
    + rewrite <- app_assoc. exact H1.
    + rewrite app_length, H2. cbn. lia.
    + exact H3.
    + exact H4.
    + exact H5.
    + exact H6.
    + eapply Forall2_weaken; [|exact H7]. intros ko oq (E & p' & N & R). split; [exact E|]. exists p'. split; [|exact R]. rewrite nth_error_app1; [exact N|]. apply nth_error_Some. congruence.
    + cbn [cout]. rewrite sent_app, H8. cbn. rewrite app_nil_r. reflexivity.
    + intros [E|E]; discriminate.
    + discriminate.
    + intros Fl. specialize (H11 (proj1 (FT Fl))). unfold senders in *. cbn [sreader scalls reader_senders app] in *.
      assert (Rt : right c (tr ++ [VAccept p None]) (S n) (AError msg)).
      { exists p. split; [rewrite Rc, nth_error_app2 by lia; replace (S n - 1 - length (received tr)) with 0 by lia; reflexivity|]. left. eauto. }
      apply core_right with (right' := right c (tr ++ [VAccept p None])) in H11; [|intros k a; apply right_app].
      destruct H11 as [K1 K2 K3 K4 K5 K6 K7 K8 K9].
      assert (Nn : ~ In (S n) (running cs ++ map fst (call_senders cs))) by (intros J; apply K2 in J; lia).
      assert (Nd : ~ In (S n) (map fst done)).
      { intros J. apply in_map_iff in J. destruct J as ([k' t'] & E & J). cbn [fst] in E. subst k'. rewrite Forall_forall in K5. apply K5 in J. cbn [fst] in J. lia. }
      assert (Tk : forall k, 1 <= k <= n -> taken k ((S n, pid p) :: pend cn) = taken k (pend cn)).
      { intros k R. unfold taken. cbn [find fst]. replace (S n =? k) with false by lia. reflexivity. }
      assert (Idn : forall k, 1 <= k <= n -> idof (received tr) k = idof (received tr ++ [p]) k) by (intros k R; apply idof_app; lia).
      constructor; cbn [pend locked cbuf cout map fst snd]; [..|exact K9].
      * apply NoDup_Add with (a := S n) (l := running cs ++ map fst (call_senders cs)); [apply Add_app|]. auto.
      * intros k J. apply in_app_or in J. destruct J as [J|[<-|J]]; [|lia|]; assert (1 <= k <= n) by (apply K2, in_or_app; auto); lia.
      * intros k R. destruct (Nat.eq_dec k (S n)) as [->|Nk]; [right; left; left; reflexivity|].
        destruct (K3 k) as [J|[J|J]]; [lia|auto|right; left; right; exact J|auto].
      * exact K4.
      * eapply Forall_impl; [|exact K5]. intros kt (R & a & X & Y). split; [lia|]. exists a. rewrite <- Idn by exact R. auto.
      * rewrite Forall_forall in *. intros k J. assert (R : 1 <= k <= n) by (apply K2, in_or_app; auto). rewrite Tk, <- Idn by exact R. auto.
      * constructor.
        -- cbn [valid]. split; [exact Rt|]. split; [|exact Nd].
           unfold taken, idof. cbn [find fst pend]. rewrite Nat.eqb_refl. cbn [snd]. rewrite nth_error_app2 by lia. replace (S n - 1 - length (received tr)) with 0 by lia. reflexivity.
        -- rewrite Forall_forall in *. intros [k x] J. specialize (K7 _ J). assert (R : 1 <= k <= n) by (apply K2, in_or_app; right; apply (in_map fst) in J; exact J).
           cbn [valid pend cbuf cout] in *. rewrite Tk, <- Idn by exact R. exact K7.
      * cbn [filter holding]. exact K8.
  - (* an error is being sent *)
    pose proof (i_core _ _ _ _ _ _ _ _ I) as K. unfold senders in K. cbn [sglob sinput sseq sreader scalls sconn reader_senders app] in K.
    assert (D : exists done', failed (tr ++ [l]) = false -> core (right c tr) (idof (received tr)) n (running cs) ((k, x') :: call_senders cs) cn' done').
    { destruct (failed (tr ++ [l])) eqn:Fl; [exists done; discriminate|]. destruct (FT eq_refl) as [Fl' NF].
      destruct (send_core _ _ _ _ _ _ _ _ _ _ _ _ NF Sd (K Fl')) as (done' & K'). eauto. }
    destruct D as (done' & K'). exists qs, ts, done'.
    eapply inv_quiet; [exact (send_quiet _ _ _ _ Sd)|exact I|cbn [sglob sinput sseq sreader scalls sconn]..]; auto.
    + exact (i_threads _ _ _ _ _ _ _ _ I).
    + exact (send_out _ _ _ _ _ _ Sd).
    + intros [E|E]; discriminate.
    + discriminate.
  - pose proof (i_core _ _ _ _ _ _ _ _ I) as K. unfold senders in K. cbn [sglob sinput sseq sreader scalls sconn reader_senders app] in K. exists qs, ts, done.
    eapply inv_quiet; [exact Logic.I|exact I|cbn [sglob sinput sseq sreader scalls sconn]..]; auto.
    + exact (i_threads _ _ _ _ _ _ _ _ I).
    + cbn [sent]. rewrite app_nil_r. reflexivity.
    + intros [E|E]; discriminate.
    + discriminate.
    + intros Fl. specialize (K (proj1 (FT Fl))). unfold senders. cbn [sreader scalls reader_senders app]. destruct K as [K1 K2 K3 K4 K5 K6 K7 K8 K9]. cbn [map fst snd] in *.
      inversion K7; subst. constructor; auto.
      * apply NoDup_remove_1 in K1. exact K1.
      * intros k' J. apply K2. apply in_app_or in J. apply in_or_app. destruct J; [auto|right; right; assumption].
      * intros k' R. destruct (K3 k' R) as [J|[[<-|J]|J]]; auto.
  - pose proof (i_core _ _ _ _ _ _ _ _ I) as K. exists qs, ts, done.
    eapply inv_quiet; [exact Logic.I|exact I|cbn [sglob sinput sseq sreader scalls sconn]..]; auto.
    + exact (i_threads _ _ _ _ _ _ _ _ I).
    + cbn [sent]. rewrite app_nil_r. reflexivity.
    + discriminate.
    + intros Fl. exact (K (proj1 (FT Fl))).
  - pose proof (i_core _ _ _ _ _ _ _ _ I) as K. exists qs, ts, done.
    eapply inv_quiet; [exact Logic.I|exact I|cbn [sglob sinput sseq sreader scalls sconn]..]; auto.
    + exact (i_threads _ _ _ _ _ _ _ _ I).
    + cbn [sent cout]. rewrite app_nil_r. reflexivity.
    + intros _. apply (i_reader _ _ _ _ _ _ _ _ I). auto.
    + intros Fl. specialize (K (proj1 (FT Fl))). unfold senders in *. cbn [sreader scalls reader_senders app sconn sseq] in *. destruct K as [K1 K2 K3 K4 K5 K6 K7 K8 K9].
      assert (Z : filter holding (map snd (call_senders cs)) = []).
      { clear - A. induction A as [|[k j] cs E F IH]; [reflexivity|]. cbn [cjob] in E. subst j. cbn [call_senders flat_map cjob cseq app map snd filter holding]. exact IH. }
      rewrite Z in K8. destruct (locked cn) eqn:L; [discriminate K8|]. destruct (K9 eq_refl) as [B O].
      assert (Ec : mkConn (pend cn) false [] (cout cn) = cn) by (clear - L B; destruct cn; cbn in L, B; subst; reflexivity).
      rewrite Ec. constructor; auto; [rewrite Z, L; reflexivity].
  - (* execution of a method *)
    destruct I as [H1 H2 H3 H4 H5 H6 H7 H8 H9 H10 H11]. cbn [sglob sinput sseq sreader scalls sconn] in *.
    destruct A as [A _]. cbn [scalls] in A. pose proof (threads_alive _ _ H4 A) as TA.
    apply Forall2_app_inv_l in H4. destruct H4 as (ts1 & ts2 & F1 & F2 & ->). inversion F2 as [|? t0 ? ts3 C0 F3]; subst. cbn [call_thread cjob] in C0. unfold call_thread in C0. cbn [cjob] in C0. subst t0.
    pose proof (Forall2_size _ _ _ F1) as L1.
    assert (Rc : received (tr ++ [VBack (length pre) l]) = received tr) by (rewrite received_app; apply app_nil_r).
    assert (Sc : started 0 (tr ++ [VBack (length pre) l]) = started 0 tr) by (rewrite started_app; apply app_nil_r).
    assert (Ic : inner (tr ++ [VBack (length pre) l]) = inner tr ++ [(length pre, l)]) by (rewrite inner_app; reflexivity).
    exists qs, (ts1 ++ t' :: ts3), done. constructor; cbn [sglob sinput sseq sreader scalls sconn]; rewrite ?Rc, ?Sc, ?Ic; auto.
    + eapply steps_snoc; [exact H3|]. rewrite L1. constructor; assumption.
    + apply Forall2_app; [exact F1|]. constructor; [reflexivity|exact F3].
    + intros i x E. rewrite of_thread_app. apply in_or_app. destruct (Nat.eq_dec i (length pre)) as [->|Ni].
      * rewrite L1, nth_error_app2, Nat.sub_diag in E by lia. cbn in E. injection E as ->. right. unfold of_thread. cbn [filter fst]. rewrite Nat.eqb_refl. cbn.
        inversion T; subst; auto.
      * left. apply H5. destruct (Nat.lt_ge_cases i (length pre)) as [L|L]; [rewrite nth_error_app1 in * by lia; exact E|].
        rewrite nth_error_app2 in * by lia. destruct (i - length ts1) as [|m] eqn:Em; [lia|]. exact E.
    + clear - H6. apply Forall2_app_inv_l in H6. destruct H6 as (a1 & a2 & B1 & B2 & ->). inversion B2; subst. apply Forall2_app; [exact B1|]. constructor; assumption.
    + rewrite sent_app. cbn. rewrite app_nil_r. exact H8.
    + intros E. specialize (H10 E). apply Forall_app in H10. destruct H10 as [_ X]. inversion X as [|? ? Y _]; subst. discriminate Y.
    + intros Fl. specialize (H11 (proj1 (FT Fl))). eapply core_right; [intros k0 a; apply right_app|]. unfold senders in *. cbn [sreader scalls] in *. rewrite running_app, call_senders_app in *. exact H11.
  - (* a method has returned *)
    pose proof I as [H1 H2 H3 H4 H5 H6 H7 H8 H9 H10 H11]. cbn [sglob sinput sseq sreader scalls sconn] in *.
    apply Forall2_app_inv_l in H4. destruct H4 as (ts1 & ts2 & F1 & F2 & ->). inversion F2 as [|? t0 ? ts3 C0 F3]; subst. unfold call_thread in C0. cbn [cjob] in C0. subst t0.
    pose proof (Forall2_size _ _ _ F1) as L1.
    assert (Rt : right c tr k (answer_of (c_text c) x)).
    { pose proof H6 as H6'. apply Forall2_app_inv_l in H6'. destruct H6' as (a1 & a2 & B1 & B2 & Es). inversion B2 as [|? [k0 o] ? a3 Ek B3]; subst. cbn [cseq fst] in Ek. subst k.
      rewrite Es in H7. apply Forall2_app_inv_l in H7. destruct H7 as (q1 & q2 & D1 & D2 & ->). inversion D2 as [|? [o' q] ? q3 (Eo & p & Np & Rq) D3]; subst. cbn [fst snd] in *.
      exists p. replace (S k0 - 1) with k0 by lia. split; [exact Np|]. right. exists q, (length pre), o, x. split; [exact Rq|].
      split; [rewrite Es, (Forall2_size _ _ _ B1), nth_error_app2, Nat.sub_diag by lia; reflexivity|]. split; [|reflexivity].
      apply H5. rewrite L1, nth_error_app2, Nat.sub_diag by lia. reflexivity. }
    exists qs, (ts1 ++ TOver x :: ts3), done.
    eapply inv_quiet; [exact Logic.I|exact I|cbn [sglob sinput sseq sreader scalls sconn]..]; auto.
    + apply Forall2_app; [exact F1|]. constructor; [exists x; reflexivity|exact F3].
    + rewrite !map_app. reflexivity.
    + cbn [sent]. rewrite app_nil_r. reflexivity.
    + intros E. specialize (H10 E). apply Forall_app in H10. destruct H10 as [_ X]. inversion X as [|? ? Y _]; subst. discriminate Y.
    + intros Fl. specialize (H11 (proj1 (FT Fl))). unfold senders in *. cbn [sreader scalls] in *. rewrite running_app, call_senders_app in *. cbn [running call_senders flat_map cjob cseq app] in *. fold (running post) (call_senders post) in *.
      assert (K : core (right c tr) (idof (received tr)) (length (received tr)) (k :: running pre ++ running post) (reader_senders r ++ call_senders pre ++ call_senders post) cn done).
      { eapply core_perm; [|reflexivity|exact H11]. symmetry. apply Permutation_middle. }
      eapply core_perm with (run := running pre ++ running post) (snds := (k, SLock (answer_of (c_text c) x)) :: reader_senders r ++ call_senders pre ++ call_senders post);
        [reflexivity|rewrite !app_assoc; apply Permutation_middle|].
      destruct K as [K1 K2 K3 K4 K5 K6 K7 K8 K9]. inversion K6 as [|? ? (Kt & Kd) K6']; subst. constructor; cbn [map fst snd]; auto.
      * eapply Permutation_NoDup; [|exact K1]. cbn [app]. apply Permutation_middle.
      * intros k' J. apply K2. cbn [app]. apply in_app_or in J. destruct J as [J|[->|J]]; [right; apply in_or_app; auto|left; reflexivity|right; apply in_or_app; auto].
      * intros k' R. destruct (K3 k' R) as [[->|J]|[J|J]]; [right; left; left; reflexivity|auto|right; left; right; exact J|auto].
      * constructor; [cbn [valid]; auto|exact K7].
  - (* a response is being sent *)
    pose proof I as [H1 H2 H3 H4 H5 H6 H7 H8 H9 H10 H11]. cbn [sglob sinput sseq sreader scalls sconn] in *.
    assert (P : forall y, Permutation (senders (mkServer g inp n r (pre ++ mkCall k (JSend y) :: post) cn)) ((k, y) :: reader_senders r ++ call_senders pre ++ call_senders post)).
    { intros y. unfold senders. cbn [sreader scalls]. rewrite call_senders_app. cbn [call_senders flat_map cjob cseq app]. fold (call_senders post).
      rewrite !app_assoc. symmetry. apply Permutation_middle. }
    assert (Rn : forall y, running (pre ++ mkCall k (JSend y) :: post) = running pre ++ running post) by (intros y; rewrite running_app; reflexivity).
    assert (D : exists done', failed (tr ++ [l]) = false -> core (right c tr) (idof (received tr)) n (running (pre ++ mkCall k (JSend x) :: post))
        ((k, x') :: reader_senders r ++ call_senders pre ++ call_senders post) cn' done').
    { destruct (failed (tr ++ [l])) eqn:Fl; [exists done; discriminate|]. destruct (FT eq_refl) as [Fl' NF]. specialize (H11 Fl').
      eapply core_perm in H11; [|reflexivity|apply P]. destruct (send_core _ _ _ _ _ _ _ _ _ _ _ _ NF Sd H11) as (done' & K'). eauto. }
    destruct D as (done' & K').
    exists qs, ts, done'.
    eapply inv_quiet; [exact (send_quiet _ _ _ _ Sd)|exact I|cbn [sglob sinput sseq sreader scalls sconn]..]; auto.
    + clear - H4. apply Forall2_app_inv_l in H4. destruct H4 as (a1 & a2 & B1 & B2 & ->). inversion B2; subst. apply Forall2_app; [exact B1|]. constructor; assumption.
    + rewrite !map_app. reflexivity.
    + exact (send_out _ _ _ _ _ _ Sd).
    + intros E. specialize (H10 E). apply Forall_app in H10. destruct H10 as [_ X]. inversion X as [|? ? Y _]; subst. injection Y as ->. inversion Sd.
    + intros Fl. specialize (K' Fl). rewrite Rn in *. eapply core_perm; [reflexivity|symmetry; apply P|]. exact K'.
Qed.

Lemma inv_start c g input : inv c g input [] (start g input) [] [] [].
Proof.
  constructor; cbn; auto; try (constructor; fail); try discriminate.
  - intros [|i] x; discriminate.
  - intros [E|E]; discriminate.
  - constructor; cbn; auto; try (constructor; fail); try lia.
Qed.
Lemma inv_run c g0 input s0 tr0 qs ts done tr s : srun c s0 tr s -> inv c g0 input tr0 s0 qs ts done ->
  exists qs' ts' done', inv c g0 input (tr0 ++ tr) s qs' ts' done'.
Proof.
  intros R. revert tr0 qs ts done. induction R as [s|s l s1 tr s2 St R IH]; intros tr0 qs ts done I.
  - rewrite app_nil_r. eauto.
  - destruct (inv_step _ _ _ _ _ _ _ _ _ _ I St) as (qs' & ts' & done' & I').
    destruct (IH _ _ _ _ I') as (qs2 & ts2 & done2 & I2). rewrite <- app_assoc in I2. eauto.
Qed.
Lemma server_inv c g input tr s : srun c (start g input) tr s -> exists qs ts done, inv c g input tr s qs ts done.
Proof. intros R. exact (inv_run _ _ _ _ [] _ _ _ _ _ R (inv_start c g input)). Qed.
Lemma srun_snoc c s tr l s2 : srun c s (tr ++ [l]) s2 -> exists s1, srun c s tr s1 /\ sstep c s1 l s2.
Proof.
  revert s. induction tr as [|l' tr IH]; cbn [app]; intros s R; inversion R as [|? ? s1 ? ? St R']; subst.
  - inversion R'; subst. exists s. split; [constructor|exact St].
  - destruct (IH _ R') as (s3 & R3 & St3). exists s3. split; [econstructor; eassumption|exact St3].
Qed.

(** ** Conclusions *)
Lemma called_ok c g input tr s qs ts done : inv c g input tr s qs ts done -> called (c_dec c) tr qs.
Proof.
  intros I. unfold called. eapply Forall2_weaken; [|exact (i_called _ _ _ _ _ _ _ _ I)]. intros ko oq (E & p & N & R). split; [exact E|]. exists p. split; [exact N|].
  rewrite <- R. apply readRequest_meaning.
Qed.
Lemma server_calls c g input tr s : srun c (start g input) tr s ->
  beginning (received tr) input /\
  exists qs ts, called (c_dec c) tr qs /\ steps (c_emacs c) (initializer (c_back c)) (g, serving (c_back c) qs) (inner tr) (sglob s, ts).
Proof.
  intros R. destruct (server_inv _ _ _ _ _ R) as (qs & ts & done & I). split; [exists (sinput s); exact (i_input _ _ _ _ _ _ _ _ I)|].
  exists qs, ts. split; [exact (called_ok _ _ _ _ _ _ _ _ I)|exact (i_steps _ _ _ _ _ _ _ _ I)].
Qed.
Lemma right_responds c tr k a t : right c tr k a -> response (idof (received tr) k) a = Done t -> responds c tr (k - 1) t.
Proof.
  intros (p & N & H) R. unfold idof in R. rewrite N in R. destruct H as [(msg & E & ->)|(q & i & o & r & E & St & L & ->)].
  - eapply re_bad; [exact N|rewrite <- E; apply readRequest_meaning|]. apply error_shown, R.
  - assert (M : meaning (c_dec c) p (Ok q)) by (rewrite <- E; apply readRequest_meaning).
    assert (Z : (exists e, r = PError e) \/ (forall e, r <> PError e) /\ answer_of (c_text c) r = AResult r).
    { destruct r; [left; eauto|right; split; [discriminate|reflexivity]..]. }
    destruct Z as [(e & ->)|[Ne Ar]].
    + eapply re_error; [exact N|exact M|exact St|exact L|]. apply error_shown, R.
    + rewrite Ar in R. apply reply_shown in R. destruct R as (v & Rv & Rs). eapply re_result; [exact N|exact M|exact St|exact L|exact Ne|exact Rv|exact Rs].
Qed.
Definition answered_as (c : config) (tr : list slabel) (kt : nat * str) : Prop := responds c tr (fst kt) (snd kt).
Lemma pred_nodup n (l : list nat) : NoDup l -> (forall k, In k l -> 1 <= k <= n) -> NoDup (map (fun k => k - 1) l).
Proof.
  induction 1 as [|k l N D IH]; intros R; cbn [map]; constructor.
  - intros I. apply in_map_iff in I. destruct I as (k' & E & I). assert (k = k') as -> by (pose proof (R k (or_introl eq_refl)); pose proof (R k' (or_intror I)); lia). contradiction.
  - apply IH. intros k' I. apply R. right. exact I.
Qed.
Definition renumbered (done : list (nat * str)) : list (nat * str) := map (fun kt => (fst kt - 1, snd kt)) done.
Lemma renumbered_ok c tr n run snds cn done : core (right c tr) (idof (received tr)) n run snds cn done ->
  NoDup (map fst (renumbered done)) /\ Forall (answered_as c tr) (renumbered done) /\ Forall2 framed (map snd (renumbered done)) (map (fun kt => fr (snd kt)) done) /\
  concat (map (fun kt => fr (snd kt)) done) = stream done /\ (forall k, In k (map fst (renumbered done)) <-> exists k', k = k' - 1 /\ In k' (map fst done)).
Proof.
  intros [K1 K2 K3 K4 K5 K6 K7 K8 K9].
  assert (E : map fst (renumbered done) = map (fun k => k - 1) (map fst done)) by (unfold renumbered; rewrite !map_map; reflexivity).
  split; [|split; [|split; [|split]]].
  - rewrite E. apply pred_nodup with (n := n); [exact K4|]. intros k I. apply in_map_iff in I. destruct I as (kt & <- & I). rewrite Forall_forall in K5. apply K5, I.
  - apply Forall_map. eapply Forall_impl; [|exact K5]. intros kt (R & a & Ra & T). unfold answered_as. cbn [fst snd]. eapply right_responds; eassumption.
  - unfold renumbered. rewrite map_map. clear. induction done as [|kt done IH]; constructor; [apply fr_framed|exact IH].
  - unfold stream. rewrite flat_map_concat_map. reflexivity.
  - intros k. rewrite E, in_map_iff. split; intros (k' & A & B); exists k'; auto.
Qed.
Lemma server_output c g input tr s : srun c (start g input) tr s -> ~ In VFail tr ->
  exists done fs rest, sent tr = concat fs ++ rest /\ Forall2 framed (map snd done) fs /\ NoDup (map fst done) /\
    Forall (fun kt => responds c tr (fst kt) (snd kt)) done /\
    (rest = [] \/ exists k t f, ~ In k (map fst done) /\ responds c tr k t /\ framed t f /\ beginning rest f).
Proof.
  intros R NF. destruct (server_inv _ _ _ _ _ R) as (qs & ts & done & I). pose proof (i_core _ _ _ _ _ _ _ _ I (failed_in _ NF)) as K.
  destruct (renumbered_ok _ _ _ _ _ _ _ K) as (A1 & A2 & A3 & A4 & A5). rewrite <- (i_sent _ _ _ _ _ _ _ _ I).
  destruct K as [K1 K2 K3 K4 K5 K6 K7 K8 K9].
  assert (Z : cout (sconn s) = stream done \/ exists k todo, In (k, SWrite todo) (senders s)).
  { destruct (locked (sconn s)) eqn:L; [|left; apply K9; reflexivity].
    destruct (filter holding (map snd (senders s))) as [|x [|]] eqn:F; cbn in K8; try discriminate. clear K8.
    assert (J : In x (map snd (senders s)) /\ holding x = true) by (rewrite <- filter_In, F; left; reflexivity).
    destruct J as [J Hx]. apply in_map_iff in J. destruct J as ([k x'] & Ex & J). cbn [snd] in Ex. subst x'.
    rewrite Forall_forall in K7. specialize (K7 _ J). destruct x; try discriminate Hx; cbn [valid] in K7; try (left; apply K7). right. eauto. }
  exists (renumbered done), (map (fun kt => fr (snd kt)) done). rewrite A4. destruct Z as [->|(k & todo & J)].
  - exists []. rewrite app_nil_r. auto 10.
  - rewrite Forall_forall in K7. pose proof (K7 _ J) as V. cbn [valid] in V. destruct V as (V1 & (a & V2 & V3) & w & V4 & ->).
    exists w. split; [reflexivity|]. split; [exact A3|]. split; [exact A1|]. split; [exact A2|]. right. exists (k - 1), (cbuf (sconn s)), (fr (cbuf (sconn s))).
    assert (Rk : 1 <= k) by (apply K2, in_or_app; right; apply (in_map fst) in J; exact J).
    split; [|split; [eapply right_responds; eassumption|split; [apply fr_framed|exists todo; symmetry; exact V4]]].
    intros J'. apply A5 in J'. destruct J' as (k' & E & J'). assert (k' = k) as ->; [|contradiction].
    apply in_map_iff in J'. destruct J' as (kt & <- & J'). rewrite Forall_forall in K5. apply K5 in J'. lia.
Qed.
Lemma all_over cs : Forall (fun x => cjob x = JSend SOver) cs -> running cs = [] /\ filter holding (map snd (call_senders cs)) = [] /\ Forall (fun kx => snd kx = SOver) (call_senders cs).
Proof.
  induction 1 as [|[k j] cs E F (A & B & C)]; [repeat constructor|]. cbn [cjob] in E. subst j. cbn [running call_senders flat_map cjob cseq app map snd filter holding].
  split; [exact A|]. split; [exact B|]. constructor; [reflexivity|exact C].
Qed.
Lemma server_closed c g input tr s : srun c (start g input) (tr ++ [VClose]) s -> ~ In VFail tr ->
  received tr = input /\
  exists done fs, sent tr = concat fs /\ Forall2 framed (map snd done) fs /\ Permutation (map fst done) (seq 0 (length input)) /\
    Forall (fun kt => responds c tr (fst kt) (snd kt)) done.
Proof.
  intros R NF. apply srun_snoc in R. destruct R as (s1 & R & St). destruct (server_inv _ _ _ _ _ R) as (qs & ts & done & I).
  pose proof (i_core _ _ _ _ _ _ _ _ I (failed_in _ NF)) as K. destruct (renumbered_ok _ _ _ _ _ _ _ K) as (A1 & A2 & A3 & A4 & A5).
  pose proof (i_input _ _ _ _ _ _ _ _ I) as Hi. pose proof (i_seq _ _ _ _ _ _ _ _ I) as Hs. pose proof (i_sent _ _ _ _ _ _ _ _ I) as Ho. pose proof (i_reader _ _ _ _ _ _ _ _ I) as Hr.
  inversion St; subst; try (match goal with H : send _ _ VClose _ |- _ => inversion H end).
  cbn [sglob sinput sseq sreader scalls sconn] in *. rewrite (Hr (or_intror eq_refl)) in *. rewrite app_nil_r in *. split; [reflexivity|].
  destruct K as [K1 K2 K3 K4 K5 K6 K7 K8 K9]. unfold senders in *. cbn [sreader scalls reader_senders app] in *.
  destruct (all_over _ H) as (B1 & B2 & B3). rewrite B2 in K8. destruct (locked cn); [discriminate K8|]. destruct (K9 eq_refl) as [_ O].
  exists (renumbered done), (map (fun kt => fr (snd kt)) done). rewrite A4, <- Ho, O. split; [reflexivity|]. split; [exact A3|]. split; [|exact A2].
  apply NoDup_Permutation; [exact A1|apply seq_NoDup|]. intros k. rewrite A5, in_seq. split.
  - intros (k' & -> & J). apply in_map_iff in J. destruct J as (kt & <- & J). rewrite Forall_forall in K5. apply K5 in J. lia.
  - intros R'. exists (S k). split; [lia|]. destruct (K3 (S k)) as [J|[J|J]]; [lia|rewrite B1 in J; contradiction| |exact J].
    apply in_map_iff in J. destruct J as ([k' x] & E & J). cbn [fst] in E. subst k'. rewrite Forall_forall in B3, K7. pose proof (B3 _ J) as Ex. cbn [snd] in Ex. subst x. exact (K7 _ J).
Qed.
