(** The server remembers identifiers of requests that have no responses yet, nothing else. *)
From Verif Require Import GoBase Emacs Backend Server ServerMemorySpec ServerWitness.

Lemma taken_none k m : taken k m = None -> ~ In k (map fst m).
Proof.
  unfold taken. destruct (find _ m) as [x|] eqn:F; [discriminate|]. intros _ I. apply in_map_iff in I. destruct I as (x & <- & I).
  pose proof (find_none _ _ F x I) as E. cbn in E. rewrite Nat.eqb_refl in E. discriminate.
Qed.
Lemma in_dropped k k' m : In k' (map fst (dropped k m)) <-> In k' (map fst m) /\ k' <> k.
Proof.
  unfold dropped. rewrite !in_map_iff. split.
  - intros (x & <- & I). apply filter_In in I. destruct I as [I N]. split; [eauto|]. intros E. rewrite E, Nat.eqb_refl in N. discriminate.
  - intros ((x & <- & I) & N). exists x. split; [reflexivity|]. apply filter_In. split; [exact I|]. apply Nat.eqb_neq in N. rewrite N. reflexivity.
Qed.
Lemma nodup_dropped k m : NoDup (map fst m) -> NoDup (map fst (dropped k m)).
Proof.
  induction m as [|[i v] m IH]; intros H; [constructor|]. inversion H as [|? ? N H']. subst. cbn [dropped filter fst]. destruct (negb _).
  - cbn [map fst]. constructor; [|apply IH; exact H']. intros I. apply (in_dropped k) in I. apply N. apply I.
  - apply IH. exact H'.
Qed.
Lemma send_memory k cn x l cn' x' : send k (cn, x) l (cn', x') -> NoDup (map fst (pend cn)) -> (In k (map fst (pend cn)) <-> unsent x) ->
  NoDup (map fst (pend cn')) /\ (In k (map fst (pend cn')) <-> unsent x') /\ forall k', k' <> k -> In k' (map fst (pend cn')) <-> In k' (map fst (pend cn)).
Proof.
  intros St ND M. inversion St; subst; cbn [pend unsent] in *; try (split; [exact ND|]; split; [exact M|reflexivity]).
  - split; [apply nodup_dropped; exact ND|]. split; [rewrite in_dropped; intuition congruence|]. intros k' N. rewrite in_dropped. intuition congruence.
  - split; [apply nodup_dropped; exact ND|]. split; [rewrite in_dropped; intuition congruence|]. intros k' N. rewrite in_dropped. intuition congruence.
  - exfalso. match goal with H : taken _ _ = None |- _ => apply taken_none in H; tauto end.
Qed.

Definition busy (c : call) : Prop := match cjob c with JRun _ => True | JSend x => unsent x end.
Record memory (s : server) : Prop := mkMemory {
  m_once : NoDup (map fst (pend (sconn s)));
  m_same : forall k, In k (map fst (pend (sconn s))) <-> waiting s k;
  m_calls : NoDup (map cseq (scalls s));
  m_seq : forall c, In c (scalls s) -> cseq c <= sseq s;
  m_reader : forall k x, sreader s = RSend k x -> k <= sseq s /\ ~ In k (map cseq (scalls s)) }.
Lemma waiting_range s k : memory s -> waiting s k -> k <= sseq s.
Proof. intros M [(c & I & <- & _)|(x & E & _)]; [apply (m_seq _ M); exact I|apply (m_reader _ M k x E)]. Qed.
(** One of calls is changed. *)
Lemma call_waits g inp n r pre k j post cn : NoDup (map cseq (pre ++ mkCall k j :: post)) -> (forall k' x, r = RSend k' x -> ~ In k' (map cseq (pre ++ mkCall k j :: post))) ->
  (waiting (mkServer g inp n r (pre ++ mkCall k j :: post) cn) k <-> busy (mkCall k j)) /\
  forall j' g' cn' k', k' <> k -> waiting (mkServer g' inp n r (pre ++ mkCall k j' :: post) cn') k' <-> waiting (mkServer g inp n r (pre ++ mkCall k j :: post) cn) k'.
Proof.
  intros ND NR. rewrite map_app in ND, NR. cbn [map cseq] in ND, NR. apply NoDup_remove_2 in ND. split.
  - unfold waiting. cbn [scalls sreader]. split.
    + intros [(c & I & E & B)|(x & E & B)].
      * apply in_app_or in I. destruct I as [I|[<-|I]]; [exfalso|exact B|exfalso]; apply ND, in_or_app; [left|right]; rewrite <- E; apply in_map; exact I.
      * exfalso. apply (NR _ _ E). apply in_or_app. right. left. reflexivity.
    + intros B. left. exists (mkCall k j). split; [apply in_or_app; right; left; reflexivity|]. split; [reflexivity|exact B].
  - intros j' g' cn' k' N. assert (X : forall j1 j2, (exists c, In c (pre ++ mkCall k j1 :: post) /\ cseq c = k' /\ match cjob c with JRun _ => True | JSend x => unsent x end) ->
      exists c, In c (pre ++ mkCall k j2 :: post) /\ cseq c = k' /\ match cjob c with JRun _ => True | JSend x => unsent x end).
    { intros j1 j2 (c & I & E & B). exists c. split; [|auto]. apply in_app_or in I. apply in_or_app. destruct I as [I|[<-|I]]; [left; exact I| |right; right; exact I].
      cbn [cseq] in E. congruence. }
    unfold waiting. cbn [scalls sreader]. split; (intros [H|H]; [left; eapply X; exact H|right; exact H]).
Qed.
Lemma changed g g' inp n r pre k j j' post cn cn' : memory (mkServer g inp n r (pre ++ mkCall k j :: post) cn) ->
  NoDup (map fst (pend cn')) -> (In k (map fst (pend cn')) <-> busy (mkCall k j')) -> (forall k', k' <> k -> In k' (map fst (pend cn')) <-> In k' (map fst (pend cn))) ->
  memory (mkServer g' inp n r (pre ++ mkCall k j' :: post) cn').
Proof.
  intros [M1 M2 M3 M4 M5] N S O. cbn [sglob sinput sseq sreader scalls sconn] in *.
  assert (Es : map cseq (pre ++ mkCall k j' :: post) = map cseq (pre ++ mkCall k j :: post)) by (rewrite !map_app; reflexivity).
  constructor; cbn [sglob sinput sseq sreader scalls sconn]; [exact N| |rewrite Es; exact M3| |intros k' x E; rewrite Es; exact (M5 _ _ E)].
  - intros k'. destruct (Nat.eq_dec k' k) as [->|Nk].
    + rewrite S. symmetry. apply call_waits; [rewrite Es; exact M3|]. intros k' x E. rewrite Es. exact (proj2 (M5 _ _ E)).
    + rewrite (O _ Nk), M2. symmetry. apply call_waits; [exact M3| |exact Nk]. intros k2 x E. exact (proj2 (M5 _ _ E)).
  - intros c I. apply in_app_or in I. destruct I as [I|[<-|I]]; [apply M4, in_or_app; left; exact I| |apply M4, in_or_app; right; right; exact I].
    apply (M4 (mkCall k j)). apply in_or_app. right. left. reflexivity.
Qed.
Lemma step_memory c s l s' : sstep c s l s' -> memory s -> memory s'.
Proof.
  intros St M. inversion St; subst.
  - (* a call *)
    destruct M as [M1 M2 M3 M4 M5]. cbn [sglob sinput sseq sreader scalls sconn] in *.
    assert (NI : ~ In (S n) (map cseq cs)). { intros I. apply in_map_iff in I. destruct I as (x & E & I). apply M4 in I. lia. }
    assert (NP : ~ In (S n) (map fst (pend cn))).
    { intros I. apply M2 in I. destruct I as [(x & I & E & _)|(x & E & _)]; cbn [scalls sreader] in *; [apply M4 in I; lia|discriminate]. }
    constructor; cbn [sglob sinput sseq sreader scalls sconn pend map fst].
    + constructor; assumption.
    + intros k. unfold waiting. cbn [scalls sreader]. split.
      * intros [<-|I].
        -- left. eexists. split; [apply in_or_app; right; left; reflexivity|]. split; [reflexivity|exact I].
        -- apply M2 in I. destruct I as [(x & I & E & B)|(x & E & _)]; [|discriminate]. left. exists x. split; [apply in_or_app; left; exact I|auto].
      * intros [(x & I & E & B)|(x & E & _)]; [|discriminate]. apply in_app_or in I. destruct I as [I|[<-|[]]]; [right; apply M2; left; eauto|left; exact E].
    + rewrite map_app. cbn [map cseq]. apply NoDup_rev in M3. rewrite <- (rev_involutive (map cseq cs ++ [S n])). apply NoDup_rev. rewrite rev_app_distr. cbn [rev app].
      constructor; [rewrite <- in_rev; exact NI|exact M3].
    + intros x I. apply in_app_or in I. destruct I as [I|[<-|[]]]; [apply M4 in I; lia|cbn; lia].
    + intros k x E. discriminate.
  - (* an error *)
    destruct M as [M1 M2 M3 M4 M5]. cbn [sglob sinput sseq sreader scalls sconn] in *.
    assert (NI : ~ In (S n) (map cseq cs)). { intros I. apply in_map_iff in I. destruct I as (x & E & I). apply M4 in I. lia. }
    assert (NP : ~ In (S n) (map fst (pend cn))).
    { intros I. apply M2 in I. destruct I as [(x & I & E & _)|(x & E & _)]; cbn [scalls sreader] in *; [apply M4 in I; lia|discriminate]. }
    constructor; cbn [sglob sinput sseq sreader scalls sconn pend map fst].
    + constructor; assumption.
    + intros k. unfold waiting. cbn [scalls sreader]. split.
      * intros [<-|I]; [right; eexists; split; [reflexivity|exact I]|]. apply M2 in I. destruct I as [I|(x & E & _)]; [left; exact I|discriminate].
      * intros [I|(x & E & B)]; [right; apply M2; left; exact I|]. injection E as <- _. left. reflexivity.
    + exact M3.
    + intros x I. apply M4 in I. lia.
    + intros k x E. injection E as <- _. split; [lia|exact NI].
  - (* the error is being sent *)
    destruct M as [M1 M2 M3 M4 M5]. cbn [sglob sinput sseq sreader scalls sconn] in *. destruct (M5 _ _ eq_refl) as [Lk Nk].
    assert (NC : ~ exists c0, In c0 cs /\ cseq c0 = k /\ match cjob c0 with JRun _ => True | JSend x => unsent x end).
    { intros (x & I & E & _). apply Nk. rewrite <- E. apply in_map. exact I. }
    match goal with H : send _ _ _ _ |- _ => destruct (send_memory _ _ _ _ _ _ H M1) as (A & B & C) end.
    { rewrite M2. unfold waiting. cbn [scalls sreader]. split; [intros [X|(x & E & U)]; [contradiction|injection E as <-; exact U]|intros U; right; eauto]. }
    constructor; cbn [sglob sinput sseq sreader scalls sconn]; [exact A| |exact M3|exact M4|].
    + intros k'. unfold waiting. cbn [scalls sreader]. destruct (Nat.eq_dec k' k) as [->|Nk'].
      * rewrite B. split; [intros U; right; eauto|intros [X|(x & E & U)]; [contradiction|injection E as <-; exact U]].
      * rewrite (C _ Nk'), M2. unfold waiting. cbn [scalls sreader]. split; (intros [X|(x & E & U)]; [left; exact X|exfalso; injection E as E _; congruence]).
    + intros k' x E. injection E as <- _. auto.
  - (* the error is sent *)
    destruct M as [M1 M2 M3 M4 M5]. cbn [sglob sinput sseq sreader scalls sconn] in *. constructor; cbn [sglob sinput sseq sreader scalls sconn]; [exact M1| |exact M3|exact M4|discriminate].
    intros k'. rewrite M2. unfold waiting. cbn [scalls sreader]. split; (intros [X|(x & E & U)]; [left; exact X|]); [injection E as _ <-; destruct U|discriminate].
  - (* end *)
    destruct M as [M1 M2 M3 M4 M5]. cbn [sglob sinput sseq sreader scalls sconn] in *. constructor; cbn [sglob sinput sseq sreader scalls sconn]; [exact M1| |exact M3|exact M4|discriminate].
    intros k'. rewrite M2. unfold waiting. cbn [scalls sreader]. split; (intros [X|(x & E & U)]; [left; exact X|discriminate]).
  - (* close *)
    destruct M as [M1 M2 M3 M4 M5]. cbn [sglob sinput sseq sreader scalls sconn] in *. constructor; cbn [sglob sinput sseq sreader scalls sconn pend]; [exact M1| |exact M3|exact M4|discriminate].
    intros k'. rewrite M2. unfold waiting. cbn [scalls sreader]. split; (intros [X|(x & E & U)]; [left; exact X|discriminate]).
  - (* execution *)
    pose proof M as [M1 M2 M3 M4 M5]. cbn [sglob sinput sseq sreader scalls sconn] in *. apply (changed _ _ _ _ _ _ _ _ _ _ _ _ M); [exact M1| |reflexivity].
    rewrite M2. exact (proj1 (call_waits _ _ _ _ _ _ _ _ cn M3 (fun k' x E => proj2 (M5 k' x E)))).
  - (* executed *)
    pose proof M as [M1 M2 M3 M4 M5]. cbn [sglob sinput sseq sreader scalls sconn] in *. apply (changed _ _ _ _ _ _ _ _ _ _ _ _ M); [exact M1| |reflexivity].
    rewrite M2. exact (proj1 (call_waits _ _ _ _ _ _ _ _ cn M3 (fun k' x E => proj2 (M5 k' x E)))).
  - (* sending *)
    pose proof M as [M1 M2 M3 M4 M5]. cbn [sglob sinput sseq sreader scalls sconn] in *.
    assert (X : In k (map fst (pend cn)) <-> unsent s0) by (rewrite M2; exact (proj1 (call_waits _ _ _ _ _ _ _ _ cn M3 (fun k' x E => proj2 (M5 k' x E))))).
    match goal with H : send _ _ _ _ |- _ => destruct (send_memory _ _ _ _ _ _ H M1 X) as (A & B & C) end.
    apply (changed _ _ _ _ _ _ _ _ _ _ _ _ M); [exact A|exact B|exact C].
Qed.
Lemma run_memory c s tr s' : srun c s tr s' -> memory s -> memory s'.
Proof. intros R. induction R; intros M; [exact M|]. apply IHR. eapply step_memory; eassumption. Qed.
Lemma start_memory g input : memory (start g input).
Proof.
  constructor; cbn [start sglob sinput sseq sreader scalls sconn pend map]; [constructor| |constructor|intros c []|discriminate].
  intros k. split; [intros []|]. intros [(c & [] & _)|(x & E & _)]. discriminate.
Qed.
Lemma remembered c g input tr s : srun c (start g input) tr s ->
  NoDup (map fst (pend (sconn s))) /\ forall k, In k (map fst (pend (sconn s))) <-> waiting s k.
Proof. intros R. apply run_memory in R; [|apply start_memory]. split; apply R. Qed.
Lemma forgotten c g input tr s : srun c (start g input) tr s -> answered s -> pend (sconn s) = [].
Proof.
  intros R [A B]. destruct (remembered _ _ _ _ _ R) as [_ M]. destruct (pend (sconn s)) as [|[k v] m]; [reflexivity|exfalso].
  destruct (M k) as [M' _]. destruct M' as [(x & I & _ & X)|(x & E & _)]; [left; reflexivity| |exact (B _ _ E)].
  rewrite Forall_forall in A. rewrite (A _ I) in X. exact X.
Qed.
Lemma moves_state c s ps (test : server -> bool) : match moves c s ps with Some (_, s') => test s' | None => false end = true ->
  exists tr s', srun c s tr s' /\ test s' = true.
Proof. destruct (moves c s ps) as [[tr s']|] eqn:E; [|discriminate]. intros T. exists tr, s'. split; [eapply moves_ok, E|exact T]. Qed.
