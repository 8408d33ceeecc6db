(** Depth of replies about notes. *)
From Verif Require Import GoBase LinkTypes LinkSpec LinkTree Emacs Backend BackendSpec BackendProofs BackendMain BackendNotes Extract ExtractTree Real ReplyMain Server ServerSpec ServerMain EndSpec EndProofs.

(** What a program may return *)
Inductive returns {R} (r : R) : hprog R -> Prop :=
| rt_ret : returns r (HRet r)
| rt_exec args k x : returns r (k x) -> returns r (HExec args k)
| rt_read n k x : returns r (k x) -> returns r (HRead n k)
| rt_once k x : returns r (k x) -> returns r (HOnce k).
Lemma ideal_returns {R} e users Rel V (p : hprog R) tr it r : ideal e users Rel V p tr it -> replied tr r -> returns r p.
Proof.
  unfold replied. induction 1 as [p|args k rest H|args k rest x tr t H I IH|n k x tr t I IH|k v tr t H I IH|k|r'|]; cbn [In]; intros Hr.
  - destruct Hr.
  - destruct Hr as [E|[]]; discriminate E.
  - destruct Hr as [E|[E|Hr]]; try discriminate E. eapply rt_exec, IH, Hr.
  - destruct Hr as [E|Hr]; try discriminate E. eapply rt_read, IH, Hr.
  - eapply rt_once, IH, Hr.
  - destruct Hr as [E|[]]; discriminate E.
  - destruct Hr as [E|[]]. injection E as ->. constructor.
  - destruct Hr as [E|[]]; discriminate E.
Qed.
Lemma returns_bind {A R} (r : R) (p : hprog A) (f : A -> hprog R) : returns r (hbind p f) -> exists a, returns r (f a).
Proof. induction p as [a| |args k IH|n k IH|k IH]; cbn [hbind]; intros H; [eauto|inversion H|inversion H; subst; eapply IH; eassumption..]. Qed.
Lemma mentions_only bk o q c : returns (PMentions c) (handle bk o q) -> exists q', q = QMentions q'.
Proof.
  destruct q as [q|q|q|q|q|p]; cbn [handle]; intros H; [| |eauto|..]; exfalso.
  - inversion H as [E| | |]. unfold Hello in E. destruct (hello_version q); discriminate E.
  - unfold Capture in H. destruct (negb _); [inversion H|]. destruct (cqError q); [inversion H|]. apply returns_bind in H. destruct H as ([e|] & H); inversion H.
  - unfold Visit in H. destruct (negb _); [inversion H|]. apply returns_bind in H. destruct H as ([e|] & H); inversion H.
  - unfold HSearch in H. inversion H as [| | |k v H' E]; subst. destruct v as [t|e]; [|inversion H']. destruct (Fuzzy.Search _ _ _ _ _) as [[urls|]|]; inversion H'.
  - unfold LinkSet in H. destruct (linkSetDisabled bk); [inversion H|]. destruct (_ <? _); [inversion H|]. apply returns_bind in H. destruct H as ([urls [e|]] & H); inversion H.
Qed.

(** Depth of trees *)
Lemma read_depth fuel : forall h a t, read_node fuel h a = Some t -> depth t <= fuel.
Proof.
  induction fuel as [|fuel IH]; intros h a t E; [discriminate E|]. destruct (nth_error h a) as [ob|] eqn:N; [|cbn [read_node] in E; rewrite N in E; discriminate E]. destruct ob as [ls|p ch|].
  - cbn [read_node] in E. rewrite N in E. injection E as <-. cbn. lia.
  - rewrite (read_inner _ _ _ _ _ N) in E. destruct (read_nodes fuel h ch) as [ts|] eqn:Er; [|discriminate E]. injection E as <-. cbn [depth]. apply le_n_S. clear N. revert ts Er. induction ch as [|c ch IHc]; intros ts Er; cbn [read_nodes] in Er.
    + injection Er as <-. cbn. lia.
    + destruct (read_node fuel h c) as [x|] eqn:Ec; [|discriminate Er]. destruct (read_nodes fuel h ch) as [xs|]; [|discriminate Er]. injection Er as <-. cbn [fold_right]. apply IH in Ec. specialize (IHc _ eq_refl). lia.
  - cbn [read_node] in E. rewrite N in E. discriminate E.
Qed.
Lemma file_depth u sc chunk k content broken t e : xtree (real u sc chunk) k content broken = Done (Some t, e) -> depth t <= 13.
Proof.
  destruct k; cbn [real xtree]; intros E.
  - unfold OrgExtract in E. destruct (Scanner.scan_lines broken chunk content) as [[lines er]|]; [|discriminate E]. destruct (org_lines u sc None 1 lines org_start) as [st|]; [|discriminate E]. apply (f_equal (fun o => match o with Done y => fst y | Panic => None end)) in E. cbv beta iota delta [obind fst] in E. eapply read_depth, E.
  - unfold TxtExtract in E. destruct (Scanner.scan_lines broken chunk content) as [[lines er]|]; [|discriminate E]. destruct (txt_lines u None 1 lines _) as [h|]; [|discriminate E]. apply (f_equal (fun o => match o with Done y => fst y | Panic => None end)) in E. cbv beta iota delta [obind fst] in E. apply read_depth in E. lia.
Qed.
Lemma notes_depth u sc chunk srcs reads tree : notes_from (real u sc chunk) srcs reads (Ok tree) -> depth tree <= 14.
Proof.
  intros H. inversion H as [|ts _ _ F _ E| |]; subst. cbn [depth]. apply le_n_S. clear H. induction F as [|[s r] t l ts Fr F IH]; [cbn; lia|]. unfold trees_of in *. cbn [flat_map]. destruct t as [t|]; [|exact IH]. cbn [app fold_right].
  enough (depth t <= 13) by lia. destruct r as [n [|content broken]]; cbn [snd file_result] in Fr; [destruct Fr; discriminate|]. destruct Fr as (t0 & X & Et). destruct t0 as [t0|]; [|discriminate Et]. apply file_depth in X.
  destruct t0 as [ls|p ch]; [injection Et as ->; exact X|]. destruct ch as [|c ch]; [discriminate Et|]. injection Et as ->. exact X.
Qed.
Lemma pruned_depth P t : forall c, pruned P t c -> levels c <= depth t.
Proof.
  induction t as [ls|p ch IH] using node_ind'; intros c H; inversion H as [|p0 ch0 k0 t0 ch' HS HP]; subst; cbn [levels depth]; [lia|]. apply le_n_S. clear H HP.
  induction HS as [|a x y _ IHs|a d x y R _ IHs]; cbn [fold_right]; [lia| |].
  - specialize (IHs (Forall_inv_tail IH)). lia.
  - specialize (IHs (Forall_inv_tail IH)). pose proof (Forall_inv IH _ R). lia.
Qed.

Lemma steps_index {R} e init x tr y : steps e init x tr y -> forall i (l : label R), In (i, l) tr -> i < length (snd x).
Proof.
  induction 1 as [x|x l y tr z S _ IH]; intros i l' I; [destruct I|]. destruct S as [g pre t post l g' t' F T]. cbn [snd] in *. rewrite app_length in *. cbn [length] in *. destruct I as [E|I]; [injection E as <- _; lia|]. exact (IH _ _ I).
Qed.
Lemma in_inner tr i l : In (VBack i l) tr -> In (i, l) (inner tr).
Proof. induction tr as [|x tr IH]; [contradiction|]. intros [->|I]; [left; reflexivity|]. destruct x; cbn [inner]; try (apply IH, I). right. apply IH, I. Qed.
Lemma real_shallow c g input tr s users u sc chunk : booted (c_emacs c) users g -> srun c (start g input) tr s -> ext (c_back c) = real u sc chunk ->
  (forall k o, In (k, o) (started 0 tr) -> fair_orders o) -> forall i x, In (VBack i (LReply (PMentions x))) tr -> levels x <= 14.
Proof.
  intros B R X Fo i x I. destruct (server_calls _ _ _ _ _ R) as (_ & qs & ts & Ca & St). apply in_inner in I. pose proof (steps_index _ _ _ _ _ St _ _ I) as L. cbn [snd] in L. unfold serving in L. rewrite map_length in L.
  destruct (nth_error qs i) as [[o q]|] eqn:N; [|apply nth_error_None in N; lia].
  assert (Hr : replied (of_thread i (inner tr)) (PMentions x)). { unfold replied, of_thread. apply in_map_iff. exists (i, LReply (PMentions x)). split; [reflexivity|]. apply filter_In. split; [exact I|apply Nat.eqb_refl]. }
  destruct (serving_ideal _ _ _ _ _ _ _ _ B St) as (Id & _). destruct (Id _ _ _ N) as (it & J).
  destruct (mentions_only _ _ _ _ (ideal_returns _ _ _ _ _ _ _ _ J (proj2 (replied_visible _ _) Hr))) as (q' & ->).
  assert (F : fair_orders o).
  { clear - Ca N Fo. unfold called in Ca. revert i N. induction Ca as [|[k o'] [o2 q2] l qs (E & _) _ IH]; intros i N; [destruct i; discriminate N|]. destruct i as [|i]; cbn [nth_error] in N.
    - injection N as -> ->. cbn [fst snd] in E. subst o'. apply (Fo k). left. reflexivity.
    - eapply IH; [intros k0 o0 I0; apply (Fo k0); right; exact I0|exact N]. }
  destruct (mentions_real _ _ _ _ _ _ _ _ _ _ _ _ _ _ _ B St N F Hr X) as (tree & NF & f & _ & P & _). apply pruned_depth in P. apply notes_depth in NF. lia.
Qed.
