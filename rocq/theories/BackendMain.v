(** Proofs: handlers. *)
From Verif Require Import GoBase GoSlice Utf8 Utf8Proofs Url UrlSpec UrlProofs Flags LinkTypes LinkTree LinkSpec LinkProofs LinkMain LinkAny Fuzzy Emacs Backend BackendSpec BackendProofs BackendConc.
From Coq Require Import Lia ZifyBool ZifyNat ZifyN Permutation.

(** ** Decimal numbers *)
Definition dvalue (d : str) (a : Z) : Z := fold_left (fun acc c => 10 * acc + Z.of_N (N_of_ascii c - 48))%Z d a.
Lemma digit_value n : (n < 10)%N -> N_of_ascii (digit n) = (48 + n)%N.
Proof. intros H. unfold digit. apply N_ascii_embedding. lia. Qed.
Lemma dvalue_shift d : forall a, dvalue d a = (a * 10 ^ Z.of_nat (length d) + dvalue d 0)%Z.
Proof.
  unfold dvalue. induction d as [|c d IH]; intros a; cbn [fold_left length].
  - lia.
  - rewrite (IH (10 * a + _)%Z), (IH (10 * 0 + _)%Z). rewrite Nat2Z.inj_succ, Z.pow_succ_r by lia. lia.
Qed.
Lemma dec_loop_ok : forall fuel n acc, (n < 2 ^ N.of_nat fuel)%N -> (0 < fuel)%nat -> Forall (fun c => 48 <= N_of_ascii c <= 57)%N acc ->
  let d := dec_loop fuel n acc in
  d <> [] /\ Forall (fun c => 48 <= N_of_ascii c <= 57)%N d /\ dvalue d 0 = (Z.of_N n * 10 ^ Z.of_nat (length acc) + dvalue acc 0)%Z.
Proof.
  induction fuel as [|fuel IH]; intros n acc HN HF HA; [lia|]. cbn [dec_loop].
  destruct (N.ltb_spec n 10).
  - split; [discriminate|]. split.
    + constructor; [|exact HA]. rewrite digit_value by assumption. lia.
    + unfold dvalue at 1. cbn [fold_left]. fold (dvalue acc (10 * 0 + Z.of_N (N_of_ascii (digit n) - 48))).
      rewrite dvalue_shift, digit_value by assumption. replace (48 + n - 48)%N with n by lia. lia.
  - assert (M : (n mod 10 < 10)%N) by (apply N.mod_lt; lia).
    destruct (IH (n / 10)%N (digit (n mod 10) :: acc)) as (A & B & C).
    + rewrite Nat2N.inj_succ, N.pow_succ_r' in HN. apply N.div_lt_upper_bound; lia.
    + destruct fuel; [|lia]. cbn in HN. lia.
    + constructor; [|exact HA]. rewrite digit_value by assumption. lia.
    + split; [exact A|]. split; [exact B|]. rewrite C. cbn [length]. unfold dvalue at 1. cbn [fold_left]. fold (dvalue acc (10 * 0 + Z.of_N (N_of_ascii (digit (n mod 10)) - 48))).
      rewrite dvalue_shift, digit_value by assumption. replace (48 + n mod 10 - 48)%N with (n mod 10)%N by lia.
      rewrite Nat2Z.inj_succ, Z.pow_succ_r by lia.
      pose proof (N.div_mod n 10 ltac:(lia)) as E. 
      assert (Z.of_N n = 10 * Z.of_N (n / 10) + Z.of_N (n mod 10))%Z by lia. nia.
Qed.
Lemma decimal_ok n : (0 < n)%Z -> denotes (decimal n) n.
Proof.
  intros H. destruct (dec_loop_ok (S (N.to_nat (N.log2 (Z.to_N n)))) (Z.to_N n) []) as (A & B & C).
  - rewrite Nat2N.inj_succ, N2Nat.id. apply N.log2_spec. lia.
  - lia.
  - constructor.
  - split; [exact A|]. split; [exact B|]. unfold dvalue in C at 1. unfold decimal. etransitivity; [exact C|]. cbn. lia.
Qed.
Lemma line_arg_ok n : line_arg n (if (0 <? n)%Z then [b "+" ++ decimal n] else []).
Proof.
  destruct (Z.ltb_spec 0 n); [right|left]; split; auto; try lia. exists (decimal n). split; [apply decimal_ok; assumption|reflexivity].
Qed.

(** ** Commands of handlers *)
Lemma visit_check bk q : negb (existsb (fun src : source => str_eqb (locFile q) (snd src)) (srcFiles bk)) = false <-> In (locFile q) (map snd (srcFiles bk)).
Proof.
  rewrite negb_false_iff, existsb_exists, in_map_iff. split.
  - intros (s & A & B). apply str_eqb_eq in B. exists s. auto.
  - intros (s & A & B). exists s. split; [exact B|]. apply str_eqb_eq. auto.
Qed.

Lemma calls_bind {A B} Q (p : hprog A) (f : A -> hprog B) : calls_only Q p -> (forall a, calls_only Q (f a)) -> calls_only Q (hbind p f).
Proof. intros H F. induction p; cbn in *; auto. destruct H; split; auto. Qed.
Lemma group_calls x Q srcs : forall acc, calls_only Q (group_loop x srcs acc).
Proof.
  induction srcs as [|[k n] srcs IH]; intros acc; cbn; [exact I|]. intros r.
  destruct r as [|c br]; cbn; [exact I|]. destruct (xtree x k c br) as [[[t|] err]|]; cbn; try exact I; destruct err; cbn; auto.
Qed.
Lemma setgroup_calls x Q srcs f : forall acc, calls_only Q (ExtractLinkSetFromFileGroup x srcs f acc).
Proof.
  induction srcs as [|[k n] srcs IH]; intros acc; cbn; [exact I|]. intros r.
  destruct r as [|c br]; cbn; [exact I|]. destruct (xset x k c br f acc) as [[t [err|]]|]; cbn; try exact I; auto.
Qed.

Lemma handle_calls bk o q : calls_only (own_args bk q) (handle bk o q).
Proof.
  destruct q as [q|q|q|q|q|pf]; cbn [handle].
  - exact I.
  - unfold Capture. destruct (str_eqb_spec (cqFormat q) (b "org-protocol")) as [F|]; cbn [negb]; [|exact I].
    destruct (cqError q) eqn:CE; [exact I|]. apply calls_bind; [|intros [?|]; exact I].
    unfold OrgProtocol. destruct (has_prefix (cqUrl q) (b "org-protocol:")) eqn:E; cbn [negb]; [|exact I].
    apply has_prefix_iff in E. assert (A : capture_allowed q) by (repeat split; assumption).
    apply calls_bind.
    { apply calls_bind; [|intros [out [?|]]; [exact I|destruct (has_prefix out _); exact I]].
      cbn. split; [constructor; exact A|]. intros [out|code out]; [exact I|]. destruct (code =? 9)%Z; exact I. }
    intros [err|]; [exact I|]. apply calls_bind.
    { cbn. split; [constructor; exact A|]. intros [out|code out]; [exact I|]. destruct (code =? 9)%Z; exact I. }
    intros [err|]; [exact I|]. cbn. split; [constructor; exact A|]. intros [out|code out]; [exact I|]. destruct (code =? 9)%Z; exact I.
  - unfold UrlMentions. destruct (negb _); [exact I|]. cbn. intros [t|e]; [|exact I]. destruct (limited _ _ _) as [[c|]|]; exact I.
  - unfold Visit. destruct (negb _) eqn:E; [exact I|]. apply visit_check in E. apply calls_bind; [|intros [?|]; exact I].
    unfold VisitFile. apply calls_bind.
    { cbn. split; [constructor; exact E|]. intros [out|code out]; [exact I|]. destruct (code =? 9)%Z; exact I. }
    intros [err|]; [exact I|]. apply calls_bind; [|intros [? ?]; exact I]. split.
    + apply oa_open; [assumption|]. apply line_arg_ok.
    + intros [out|code out]; [exact I|]. destruct (code =? 9)%Z; exact I.
  - cbn. intros [t|e]; [|exact I]. destruct (Search _ _ _ _ _) as [[c|]|]; exact I.
  - unfold LinkSet. destruct (linkSetDisabled bk); [exact I|]. destruct (_ <? _); [exact I|]. apply calls_bind; [apply setgroup_calls|].
    intros [urls [err|]]; exact I.
Qed.

Lemma ideal_commands {R} e users Rel V Q (p : hprog R) tr t : ideal e users Rel V p tr t -> calls_only Q p ->
  Forall (fun argv => exists own rest, Q own /\ Rel own rest /\ argv = cmdline e users rest) (commands tr).
Proof.
  induction 1; intros C; cbn [commands calls_only] in *; try constructor; auto.
  - destruct C. eauto.
  - destruct C. exists args, rest. auto.
  - destruct C. auto.
Qed.

(** C53 *)
Lemma sequential_exact e users bk g0 g o q tr g' t' : booted e users g0 -> history e bk g0 g ->
  tsteps e (initializer bk) (g, TRun (handle bk o q)) tr (g', t') ->
  Forall (fun argv => exists own, own_args bk q own /\ argv = cmdline e users own) (commands tr).
Proof.
  intros (_ & U) H S. apply (history_users e users) in H; [|exact U].
  destruct (seq_run e users _ _ _ _ _ _ H S) as (_ & it & _ & I).
  pose proof (ideal_commands _ _ _ _ _ _ _ _ I (handle_calls bk o q)) as F. rewrite commands_visible in F.
  eapply Forall_impl; [|exact F]. intros argv (own & rest & A & <- & C). eauto.
Qed.

(** ** Visit *)
Ltac run I := inversion I; subst; clear I; cbn [visible1 app commands results] in *.

Lemma ideal_ret_inv {R} e users Rel V (r : R) tr t : ideal e users Rel V (HRet r) tr t -> tr = [] \/ tr = [LReply r].
Proof. intros H. inversion H; auto. Qed.

(** A command followed by something: not finished, or finished *)
Lemma ideal_exec_inv {R} e users V args (k : xres -> hprog R) tr t : ideal e users eq V (HExec args k) tr t ->
  tr = [] \/ tr = [LStart (cmdline e users args)] \/
  exists r tr', tr = LStart (cmdline e users args) :: LEnd r :: tr' /\ ideal e users eq V (k r) tr' t.
Proof. intros H. inversion H; subst; eauto 8. Qed.

Definition not_success (r : xres) : Prop := ~ success r.
Lemma success_ok out : success (XOk out). Proof. exists out. reflexivity. Qed.
Lemma success_err c out : ~ success (XErr c out). Proof. intros (o & H). discriminate. Qed.

Lemma beginning_nil {A} (l : list A) : beginning [] l. Proof. exists l. reflexivity. Qed.
Lemma beginning_cons {A} (x : A) l l' : beginning l l' -> beginning (x :: l) (x :: l').
Proof. intros (z & ->). exists z. reflexivity. Qed.
Lemma replied_one {R} (r0 r : R) pre : (forall l, In l pre -> forall x, l <> LReply x) -> replied (pre ++ [LReply r0]) r -> r = r0.
Proof.
  intros P H. apply in_app_or in H. destruct H as [H|[H|[]]]; [exfalso; exact (P _ H r eq_refl)|]. injection H as <-. reflexivity.
Qed.

Ltac begins := repeat (apply beginning_nil || apply beginning_cons).
Ltac noreply := let H := fresh in intros ? H; repeat (destruct H as [H|H]; [discriminate|]); destruct H.
Ltac reply_of := let r := fresh "r" in let H := fresh "H" in intros r H; repeat (destruct H as [H|H]; [try discriminate|]); [injection H as <-|destruct H].
Ltac finished H := apply ideal_ret_inv in H; destruct H as [->| ->].
Ltac exec H := 
  apply ideal_exec_inv in H;
  let r := fresh "r" in let c := fresh "c" in let o := fresh "out" in let tr' := fresh "tr" in
  destruct H as [->|[->|(r & tr' & -> & H)]]; [| |destruct r as [o|c o]; cbn beta iota in H; [|destruct (c =? 9)%Z; cbn [hbind] in H]].

Lemma visit_ideal e users V bk q tr it : ideal e users eq V (Visit bk q) tr it ->
  visit_ok e users bk q tr.
Proof.
  intros I. unfold Visit in I. unfold visit_ok, visit_allowed. destruct (negb _) eqn:E.
  - split; intros HN.
    + finished I; [split; [reflexivity|noreply]|]. split; [reflexivity|]. reply_of. reflexivity.
    + apply visit_check in HN. pose proof (eq_trans (eq_sym E) HN). discriminate.
  - split; intros HN; [apply visit_check in E; contradiction|]. clear E.
    exists (if (0 <? locLine q)%Z then [b "+" ++ decimal (locLine q)] else []). split; [apply line_arg_ok|].
    unfold VisitFile, EnsureFrame, execEmacs in I. cbn [hbind] in I. exec I.
    1,2: split; [begins|noreply].
    2,3: finished I; (split; [begins|]); [noreply|]; reply_of; (split; [eauto|]); (split; [discriminate|]); intros (o1 & o2 & X); discriminate X.
    exec I.
    1,2: split; [begins|noreply].
    2,3: finished I; (split; [begins|]); [noreply|]; reply_of; (split; [eauto|]); (split; [discriminate|]); intros (o1 & o2 & X); discriminate X.
    finished I; (split; [begins|]); [noreply|]. reply_of. split; [auto|]. split; [|auto]. intros _. exists out, out0. reflexivity.
Qed.

Lemma capture_ideal e users V q tr it : ideal e users eq V (Capture q) tr it ->
  capture_ok e users q tr.
Proof.
  intros I. unfold Capture in I. unfold capture_ok, capture_allowed. destruct (str_eqb_spec (cqFormat q) (b "org-protocol")) as [F|F]; cbn [negb] in I.
  2:{ finished I; (split; [begins|]); (split; [intros X; contradiction X; reflexivity|]); [noreply|]. reply_of.
      repeat split; try discriminate; eauto; try (let X := fresh in intros (? & ? & ? & X); discriminate X). tauto. }
  destruct (cqError q) eqn:CE.
  { finished I; (split; [begins|]); (split; [intros X; contradiction X; reflexivity|]); [noreply|]. reply_of.
    repeat split; auto; try discriminate; try (let X := fresh in intros (? & ? & ? & X); discriminate X). contradiction. }
  unfold OrgProtocol in I. destruct (has_prefix (cqUrl q) (b "org-protocol:")) eqn:E; cbn [negb hbind] in I.
  2:{ finished I; (split; [begins|]); (split; [intros X; contradiction X; reflexivity|]); [noreply|]. reply_of.
      repeat split; eauto; try discriminate; try (let X := fresh in intros (? & ? & ? & X); discriminate X); try contradiction.
      intros (_ & X); discriminate X. }
  apply has_prefix_iff in E. destruct E as (rest & E).
  unfold CheckOrgProtocol, EnsureFrame, execEmacs in I. cbn [hbind] in I.
  Ltac bad I CE := finished I; (split; [begins|]); (split; [eauto|]); [noreply|]; reply_of;
    repeat split; eauto; try discriminate; try (let X := fresh in intros (? & ? & ? & X); discriminate X); try contradiction;
      try (intros (_ & X); congruence); try (rewrite CE in *; discriminate).
  exec I.
  1,2: split; [begins|split; [eauto|noreply]].
  2,3: bad I CE.
  cbn [hbind] in I. destruct (has_prefix out (b "org-protocol")) eqn:O; cbn [hbind] in I.
  2:{ bad I CE. }
  apply has_prefix_iff in O. destruct O as (v & ->). exec I.
  1,2: split; [begins|split; [eauto|noreply]].
  2,3: bad I CE.
  cbn [hbind] in I. exec I.
  1,2: split; [begins|split; [eauto|noreply]].
  2,3: bad I CE.
  cbn [hbind] in I. finished I; (split; [begins|]); (split; [eauto|]); [noreply|]. reply_of.
  split; [|split; [|split]].
  - split; [|reflexivity]. intros _. exists v, out, out0. reflexivity.
  - split; [discriminate|]. intros (_ & X). congruence.
  - contradiction.
  - auto.
Qed.

(** C51 *)
Lemma sequential_ideal e users bk g0 g o q tr g' t' : booted e users g0 -> history e bk g0 g ->
  tsteps e (initializer bk) (g, TRun (handle bk o q)) tr (g', t') ->
  exists it, ideal e users eq (fun _ => True) (handle bk o q) (visible tr) it.
Proof.
  intros (_ & U) H S. apply (history_users e users) in H; [|exact U].
  destruct (seq_run e users _ _ _ _ _ _ H S) as (_ & it & _ & I). eauto.
Qed.
Lemma visit_visible e users bk q tr : visit_ok e users bk q (visible tr) -> visit_ok e users bk q tr.
Proof.
  unfold visit_ok. rewrite commands_visible, results_visible. intros (I1 & I2). split.
  - intros N. destruct (I1 N) as (A & C). split; [exact A|]. intros r R. apply C, replied_visible, R.
  - intros N. destruct (I2 N) as (line & A & C & D). exists line. split; [exact A|]. split; [exact C|]. intros r R. apply D, replied_visible, R.
Qed.
Lemma capture_visible e users q tr : capture_ok e users q (visible tr) -> capture_ok e users q tr.
Proof.
  unfold capture_ok. rewrite commands_visible, results_visible. intros (I1 & I2 & I3). split; [exact I1|]. split; [exact I2|].
  intros r R. apply I3, replied_visible, R.
Qed.
Lemma visit_sequential e users bk g0 g o q tr g' t' : booted e users g0 -> history e bk g0 g ->
  tsteps e (initializer bk) (g, TRun (handle bk o (QVisit q))) tr (g', t') -> visit_ok e users bk q tr.
Proof.
  intros B H S. destruct (sequential_ideal _ _ _ _ _ _ _ _ _ _ B H S) as (it & I). apply visit_visible. eapply visit_ideal, I.
Qed.
(** C52 *)
Lemma capture_sequential e users bk g0 g o q tr g' t' : booted e users g0 -> history e bk g0 g ->
  tsteps e (initializer bk) (g, TRun (handle bk o (QCapture q))) tr (g', t') -> capture_ok e users q tr.
Proof.
  intros B H S. destruct (sequential_ideal _ _ _ _ _ _ _ _ _ _ B H S) as (it & I). apply capture_visible. eapply capture_ideal, I.
Qed.

(** ** Concurrent requests *)
Definition any_args (bk : backend) (qs : list (orders * request)) (args : list str) : Prop :=
  exists o q, In (o, q) qs /\ own_args bk q args.
Lemma calls_weaken {A} (Q Q' : list str -> Prop) (p : hprog A) : (forall a, Q a -> Q' a) -> calls_only Q p -> calls_only Q' p.
Proof. intros H. induction p; cbn; auto. intros (A1 & A2). auto. Qed.

Lemma serving_ideal e users bk qs g tr g' ts : booted e users g -> steps e (initializer bk) (g, serving bk qs) tr (g', ts) ->
  (forall i o q, nth_error qs i = Some (o, q) -> exists it,
     ideal e users (may_mix users (any_args bk qs) (length (array (gmem g) (A0 e)))) (once_value g') (handle bk o q) (visible (of_thread i tr)) it) /\
  once_inv (initializer bk) tr g' ts.
Proof.
  intros B S.
  assert (E : serving bk qs = map TRun (map (fun '(o, q) => handle bk o q) qs)).
  { unfold serving. rewrite map_map. apply map_ext. intros [o q]. reflexivity. }
  assert (CO : Forall (calls_only (any_args bk qs)) (map (fun '(o, q) => handle bk o q) qs)).
  { apply Forall_map, Forall_forall. intros [o q] HI. eapply calls_weaken; [|apply handle_calls].
    intros a HA. exists o, q. auto. }
  rewrite E in S. destruct (run_ideal e users (any_args bk qs) _ _ _ _ _ _ B CO S) as (I & O).
  - split; [|exact O]. intros i o q Hi. apply (I i). rewrite nth_error_map, Hi. reflexivity.
Qed.

(** C65 *)
Lemma race_bounded e users bk qs g tr g' ts i o q : booted e users g -> steps e (initializer bk) (g, serving bk qs) tr (g', ts) ->
  nth_error qs i = Some (o, q) ->
  Forall (fun argv => exists own rest, own_args bk q own /\ argv = cmdline e users rest /\ length rest = length own /\
     forall j x, nth_error rest j = Some x -> exists o' q' own', In (o', q') qs /\ own_args bk q' own' /\ nth_error own' j = Some x)
    (commands (of_thread i tr)).
Proof.
  intros B S Hi. destruct (serving_ideal _ _ _ _ _ _ _ _ B S) as (I & _). destruct (I _ _ _ Hi) as (it & J).
  pose proof (ideal_commands _ _ _ _ _ _ _ _ J (handle_calls bk o q)) as F. rewrite commands_visible in F.
  eapply Forall_impl; [|exact F]. intros argv (own & rest & A & M & C). exists own, rest. split; [exact A|]. split; [exact C|].
  destruct M as [->|(_ & L & M)].
  - split; [reflexivity|]. intros j x X. exists o, q, own. split; [eapply nth_error_In; eassumption|auto].
  - split; [exact L|]. intros j x X. destruct (M _ _ X) as (args' & (o' & q' & HI & HO) & N). exists o', q', args'. auto.
Qed.

(** C54 *)
Lemma full_eq users Q c0 args rest : c0 <= length users + 2 -> may_mix users Q c0 args rest -> args = rest.
Proof.
  intros H [->|(L & M & _)]; [reflexivity|]. destruct args; [|cbn in L; lia]. destruct rest; [reflexivity|discriminate].
Qed.
Lemma full_ideal e users bk qs g tr g' ts i o q : booted e users g -> steps e (initializer bk) (g, serving bk qs) tr (g', ts) ->
  length (array (gmem g) (arr (UserArgs e))) <= length users + 2 -> nth_error qs i = Some (o, q) ->
  exists it, ideal e users eq (once_value g') (handle bk o q) (visible (of_thread i tr)) it.
Proof.
  intros B S C Hi. destruct (serving_ideal _ _ _ _ _ _ _ _ B S) as (I & _). destruct (I _ _ _ Hi) as (it & J). exists it.
  eapply ideal_mono; [| |exact J]; [|auto]. intros a r. apply full_eq. exact C.
Qed.
Lemma full_safe e users bk qs g tr g' ts i o q : booted e users g -> steps e (initializer bk) (g, serving bk qs) tr (g', ts) ->
  length (array (gmem g) (arr (UserArgs e))) <= length users + 2 -> nth_error qs i = Some (o, q) ->
  Forall (fun argv => exists own, own_args bk q own /\ argv = cmdline e users own) (commands (of_thread i tr)) /\
  (forall v, q = QVisit v -> visit_ok e users bk v (of_thread i tr)) /\
  (forall c, q = QCapture c -> capture_ok e users c (of_thread i tr)).
Proof.
  intros B S C Hi. destruct (full_ideal _ _ _ _ _ _ _ _ _ _ _ B S C Hi) as (it & I). split; [|split].
  - pose proof (ideal_commands _ _ _ _ _ _ _ _ I (handle_calls bk o q)) as F. rewrite commands_visible in F.
    eapply Forall_impl; [|exact F]. intros argv (own & rest & A & <- & E). eauto.
  - intros v ->. apply visit_visible. eapply visit_ideal, I.
  - intros c ->. apply capture_visible. eapply capture_ideal, I.
Qed.

Lemma ideal_ret_any {R} e users Rel V (r : R) tr t : ideal e users Rel V (HRet r) tr t -> tr = [] \/ tr = [LReply r].
Proof. intros H. inversion H; auto. Qed.
Lemma prohibited e users bk qs g tr g' ts i o q : booted e users g -> steps e (initializer bk) (g, serving bk qs) tr (g', ts) ->
  nth_error qs i = Some (o, QVisit q) -> ~ visit_allowed bk q ->
  commands (of_thread i tr) = [] /\ forall r, replied (of_thread i tr) r -> r = PError EProhibited.
Proof.
  intros B S Hi NA. destruct (serving_ideal _ _ _ _ _ _ _ _ B S) as (I & _). destruct (I _ _ _ Hi) as (it & J).
  cbn [handle] in J. unfold Visit in J. destruct (negb _) eqn:E; [|apply visit_check in E; contradiction].
  rewrite <- commands_visible. setoid_rewrite <- replied_visible. 
  apply ideal_ret_any in J. destruct J as [->| ->]; (split; [reflexivity|]); [intros r []|]. intros r0 [K|[]]. injection K as <-. reflexivity.
Qed.
Lemma not_option q : capture_allowed q -> forall rest, cqUrl q <> b "-" ++ rest.
Proof. intros (_ & _ & r & ->) rest H. discriminate. Qed.
