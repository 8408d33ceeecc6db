From Verif Require Import GoBase Utf8 Fuzzy Path FileSys FileUtil FileSpec.
Local Open Scope N_scope.

Lemma normal_iff p : normal p -> exists cs x, Forall good cs /\ good x /\ p = abs_path (cs ++ [x]).
Proof.
  intros (A & C & N). destruct (clean_abs p A) as (cs & G & E). rewrite C in E.
  destruct (rev cs) as [|x r] eqn:R.
  - exfalso. apply N. rewrite <- (rev_involutive cs), R in E. exact E.
  - assert (Q : cs = rev r ++ [x]) by (rewrite <- (rev_involutive cs), R; reflexivity). subst cs.
    apply Forall_app in G. destruct G as [G1 G2]. inversion G2; subst. exists (rev r), x. auto.
Qed.
Lemma normal_abs cs x : Forall good cs -> good x -> normal (abs_path (cs ++ [x])).
Proof.
  intros G1 G2. split; [reflexivity|]. split.
  - apply clean_abs_path. apply Forall_app. split; [exact G1|]. constructor; [exact G2|constructor].
  - intros E. change (b "/") with (abs_path []) in E. apply abs_inj in E.
    + destruct cs; discriminate.
    + apply Forall_app. split; [exact G1|]. constructor; [exact G2|constructor].
    + constructor.
Qed.

Lemma digits_facts r a : digits r -> In a r -> a <> "/"%char /\ a <> "."%char /\ a <> "*"%char.
Proof.
  intros [_ D] I. rewrite Forall_forall in D. apply D in I. cbn in I.
  repeat (destruct I as [<-|I]; [repeat split; discriminate|]). destruct I.
Qed.
Lemma digits_head r : digits r -> exists a r', r = a :: r' /\ In a r.
Proof. intros [N _]. destruct r as [|a r']; [congruence|]. exists a, r'. split; [reflexivity|left; reflexivity]. Qed.

Lemma temp_fresh s0 path t : normal path -> temp_name (Dir path) (Base path) t -> fs s0 t = None -> fresh s0 path t.
Proof.
  intros P T F. apply normal_iff in P. destruct P as (cs & x & G1 & G2 & ->).
  rewrite Dir_abs, Base_abs in T by assumption. destruct T as (p & s & r & D & -> & T).
  assert (G : good (p ++ r ++ s) /\ p ++ r ++ s <> x).
  { destruct (digits_head r D) as (a & r' & R & I). pose proof (digits_facts r a D I) as (N1 & N2 & N3).
    destruct G2 as (X1 & X2 & X3 & X4).
    assert (IN : In a (p ++ r ++ s)) by (apply in_or_app; right; apply in_or_app; left; exact I).
    split; [repeat split|].
    - intros E. rewrite E in IN. destruct IN.
    - intros Q. assert (NR : ~ In slash r) by (intros Z; apply (digits_facts r _ D) in Z; destruct Z as [Z _]; apply Z; reflexivity).
      apply in_app_or in Q. destruct T as [(-> & _)|(-> & -> & _)].
      + destruct Q as [Q|Q]; [apply X2; apply in_or_app; left; exact Q|]. apply in_app_or in Q. destruct Q as [Q|Q]; [contradiction|].
        apply X2. apply in_or_app. right. right. exact Q.
      + rewrite app_nil_r in Q. destruct Q as [Q|Q]; contradiction.
    - intros E. rewrite E in IN. destruct IN as [E1|[]]. apply N2. symmetry. exact E1.
    - intros E. rewrite E in IN. destruct IN as [E1|[E1|[]]]; apply N2; symmetry; exact E1.
    - intros E. destruct T as [(E2 & _)|(-> & -> & _)].
      + rewrite E2 in E. apply app_inv_head in E. rewrite R in E. cbn in E. injection E as E _. apply N3. exact E.
      + rewrite app_nil_r in E. apply (f_equal (@length ascii)) in E. rewrite app_length, R in E. cbn in E. lia. }
  destruct G as [G N]. rewrite Join_abs in * by assumption. split; [exact F|]. split; [|split].
  - intros E. apply abs_inj in E.
    + apply app_inj_tail in E. destruct E as [_ E]. contradiction.
    + apply Forall_app. split; [exact G1|constructor; [exact G|constructor]].
    + apply Forall_app. split; [exact G1|constructor; [exact G2|constructor]].
  - apply normal_abs; assumption.
  - rewrite !Dir_abs by assumption. reflexivity.
Qed.

Definition final {A} (p : prog A) (r : A) : Prop := p = Ret r.

(** all states of replace_file *)
Record writing (s0 : state) (path content : str) (mode : N) (y : prog (result ferr unit) * state) : Prop := {
  w_out : out (snd y) = out s0;
  w_dest : fs (snd y) path = fs s0 path \/ fs (snd y) path = Some (File content mode);
  w_others : others_untouched s0 (snd y) path content;
  w_ok : fst y = Ret (Ok tt) -> fs (snd y) path = Some (File content mode) /\ forall x, x <> path -> fs (snd y) x = fs s0 x;
  w_err : forall e, fst y = Ret (Err e) -> fs (snd y) path = fs s0 path;
  w_abort : fst y <> Abort }.

Lemma writing_same s0 path content mode p : (forall r, p <> Ret (Ok r)) -> p <> Abort -> writing s0 path content mode (p, s0).
Proof.
  intros N A. constructor; cbn; auto.
  - left. reflexivity.
  - intros E. exfalso. exact (N tt E).
Qed.

Lemma cleanup_runs s0 path content mode t c1 c2 m s e y :
  fresh s0 path t -> out s = out s0 -> fs s path = fs s0 path -> content = c1 ++ c2 -> fs s t = Some (File c1 m) ->
  (forall x, x <> path -> x <> t -> fs s x = fs s0 x) ->
  steps (cleanup t e, s) y -> writing s0 path content mode y.
Proof.
  intros FR O P C T X R. unfold cleanup in R. apply steps_simple in R; [|exact I].
  destruct R as [->|(a & s' & D & R)].
  - constructor; cbn; auto; try discriminate. right. exists t, c1, c2, m. auto.
  - apply steps_ret in R. subst y. inversion D as [? ? ? ? E|]; subst.
    + inversion E; subst. constructor; cbn; auto; try discriminate.
      * left. rewrite upd_other; [exact P|]. destruct FR as (_ & N & _). congruence.
      * left. intros x N. cbn [set_fs fs]. unfold upd. destruct (str_eqb_spec x t) as [->|N2].
        -- destruct FR as (F & _). symmetry. exact F.
        -- apply X; assumption.
      * intros e0 _. rewrite upd_other; [exact P|]. destruct FR as (_ & N & _). congruence.
    + constructor; cbn; auto; try discriminate. right. exists t, c1, c2, m. auto.
Qed.

Lemma replace_runs s0 path content mode y : normal path -> steps (replace_file path content mode, s0) y -> writing s0 path content mode y.
Proof.
  intros NP R. unfold replace_file in R. apply steps_simple in R; [|exact I].
  destruct R as [->|(a & s1 & D & R)]; [apply writing_same; discriminate|].
  inversion D as [? ? ? ? E|]; subst.
  2:{ apply steps_ret in R. subst y. apply writing_same; discriminate. }
  inversion E as [| | | | | | | | |? ? ? t m0 F T| | | | | | | | | | |]; subst. clear D E.
  pose proof (temp_fresh s0 path t NP T F) as FR. pose proof FR as (_ & N & _).
  assert (NQ : path <> t) by congruence.
  set (s1 := set_fs s0 t (Some (File [] m0))) in *.
  assert (P1 : fs s1 path = fs s0 path) by (apply upd_other; exact NQ).
  assert (T1 : fs s1 t = Some (File [] m0)) by apply upd_same.
  assert (X1 : forall x, x <> path -> x <> t -> fs s1 x = fs s0 x) by (intros x _ Nx; apply upd_other; exact Nx).
  assert (O1 : out s1 = out s0) by reflexivity.
  clearbody s1. apply steps_simple in R; [|exact I].
  destruct R as [->|(a & s2 & D & R)].
  { constructor; cbn; auto; try discriminate. right. exists t, [], content, m0. auto. }
  inversion D as [? ? ? ? E|]; subst.
  2:{ refine (cleanup_runs s0 path content mode t [] content m0 _ _ y _ _ _ _ _ _ R); auto. }
  inversion E; subst. clear E D.
  match goal with Q : fs s1 t = _ |- _ => rewrite T1 in Q; injection Q as <- <- end.
  set (s2 := set_fs s1 t (Some (File [] mode))) in *.
  assert (P2 : fs s2 path = fs s0 path) by (unfold s2; cbn; rewrite upd_other by exact NQ; exact P1).
  assert (T2 : fs s2 t = Some (File [] mode)) by apply upd_same.
  assert (X2 : forall x, x <> path -> x <> t -> fs s2 x = fs s0 x).
  { intros x Nx1 Nx2. unfold s2. cbn. rewrite upd_other by exact Nx2. auto. }
  assert (O2 : out s2 = out s0) by exact O1.
  clearbody s2. apply (steps_write _ _ _ _ _ _ _ T2) in R.
  destruct R as (c1 & c2 & s3 & -> & T3 & X3 & O3 & R). cbn [app] in T3.
  assert (P3 : fs s3 path = fs s0 path) by (rewrite X3 by exact NQ; exact P2).
  assert (X3' : forall x, x <> path -> x <> t -> fs s3 x = fs s0 x).
  { intros x N1 N2. rewrite X3 by exact N2. auto. }
  destruct R as [->|[R|[-> R]]].
  - constructor; cbn; auto; try discriminate; try congruence. right. exists t, c1, c2, mode. auto.
  - refine (cleanup_runs s0 path _ mode t c1 c2 mode s3 _ y _ _ _ _ _ _ R); auto; congruence.
  - rewrite app_nil_r. apply steps_simple in R; [|exact I].
    destruct R as [->|(a & s4 & D & R)].
    { constructor; cbn; auto; try discriminate; try congruence. right. exists t, c1, [], mode. rewrite app_nil_r. auto. }
    inversion D as [? ? ? ? E|]; subst.
    2:{ refine (cleanup_runs s0 path _ mode t c1 [] mode _ _ y _ _ _ _ _ _ R); auto; try congruence. rewrite app_nil_r. reflexivity. }
    inversion E; subst.
    + apply steps_ret in R. subst y.
      match goal with Q : fs s3 t = _ |- _ => rewrite T3 in Q; injection Q as <- <- end.
      assert (PE : upd (upd (fs s3) path (Some (File c1 mode))) t None path = Some (File c1 mode)).
      { rewrite upd_other by exact NQ. apply upd_same. }
      assert (XE : forall x, x <> path -> upd (upd (fs s3) path (Some (File c1 mode))) t None x = fs s0 x).
      { intros x Nx. unfold upd at 1. destruct (str_eqb_spec x t) as [->|N2].
        - destruct FR as (Q & _). symmetry. exact Q.
        - rewrite upd_other by exact Nx. auto. }
      constructor; cbn [set_fs fs out fst snd]; auto; try discriminate; try congruence.
      left. exact XE.
    + refine (cleanup_runs s0 path _ mode t c1 [] mode _ _ y _ _ _ _ _ _ R); auto; try congruence. rewrite app_nil_r. reflexivity.
Qed.

Lemma nlen_big (c : str) : nlen c = 4096 -> length c = (64 * 64)%nat.
Proof. unfold nlen. intros H. apply (f_equal N.to_nat) in H. rewrite Nnat.Nat2N.id in H. rewrite H. reflexivity. Qed.
Lemma read_equal content c : firstn (N.to_nat (bufLen content)) c = content ->
  exists extra, c = content ++ extra /\ (extra = [] \/ length content = (64 * 64)%nat).
Proof.
  intros E. exists (skipn (N.to_nat (bufLen content)) c). split; [rewrite <- E at 1; symmetry; apply firstn_skipn|].
  destruct (skipn (N.to_nat (bufLen content)) c) as [|a l] eqn:S; [left; reflexivity|]. right.
  assert (L : (N.to_nat (bufLen content) < length c)%nat).
  { pose proof (skipn_length (N.to_nat (bufLen content)) c) as Q. rewrite S in Q. cbn [length] in Q. lia. }
  apply (f_equal (@length ascii)) in E. rewrite firstn_length_le in E by lia.
  apply nlen_big. unfold bufLen, nlen in *. destruct (N.leb_spec (N.of_nat (length content)) 4096); lia.
Qed.
Lemma read_short content c : nlen (firstn (N.to_nat (bufLen content)) c) <> bufLen content -> firstn (N.to_nat (bufLen content)) c = c.
Proof.
  intros H. apply firstn_all2. unfold nlen in H. rewrite firstn_length in H. lia.
Qed.

(** all states of WriteFile *)
Record wrote (s0 : state) (path content : str) (mode : N) (force : bool) (y : prog (result ferr unit) * state) : Prop := {
  r_out : out (snd y) = out s0;
  r_dest : intact_or_complete s0 (snd y) path content mode;
  r_others : others_untouched s0 (snd y) path content;
  r_ok : fst y = Ret (Ok tt) -> (forall x, x <> path -> fs (snd y) x = fs s0 x) /\
    ((fs (snd y) path = Some (File content mode) /\ (force = true \/ fs s0 path = None)) \/
     exists c m, fs s0 path = Some (File c m) /\ (c = content \/ force = true /\ taken_for_same s0 path content) /\
       fs (snd y) path = Some (File c (if negb (N.land mode 320 =? 0) && (N.land m 320 =? 0) then N.lor m 320 else m)));
  r_err : forall e, fst y = Ret (Err e) -> fs (snd y) path = fs s0 path;
  r_abort : fst y = Abort -> same_files s0 (snd y) /\ exists extra m, fs s0 path = Some (File (content ++ extra) m);
  r_keep : force = false -> fs s0 path <> None -> (forall m, fs s0 path <> Some (File content m)) ->
    same_files s0 (snd y) /\ fst y <> Ret (Ok tt) /\ fst y <> Abort }.

Lemma wrote_same s0 path content mode force p : (forall r, p <> Ret (Ok r)) -> p <> Abort -> wrote s0 path content mode force (p, s0).
Proof.
  intros N A. constructor; cbn [fst snd]; auto.
  - left. reflexivity.
  - left. reflexivity.
  - intros E. exfalso. exact (N tt E).
  - congruence.
  - intros _ _ _. split; [intros x; reflexivity|]. auto.
Qed.
Lemma writing_wrote s0 path content mode force y : force = true \/ fs s0 path = None ->
  writing s0 path content mode y -> wrote s0 path content mode force y.
Proof.
  intros F []. constructor; auto.
  - destruct w_dest0 as [Q|Q]; [left|right; left]; exact Q.
  - intros Q. apply w_ok0 in Q. destruct Q as [A B]. split; [exact B|]. left. auto.
  - intros Q. contradiction.
  - intros -> N. destruct F; [discriminate|contradiction].
Qed.

Lemma fix_runs s0 path content mode force stat y c m :
  fs s0 path = Some (File c m) -> c = content \/ force = true /\ taken_for_same s0 path content ->
  (exists extra, c = content ++ extra) ->
  (exists d, stat = AStat d m) \/ stat = AErr -> steps (fix_mode path mode stat, s0) y -> wrote s0 path content mode force y.
Proof.
  intros F C [extra X] [[d ->]| ->] R; cbn [fix_mode] in R.
  2:{ apply steps_abort in R. subst y. constructor; cbn [fst snd]; auto; try discriminate; try congruence.
      - left. reflexivity.
      - left. reflexivity.
      - intros _. split; [intros x; reflexivity|]. exists extra, m. congruence.
      - intros -> N2 N3. exfalso. destruct C as [->|[C _]]; [apply (N3 m F)|discriminate]. }
  destruct (negb (N.land mode 320 =? 0) && (N.land m 320 =? 0)) eqn:B.
  - apply steps_simple in R; [|exact I]. destruct R as [->|(a & s1 & D & R)]; [apply wrote_same; discriminate|].
    inversion D as [? ? ? ? E|]; subst.
    2:{ apply steps_ret in R. subst y. apply wrote_same; discriminate. }
    inversion E; subst. match goal with Q : fs s0 path = _ |- _ => rewrite F in Q; injection Q as <- <- end.
    apply steps_ret in R. subst y. apply andb_true_iff in B. destruct B as [B1 B2].
    constructor; cbn [fst snd set_fs fs out]; auto; try discriminate.
    + right; right. exists extra, m. cbn [fst snd set_fs fs out]. rewrite upd_same. repeat split; auto; lia.
    + left. intros x N. apply upd_other. exact N.
    + intros _. split; [intros x N; apply upd_other; exact N|]. right. exists (content ++ extra), m. rewrite upd_same.
      rewrite B1, B2. auto.
    + intros -> N2 N3. exfalso. destruct C as [C|[C _]]; [|discriminate]. apply (N3 m). rewrite <- C. exact F.
  - apply steps_ret in R. subst y. constructor; cbn [fst snd set_fs fs out]; auto; try discriminate.
    + left. reflexivity.
    + left. reflexivity.
    + intros _. split; [reflexivity|]. right. exists c, m. rewrite B. auto.
    + intros -> N2 N3. exfalso. destruct C as [->|[C _]]; [|discriminate]. apply (N3 m). exact F.
Qed.

Lemma WriteFile_runs path content mode force s0 y : normal path ->
  steps (WriteFile path content mode force, s0) y -> wrote s0 path content mode force y.
Proof.
  intros NP R. unfold WriteFile in R. destruct (str_eqb_spec path (b "-")) as [->|ND]; [destruct NP; discriminate|].
  apply steps_simple in R; [|exact I]. destruct R as [->|(stat & s1 & D & R)]; [apply wrote_same; discriminate|].
  assert (S1 : s1 = s0) by (inversion D as [? ? ? ? E|]; subst; [inversion E; reflexivity|reflexivity]). subst s1.
  assert (ST : (stat = ANotExist /\ fs s0 path = None) \/
     (stat <> ANotExist /\ (stat = AErr \/ fs s0 path = Some Folder \/ exists c m, fs s0 path = Some (File c m) /\ stat = AStat false m))).
  { inversion D as [? ? ? ? E|]; subst; [inversion E; subst|].
    - right. split; [discriminate|]. right; right. eauto.
    - right. split; [discriminate|]. right; left. assumption.
    - left. auto.
    - right. split; [discriminate|]. left. reflexivity. }
  clear D. destruct ST as [(-> & F)|(NE & ST)].
  - apply writing_wrote; [right; exact F|]. apply replace_runs; assumption.
  - assert (R' : steps
          (Do (COpen path) (fun a =>
            match a with
            | AUnit =>
                Do (CRead path (bufLen content)) (fun a =>
                  match a with
                  | AStr got =>
                      let data := got ++ repeat zero (N.to_nat (bufLen content) - length got) in
                      if negb force && (nlen got =? bufLen content) then Ret (Err ETooLarge)
                      else if negb force && has_prefix content (b "#!/") && negb (has_prefix data (b "#!/")) then Ret (Err EShebang)
                      else if str_eqb got content then fix_mode path mode stat
                      else if negb force then Ret (Err EExist)
                      else replace_file path content mode
                  | _ => Ret (Err ERead)
                  end)
            | _ => Ret (Err EOpen)
            end), s0) y) by (destruct stat; try exact R; congruence).
    clear R. apply steps_simple in R'; [|exact I]. destruct R' as [->|(a & s1 & D & R)]; [apply wrote_same; discriminate|].
    assert (S1 : s1 = s0) by (inversion D as [? ? ? ? E|]; subst; [inversion E; reflexivity|reflexivity]). subst s1.
    destruct a; try (apply steps_ret in R; subst y; apply wrote_same; discriminate).
    clear D. apply steps_simple in R; [|exact I]. destruct R as [->|(a & s1 & D & R)]; [apply wrote_same; discriminate|].
    assert (S1 : s1 = s0) by (inversion D as [? ? ? ? E|]; subst; [inversion E; reflexivity|reflexivity]). subst s1.
    destruct a as [| | | |got]; try (apply steps_ret in R; subst y; apply wrote_same; discriminate).
    assert (G : exists c m, fs s0 path = Some (File c m) /\ c <> [] /\ got = firstn (N.to_nat (bufLen content)) c).
    { inversion D as [? ? ? ? E|]; subst. inversion E; subst. eauto. }
    clear D. destruct G as (c & m & F & CN & ->).
    assert (ST' : (exists d, stat = AStat d m) \/ stat = AErr).
    { destruct ST as [->|[Q|(c' & m' & Q & ->)]]; [right; reflexivity|congruence|]. left. exists false. congruence. }
    cbv zeta in R. destruct (negb force && (nlen (firstn (N.to_nat (bufLen content)) c) =? bufLen content)) eqn:B1.
    { apply steps_ret in R. subst y. apply wrote_same; discriminate. }
    destruct (negb force && has_prefix content (b "#!/") &&
      negb (has_prefix (firstn (N.to_nat (bufLen content)) c ++
         repeat zero (N.to_nat (bufLen content) - length (firstn (N.to_nat (bufLen content)) c))) (b "#!/"))) eqn:B2.
    { apply steps_ret in R. subst y. apply wrote_same; discriminate. }
    destruct (str_eqb_spec (firstn (N.to_nat (bufLen content)) c) content) as [EQ|NEQ].
    + destruct (read_equal content c EQ) as (extra & -> & X).
      refine (fix_runs s0 path content mode force stat y _ m F _ (ex_intro _ extra eq_refl) ST' R).
      destruct force; cbn [negb andb] in B1.
      * destruct extra as [|a l]; [left; apply app_nil_r|]. right. split; [reflexivity|]. destruct X as [X|X]; [discriminate|].
        split; [exact X|]. exists (a :: l), m. split; [discriminate|exact F].
      * left. assert (Z := read_short content (content ++ extra)). rewrite <- Z; [exact EQ|]. intros Q. rewrite Q, N.eqb_refl in B1. discriminate.
    + destruct force; cbn [negb andb] in *.
      * apply writing_wrote; [left; reflexivity|]. apply replace_runs; assumption.
      * apply steps_ret in R. subst y. apply wrote_same; discriminate.
Qed.

Lemma WriteFile_stdout content mode force s0 y : steps (WriteFile (b "-") content mode force, s0) y ->
  fs (snd y) = fs s0 /\ exists c1 c2, content = c1 ++ c2 /\ out (snd y) = out s0 ++ c1 /\ (fst y = Ret (Ok tt) -> c2 = []) /\ fst y <> Abort.
Proof.
  intros R. unfold WriteFile in R. change (str_eqb (b "-") (b "-")) with true in R. cbv iota in R. apply steps_out in R.
  destruct R as (c1 & c2 & -> & [->|[R|[-> R]]]).
  - split; [reflexivity|]. exists c1, c2. repeat split; discriminate.
  - apply steps_ret in R. subst y. split; [reflexivity|]. exists c1, c2. repeat split; discriminate.
  - apply steps_ret in R. subst y. split; [reflexivity|]. exists c1, []. cbn. rewrite app_nil_r. repeat split; discriminate.
Qed.

(** The file has the content and needs no correction of the mode. *)
Definition settled (s : state) (path content : str) (mode : N) (force : bool) : Prop :=
  exists c m, fs s path = Some (File c m) /\ c <> [] /\ firstn (N.to_nat (bufLen content)) c = content /\
    (force = false -> nlen content <> bufLen content) /\ (N.land mode 320 = 0 \/ N.land m 320 <> 0).

Lemma settled_runs s path content mode force y : normal path -> settled s path content mode force ->
  steps (WriteFile path content mode force, s) y -> snd y = s.
Proof.
  intros NP (c & m & F & CN & EQ & NB & M) R.
  unfold WriteFile in R. destruct (str_eqb_spec path (b "-")) as [->|ND]; [destruct NP; discriminate|].
  apply steps_simple in R; [|exact I]. destruct R as [->|(stat & s1 & D & R)]; [reflexivity|].
  assert (S1 : s1 = s /\ (stat = AErr \/ stat = AStat false m)).
  { inversion D as [? ? ? ? E|]; subst; [|auto]. inversion E; subst; try congruence. split; [reflexivity|]. right. congruence. }
  destruct S1 as [-> ST]. clear D.
  assert (R' : exists stat', (stat' = AErr \/ stat' = AStat false m) /\ steps
          (Do (COpen path) (fun a =>
            match a with
            | AUnit =>
                Do (CRead path (bufLen content)) (fun a =>
                  match a with
                  | AStr got =>
                      let data := got ++ repeat zero (N.to_nat (bufLen content) - length got) in
                      if negb force && (nlen got =? bufLen content) then Ret (Err ETooLarge)
                      else if negb force && has_prefix content (b "#!/") && negb (has_prefix data (b "#!/")) then Ret (Err EShebang)
                      else if str_eqb got content then fix_mode path mode stat'
                      else if negb force then Ret (Err EExist)
                      else replace_file path content mode
                  | _ => Ret (Err ERead)
                  end)
            | _ => Ret (Err EOpen)
            end), s) y) by (exists stat; split; [exact ST|]; destruct ST as [->| ->]; exact R).
  clear R ST stat. destruct R' as (stat & ST & R).
  apply steps_simple in R; [|exact I]. destruct R as [->|(a & s1 & D & R)]; [reflexivity|].
  assert (S1 : s1 = s) by (inversion D as [? ? ? ? E|]; subst; [inversion E; reflexivity|reflexivity]). subst s1.
  destruct a; try (apply steps_ret in R; subst y; reflexivity).
  clear D. apply steps_simple in R; [|exact I]. destruct R as [->|(a & s1 & D & R)]; [reflexivity|].
  assert (S1 : s1 = s) by (inversion D as [? ? ? ? E|]; subst; [inversion E; reflexivity|reflexivity]). subst s1.
  destruct a as [| | | |got]; try (apply steps_ret in R; subst y; reflexivity).
  assert (G : got = content).
  { inversion D as [? ? ? ? E|]; subst. inversion E; subst. congruence. }
  subst got. cbv zeta in R. rewrite str_eqb_refl in R.
  destruct (negb force && (nlen content =? bufLen content)); [apply steps_ret in R; subst y; reflexivity|].
  destruct (negb force && has_prefix content (b "#!/") && _); [apply steps_ret in R; subst y; reflexivity|].
  destruct ST as [->| ->]; cbn [fix_mode] in R; [apply steps_abort in R; subst y; reflexivity|].
  replace (negb (N.land mode 320 =? 0) && (N.land m 320 =? 0)) with false in R by lia.
  apply steps_ret in R. subst y. reflexivity.
Qed.

Lemma has_prefix_app s t p : has_prefix s p = true -> has_prefix (s ++ t) p = true.
Proof. rewrite !has_prefix_iff. intros [x ->]. exists (x ++ t). symmetry. apply app_assoc. Qed.

Lemma exact_do {A} c (k : answer -> prog A) s r s' : runs_exact (Do c k, s) (Ret r, s') ->
  exists a s1, exact s c a s1 /\ runs_exact (k a, s1) (Ret r, s').
Proof. intros H. inversion H; subst. eauto. Qed.
Lemma exact_ret {A} (a r : A) s s' : runs_exact (Ret a, s) (Ret r, s') -> a = r /\ s = s'.
Proof. intros H. inversion H; subst. auto. Qed.
Lemma settled_exact s path content mode force r s' : normal path -> settled s path content mode force ->
  runs_exact (WriteFile path content mode force, s) (Ret r, s') -> r = Ok tt.
Proof.
  intros NP (c & m & F & CN & EQ & NB & M) R.
  unfold WriteFile in R. destruct (str_eqb_spec path (b "-")) as [->|ND]; [destruct NP; discriminate|].
  apply exact_do in R. destruct R as (a & s1 & E & R). inversion E; subst; try congruence.
  match goal with Q : fs _ path = Some (File _ _) |- _ => rewrite F in Q; injection Q as <- <- end. clear E. cbv iota in R.
  apply exact_do in R. destruct R as (a & s2 & E & R). inversion E; subst; try congruence. clear E. cbv iota in R.
  apply exact_do in R. destruct R as (a & s3 & E & R). inversion E; subst; try congruence.
  match goal with Q : fs _ path = Some (File _ _) |- _ => rewrite F in Q; injection Q as <- <- end. clear E.
  cbv iota zeta in R. rewrite EQ, str_eqb_refl in R.
  replace (negb force && (nlen content =? bufLen content)) with false in R.
  2:{ destruct force; [reflexivity|]. symmetry. apply N.eqb_neq. apply NB. reflexivity. }
  assert (Z : negb force && has_prefix content (b "#!/") &&
    negb (has_prefix (content ++ repeat zero (N.to_nat (bufLen content) - length content)) (b "#!/")) = false).
  { destruct (has_prefix content (b "#!/")) eqn:P; [rewrite (has_prefix_app _ _ _ P)|]; cbn; rewrite ?andb_false_r; reflexivity. }
  rewrite Z in R. cbn [fix_mode] in R. replace (negb (N.land mode 320 =? 0) && (N.land m 320 =? 0)) with false in R by lia.
  apply exact_ret in R. destruct R. congruence.
Qed.
Lemma settled_exists s path content mode force : normal path -> settled s path content mode force ->
  runs_exact (WriteFile path content mode force, s) (Ret (Ok tt), s).
Proof.
  intros NP (c & m & F & CN & EQ & NB & M).
  unfold WriteFile. destruct (str_eqb_spec path (b "-")) as [->|ND]; [destruct NP; discriminate|].
  econstructor; [apply (x_stat_file _ _ _ _ F)|]. cbv iota.
  econstructor; [apply (x_open _ _ _ F)|]. cbv iota.
  econstructor; [apply (x_read _ _ _ _ _ F CN)|]. cbv iota zeta. rewrite EQ, str_eqb_refl.
  replace (negb force && (nlen content =? bufLen content)) with false.
  2:{ destruct force; [reflexivity|]. symmetry. apply N.eqb_neq. apply NB. reflexivity. }
  assert (Z : negb force && has_prefix content (b "#!/") &&
    negb (has_prefix (content ++ repeat zero (N.to_nat (bufLen content) - length content)) (b "#!/")) = false).
  { destruct (has_prefix content (b "#!/")) eqn:P; [rewrite (has_prefix_app _ _ _ P)|]; cbn; rewrite ?andb_false_r; reflexivity. }
  rewrite Z. cbn [fix_mode]. replace (negb (N.land mode 320 =? 0) && (N.land m 320 =? 0)) with false by lia. constructor.
Qed.

Lemma firstn_buf content : firstn (N.to_nat (bufLen content)) content = content.
Proof.
  apply firstn_all2. unfold bufLen, nlen. destruct (N.leb_spec (N.of_nat (length content)) 4096); lia.
Qed.
Lemma buf_4096 content : nlen content <> 4096 -> nlen content <> bufLen content.
Proof. unfold bufLen. destruct (N.leb_spec (nlen content) 4096); lia. Qed.

Lemma success_settled path content mode force s0 s1 : normal path -> content <> [] ->
  (force = true \/ length content <> (64 * 64)%nat) ->
  steps (WriteFile path content mode force, s0) (Ret (Ok tt), s1) -> settled s1 path content mode force.
Proof.
  intros NP CN L R. apply WriteFile_runs in R; [|exact NP]. destruct (r_ok _ _ _ _ _ _ R eq_refl) as (_ & [(F & _)|(c & m & F0 & C & F)]); cbn [snd] in F.
  - exists content, mode. split; [exact F|]. split; [exact CN|]. split; [apply firstn_buf|]. split.
    + intros ->. destruct L as [L|L]; [discriminate|]. apply buf_4096. intros Q. apply L. apply nlen_big. exact Q.
    + destruct (N.eq_dec (N.land mode 320) 0); auto.
  - exists c, (if negb (N.land mode 320 =? 0) && (N.land m 320 =? 0) then N.lor m 320 else m). split; [exact F|].
    assert (C' : c <> [] /\ firstn (N.to_nat (bufLen content)) c = content).
    { destruct C as [->|(_ & LL & extra & m' & _ & Q)]; [split; [exact CN|apply firstn_buf]|].
      rewrite F0 in Q. injection Q as -> _. split; [destruct content; [congruence|discriminate]|].
      assert (Z : N.to_nat (bufLen content) = length content).
      { unfold bufLen, nlen. rewrite LL. reflexivity. }
      rewrite Z, firstn_app, Nat.sub_diag, firstn_all, app_nil_r. reflexivity. }
    destruct C' as [C1 C2]. split; [exact C1|]. split; [exact C2|]. split.
    + intros ->. destruct L as [L|L]; [discriminate|]. apply buf_4096. intros Q. apply L. apply nlen_big. exact Q.
    + destruct (N.eqb_spec (N.land mode 320) 0); [left; assumption|]. cbn [negb andb]. right.
      destruct (N.eqb_spec (N.land m 320) 0); [|assumption]. rewrite N.land_lor_distr_l. intros Q. apply N.lor_eq_0_iff in Q.
      destruct Q as [_ Q]. discriminate.
Qed.

(** Existing file with different mode (see C46) *)
Lemma mode_kept path content mode force s0 s1 m : normal path -> fs s0 path = Some (File content m) -> content <> [] ->
  N.land m 320 <> 0 -> (force = true \/ length content <> (64 * 64)%nat) -> steps (WriteFile path content mode force, s0) (Ret (Ok tt), s1) -> s1 = s0.
Proof.
  intros NP F CN M L R. change s1 with (snd (@Ret (result ferr unit) (Ok tt), s1)). apply (settled_runs s0 path content mode force); [exact NP| |exact R].
  exists content, m. split; [exact F|]. split; [exact CN|]. split; [apply firstn_buf|]. split; [|right; exact M].
  intros ->. destruct L as [L|L]; [discriminate|]. apply buf_4096. intros Q. apply L. apply nlen_big. exact Q.
Qed.

(** ** Lemmas for theorems *)
Lemma C42_lemma path content mode force s0 p s : normal path -> steps (WriteFile path content mode force, s0) (p, s) ->
  out s = out s0 /\ intact_or_complete s0 s path content mode /\ others_untouched s0 s path content.
Proof. intros NP R. apply WriteFile_runs in R; [|exact NP]. destruct R. auto. Qed.
Lemma C42_stdout_lemma content mode force s0 p s : steps (WriteFile (b "-") content mode force, s0) (p, s) ->
  (forall x, fs s x = fs s0 x) /\ exists c1 c2, content = c1 ++ c2 /\ out s = out s0 ++ c1 /\ (p = Ret (Ok tt) -> c2 = []).
Proof.
  intros R. apply WriteFile_stdout in R. cbn [fst snd] in R. destruct R as (-> & c1 & c2 & A & B & C & _). split; [reflexivity|]. eauto.
Qed.
Lemma C42_tidy_lemma path content mode force s0 s : normal path -> steps (WriteFile path content mode force, s0) (Ret (Ok tt), s) ->
  forall x, x <> path -> fs s x = fs s0 x.
Proof. intros NP R. apply WriteFile_runs in R; [|exact NP]. exact (proj1 (r_ok _ _ _ _ _ _ R eq_refl)). Qed.
Lemma C43_lemma path content mode s0 p s n : normal path -> fs s0 path = Some n -> (forall m, n <> File content m) ->
  steps (WriteFile path content mode false, s0) (p, s) -> same_files s0 s /\ p <> Ret (Ok tt) /\ p <> Abort.
Proof.
  intros NP F N R. apply WriteFile_runs in R; [|exact NP]. apply (r_keep _ _ _ _ _ _ R eq_refl).
  - congruence.
  - intros m Q. apply (N m). congruence.
Qed.
Lemma C44_lemma path content mode force s0 s : normal path -> steps (WriteFile path content mode force, s0) (Ret (Ok tt), s) ->
  (exists m, fs s path = Some (File content m)) \/
  (force = true /\ taken_for_same s0 path content /\ exists extra m, fs s path = Some (File (content ++ extra) m)).
Proof.
  intros NP R. apply WriteFile_runs in R; [|exact NP]. destruct (r_ok _ _ _ _ _ _ R eq_refl) as (_ & [(F & _)|(c & m & F0 & C & F)]); cbn [snd] in F.
  - left. eauto.
  - destruct C as [->|[-> T]]; [left; eauto|]. right. split; [reflexivity|]. split; [exact T|].
    destruct T as (_ & extra & m' & _ & Q). rewrite F0 in Q. injection Q as -> _. eauto.
Qed.
Lemma C44_error_lemma path content mode force s0 s e : normal path -> steps (WriteFile path content mode force, s0) (Ret (Err e), s) ->
  fs s path = fs s0 path.
Proof. intros NP R. apply WriteFile_runs in R; [|exact NP]. exact (r_err _ _ _ _ _ _ R e eq_refl). Qed.
Lemma C45_lemma path content mode force s0 s1 : normal path -> content <> [] -> (force = true \/ length content <> (64 * 64)%nat) ->
  steps (WriteFile path content mode force, s0) (Ret (Ok tt), s1) ->
  runs_exact (WriteFile path content mode force, s1) (Ret (Ok tt), s1) /\
  (forall r s2, runs_exact (WriteFile path content mode force, s1) (Ret r, s2) -> r = Ok tt) /\
  (forall p s2, steps (WriteFile path content mode force, s1) (p, s2) -> s2 = s1).
Proof.
  intros NP CN L R. pose proof (success_settled _ _ _ _ _ _ NP CN L R) as S. split; [|split].
  - apply settled_exists; assumption.
  - intros r s2. apply settled_exact; assumption.
  - intros p s2 R2. apply (settled_runs _ _ _ _ _ _ NP S) in R2. exact R2.
Qed.
Lemma C45_empty_lemma path mode force s0 s1 : normal path -> steps (WriteFile path [] mode force, s0) (Ret (Ok tt), s1) ->
  (exists m, fs s1 path = Some (File [] m)) /\ forall r s2, runs_exact (WriteFile path [] mode force, s1) (Ret r, s2) -> r = Err ERead.
Proof.
  intros NP R. apply C44_lemma in R; [|exact NP]. destruct R as [[m F]|(_ & (L & _) & _)]; [|discriminate].
  split; [eauto|]. intros r s2 R.
  unfold WriteFile in R. destruct (str_eqb_spec path (b "-")) as [->|ND]; [destruct NP; discriminate|].
  apply exact_do in R. destruct R as (a & s3 & E & R). inversion E; subst; try congruence. clear E. cbv iota in R.
  apply exact_do in R. destruct R as (a & s2' & E & R). inversion E; subst; try congruence. clear E. cbv iota in R.
  apply exact_do in R. destruct R as (a & s3' & E & R). inversion E; subst; try congruence.
  cbv iota in R. apply exact_ret in R. destruct R. congruence.
Qed.
Lemma C45_4096_lemma path content mode s0 s1 : normal path -> length content = (64 * 64)%nat -> fs s0 path = None ->
  steps (WriteFile path content mode false, s0) (Ret (Ok tt), s1) ->
  fs s1 path = Some (File content mode) /\ forall r s2, runs_exact (WriteFile path content mode false, s1) (Ret r, s2) -> r = Err ETooLarge.
Proof.
  intros NP L F0 R. apply WriteFile_runs in R; [|exact NP].
  assert (F : fs s1 path = Some (File content mode)).
  { destruct (r_ok _ _ _ _ _ _ R eq_refl) as (_ & [(F & _)|(c & m & Q & _)]); [exact F|congruence]. }
  split; [exact F|]. clear R. intros r s2 R.
  assert (CN : content <> []) by (intros ->; discriminate).
  unfold WriteFile in R. destruct (str_eqb_spec path (b "-")) as [->|ND]; [destruct NP; discriminate|].
  apply exact_do in R. destruct R as (a & s3 & E & R). inversion E; subst; try congruence. clear E. cbv iota in R.
  apply exact_do in R. destruct R as (a & s2' & E & R). inversion E; subst; try congruence. clear E. cbv iota in R.
  apply exact_do in R. destruct R as (a & s3' & E & R). inversion E; subst; try congruence.
  match goal with Q : fs _ path = Some (File c0 _) |- _ => rewrite F in Q; injection Q as <- <- end.
  cbv iota zeta in R. rewrite firstn_buf in R.
  replace (nlen content =? bufLen content) with true in R.
  2:{ symmetry. apply N.eqb_eq. unfold bufLen, nlen. rewrite L. reflexivity. }
  cbn [negb andb] in R. apply exact_ret in R. destruct R. congruence.
Qed.
