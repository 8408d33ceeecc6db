(** Repeated schemes. *)
From Coq Require Import ZifyBool ZifyNat ZifyN.
From Verif Require Import GoBase GoSlice Utf8 Regex Patterns Scanner ScannerSpec LinkTypes LinkSpec Emacs Flags Backend BackendSpec Extract ExtractSpec TextSpec ExtractTree LinkProofs2 ExtractMain
  OrgFoundMain Real ReplySpec ReplyMain SchemeSpec.

Lemma schar_dec (x y : schar) : {x = y} + {x <> y}.
Proof. decide equality; [apply bool_dec|apply ascii_dec]. Qed.
Lemma scheme_dec : forall x y : list schar, {x = y} + {x <> y}.
Proof. apply list_eq_dec, schar_dec. Qed.
Lemma firsts_exists ss : exists ss', firsts ss ss'.
Proof.
  induction ss as [|s ss (ss' & F)] using rev_ind; [exists []; constructor|].
  destruct (in_dec scheme_dec s ss) as [I|I]; eexists; [apply fs_again; eassumption|apply fs_new; eassumption].
Qed.
Lemma firsts_in ss ss' : firsts ss ss' -> forall s, In s ss' <-> In s ss.
Proof.
  intros F. induction F as [|ss ss' s F IH N|ss ss' s F IH I]; intros x; [tauto| |]; rewrite ?in_app_iff, IH; cbn; [tauto|].
  split; [auto|]. intros [J|[<-|[]]]; assumption.
Qed.
Lemma nodup_snoc {A} (l : list A) x : NoDup l -> ~ In x l -> NoDup (l ++ [x]).
Proof. intros N I. apply NoDup_rev in N. rewrite <- (rev_involutive (l ++ [x])). apply NoDup_rev. rewrite rev_app_distr. constructor; [rewrite <- in_rev; exact I|exact N]. Qed.
Lemma firsts_nodup ss ss' : firsts ss ss' -> NoDup (map written ss').
Proof.
  intros F. induction F as [|ss ss' s F IH N|ss ss' s F IH I]; [constructor| |exact IH]. rewrite map_app. apply nodup_snoc; [exact IH|].
  intros J. apply in_map_iff in J. destruct J as (x & E & J). apply written_inj in E. subst x. apply (firsts_in _ _ F) in J. contradiction.
Qed.
Lemma unique_snoc v l : forall set, unique set (l ++ [v]) = unique set l ++ (if (negb (str_eqb (drop_colon v) []) && negb (existsb (str_eqb (drop_colon v)) (set ++ unique set l)))%bool then [drop_colon v] else []).
Proof.
  induction l as [|x l IH]; intros set; cbn [app unique].
  - rewrite app_nil_r. reflexivity.
  - destruct (negb (str_eqb (drop_colon x) []) && negb (existsb (str_eqb (drop_colon x)) set))%bool eqn:E.
    + rewrite IH. cbn [app]. f_equal. f_equal. rewrite !existsb_app. cbn [existsb]. rewrite existsb_app.
      destruct (str_eqb (drop_colon v) (drop_colon x)), (existsb (str_eqb (drop_colon v)) set), (existsb (str_eqb (drop_colon v)) (unique (drop_colon x :: set) l)), (negb (str_eqb (drop_colon v) [])); reflexivity.
    + apply IH.
Qed.
Lemma unique_firsts ss ss' : firsts ss ss' -> forall variants, variants_of variants ss -> unique [] variants = map written ss'.
Proof.
  intros F. induction F as [|ss ss' s F IH N|ss ss' s F IH I]; intros variants [OK V].
  - inversion V. reflexivity.
  - apply Forall2_app_inv_r in V. destruct V as (l & l2 & V & V2 & ->). inversion V2 as [|v s0 l3 ? Hv V3]; subst. inversion V3; subst. apply Forall_app in OK. destruct OK as [OK O1]. inversion O1 as [|? ? O2 _]; subst.
    rewrite unique_snoc, (drop_colon_ok _ _ O2 Hv). cbn [app]. rewrite (IH _ (conj OK V)), map_app. f_equal.
    replace (str_eqb (written s) []) with false by (symmetry; destruct (str_eqb (written s) []) eqn:E; [|reflexivity]; apply str_eqb_eq in E; apply written_ne in E; [contradiction|exact O2]).
    replace (existsb (str_eqb (written s)) (map written ss')) with false; [reflexivity|]. symmetry. destruct (existsb _ _) eqn:E; [|reflexivity]. exfalso. apply existsb_exists in E. destruct E as (y & J & E). apply str_eqb_eq in E. subst y.
    apply in_map_iff in J. destruct J as (x & E & J). apply written_inj in E. subst x. apply (firsts_in _ _ F) in J. contradiction.
  - apply Forall2_app_inv_r in V. destruct V as (l & l2 & V & V2 & ->). inversion V2 as [|v s0 l3 ? Hv V3]; subst. inversion V3; subst. apply Forall_app in OK. destruct OK as [OK O1]. inversion O1 as [|? ? O2 _]; subst.
    rewrite unique_snoc, (drop_colon_ok _ _ O2 Hv). cbn [app]. rewrite (IH _ (conj OK V)).
    replace (existsb (str_eqb (written s)) (map written ss')) with true; [rewrite andb_false_r; apply app_nil_r|]. symmetry. apply existsb_exists. exists (written s). split; [|apply str_eqb_refl]. apply in_map, (firsts_in _ _ F), I.
Qed.
Lemma firsts_same ss : NoDup ss -> firsts ss ss.
Proof.
  induction ss as [|s ss IH] using rev_ind; intros N; [constructor|]. pose proof (NoDup_remove ss [] s N) as R. rewrite app_nil_r in R. destruct R as [N' I]. apply fs_new; [auto|exact I].
Qed.
Lemma nodup_written ss : NoDup (map written ss) -> NoDup ss.
Proof. apply NoDup_map_inv. Qed.
(** Repetitions do not matter. *)
Lemma firsts_variants variants ss ss' c : variants_of variants ss -> firsts ss ss' -> UpdateRe variants = Some c -> variants_of (map written ss') ss' /\ NoDup (map written ss') /\ UpdateRe (map written ss') = Some c.
Proof.
  intros V F U. assert (V' : variants_of (map written ss') ss').
  { split.
    - destruct V as [OK _]. rewrite Forall_forall in *. intros s I. apply OK, (firsts_in _ _ F), I.
    - clear. induction ss' as [|s ss' IH]; cbn; constructor; auto. }
  pose proof (firsts_nodup _ _ F) as N. split; [exact V'|]. split; [exact N|]. rewrite <- U. unfold UpdateRe, MakeSchemeReStr.
  rewrite (unique_firsts _ _ F _ V), (unique_firsts _ _ (firsts_same _ (nodup_written _ N)) _ V'). reflexivity.
Qed.

Lemma bracket_exact_all variants ss ss' c u chunk f content broken t err lines e k x d : variants_of variants ss -> firsts ss ss' -> UpdateRe variants = Some c ->
  OrgExtract u c chunk f content broken = Done (Some t, err) -> seen_lines content broken lines e ->
  nth_error lines k = Some (bracket_line x d) -> x <> [] -> no_brackets x -> no_brackets d ->
  (accepted ss' x /\ passed f (mkLink x d (S k)) -> filter (fun l => LineNo l =? S k) (map snd (paths t)) = [mkLink x d (S k)]) /\
  (~ (accepted ss' x /\ passed f (mkLink x d (S k))) -> filter (fun l => LineNo l =? S k) (map snd (paths t)) = []).
Proof. intros V F U. destruct (firsts_variants _ _ _ _ V F U) as (V' & N & U'). exact (bracket_exact _ _ _ _ _ _ _ _ _ _ _ _ _ _ _ V' N U'). Qed.
Lemma bracket_proper_all variants ss c u chunk content broken t err lines e k s w x d : variants_of variants ss -> UpdateRe variants = Some c ->
  OrgExtract u c chunk None content broken = Done (Some t, err) -> seen_lines content broken lines e ->
  nth_error lines k = Some (bracket_line (w ++ b ":" ++ x) d) -> In s ss -> word s w -> no_brackets (w ++ b ":" ++ x) -> no_brackets d ->
  filter (fun l => LineNo l =? S k) (map snd (paths t)) = [mkLink (w ++ b ":" ++ x) d (S k)].
Proof.
  intros V U E Sn L I. destruct (firsts_exists ss) as (ss' & F). destruct (firsts_variants _ _ _ _ V F U) as (V' & N & U'). apply (firsts_in _ _ F) in I.
  exact (bracket_proper _ _ _ _ _ _ _ _ _ _ _ _ _ _ _ _ V' N U' E Sn L I).
Qed.
Lemma mentions_complete_all e users bk qs g tr g' ts i o q c variants ss u sc chunk n src nm content broken lines k s w x d :
  booted e users g -> steps e (initializer bk) (g, serving bk qs) tr (g', ts) ->
  nth_error qs i = Some (o, QMentions q) -> fair_orders o -> Forall valid_utf8 (mqVariants q) -> replied (of_thread i tr) (PMentions c) ->
  ext bk = real u sc chunk -> variants_of variants ss -> UpdateRe variants = Some sc ->
  nth_error (srcFiles bk) n = Some src -> fst src = Org -> nth_error (initial_reads (map snd tr)) n = Some (nm, RData content broken) -> seen_lines content broken lines None ->
  nth_error lines k = Some (bracket_line (w ++ b ":" ++ x) d) -> In s ss -> word s w -> no_brackets (w ++ b ":" ++ x) -> no_brackets d ->
  wanted q (w ++ b ":" ++ x) ->
  let limit := match mqLimit q with Some l => l | None => 8 %Z end in (1 <= limit)%Z -> (ccount c <= limit)%Z -> (ccount c * limit <= maxint)%Z ->
  exists hs l, In (PFileGroup :: PFile (snd src) :: hs, l) (cpaths c) /\ URL l = w ++ b ":" ++ x.
Proof.
  intros B St Nq Fo V8 R X V U Hs Ko Hr Sn Hl I. destruct (firsts_exists ss) as (ss' & F). destruct (firsts_variants _ _ _ _ V F U) as (V' & N & U'). apply (firsts_in _ _ F) in I.
  exact (mentions_complete _ _ _ _ _ _ _ _ _ _ _ _ _ _ _ _ _ _ _ _ _ _ _ _ _ _ _ _ B St Nq Fo V8 R X V' N U' Hs Ko Hr Sn Hl I).
Qed.
