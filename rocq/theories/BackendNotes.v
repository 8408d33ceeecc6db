(** Proofs: answers from notes, reading of files, negotiation. *)
From Verif Require Import GoBase GoSlice Utf8 Utf8Proofs Url UrlSpec UrlProofs Flags LinkTypes LinkTree LinkSpec LinkProofs LinkMain LinkHeap LinkHeapSpec LinkHeapProofs LinkAny
  Fuzzy FuzzySpec FuzzyMain FuzzyRank Emacs Backend BackendSpec BackendProofs BackendConc BackendMain.
From Coq Require Import Lia ZifyBool ZifyNat ZifyN Permutation.

(** ** Reading of notes *)
Lemma reads_ret {A} (a : A) rd v : reads_to (HRet a) rd (HRet v) -> rd = [] /\ v = a.
Proof. intros H. inversion H; auto. Qed.
Lemma reads_panic {A} rd (v : A) : ~ reads_to HPanic rd (HRet v).
Proof. intros H. inversion H. Qed.

Lemma reads_assoc {A B C} (p : hprog A) (g : A -> hprog B) (f : B -> hprog C) v : forall rd,
  reads_to (hbind (hbind p g) f) rd (HRet v) -> reads_to (hbind p (fun y => hbind (g y) f)) rd (HRet v).
Proof.
  induction p as [a| |args k IH|n k IH|k IH]; intros rd H; cbn in *; auto; try (inversion H; fail). inversion H; subst. constructor. auto.
Qed.
Lemma reads_assoc_any {A B C} (p : hprog A) (g : A -> hprog B) (f : B -> hprog C) q : forall rd,
  reads_to (hbind (hbind p g) f) rd q -> exists q', reads_to (hbind p (fun y => hbind (g y) f)) rd q'.
Proof.
  induction p as [a| |args k IH|n k IH|k IH]; intros rd H; cbn in *; eauto; inversion H as [|n0 k0 r l p0 K]; subst; try (eexists; constructor; fail).
  destruct (IH _ _ K) as (p' & ?). exists p'. constructor. assumption.
Qed.

(** One file *)
Lemma file_step x src {A} (f : option node * option berr -> hprog A) rd v : reads_to (hbind (ExtractLinksFromFile x src) f) rd (HRet v) ->
  exists r rd' t err, rd = (snd src, r) :: rd' /\ file_result x src r t err /\ reads_to (f (t, err)) rd' (HRet v).
Proof.
  destruct src as [k n]. cbn [ExtractLinksFromFile hbind snd]. intros H. inversion H as [|n0 k0 r l p K]; subst.
  destruct r as [|c br].
  - exists RNone, l, None, (Some EOpen). split; [reflexivity|]. split; [split; reflexivity|exact K].
  - destruct (xtree x k c br) as [[[t0|] e]|] eqn:X; [| |exfalso; exact (reads_panic _ _ K)].
    + exists (RData c br), l, (named n t0), e. split; [reflexivity|]. split; [|exact K]. exists (Some t0). split; [exact X|].
      destruct t0 as [ls|p [|c0 ch]]; reflexivity.
    + exists (RData c br), l, None, e. split; [reflexivity|]. split; [|exact K]. exists None. split; [exact X|reflexivity].
Qed.

Lemma group_reads x {A} (f : list node * option berr -> hprog A) v : forall srcs acc rd, 
  reads_to (hbind (group_loop x srcs acc) f) rd (HRet v) ->
  (exists ts rd1 rd2, rd = rd1 ++ rd2 /\ map fst rd1 = map snd srcs /\
     Forall2 (fun '(s, r) t => file_result x s (snd r) t None) (combine srcs rd1) ts /\
     reads_to (f (acc ++ trees_of ts, None)) rd2 (HRet v)) \/
  (exists pre bad post ts rs r t e rd2, srcs = pre ++ bad :: post /\ rd = (rs ++ [(snd bad, r)]) ++ rd2 /\ map fst rs = map snd pre /\
     Forall2 (fun '(s, r) t => file_result x s (snd r) t None) (combine pre rs) ts /\ file_result x bad r t (Some e) /\
     reads_to (f (acc ++ trees_of (ts ++ [t]), Some e)) rd2 (HRet v)).
Proof.
  induction srcs as [|src srcs IH]; intros acc rd H.
  - left. exists [], [], rd. rewrite app_nil_r. repeat split; auto. constructor.
  - cbn [group_loop] in H.
    apply reads_assoc in H. apply file_step in H. destruct H as (r & rd' & t & err & -> & F & H).
    destruct err as [e|].
    + right. cbn [hbind] in H. exists [], src, srcs, [], [], r, t, e, rd'. cbn. split; [reflexivity|]. split; [reflexivity|]. split; [reflexivity|].
      split; [constructor|]. split; [exact F|]. destruct t; cbn; rewrite ?app_nil_r; exact H.
    + cbn [hbind] in H. apply IH in H. destruct H as [(ts & rd1 & rd2 & -> & M & FF & H)|(pre & bad & post & ts & rs & r0 & t0 & e & rd2 & -> & -> & M & FF & F0 & H)].
      * left. exists (t :: ts), ((snd src, r) :: rd1), rd2. cbn. split; [reflexivity|]. split; [congruence|]. split; [constructor; auto|].
        destruct t; cbn; rewrite <- ?app_assoc in H; exact H.
      * right. exists (src :: pre), bad, post, (t :: ts), ((snd src, r) :: rs), r0, t0, e, rd2. cbn.
        split; [reflexivity|]. split; [reflexivity|]. split; [congruence|]. split; [constructor; auto|]. split; [exact F0|].
        destruct t; cbn; rewrite <- ?app_assoc in H; exact H.
Qed.

(** C64 *)
Lemma init_notes bk rd v : reads_to (initializer bk) rd (HRet v) -> notes_from (ext bk) (srcFiles bk) rd v.
Proof.
  unfold initializer, ExtractLinksFromFileGroup. destruct (srcFiles bk) as [|src srcs] eqn:SRC.
  - intros H. apply reads_ret in H. destruct H as (-> & ->). apply nf_none; reflexivity.
  - intros H.
    apply reads_assoc in H. apply group_reads in H.
    destruct H as [(ts & rd1 & rd2 & -> & M & FF & H)|(pre & bad & post & ts & rs & r & t & e & rd2 & E & -> & M & FF & F0 & H)].
    + cbn [app hbind] in H. destruct (trees_of ts) as [|c ch] eqn:T; apply reads_ret in H; destruct H as (-> & ->); rewrite app_nil_r.
      * eapply nf_empty; eauto. discriminate.
      * rewrite <- T. eapply nf_all; eauto; [discriminate|]. rewrite T. discriminate.
    + cbn [app hbind] in H. apply reads_ret in H. destruct H as (-> & ->). rewrite app_nil_r. eapply nf_error; eauto.
Qed.

(** Names of files that are read *)
Lemma group_names x srcs : forall acc {A} (f : list node * option berr -> hprog A) rd p,
  (forall y, exists a, f y = HRet a) -> reads_to (hbind (group_loop x srcs acc) f) rd p -> beginning (map fst rd) (map snd srcs).
Proof.
  induction srcs as [|[k n] srcs IH]; intros acc A f rd p HF H.
  - cbn in H. destruct (HF (acc, None)) as (a & E). rewrite E in H. inversion H; subst. apply beginning_nil.
  - cbn [group_loop ExtractLinksFromFile hbind] in H. inversion H as [|n0 k0 r l p0 K]; subst; [apply beginning_nil|]. cbn [map fst snd]. apply beginning_cons.
    assert (Stop : forall y l, reads_to (f y) l p -> l = []).
    { intros y l0 HL. destruct (HF y) as (a & E). rewrite E in HL. inversion HL. reflexivity. }
    assert (Z : forall l0 : list (str * rres), l0 = [] -> beginning (map fst l0) (map snd srcs)) by (intros l0 ->; apply beginning_nil).
    destruct r as [|c br]; cbn [hbind] in K.
    + eapply Z, Stop, K.
    + destruct (xtree x k c br) as [[[t0|] [e|]]|]; cbn [hbind] in K; try (eapply Z, Stop, K); try (eapply IH; eauto; fail).
      inversion K. apply beginning_nil.
Qed.
Lemma init_names bk rd p : reads_to (initializer bk) rd p -> beginning (map fst rd) (map snd (srcFiles bk)).
Proof.
  unfold initializer, ExtractLinksFromFileGroup. destruct (srcFiles bk) as [|src srcs] eqn:SRC.
  - intros H. inversion H. apply beginning_nil.
  - intros H. apply reads_assoc_any in H. destruct H as (p' & H). eapply group_names; [|exact H].
    intros [ch err]. cbn. destruct err; [eauto|]. destruct ch; eauto.
Qed.

(** ** Answers *)
Lemma mentions_urls entries q url : Permutation entries replacements -> Forall valid_utf8 (mqVariants q) ->
  (In url (query_urls entries q) <-> wanted q url).
Proof.
  intros P V. rewrite Forall_forall in V. unfold query_urls. rewrite in_flat_map. unfold wanted, variant. split.
  - intros (u & HI & HU). destruct (str_eqb_spec u []) as [->|N]; [destruct HU|]. exists u. split; [exact HI|]. split; [exact N|].
    apply url_variants_iff in HU; auto.
  - intros (u & HI & N & HU). exists u. split; [exact HI|]. destruct (str_eqb_spec u []) as [->|_]; [contradiction|].
    apply url_variants_iff; auto.
Qed.

Lemma mentions_ok entries q p ch c : Permutation entries replacements ->
  limited (fun link => existsb (fun l => str_eqb l (URL link)) (query_urls entries q)) (Inner p ch) (match mqLimit q with Some l => l | None => 8%Z end) = Some (Done c) ->
  mentions_answer (Inner p ch) q c.
Proof.
  intros P HL. set (f := fun link => existsb (fun l => str_eqb l (URL link)) (query_urls entries q)) in *. exists f.
  split.
  { intros V l. etransitivity; [|apply (mentions_urls entries); assumption]. unfold f. rewrite existsb_exists. split.
    - intros (u & HI & HE). apply str_eqb_eq in HE. subst u. exact HI.
    - intros HI. exists (URL l). split; [exact HI|apply str_eqb_refl]. }
  pose proof HL as HL'. unfold limited in HL'. destruct (count_rec f (Inner p ch)) as [c0|] eqn:E0; [|discriminate]. cbn in HL'. injection HL' as HL'.
  pose proof (proj1 (any_tree f (Inner p ch) c0 _ c E0 HL')) as A.
  split; [eapply pruned_impl; [|exact A]; intros t c1 (A1 & A2 & A3 & A4 & A5); destruct c1; auto|]. split.
  - destruct (pruned_top _ _ _ A) as (_ & _ & _ & X & _). exact X.
  - intros limit H0 H1. destruct (root_ok f p ch limit H0 H1) as (c' & E & _ & B & _ & D). fold limit in HL. rewrite HL in E. injection E as <-. auto.
Qed.

Lemma search_ok u tree q r :
  match Search u (sqQuery q) (map URL (all_links tree)) (sqLimit q) (sqTolerance q) with
  | Panic => False
  | Done None => r = PError EArguments
  | Done (Some urls) => r = PSearch urls
  end -> search_answer u tree q r.
Proof.
  intros H. split; intros A.
  - rewrite search_errors in H; [exact H|]. destruct (sqLimit q) as [l|], (sqTolerance q) as [t|]; lia.
  - intros N. destruct (search_best u (sqQuery q) (map URL (all_links tree)) (sqLimit q) (sqTolerance q)) as (acc & res & B & C & D).
    + apply Forall_map. exact N.
    + destruct (sqLimit q); [lia|exact I].
    + destruct (sqTolerance q); [lia|exact I].
    + rewrite D in H. exists acc, res. auto.
Qed.

Lemma notes_group x srcs rd t : notes_from x srcs rd (Ok t) -> exists ch, t = Inner PFileGroup ch.
Proof. intros H. inversion H; subst. eauto. Qed.

Lemma ideal_once_inv {R} e users Rel V (k : notes -> hprog R) tr t : ideal e users Rel V (HOnce k) tr t ->
  tr = [] \/ tr = [LPanic] \/ exists v, V v /\ ideal e users Rel V (k v) tr t.
Proof. intros H. inversion H; subst; eauto. Qed.
Lemma ideal_ret_rel {R} e users Rel V (r : R) tr t : ideal e users Rel V (HRet r) tr t -> tr = [] \/ tr = [LReply r].
Proof. intros H. inversion H; auto. Qed.
Lemma ideal_panic_rel {R} e users Rel V tr (t : thread R) : ideal e users Rel V HPanic tr t -> tr = [] \/ tr = [LPanic].
Proof. intros H. inversion H; auto. Qed.

Lemma answer_ideal e users Rel (V : notes -> Prop) bk o q tr it : fair_orders o -> needs_notes q ->
  ideal e users Rel V (handle bk o q) tr it ->
  own_reads tr = [] /\ commands tr = [] /\
  forall r, replied tr r -> exists v, V v /\ ((forall t, v = Ok t -> exists ch, t = Inner PFileGroup ch) -> answered bk v q r).
Proof.
  intros (FO & _) N I.
  assert (None_ : forall l, l = [] \/ l = [LPanic] -> own_reads l = [] /\ commands l = [] /\ forall r : reply, ~ replied l r).
  { intros l [->| ->]; (split; [reflexivity|]); (split; [reflexivity|]); intros r H; repeat (destruct H as [H|H]; [discriminate|]); destruct H. }
  assert (One : forall l r0, l = [] \/ l = [LReply r0] -> own_reads l = [] /\ commands l = [] /\ forall r : reply, replied l r -> r = r0).
  { intros l r0 [->| ->]; (split; [reflexivity|]); (split; [reflexivity|]); intros r H; [destruct H|]. destruct H as [H|[]]. injection H as <-. reflexivity. }
  destruct q as [q|q|q|q|q|pf]; cbn in N; try contradiction; cbn [handle] in I.
  - unfold UrlMentions in I. destruct (negb _) eqn:E.
    { destruct N as (u & HI & HU). exfalso. apply negb_true_iff in E.
      assert (existsb (fun u => negb (str_eqb u [])) (mqVariants q) = true); [|congruence].
      apply existsb_exists. exists u. split; [exact HI|]. destruct (str_eqb_spec u []); [contradiction|reflexivity]. }
    apply ideal_once_inv in I. destruct I as [I|[I|(v & HV & I)]].
    1,2: destruct (None_ tr) as (A & C & D); [tauto|]; split; [exact A|]; split; [exact C|]; intros r HR; destruct (D _ HR).
    destruct v as [t|err].
    + destruct (limited _ _ _) as [[c|]|] eqn:EL.
      2,3: apply ideal_panic_rel in I; destruct (None_ tr) as (A & C & D); [tauto|]; split; [exact A|]; split; [exact C|]; intros r HR; destruct (D _ HR).
      apply ideal_ret_rel, One in I. destruct I as (A & C & D). split; [exact A|]. split; [exact C|]. intros r HR. exists (Ok t). split; [exact HV|].
      intros G. destruct (G t eq_refl) as (ch & ->). apply D in HR. subst r. cbn. exists c. split; [reflexivity|]. eapply mentions_ok; eassumption.
    + apply ideal_ret_rel, One in I. destruct I as (A & C & D). split; [exact A|]. split; [exact C|]. intros r HR. exists (Err err). split; [exact HV|].
      intros _. apply D in HR. subst r. reflexivity.
  - unfold HSearch in I. apply ideal_once_inv in I. destruct I as [I|[I|(v & HV & I)]].
    1,2: destruct (None_ tr) as (A & C & D); [tauto|]; split; [exact A|]; split; [exact C|]; intros r HR; destruct (D _ HR).
    destruct v as [t|err].
    + pose proof (search_ok (lower bk) t q) as SO. destruct (Search _ _ _ _ _) as [[urls|]|].
      3: apply ideal_panic_rel in I; destruct (None_ tr) as (A & C & D); [tauto|]; split; [exact A|]; split; [exact C|]; intros r HR; destruct (D _ HR).
      all: apply ideal_ret_rel, One in I; destruct I as (A & C & D); split; [exact A|]; split; [exact C|]; intros r HR; exists (Ok t); split; [exact HV|];
        intros _; apply SO, D, HR.
    + apply ideal_ret_rel, One in I. destruct I as (A & C & D). split; [exact A|]. split; [exact C|]. intros r HR. exists (Err err). split; [exact HV|].
      intros _. apply D in HR. subst r. reflexivity.
Qed.

(** C56 *)
Lemma once_notes {R} bk tr g (ts : list (thread R)) v : once_inv (initializer bk) tr g ts -> once_value g v ->
  notes_from (ext bk) (srcFiles bk) (initial_reads (map snd tr)) v.
Proof. unfold once_inv, once_value. intros I E. rewrite E in I. apply init_notes, (proj1 I). Qed.

Lemma snapshot e users bk qs g tr g' ts : booted e users g -> steps e (initializer bk) (g, serving bk qs) tr (g', ts) ->
  beginning (map fst (initial_reads (map snd tr))) (map snd (srcFiles bk)) /\
  exists v, forall i o q, nth_error qs i = Some (o, q) -> fair_orders o -> needs_notes q ->
    own_reads (of_thread i tr) = [] /\
    forall r, replied (of_thread i tr) r ->
      notes_from (ext bk) (srcFiles bk) (initial_reads (map snd tr)) v /\ answered bk v q r.
Proof.
  intros B S. destruct (serving_ideal _ _ _ _ _ _ _ _ B S) as (I & O). split.
  - unfold once_inv in O. destruct (gonce g') as [| |v].
    + destruct O as (-> & _). apply beginning_nil.
    + destruct O as (p & R & _). eapply init_names, R.
    + destruct O as (R & _). eapply init_names, R.
  - exists (match gonce g' with ODone v => v | _ => Err ENoLinks end). intros i o q Hi FO N. destruct (I _ _ _ Hi) as (it & J).
    destruct (answer_ideal _ _ _ _ _ _ _ _ _ FO N J) as (A & _ & D). rewrite own_reads_visible in A. split; [exact A|].
    intros r HR. apply replied_visible in HR. destruct (D r HR) as (v & HV & X). pose proof (once_notes _ _ _ _ _ O HV) as NF.
    unfold once_value in HV. rewrite HV. split; [exact NF|]. apply X. intros t ->. eapply notes_group, NF.
Qed.

Lemma no_urls e users Rel V bk o q tr it : Forall (fun u => u = []) (mqVariants q) -> ideal e users Rel V (handle bk o (QMentions q)) tr it ->
  own_reads tr = [] /\ commands tr = [] /\ forall r, replied tr r -> r = PError ENoUrls.
Proof.
  intros F I. cbn [handle] in I. unfold UrlMentions in I.
  assert (E : existsb (fun u => negb (str_eqb u [])) (mqVariants q) = false).
  { clear I. induction F as [|u l -> F IH]; [reflexivity|]. cbn. exact IH. }
  rewrite E in I. cbn [negb] in I. apply ideal_ret_rel in I. destruct I as [->| ->]; (split; [reflexivity|]); (split; [reflexivity|]).
  - intros r [].
  - intros r [H|[]]. injection H as <-. reflexivity.
Qed.

(** C57 *)
Lemma mentions_served e users bk qs g tr g' ts i o q r : booted e users g -> steps e (initializer bk) (g, serving bk qs) tr (g', ts) ->
  nth_error qs i = Some (o, QMentions q) -> fair_orders o -> replied (of_thread i tr) r ->
  (Forall (fun u => u = []) (mqVariants q) /\ r = PError ENoUrls) \/
  ((exists u, In u (mqVariants q) /\ u <> []) /\
   ((exists err, notes_from (ext bk) (srcFiles bk) (initial_reads (map snd tr)) (Err err) /\ r = PError err) \/
    (exists tree c, notes_from (ext bk) (srcFiles bk) (initial_reads (map snd tr)) (Ok tree) /\ r = PMentions c /\ mentions_answer tree q c))).
Proof.
  intros B S Hi FO HR.
  destruct (Forall_Exists_dec (fun u : str => u = []) (fun u => str_dec u []) (mqVariants q)) as [A|E].
  - left. split; [exact A|]. destruct (serving_ideal _ _ _ _ _ _ _ _ B S) as (I & O). destruct (I _ _ _ Hi) as (it & J).
    destruct (no_urls _ _ _ _ _ _ _ _ _ A J) as (_ & _ & D). apply D, replied_visible, HR.
  - right. apply Exists_exists in E. split; [exact E|]. destruct (snapshot _ _ _ _ _ _ _ _ B S) as (_ & v & K).
    destruct (K _ _ _ Hi FO E) as (_ & X). destruct (X _ HR) as (NF & AN). destruct v as [t|err].
    + right. destruct AN as (c & -> & M). eauto 6.
    + left. eauto.
Qed.

(** ** Sets of links *)
Lemma linkset_ideal e users Rel V x filters {R} (h : list str * option berr -> hprog R) (f : list str * option berr -> R) : (forall y, h y = HRet (f y)) -> forall srcs set tr t,
  ideal e users Rel V (hbind (ExtractLinkSetFromFileGroup x srcs filters set) h) tr t ->
  beginning (map fst (own_reads tr)) (map snd srcs) /\ commands tr = [] /\
  forall r, replied tr r -> exists set' err, set_from x filters srcs (own_reads tr) set set' err /\ r = f (set', err).
Proof.
  intros HH. induction srcs as [|[k n] srcs IH]; intros set tr t I; cbn [ExtractLinkSetFromFileGroup hbind] in I.
  - rewrite HH in I. apply ideal_ret_rel in I. destruct I as [->| ->]; (split; [apply beginning_nil|]); (split; [reflexivity|]).
    + intros r [].
    + intros r [H|[]]. injection H as <-. exists set, None. split; [constructor|reflexivity].
  - inversion I as [| | |n0 k0 r0 tr0 t0 J| | | |]; subst; clear I.
    { split; [apply beginning_nil|]. split; [reflexivity|]. intros r []. }
    cbn [own_reads map fst snd commands].
    assert (RE : forall r, replied (LRead n r0 :: tr0) r <-> replied tr0 r).
    { intros r. split; [intros [H|H]; [discriminate|exact H]|right; assumption]. }
    destruct r0 as [|c br]; cbn [hbind] in J.
    + rewrite HH in J. apply ideal_ret_rel in J. destruct J as [->| ->]; cbn; (split; [apply beginning_cons, beginning_nil|]); (split; [reflexivity|]).
      * intros r H. repeat (destruct H as [H|H]; [discriminate|]). destruct H.
      * intros r H. apply RE in H. destruct H as [H|[]]. injection H as <-. exists set, (Some EOpen). split; [|reflexivity].
        apply (sf_open x filters (k, n)).
    + destruct (xset x k c br filters set) as [[set' [err|]]|] eqn:X; cbn [hbind] in J.
      * rewrite HH in J. apply ideal_ret_rel in J. destruct J as [->| ->]; cbn; (split; [apply beginning_cons, beginning_nil|]); (split; [reflexivity|]).
        -- intros r H. repeat (destruct H as [H|H]; [discriminate|]). destruct H.
        -- intros r H. apply RE in H. destruct H as [H|[]]. injection H as <-. exists set', (Some err). split; [|reflexivity].
           apply (sf_error x filters (k, n)). exact X.
      * apply IH in J. destruct J as (A & C & D). split; [apply beginning_cons, A|]. split; [exact C|].
        intros r H. apply RE in H. destruct (D _ H) as (set'' & err & E & ->). exists set'', err. split; [|reflexivity].
        apply (sf_file x filters (k, n) srcs c br _ set set'); assumption.
      * apply ideal_panic_rel in J. destruct J as [->| ->]; cbn; (split; [apply beginning_cons, beginning_nil|]); (split; [reflexivity|]);
          intros r H; repeat (destruct H as [H|H]; [discriminate|]); destruct H.
Qed.

Lemma linkset_served e users bk qs g tr g' ts i o p : booted e users g -> steps e (initializer bk) (g, serving bk qs) tr (g', ts) ->
  nth_error qs i = Some (o, QLinkSet p) -> fair_orders o ->
  beginning (map fst (own_reads (of_thread i tr))) (map snd (srcFiles bk)) /\
  forall r, replied (of_thread i tr) r ->
    (linkSetDisabled bk = true -> r = PError EDisabled) /\
    (linkSetDisabled bk = false -> 16 < length p -> r = PError ETooMany) /\
    (linkSetDisabled bk = true \/ 16 < length p -> own_reads (of_thread i tr) = []) /\
    (linkSetDisabled bk = false -> length p <= 16 ->
       exists set err, set_from (ext bk) p (srcFiles bk) (own_reads (of_thread i tr)) [] set err /\
         match err with Some e => r = PError e | None => exists urls, r = PLinkSet urls /\ Permutation urls set end).
Proof.
  intros B S Hi (_ & FO). destruct (serving_ideal _ _ _ _ _ _ _ _ B S) as (I & O). destruct (I _ _ _ Hi) as (it & J). clear I.
  cbn [handle] in J. unfold LinkSet in J. rewrite <- (own_reads_visible (of_thread i tr)).
  assert (RE : forall r, replied (of_thread i tr) r -> replied (visible (of_thread i tr)) r) by (intros r; apply replied_visible).
  destruct (linkSetDisabled bk).
  { apply ideal_ret_rel in J. destruct J as [J|J]; rewrite J in *; (split; [apply beginning_nil|]); intros r HR; apply RE in HR; [destruct HR|].
    destruct HR as [HR|[]]. injection HR as <-. repeat split; try discriminate; auto. }
  destruct (Nat.ltb_spec LinkSetPrefixCountLimit (length p)) as [L|L]; change LinkSetPrefixCountLimit with 16 in L.
  { apply ideal_ret_rel in J. destruct J as [J|J]; rewrite J in *; (split; [apply beginning_nil|]); intros r HR; apply RE in HR; [destruct HR|].
    destruct HR as [HR|[]]. injection HR as <-. split; [discriminate|]. split; [auto|]. split; [auto|]. intros _ X. lia. }
  apply (linkset_ideal _ _ _ _ _ _ _ (fun y => match snd y with Some e => PError e | None => PLinkSet (set_order o (fst y)) end)) in J;
    [|intros [u [err|]]; reflexivity].
  destruct J as (A & _ & D). split; [exact A|]. intros r HR. apply RE in HR. destruct (D _ HR) as (set & err & SF & E).
  split; [discriminate|]. split; [lia|]. split; [intros [X|X]; [discriminate|lia]|]. intros _ _. exists set, err. split; [exact SF|].
  cbn [fst snd] in E. destruct err; [exact E|]. exists (set_order o set). split; [exact E|apply FO].
Qed.
