(** The matcher is sound and complete. *)
From Verif Require Import GoBase Utf8 Utf8Proofs Utf8Dec Regex RegexParse RegexSpec.

(** ** Steps forward *)
Definition forward (s s' : mstate) : Prop :=
  exists l new, rest s = l ++ rest s' /\ pos s' = pos s + length l /\ caps s' = new ++ caps s /\
    prev s' = match l with [] => prev s | _ => option_map fst (last (map Some l) None) end.

Lemma forward_refl s : forward s s.
Proof. exists [], []. cbn. repeat split; lia. Qed.
Lemma last_app_ne {A} (l m : list A) d : m <> [] -> last (l ++ m) d = last m d.
Proof.
  intros N. induction l as [|x l IH]; [reflexivity|]. cbn [app].
  destruct (l ++ m) eqn:E; [apply app_eq_nil in E; tauto|]. rewrite <- IH. reflexivity.
Qed.
Lemma forward_trans s1 s2 s3 : forward s1 s2 -> forward s2 s3 -> forward s1 s3.
Proof.
  intros (l & n & A & B & C & D) (l' & n' & A' & B' & C' & D'). exists (l ++ l'), (n' ++ n).
  rewrite <- !app_assoc, A, A', B', B, C', C, app_length. repeat split; try lia. rewrite D', D.
  destruct l' as [|y l']. { rewrite app_nil_r. destruct l; reflexivity. }
  destruct (l ++ y :: l') eqn:E; [destruct l; discriminate|]. rewrite <- E, map_app, last_app_ne by discriminate. reflexivity.
Qed.
Lemma iter_forward (R : mstate -> mstate -> Prop) s s' :
  (forall a c, R a c -> forward a c) -> iter R s s' -> forward s s'.
Proof. intros F H. induction H; [apply forward_refl|]. eapply forward_trans; eauto. Qed.
Lemma msem_forward u r : forall s s', msem u r s s' -> forward s s'.
Proof.
  induction r; cbn [msem]; intros s s' H.
  - subst. apply forward_refl.
  - destruct H as (x & bs & t & E & _ & ->). exists [(x, bs)], []. cbn. rewrite E. repeat split. lia.
  - destruct H as [_ ->]. apply forward_refl.
  - destruct H as [_ ->]. apply forward_refl.
  - destruct H as [_ ->]. apply forward_refl.
  - destruct H as (s1 & A & B). eapply forward_trans; eauto.
  - destruct H; eauto.
  - eapply iter_forward; [|exact H]. exact IHr.
  - destruct H as (s1 & A & ->). destruct (IHr _ _ A) as (l & new & B & C & D & E).
    exists l, ((n, between s s1) :: new). cbn. rewrite D. auto.
Qed.
Lemma msem_progress u r : nullable r = false -> forall s s', msem u r s s' -> length (rest s') < length (rest s).
Proof.
  induction r; cbn [nullable msem]; intros N s s' H; try discriminate.
  - destruct H as (x & bs & t & E & _ & ->). rewrite E. cbn. lia.
  - destruct H as (s1 & A & B). pose proof (msem_forward _ _ _ _ A) as (l & _ & A1 & _).
    pose proof (msem_forward _ _ _ _ B) as (l' & _ & B1 & _).
    apply (f_equal (@length _)) in A1, B1. rewrite app_length in A1, B1.
    apply andb_false_iff in N. destruct N as [N|N].
    + pose proof (IHr1 N _ _ A). lia.
    + pose proof (IHr2 N _ _ B). lia.
  - apply orb_false_iff in N. destruct N. destruct H; eauto.
  - destruct H as (s1 & A & ->). cbn. eauto.
Qed.

(** ** Soundness *)
Lemma mt_sound {A} u r : forall (k : mstate -> option A) s v, mt u r k s = Some v -> exists s', msem u r s s' /\ k s' = Some v.
Proof.
  induction r; cbn [mt msem]; intros k s v H.
  - eauto.
  - destruct (rest s) as [|[x bs] t] eqn:E; [discriminate|]. destruct (cls_match u c x) eqn:M; [|discriminate]. eauto 10.
  - destruct (Nat.eqb_spec (pos s) 0); [|discriminate]. eauto.
  - destruct (rest s) eqn:E; [|discriminate]. eauto.
  - destruct (xorb _ _) eqn:E; [|discriminate]. eauto.
  - apply IHr1 in H. destruct H as (s1 & A1 & H). apply IHr2 in H. destruct H as (s2 & A2 & H). eauto 10.
  - unfold orelse in H. destruct (mt u r1 k s) eqn:E.
    + injection H as <-. apply IHr1 in E. destruct E as (s' & B & C). eauto.
    + apply IHr2 in H. destruct H as (s' & B & C). eauto.
  - revert H. generalize (length (rest s)) as n. intros n. revert s v.
    induction n as [|n IH]; intros s v H. { eexists; split; [constructor|exact H]. }
    destruct greedy; unfold orelse in H.
    + match type of H with match ?e with _ => _ end = _ => destruct e eqn:E end.
      * injection H as <-. apply IHr in E. destruct E as (s1 & B & C). apply IH in C. destruct C as (s2 & D & F).
        exists s2. split; [econstructor; eassumption|exact F].
      * eexists; split; [constructor|exact H].
    + destruct (k s) eqn:E.
      * injection H as <-. eexists; split; [constructor|exact E].
      * apply IHr in H. destruct H as (s1 & B & C). apply IH in C. destruct C as (s2 & D & F).
        exists s2. split; [econstructor; eassumption|exact F].
  - apply IHr in H. destruct H as (s1 & B & C). eauto.
Qed.

(** ** Completeness *)
Lemma mt_complete {A} u r : loops_ok r = true ->
  forall (k : mstate -> option A) s s', mt u r k s = None -> msem u r s s' -> k s' = None.
Proof.
  induction r; cbn [mt msem loops_ok]; intros L k s s' H M.
  - subst. exact H.
  - destruct M as (x & bs & t & E & M & ->). rewrite E, M in H. exact H.
  - destruct M as (E & ->). rewrite E in H. exact H.
  - destruct M as (E & ->). rewrite E in H. exact H.
  - destruct M as (E & ->). rewrite E in H. exact H.
  - apply andb_true_iff in L. destruct L as [L1 L2]. destruct M as (s1 & M1 & M2).
    eapply IHr2; [exact L2| |exact M2]. exact (IHr1 L1 _ _ _ H M1).
  - apply andb_true_iff in L. destruct L as [L1 L2]. unfold orelse in H. destruct (mt u r1 k s) eqn:E; [discriminate|].
    destruct M as [M|M]; eauto.
  - apply andb_true_iff in L. destruct L as [L1 L2]. apply negb_true_iff in L1.
    revert H. assert (G : length (rest s) <= length (rest s)) by lia. revert G.
    generalize (length (rest s)) at 2 3 as n. intros n. revert n. induction M as [s|s s1 s2 R M IH]; intros n Hn H.
    + destruct n; [exact H|]. destruct greedy; unfold orelse in H.
      * match type of H with match ?e with _ => _ end = _ => destruct e end; [discriminate|exact H].
      * destruct (k s); [discriminate|reflexivity].
    + pose proof (msem_progress u r L1 _ _ R) as P. destruct n as [|n]; [lia|].
      apply (IH n); [lia|].
      destruct greedy; unfold orelse in H.
      * match type of H with match ?e with _ => _ end = _ => destruct e eqn:E end; [discriminate|].
        exact (IHr L2 _ _ _ E R).
      * destruct (k s); [discriminate|]. exact (IHr L2 _ _ _ H R).
  - destruct M as (s1 & M & ->). exact (IHr L _ _ _ H M).
Qed.

(** ** Search *)
Lemma at_start l : at_state [] l (mkSt None 0 l []).
Proof. repeat split. Qed.
Lemma at_step pre x bs t s : at_state pre ((x, bs) :: t) s -> at_state (pre ++ [(x, bs)]) t (mkSt (Some x) (S (pos s)) t (caps s)).
Proof.
  intros (A & B & C). repeat split; cbn; [rewrite app_length, A; cbn; lia|]. rewrite map_app, last_app_ne by discriminate. reflexivity.
Qed.
Lemma at_forward pre post s s' : at_state pre post s -> forward s s' ->
  exists l, post = l ++ rest s' /\ at_state (pre ++ l) (rest s') s'.
Proof.
  intros (A & B & C) (l & new & D & E & F & G). exists l. split; [congruence|]. repeat split.
  - rewrite app_length. lia.
  - rewrite G, C. destruct l; [rewrite app_nil_r; reflexivity|]. rewrite map_app, last_app_ne by discriminate. reflexivity.
Qed.
Lemma between_eq pre post s s' : at_state pre post s -> forward s s' ->
  exists l, post = l ++ rest s' /\ between s s' = text_of l /\ at_state (pre ++ l) (rest s') s'.
Proof.
  intros H F. destruct (at_forward _ _ _ _ H F) as (l & A & B). exists l. split; [exact A|]. split; [|exact B].
  destruct F as (l' & new & D & E & _). assert (l' = l). { destruct H as (_ & H & _). rewrite <- H, D in A. eapply app_inv_tail; exact A. }
  subst. unfold between. rewrite E, D. replace (pos s + length l - pos s) with (length l) by lia.
  rewrite firstn_app, Nat.sub_diag, firstn_all, firstn_O, app_nil_r. reflexivity.
Qed.

(** A match of the whole expression: [pre], matched text, the rest *)
Definition found (u : rune -> bool) (r : re) (l : list piece) (pre mid post : list piece) (m : rmatch) : Prop :=
  l = pre ++ mid ++ post /\
  exists s s', at_state pre (mid ++ post) s /\ caps s = [] /\ msem u r s s' /\ at_state (pre ++ mid) post s' /\
    m = mkMatch (text_of mid) (caps s').

Lemma search_sound u r : forall l pre pv p s s', at_state pre l (mkSt pv p l []) -> search u r pv p l = Some (s, s') ->
  exists a, l = a ++ rest s /\ at_state (pre ++ a) (rest s) s /\ caps s = [] /\ msem u r s s'.
Proof.
  induction l as [|[c bs] t IH]; intros pre pv p s s' H E; cbn [search] in E.
  - destruct (mt u r Some _) as [s1|] eqn:M; [|discriminate]. injection E as <- <-. apply mt_sound in M.
    destruct M as (s2 & M & F). injection F as ->. exists []. rewrite (app_nil_r pre). split; [reflexivity|]. auto.
  - destruct (mt u r Some _) as [s1|] eqn:M.
    + injection E as <- <-. apply mt_sound in M. destruct M as (s2 & M & F). injection F as ->. exists []. rewrite (app_nil_r pre).
      split; [reflexivity|]. auto.
    + apply at_step in H. destruct (IH _ _ _ _ _ H E) as (a & A & B & C & D). exists ((c, bs) :: a). cbn [app].
      rewrite <- app_assoc in B. rewrite A at 1. auto.
Qed.
Lemma state_eq pre l pv p c s : at_state pre l (mkSt pv p l c) -> at_state (pre ++ []) l s -> caps s = c -> s = mkSt pv p l c.
Proof.
  rewrite app_nil_r. destruct s as [pv' p' l' c']. intros (A & _ & C) (A' & B & C') E. cbn [prev pos rest caps] in *. congruence.
Qed.
Lemma search_complete u r : loops_ok r = true -> forall l pre pv p, at_state pre l (mkSt pv p l []) -> search u r pv p l = None ->
  forall a b s s', l = a ++ b -> at_state (pre ++ a) b s -> caps s = [] -> msem u r s s' -> False.
Proof.
  intros L. induction l as [|[c bs] t IH]; intros pre pv p H E a d s s' El Hs Hc M; cbn [search] in E.
  - destruct (mt u r Some _) as [s1|] eqn:F; [discriminate|]. symmetry in El. apply app_eq_nil in El. destruct El as [-> ->].
    rewrite (state_eq _ _ _ _ _ _ H Hs Hc) in M. pose proof (mt_complete u r L _ _ _ F M). discriminate.
  - destruct (mt u r Some _) as [s1|] eqn:F; [discriminate|]. destruct a as [|x a].
    + cbn in El. subst d.
      rewrite (state_eq _ _ _ _ _ _ H Hs Hc) in M. pose proof (mt_complete u r L _ _ _ F M). discriminate.
    + injection El as <- ->. apply at_step in H. apply (IH _ _ _ H E a d s s' eq_refl); try assumption.
      rewrite <- app_assoc. exact Hs.
Qed.

(** Search starts at the leftmost position *)
Lemma search_leftmost u r : loops_ok r = true -> forall l pre pv p s s', at_state pre l (mkSt pv p l []) -> search u r pv p l = Some (s, s') ->
  forall a b s1 s2, l = a ++ b -> at_state (pre ++ a) b s1 -> caps s1 = [] -> msem u r s1 s2 -> length b <= length (rest s).
Proof.
  intros L. induction l as [|[c bs] t IH]; intros pre pv p s s' H E a d s1 s2 El Hs Hc M; cbn [search] in E.
  - symmetry in El. apply app_eq_nil in El. destruct El as [-> ->]. cbn. lia.
  - destruct (mt u r Some _) as [s3|] eqn:F.
    + injection E as <- <-. cbn [rest]. apply (f_equal (@length _)) in El. rewrite app_length in El. lia.
    + destruct a as [|x a].
      * cbn in El. subst d. exfalso.
        rewrite (state_eq _ _ _ _ _ _ H Hs Hc) in M. pose proof (mt_complete u r L _ _ _ F M). discriminate.
      * injection El as <- ->. apply at_step in H. eapply (IH _ _ _ _ _ H E a d s1 s2 eq_refl); try eassumption.
        rewrite <- app_assoc. exact Hs.
Qed.

Lemma match_of_found u r l pre a s s' : l = pre ++ a ++ rest s -> at_state (pre ++ a) (rest s) s -> caps s = [] -> msem u r s s' ->
  exists mid, found u r l (pre ++ a) mid (rest s') (match_of (s, s')) /\ rest s = mid ++ rest s'.
Proof.
  intros -> H C M. destruct (between_eq _ _ _ _ H (msem_forward _ _ _ _ M)) as (mid & A & B & D). exists mid. split; [|exact A].
  split; [rewrite <- A, <- app_assoc; reflexivity|]. exists s, s'. rewrite <- A. repeat split; try apply H; try apply D; auto.
  unfold match_of. cbn [fst snd]. rewrite B. reflexivity.
Qed.

Lemma all_matches_sound u r fuel : forall l pre pv p e m, at_state pre l (mkSt pv p l []) ->
  In m (all_matches fuel u r pv p l e) -> exists a mid post, found u r (pre ++ l) (pre ++ a) mid post m.
Proof.
  induction fuel as [|fuel IH]; intros l pre pv p e m H I; cbn [all_matches] in I; [contradiction|].
  destruct (search u r pv p l) as [[s s']|] eqn:E; [|contradiction].
  destruct (search_sound _ _ _ _ _ _ _ _ H E) as (a & A & B & C & D).
  destruct (match_of_found u r (pre ++ l) pre a s s') as (mid & F & G); try assumption. { rewrite A at 1. reflexivity. }
  apply in_app_or in I. destruct I as [I|I].
  - match type of I with In _ (if ?c then _ else _) => destruct c end; [|contradiction]. destruct I as [<-|[]]. eauto.
  - destruct (pos s' =? p).
    + destruct l as [|[c bs] t]; [contradiction|]. apply at_step in H. destruct (IH _ _ _ _ _ _ H I) as (a' & mid' & post' & F').
      rewrite <- !app_assoc in F'. cbn [app] in F'. eauto.
    + destruct F as (Fl & s1 & s2 & F1 & F2 & F3 & F4 & F5).
      assert (H' : at_state ((pre ++ a) ++ mid) (rest s') (mkSt (prev s') (pos s') (rest s') [])).
      { destruct (between_eq _ _ _ _ B (msem_forward _ _ _ _ D)) as (mid' & A' & _ & X).
        rewrite G in A'. apply app_inv_tail in A'. subst mid'. destruct X as (X1 & X2 & X3). repeat split; assumption. }
      destruct (IH _ _ _ _ _ _ H' I) as (a' & mid' & post' & F').
      replace (((pre ++ a) ++ mid) ++ rest s') with (pre ++ l) in F'.
      2:{ rewrite A, G, <- !app_assoc. reflexivity. }
      rewrite <- !app_assoc in F'. exists (a ++ mid ++ a'), mid', post'. exact F'.
Qed.

(** Every reported match is a match in the text. *)
Lemma FindAll_sound u r s m : In m (FindAll u r s) -> exists pre mid post, found u r (pieces s) pre mid post m.
Proof.
  intros I. destruct (all_matches_sound u r _ _ [] _ _ _ _ (at_start _) I) as (a & mid & post & F). eauto.
Qed.
Lemma Find_sound u r s m : Find u r s = Some m -> exists pre mid post, found u r (pieces s) pre mid post m.
Proof.
  unfold Find. destruct (search _ _ _ _ _) as [[s1 s2]|] eqn:E; [|discriminate]. cbn. intros H. injection H as <-.
  destruct (search_sound _ _ _ _ _ _ _ _ (at_start _) E) as (a & A & B & C & D).
  destruct (match_of_found u r (pieces s) [] a s1 s2) as (mid & F & G); try assumption. eauto.
Qed.
Lemma Find_none u r s : loops_ok r = true -> Find u r s = None -> forall pre mid post m, ~ found u r (pieces s) pre mid post m.
Proof.
  unfold Find. intros L. destruct (search _ _ _ _ _) as [[s1 s2]|] eqn:E; [discriminate|]. intros _ pre mid post m F.
  destruct F as (Fl & s1 & s2 & F1 & F2 & F3 & _).
  exact (search_complete u r L _ _ _ _ (at_start _) E pre (mid ++ post) s1 s2 Fl F1 F2 F3).
Qed.
Lemma MatchString_iff u r s : loops_ok r = true -> MatchString u r s = true <-> exists pre mid post m, found u r (pieces s) pre mid post m.
Proof.
  intros L. pose proof (Find_none u r s L) as N. pose proof (Find_sound u r s) as S. unfold MatchString. unfold Find in *.
  destruct (search _ _ _ _ _) as [[s1 s2]|]; cbn in *.
  - split; [|reflexivity]. intros _. destruct (S _ eq_refl) as (pre & mid & post & F). eauto.
  - split; [discriminate|]. intros (pre & mid & post & m & F). exfalso. exact (N eq_refl _ _ _ _ F).
Qed.

(** The list of matches is empty iff there is nothing to find. *)
Lemma FindAll_none u r s : loops_ok r = true -> FindAll u r s = [] -> forall pre mid post m, ~ found u r (pieces s) pre mid post m.
Proof.
  unfold FindAll. cbn [all_matches]. intros L. destruct (search _ _ _ _ _) as [[s1 s2]|] eqn:E.
  - rewrite andb_false_r. cbn. discriminate.
  - intros _ pre mid post m (Fl & s1 & s2 & F1 & F2 & F3 & _).
    exact (search_complete u r L _ _ _ _ (at_start _) E pre (mid ++ post) s1 s2 Fl F1 F2 F3).
Qed.

(** ** Expressions made by the parser *)
Lemma loops_times n x t : loops_ok x = true -> loops_ok t = true -> loops_ok (times_then n x t) = true.
Proof. intros X T. induction n as [|n IH]; cbn; [exact T|]. rewrite X, IH. reflexivity. Qed.
Lemma loops_upto g x n : loops_ok x = true -> loops_ok (upto g x n) = true.
Proof.
  intros X. induction n as [|n IH]; [reflexivity|]. cbn [upto]. destruct n as [|n].
  - unfold opt_re. destruct g; cbn; rewrite X; reflexivity.
  - unfold opt_re. destruct g; cbn [loops_ok]; rewrite X, IH; reflexivity.
Qed.
Lemma loops_repeat a m g x r : loops_ok x = true -> repeat_re a m g x = Some r -> loops_ok r = true.
Proof.
  intros X. unfold repeat_re. destruct m as [m|].
  - destruct (_ || _); [discriminate|]. intros E. injection E as <-. apply loops_times; [exact X|]. apply loops_upto, X.
  - destruct (nullable x) eqn:N; [discriminate|]. intros E. injection E as <-. apply loops_times; [exact X|]. cbn. rewrite N, X. reflexivity.
Qed.
Definition frame_ok (f : frame) : Prop := Forall (fun r => loops_ok r = true) (falts f) /\ Forall (fun r => loops_ok r = true) (fcur f).
Lemma loops_seq l : Forall (fun r => loops_ok r = true) l -> loops_ok (seq_of l) = true.
Proof.
  destruct l as [|x l]; [reflexivity|]. cbn [seq_of]. intros H. inversion H as [|? ? A B]. clear H. subst.
  revert x A. induction B as [|y l Y B IH]; intros x A; cbn; [exact A|]. apply IH. cbn. rewrite Y, A. reflexivity.
Qed.
Lemma loops_alt f : frame_ok f -> loops_ok (alt_of f) = true.
Proof.
  intros [A B]. unfold alt_of. apply loops_seq in B. revert B. generalize (seq_of (fcur f)). 
  induction A as [|y l Y A IH]; intros x B; cbn; [exact B|]. apply IH. cbn. rewrite Y, B. reflexivity.
Qed.
Definition pstate_ok (st : pstate) : Prop := frame_ok (top st) /\ Forall frame_ok (below st).
Lemma add_ok st r : pstate_ok st -> loops_ok r = true -> pstate_ok (add st r).
Proof. intros [[A B] C] R. split; [|exact C]. split; [exact A|]. cbn. constructor; assumption. Qed.
Lemma pstep_ok st t st' : pstate_ok st -> pstep st t = Some st' -> pstate_ok st'.
Proof.
  intros H. pose proof H as [[A B] C]. destruct t; cbn [pstep].
  - destruct (folding st).
    + destruct (fold_cls c); cbn; [|discriminate]. intros E. injection E as <-. apply add_ok; [exact H|reflexivity].
    + intros E. injection E as <-. apply add_ok; [exact H|reflexivity].
  - intros E. injection E as <-. apply add_ok; [exact H|reflexivity].
  - intros E. injection E as <-. apply add_ok; [exact H|reflexivity].
  - intros E. injection E as <-. apply add_ok; [exact H|reflexivity].
  - intros E. injection E as <-. split; cbn; [split; constructor|]. constructor; [split; assumption|exact C].
  - intros E. injection E as <-. split; [split|]; assumption.
  - destruct (below st) as [|f' fs] eqn:Eb; [discriminate|]. intros E. injection E as <-. inversion C. subst. apply add_ok.
    + split; assumption.
    + destruct (fgroup (top st)); cbn; apply loops_alt; split; assumption.
  - intros E. injection E as <-. split; [split|]; cbn; [|constructor|exact C]. constructor; [apply loops_seq, B|exact A].
  - destruct (repeated st); [discriminate|]. destruct (fcur (top st)) as [|x cur] eqn:Ec; [discriminate|].
    destruct (repeat_re min max greedy x) as [r|] eqn:Er; [|discriminate]. intros E. injection E as <-. inversion B. subst.
    split; [split|]; cbn; try assumption. constructor; [|assumption]. eapply loops_repeat; eassumption.
Qed.
Lemma prun_ok l : forall st st', pstate_ok st -> prun st l = Some st' -> pstate_ok st'.
Proof.
  induction l as [|t l IH]; intros st st' H E; cbn [prun] in E; [congruence|].
  destruct (pstep st t) as [st1|] eqn:E1; [|discriminate]. eapply IH; [|exact E]. eapply pstep_ok; eassumption.
Qed.
Lemma compile_ok s r : compile s = Some r -> loops_ok r = true.
Proof.
  unfold compile. destruct (str_eqb _ _); [|discriminate]. destruct (lex _ _) as [ts|]; [|discriminate].
  destruct (prun pstart ts) as [st|] eqn:E; [|discriminate]. unfold pfinish. destruct (below st); [|discriminate].
  intros H. injection H as <-. apply loops_alt. eapply prun_ok; [|exact E]. split; [split|]; constructor.
Qed.

(** ** Matching in terms of lists *)
Definition move (s : mstate) (l post : list piece) (new : list (nat * str)) : mstate :=
  mkSt (match l with [] => prev s | _ => last_rune l end) (pos s + length l) post (new ++ caps s).

Lemma move_nil s post : rest s = post -> move s [] post [] = s.
Proof. intros <-. destruct s. unfold move. cbn. rewrite Nat.add_0_r. reflexivity. Qed.
Lemma move_move s l1 l2 post n1 n2 : move (move s l1 (l2 ++ post) n1) l2 post n2 = move s (l1 ++ l2) post (n2 ++ n1).
Proof.
  unfold move. cbn [prev pos rest caps]. rewrite app_length, <- app_assoc, Nat.add_assoc. f_equal.
  destruct l2 as [|y l2]. { rewrite app_nil_r. destruct l1; reflexivity. }
  unfold last_rune. destruct (l1 ++ y :: l2) eqn:E; [destruct l1; discriminate|]. rewrite <- E, map_app, last_app_ne by discriminate. reflexivity.
Qed.
Lemma move_at pre l post new s : at_state pre (l ++ post) s -> at_state (pre ++ l) post (move s l post new).
Proof.
  intros (A & B & C). repeat split; cbn [move pos rest prev].
  - rewrite app_length. lia.
  - destruct l; [rewrite app_nil_r; exact C|]. unfold last_rune. rewrite map_app, last_app_ne by discriminate. reflexivity.
Qed.
Lemma between_move pre l post new s : at_state pre (l ++ post) s -> between s (move s l post new) = text_of l.
Proof.
  intros (A & B & C). unfold between. cbn [move pos]. replace (pos s + length l - pos s) with (length l) by lia.
  rewrite B, firstn_app, Nat.sub_diag, firstn_all, firstn_O, app_nil_r. reflexivity.
Qed.

Lemma msem_mlist u r : forall pre all s s', at_state pre all s -> msem u r s s' ->
  exists l post new, all = l ++ post /\ s' = move s l post new /\ mlist u r pre l post new.
Proof.
  induction r; intros pre all s s' H M; cbn [msem mlist] in *.
  - subst. exists [], all, []. rewrite move_nil by apply H. auto.
  - destruct M as (x & bs & t & E & M & ->). destruct H as (A & B & C). exists [(x, bs)], t, [].
    split; [rewrite <- B, E; reflexivity|]. split; [unfold move; cbn; f_equal; lia|]. eauto.
  - destruct M as (E & ->). destruct H as (A & B & C). exists [], all, []. rewrite move_nil by exact B.
    repeat split. rewrite E in A. destruct pre; [reflexivity|discriminate].
  - destruct M as (E & ->). destruct H as (A & B & C). exists [], all, []. rewrite move_nil by exact B. repeat split. congruence.
  - destruct M as (E & ->). destruct H as (A & B & C). exists [], all, []. rewrite move_nil by exact B. repeat split.
    unfold next in E. rewrite B in E. rewrite <- E. unfold last_rune. rewrite C. reflexivity.
  - destruct M as (s1 & M1 & M2). destruct (IHr1 _ _ _ _ H M1) as (l1 & p1 & n1 & -> & -> & L1).
    destruct (IHr2 _ _ _ _ (move_at _ _ _ n1 _ H) M2) as (l2 & p2 & n2 & -> & -> & L2).
    exists (l1 ++ l2), p2, (n2 ++ n1). rewrite move_move, app_assoc. repeat split. exists l1, l2, n1, n2. auto.
  - destruct M as [M|M].
    + destruct (IHr1 _ _ _ _ H M) as (l1 & p1 & n1 & -> & -> & L1). exists l1, p1, n1. auto.
    + destruct (IHr2 _ _ _ _ H M) as (l1 & p1 & n1 & -> & -> & L1). exists l1, p1, n1. auto.
  - revert pre all H. induction M as [s|s s1 s2 M1 M2 IH]; intros pre all H.
    + exists [], all, []. rewrite move_nil by apply H. repeat split. constructor.
    + destruct (IHr _ _ _ _ H M1) as (l1 & p1 & n1 & -> & -> & L1).
      destruct (IH _ _ (move_at _ _ _ n1 _ H)) as (l2 & p2 & n2 & -> & -> & L2).
      exists (l1 ++ l2), p2, (n2 ++ n1). rewrite move_move, app_assoc. repeat split. constructor; assumption.
  - destruct M as (s1 & M & ->). destruct (IHr _ _ _ _ H M) as (l1 & p1 & n1 & -> & -> & L1).
    exists l1, p1, ((n, text_of l1) :: n1). split; [reflexivity|]. split; [|eauto].
    unfold set_group. rewrite (between_move _ _ _ _ _ H). reflexivity.
Qed.
Lemma mlist_msem u r : forall pre l post new s, at_state pre (l ++ post) s -> mlist u r pre l post new -> msem u r s (move s l post new).
Proof.
  induction r; intros pre l post new s H M; cbn [msem mlist] in *.
  - destruct M as [-> ->]. apply move_nil, H.
  - destruct M as (x & bs & -> & M & ->). destruct H as (A & B & C). exists x, bs, post. split; [exact B|]. split; [exact M|].
    unfold move. cbn. f_equal. lia.
  - destruct M as (-> & -> & ->). destruct H as (A & B & C). split; [exact A|]. apply move_nil, B.
  - destruct M as (-> & -> & ->). destruct H as (A & B & C). split; [exact B|]. apply move_nil, B.
  - destruct M as (-> & M & ->). destruct H as (A & B & C). split; [|apply move_nil, B]. unfold next. rewrite B, C. exact M.
  - destruct M as (l1 & l2 & n1 & n2 & -> & -> & M1 & M2). rewrite <- app_assoc in H.
    exists (move s l1 (l2 ++ post) n1). split; [eapply IHr1; eassumption|]. rewrite <- move_move. eapply IHr2; [|exact M2]. apply move_at, H.
  - destruct M as [M|M]; [left|right]; eauto.
  - revert s H. induction M as [pre post|pre l1 l2 post n1 n2 M1 M2 IH]; intros s H.
    + rewrite move_nil by apply H. constructor.
    + rewrite <- app_assoc in H. rewrite <- move_move. econstructor; [eapply IHr; eassumption|]. apply IH. apply move_at, H.
  - destruct M as (n1 & M & ->). exists (move s l post n1). split; [eapply IHr; eassumption|].
    rewrite (between_move _ _ _ _ _ H). reflexivity.
Qed.

Lemma at_exists pre post : at_state pre post (mkSt (last_rune pre) (length pre) post []).
Proof. repeat split. Qed.
Lemma found_iff u r l pre mid post m : found u r l pre mid post m <->
  l = pre ++ mid ++ post /\ exists new, mlist u r pre mid post new /\ m = mkMatch (text_of mid) new.
Proof.
  split.
  - intros (E & s & s' & H & C & M & H' & ->). split; [exact E|].
    destruct (msem_mlist _ _ _ _ _ _ H M) as (l1 & p1 & new & E1 & -> & L). pose proof H' as (_ & E2 & _). cbn in E2. subst p1.
    apply app_inv_tail in E1. subst l1. exists new. split; [exact L|]. cbn [move caps]. rewrite C, app_nil_r. reflexivity.
  - intros (-> & new & M & ->). split; [reflexivity|]. set (s := mkSt (last_rune pre) (length pre) (mid ++ post) []).
    assert (H : at_state pre (mid ++ post) s) by apply at_exists.
    exists s, (move s mid post new). split; [exact H|]. split; [reflexivity|]. split; [eapply mlist_msem; eassumption|].
    split; [apply move_at, H|]. cbn [move caps s]. rewrite app_nil_r. reflexivity.
Qed.

(** Public interface of the module *)
Lemma FindAll_in u r s m : In m (FindAll u r s) ->
  exists pre mid post new, pieces s = pre ++ mid ++ post /\ mlist u r pre mid post new /\ m = mkMatch (text_of mid) new.
Proof. intros I. apply FindAll_sound in I. destruct I as (pre & mid & post & F). apply found_iff in F. destruct F as (E & new & M & F). eauto 10. Qed.
Lemma Find_some u r s m : Find u r s = Some m ->
  exists pre mid post new, pieces s = pre ++ mid ++ post /\ mlist u r pre mid post new /\ m = mkMatch (text_of mid) new.
Proof. intros I. apply Find_sound in I. destruct I as (pre & mid & post & F). apply found_iff in F. destruct F as (E & new & M & F). eauto 10. Qed.
Lemma Find_exists u r s pre mid post new : loops_ok r = true -> pieces s = pre ++ mid ++ post -> mlist u r pre mid post new ->
  exists m, Find u r s = Some m.
Proof.
  intros L E M. destruct (Find u r s) as [m|] eqn:F; [eauto|]. exfalso.
  apply (Find_none u r s L F pre mid post (mkMatch (text_of mid) new)). apply found_iff. eauto.
Qed.
Lemma FindAll_exists u r s pre mid post new : loops_ok r = true -> pieces s = pre ++ mid ++ post -> mlist u r pre mid post new ->
  FindAll u r s <> [].
Proof.
  intros L E M F. apply (FindAll_none u r s L F pre mid post (mkMatch (text_of mid) new)). apply found_iff. eauto.
Qed.
Lemma MatchString_true u r s : loops_ok r = true -> MatchString u r s = true <->
  exists pre mid post new, pieces s = pre ++ mid ++ post /\ mlist u r pre mid post new.
Proof.
  intros L. rewrite (MatchString_iff u r s L). split.
  - intros (pre & mid & post & m & F). apply found_iff in F. destruct F as (E & new & M & F). eauto 10.
  - intros (pre & mid & post & new & E & M). exists pre, mid, post, (mkMatch (text_of mid) new). apply found_iff. eauto.
Qed.

(** ** Convenience *)
Lemma text_app x y : text_of (x ++ y) = text_of x ++ text_of y.
Proof. unfold text_of. rewrite map_app, concat_app. reflexivity. Qed.
Lemma iterl_cls u c pre l post new : iterl (mlist u (RCls c)) pre l post new <->
  Forall (fun x => cls_match u c (fst x) = true) l /\ new = [].
Proof.
  split.
  - intros H. induction H as [|pre l1 l2 post n1 n2 M _ [IH1 ->]]; [auto|]. destruct M as (x & bs & -> & M & ->). split; [constructor|]; auto.
  - intros [H ->]. revert pre. induction H as [|[x bs] l A H IH]; intros pre; [constructor|].
    change ((x, bs) :: l) with ([(x, bs)] ++ l). change (@nil (nat * str)) with ([] ++ @nil (nat * str)). constructor; [|apply IH].
    exists x, bs. auto.
Qed.
