(** URLs in text files are not missed: what is the preferred match. *)
From Coq Require Import ZifyBool ZifyNat ZifyN.
From Verif Require Import GoBase Utf8 Utf8Dec Regex RegexParse RegexSpec RegexProofs Pieces RegexWords Patterns Extract FuzzySpec FuzzyRank TextSpec TextFoundSpec TextProofs CharsUnique.

(** ** Preferred match *)
Definition best u (r : re) (s s' : mstate) : Prop := forall A (k : mstate -> option A) v, k s' = Some v -> mt u r k s = Some v.
Definition only u (r : re) (s s' : mstate) : Prop := forall A (k : mstate -> option A), mt u r k s = k s'.
Definition never u (r : re) (s : mstate) : Prop := forall A (k : mstate -> option A), mt u r k s = None.

Lemma only_best u r s s' : only u r s s' -> best u r s s'.
Proof. intros H A k v E. rewrite H. exact E. Qed.
Lemma best_empty u s : best u REmpty s s.
Proof. intros A k v E. exact E. Qed.
Lemma best_seq u x y s s1 s2 : best u x s s1 -> best u y s1 s2 -> best u (RSeq x y) s s2.
Proof. intros X Y A k v E. cbn [mt]. apply X. apply Y. exact E. Qed.
Lemma best_left u x y s s' : best u x s s' -> best u (RAlt x y) s s'.
Proof. intros X A k v E. cbn [mt]. rewrite (X _ _ _ E). reflexivity. Qed.
Lemma best_right u x y s s' : never u x s -> best u y s s' -> best u (RAlt x y) s s'.
Proof. intros X Y A k v E. cbn [mt]. rewrite X. cbn [orelse]. apply Y. exact E. Qed.
Lemma best_group u n x pre l post new s : at_state pre (l ++ post) s -> best u x s (move s l post new) -> best u (RGroup n x) s (move s l post ((n, text_of l) :: new)).
Proof. intros H X A k v E. cbn [mt]. apply X. rewrite (between_move _ _ _ _ _ H). exact E. Qed.
Lemma never_group u n x s : never u x s -> never u (RGroup n x) s.
Proof. intros X A k. cbn [mt]. apply X. Qed.
Lemma never_alt u x y s : never u x s -> never u y s -> never u (RAlt x y) s.
Proof. intros X Y A k. cbn [mt]. rewrite X. apply Y. Qed.
Lemma never_seq u x y s : never u x s -> never u (RSeq x y) s.
Proof. intros X A k. cbn [mt]. apply X. Qed.

Lemma cls_only u c s p t : rest s = p :: t -> cls_match u c (fst p) = true -> only u (RCls c) s (move s [p] t []).
Proof.
  intros R M A k. cbn [mt]. rewrite R. destruct p as [x bs]. cbn [fst] in M. rewrite M. f_equal. unfold move. cbn. f_equal. lia.
Qed.
Lemma cls_never u c s : match rest s with [] => True | p :: _ => cls_match u c (fst p) = false end -> never u (RCls c) s.
Proof. intros H A k. cbn [mt]. destruct (rest s) as [|[x bs] t]; [reflexivity|]. cbn [fst] in H. rewrite H. reflexivity. Qed.

Lemma move_two s l1 l2 t1 post : move (move s l1 t1 []) l2 post [] = move s (l1 ++ l2) post [].
Proof. exact (move_move s l1 l2 post [] []). Qed.
(** Greedy loops *)
Inductive chain u (x : re) : mstate -> mstate -> Prop :=
| chain_stop s : never u x s -> chain u x s s
| chain_step s s1 s2 : best u x s s1 -> length (rest s1) < length (rest s) -> chain u x s1 s2 -> chain u x s s2.
Lemma best_star u x s s' : chain u x s s' -> best u (RStar true x) s s'.
Proof.
  intros H A k v E. cbn [mt].
  assert (G : forall n, length (rest s) <= n ->
    (fix loop (n : nat) (s : mstate) {struct n} : option A := match n with O => k s | S n => orelse (mt u x (loop n) s) (fun _ => k s) end) n s = Some v); [|apply G; lia].
  induction H as [s N|s s1 s2 B L H IH]; intros n Ln.
  - destruct n as [|n]; [exact E|]. rewrite N. exact E.
  - destruct n as [|n]; [lia|]. rewrite (B _ _ v); [reflexivity|]. apply IH; [exact E|lia].
Qed.
Lemma upto_step {A} u x n (k : mstate -> option A) s : mt u (upto true x (S n)) k s = orelse (mt u x (mt u (upto true x n) k) s) (fun _ => k s).
Proof. destruct n; reflexivity. Qed.
Lemma upto_never {A} u x n (k : mstate -> option A) s : never u x s -> mt u (upto true x n) k s = k s.
Proof. intros N. destruct n; [reflexivity|]. rewrite upto_step, N. reflexivity. Qed.
Lemma best_upto_cls u c post : forall l s n, rest s = l ++ post -> Forall (fun p => cls_match u c (fst p) = true) l ->
  match post with [] => True | p :: _ => cls_match u c (fst p) = false end -> length l <= n -> best u (upto true (RCls c) n) s (move s l post []).
Proof.
  induction l as [|p l IH]; intros s n R F P L A k v E.
  - cbn [app] in R. rewrite upto_never; [|apply cls_never; rewrite R; exact P]. rewrite (move_nil s post R) in E. exact E.
  - destruct n as [|n]; [cbn in L; lia|]. inversion F as [|? ? Fp Fl]. subst. rewrite upto_step, (cls_only u c s p (l ++ post) R Fp). rewrite (IH _ n) with (v := v); auto.
    + cbn [length] in L. lia.
    + rewrite move_two. exact E.
Qed.
Lemma chain_cls u c post : forall l s, rest s = l ++ post -> Forall (fun p => cls_match u c (fst p) = true) l ->
  match post with [] => True | p :: _ => cls_match u c (fst p) = false end -> chain u (RCls c) s (move s l post []).
Proof.
  induction l as [|p l IH]; intros s R F P.
  - cbn [app] in R. rewrite (move_nil s post R). apply chain_stop. apply cls_never. rewrite R. exact P.
  - inversion F as [|? ? Fp Fl]. subst. apply chain_step with (move s [p] (l ++ post) []).
    + apply only_best, cls_only; assumption.
    + rewrite R. cbn. lia.
    + change (p :: l) with ([p] ++ l). rewrite <- (move_two s [p] l (l ++ post) post). apply IH; auto.
Qed.

(** The only match *)
Lemma only_match u r pre l post new s : loops_ok r = true -> at_state pre (l ++ post) s -> mlist u r pre l post new ->
  (forall l' post' new', l ++ post = l' ++ post' -> mlist u r pre l' post' new' -> l' = l /\ new' = new) -> only u r s (move s l post new).
Proof.
  intros L H M U A k. pose proof (mlist_msem _ _ _ _ _ _ _ H M) as S.
  destruct (mt u r k s) as [v|] eqn:E.
  - apply mt_sound in E. destruct E as (s' & S' & E). destruct (msem_mlist _ _ _ _ _ _ H S') as (l' & post' & new' & El & -> & M').
    destruct (U _ _ _ El M') as [-> ->]. apply app_inv_head in El. subst. symmetry. exact E.
  - symmetry. exact (mt_complete u r L k s _ E S).
Qed.
Lemma no_match u r pre all s : at_state pre all s -> (forall l post new, all = l ++ post -> ~ mlist u r pre l post new) -> never u r s.
Proof.
  intros H N A k. destruct (mt u r k s) as [v|] eqn:E; [|reflexivity]. exfalso. apply mt_sound in E. destruct E as (s' & S' & _).
  destruct (msem_mlist _ _ _ _ _ _ H S') as (l' & post' & new' & El & -> & M'). exact (N _ _ _ El M').
Qed.

(** ** Parts of URLs *)
Definition dchar u (r : rune) : Prop := alnum u r \/ r = 95%N \/ r = 45%N.
Lemma dchar_not u r : dchar u r -> r <> 46%N /\ r <> 58%N /\ r <> 47%N.
Proof. unfold dchar, alnum, is_letter, is_digit. lia. Qed.
Lemma alnum_not u r : alnum u r -> ~ In r [46; 45; 95; 47; 64; 44; 126; 37; 58]%N.
Proof. unfold alnum, is_letter, is_digit. cbn [In]. lia. Qed.
Lemma letter_alnum u r : is_letter u r -> alnum u r.
Proof. left. assumption. Qed.
Lemma latin_alnum u r : is_letter (fun _ => false) r -> alnum u r.
Proof. unfold alnum, is_letter. intros [H|[H|[_ H]]]; [auto|auto|discriminate]. Qed.
Lemma letter_dot u : ~ is_letter u 46%N.
Proof. unfold is_letter. lia. Qed.
Lemma component_chars u c : component u c -> Forall (dchar u) c /\ exists a m, c = a :: m /\ alnum u a.
Proof.
  intros (z & Z & [->|(a & m & A & _ & F & ->)]).
  - split; [constructor; [left; auto|constructor]|]. eauto.
  - split; [|eauto]. constructor; [left; auto|]. apply Forall_app. split; [|constructor; [left; auto|constructor]]. exact F.
Qed.
(** The text before the first dot is unique. *)
Lemma first_dot (c c' : list rune) x y : Forall (fun r => r <> 46%N) c -> Forall (fun r => r <> 46%N) c' -> c ++ 46%N :: x = c' ++ 46%N :: y -> c = c' /\ x = y.
Proof.
  revert c'. induction c as [|a c IH]; intros [|a' c'] F F' E; cbn [app] in E; [injection E as E|injection E as E1 E2..].
  - auto.
  - apply Forall_inv in F'. congruence.
  - apply Forall_inv in F. congruence.
  - inversion F. inversion F'. subst. destruct (IH c') as [-> ->]; auto.
Qed.
Lemma component_dot u c : component u c -> Forall (fun r => r <> 46%N) c.
Proof. intros C. apply component_chars in C. eapply Forall_impl; [|apply C]. intros r Hr. apply (dchar_not u r Hr). Qed.
Lemma app_same {A B} (f : A -> B) (l l' post post' : list A) : l ++ post = l' ++ post' -> map f l = map f l' -> l = l'.
Proof.
  intros E M. apply (f_equal (@length _)) in M. rewrite !map_length in M. apply (f_equal (firstn (length l))) in E.
  rewrite firstn_app, Nat.sub_diag, firstn_all, firstn_O, app_nil_r in E. rewrite M, firstn_app, Nat.sub_diag, firstn_all, firstn_O, app_nil_r in E. exact E.
Qed.
Lemma map_app_inv {A B} (f : A -> B) l x y : map f l = x ++ y -> exists a c, l = a ++ c /\ map f a = x /\ map f c = y.
Proof. intros E. apply map_eq_app in E. exact E. Qed.
Lemma upto_match u c pre l post n : length l <= n -> Forall (fun p => cls_match u c (fst p) = true) l -> mlist u (upto true (RCls c) n) pre l post [].
Proof.
  intros Ln F. revert n Ln pre. induction F as [|p l Mp F IH]; intros n Ln pre.
  - destruct n as [|[|n]]; [split; reflexivity|right; split; reflexivity|right; split; reflexivity].
  - destruct n as [|n]; [cbn in Ln; lia|]. cbn [length] in Ln. destruct p as [x bs']. cbn [fst] in Mp.
    assert (M1 : forall q, mlist u (RCls c) pre [(x, bs')] q []) by (intros q; exists x, bs'; auto).
    destruct n as [|n].
    + destruct l; [|cbn in Ln; lia]. left. apply M1.
    + left. exists [(x, bs')], l, [], []. split; [reflexivity|]. split; [reflexivity|]. split; [apply M1|]. apply IH. lia.
Qed.
Lemma component_match u pre l post c : component u c -> map fst l = c ++ [46%N] -> mlist u componentRe pre l post [].
Proof.
  intros C E. apply map_app_inv in E. destruct E as (lc & ld & -> & Ec & Ed). unfold componentRe.
  destruct C as (z & Z & C).
  assert (T : forall pre' lz, map fst lz = [z] -> mlist u (RSeq (RCls alnumC) (L 46%N)) pre' (lz ++ ld) post []).
  { intros pre' lz Ez. exists lz, ld, [], []. split; [reflexivity|]. split; [reflexivity|]. split.
    - destruct lz as [|[x bs] [|? ?]]; try discriminate. injection Ez as ->. exists z, bs. split; [reflexivity|]. split; [apply alnumC_iff; exact Z|reflexivity].
    - apply mlist_single. auto. }
  destruct C as [->|(a & m & Aa & Lm & F & ->)].
  - exists [], (lc ++ ld), [], []. split; [reflexivity|]. split; [reflexivity|]. split; [right; split; reflexivity|]. apply T. exact Ec.
  - destruct lc as [|[x bs] lc]; [discriminate|]. cbn [map fst] in Ec. injection Ec as -> Ec. apply map_app_inv in Ec. destruct Ec as (lm & lz & -> & Em & Ez).
    exists ((a, bs) :: lm), (lz ++ ld), [], []. split; [cbn [app]; rewrite <- app_assoc; reflexivity|]. split; [reflexivity|]. split; [|apply T; exact Ez].
    left. exists [(a, bs)], lm, [], []. split; [reflexivity|]. split; [reflexivity|]. split.
    + exists a, bs. split; [reflexivity|]. split; [apply alnumC_iff; exact Aa|reflexivity].
    + apply upto_match.
      * rewrite <- Em, map_length in Lm. exact Lm.
      * rewrite <- Em in F. apply (proj1 (Forall_map _ _ _)) in F. eapply Forall_impl; [|exact F]. intros p. apply middleC_iff.
Qed.
Lemma component_only u pre l post c s : component u c -> map fst l = c ++ [46%N] -> at_state pre (l ++ post) s -> only u componentRe s (move s l post []).
Proof.
  intros C E H. apply only_match with pre; [reflexivity|exact H|eapply component_match; eassumption|].
  intros l' post' new' El M. apply component_ok in M. destruct M as (-> & c' & C' & E'). split; [|reflexivity]. symmetry. apply (app_same fst l l' post post' El).
  apply (f_equal (map fst)) in El. rewrite !map_app, E, E', <- !app_assoc in El. cbn [app] in El.
  apply first_dot in El; [|apply (component_dot u); assumption|apply (component_dot u); assumption].
  destruct El as [-> _]. rewrite E, E'. reflexivity.
Qed.
Lemma component_never u pre all s : at_state pre all s -> (forall c x, component u c -> map fst all <> c ++ 46%N :: x) -> never u componentRe s.
Proof.
  intros H N. apply no_match with pre all; [exact H|]. intros l post new -> M. apply component_ok in M. destruct M as (-> & c & C & E).
  apply (N c (map fst post) C). rewrite map_app, E, <- app_assoc. reflexivity.
Qed.

(** Characters after a domain *)
Definition dends u (post : list (rune * str)) : Prop := match post with [] => True | p :: _ => ~ alnum u (fst p) /\ ~ In (fst p) [46; 95; 45]%N end.
Lemma domain_starts u cs t d : domain u cs t d -> exists a d', d = a :: d' /\ alnum u a.
Proof.
  intros (_ & F & (x & Lx & Fx & T) & ->). destruct F as [|c cs C F].
  - destruct x as [|a x]; [cbn in Lx; lia|]. apply Forall_inv in Fx. apply letter_alnum in Fx. destruct T as [->| ->]; cbn [map concat app]; eauto.
  - apply component_chars in C. destruct C as (_ & a & m & -> & A). cbn [map concat app]. eauto.
Qed.
Definition noalnum u (post : list (rune * str)) : Prop := match post with [] => True | p :: _ => ~ alnum u (fst p) end.
Lemma dends_noalnum u post : dends u post -> noalnum u post.
Proof. destruct post; cbn; tauto. Qed.
Lemma dends_never u pre post s : noalnum u post -> at_state pre post s -> never u componentRe s /\ never u tldRe s /\ never u domainRe s.
Proof.
  intros D H. split; [|split].
  - apply (component_never u pre post s H). intros c x C E. apply component_chars in C. destruct C as (_ & a & m & -> & A).
    destruct post as [|p post]; [discriminate|]. cbn [map app] in E. injection E as E _. cbn in D. rewrite <- E in A. tauto.
  - apply (no_match u tldRe pre post s H). intros l q new -> M. apply tld_ok in M. destruct M as (_ & x & Lx & F & T).
    destruct x as [|a x]; [cbn in Lx; lia|]. apply Forall_inv in F. destruct l as [|p l]; [destruct T as [T|T]; discriminate|]. cbn [app] in D.
    assert (Ea : fst p = a) by (destruct T as [T|T]; cbn [map app] in T; injection T as T _; exact T). apply D. left. rewrite Ea. exact F.
  - apply (no_match u domainRe pre post s H). intros l q new -> M. apply domain_ok in M. destruct M as (a & t & cs & _ & _ & Dm & _).
    apply domain_starts in Dm. destruct Dm as (x & d' & E & A). destruct l as [|p l]; [discriminate|]. cbn [map] in E. injection E as E _. cbn in D. rewrite E in D. tauto.
Qed.
Lemma letters_component u x : 2 <= length x <= 64 -> Forall (is_letter u) x -> component u x.
Proof.
  intros Lx F. destruct x as [|a x]; [cbn in Lx; lia|]. destruct x as [|z x _] using rev_ind; [cbn in Lx; lia|].
  inversion F as [|? ? Fa Fx]. subst. apply Forall_app in Fx. destruct Fx as [Fx Fz]. apply Forall_inv in Fz. exists z. split; [apply letter_alnum; exact Fz|]. right. exists a, x.
  split; [apply letter_alnum; exact Fa|]. split; [cbn [length] in Lx; rewrite app_length in Lx; cbn in Lx; lia|]. split; [|reflexivity].
  eapply Forall_impl; [|exact Fx]. intros r Hr. left. apply letter_alnum. exact Hr.
Qed.

(** The last component *)
Lemma tld_best u l post t pre s : top_level u t -> map fst l = t -> at_state pre (l ++ post) s -> dends u post -> best u tldRe s (move s l post []).
Proof.
  intros (x & Lx & F & T) E H ND. unfold tldRe.
  assert (G : forall lx tail, map fst lx = x -> l ++ post = lx ++ tail -> match tail with [] => True | p :: _ => ~ is_letter u (fst p) end ->
    best u (RSeq (RCls letterC) (RSeq (RCls letterC) (upto true (RCls letterC) 62))) s (move s lx tail [])).
  { intros lx tail Ex El NT. subst x. rewrite map_length in Lx. apply (proj1 (Forall_map _ _ _)) in F.
    assert (F' : Forall (fun p => cls_match u letterC (fst p) = true) lx) by (eapply Forall_impl; [|exact F]; intros p; apply letterC_iff).
    destruct lx as [|p1 [|p2 lx]]; [cbn in Lx; lia|cbn in Lx; lia|]. inversion F' as [|? ? M1 F1]. inversion F1 as [|? ? M2 F2]. subst.
    destruct H as (_ & R & _). rewrite El in R.
    apply best_seq with (move s [p1] (p2 :: lx ++ tail) []); [apply only_best, cls_only; assumption|].
    apply best_seq with (move (move s [p1] (p2 :: lx ++ tail) []) [p2] (lx ++ tail) []); [apply only_best, cls_only; [reflexivity|exact M2]|].
    rewrite (move_two s [p1] [p2]). replace (move s (p1 :: p2 :: lx) tail []) with (move (move s [p1; p2] (lx ++ tail) []) lx tail []) by apply (move_two s [p1; p2] lx).
    apply best_upto_cls; [reflexivity|exact F2| |cbn [length] in Lx; lia].
    destruct tail as [|p tail]; [exact I|]. destruct (cls_match u letterC (fst p)) eqn:Z; [|reflexivity]. apply letterC_iff in Z. contradiction. }
  destruct T as [->| ->].
  - apply best_seq with (move s l post []).
    + apply G; auto. destruct post as [|p post]; [exact I|]. intros Z. apply (proj1 ND). left. exact Z.
    + apply best_right; [|apply best_empty]. apply cls_never. cbn [rest move]. destruct post as [|p post]; [exact I|].
      destruct (cls_match u (single 46%N) (fst p)) eqn:Z; [|reflexivity]. apply single_match in Z. exfalso. apply (proj2 ND). rewrite Z. left. reflexivity.
  - apply map_app_inv in E. destruct E as (lx & ld & -> & Ex & Ed). destruct ld as [|p [|? ?]]; try discriminate. injection Ed as Ed. rewrite <- app_assoc in H.
    apply best_seq with (move s lx ([p] ++ post) []).
    + apply G; [exact Ex|rewrite <- app_assoc; reflexivity|]. cbn [app]. rewrite Ed. apply letter_dot.
    + rewrite <- (move_two s lx [p] ([p] ++ post) post). apply best_left. apply only_best, cls_only; [reflexivity|]. apply single_match. exact Ed.
Qed.

(** A domain *)
Lemma upto_tld {A} u n l post t pre s (k : mstate -> option A) : top_level u t -> map fst l = t -> at_state pre (l ++ post) s -> dends u post ->
  mt u (upto true componentRe n) (mt u (RGroup 4 tldRe) k) s = mt u (RGroup 4 tldRe) k s.
Proof.
  intros (x & Lx & F & T) E H D. destruct n as [|n]; [reflexivity|].
  destruct T as [->| ->].
  - apply upto_never. apply (component_never u pre (l ++ post) s H). intros c y C Ec. apply component_chars in C. destruct C as (Fc & _).
    rewrite map_app, E in Ec. clear E H.
    assert (G : forall x c, Forall (is_letter u) x -> Forall (dchar u) c -> x ++ map fst post = c ++ 46%N :: y -> exists q, map fst post = q ++ 46%N :: y /\ Forall (dchar u) q).
    { clear. induction x as [|a x IH]; intros c F Fc E; [exists c; split; [exact E|exact Fc]|].
      destruct c as [|d c]; cbn [app] in E; injection E as E1 E2; [exfalso; apply Forall_inv in F; rewrite E1 in F; exact (letter_dot u F)|].
      inversion F. inversion Fc. subst. apply (IH c); auto. }
    destruct (G x c F Fc Ec) as (q & Eq & Fq).
    destruct post as [|p post]; [destruct q; discriminate|]. cbn [map] in Eq. cbn [dends] in D. cbn [In] in D.
    destruct q as [|d q]; cbn [app] in Eq; injection Eq as Eq1 Eq2; [rewrite Eq1 in D; tauto|].
    apply Forall_inv in Fq. unfold dchar in Fq. rewrite Eq1 in D. destruct D as [D1 D2]. destruct Fq as [Q|[Q|Q]]; [tauto| |]; apply D2; rewrite Q; auto.
  - rewrite upto_step. rewrite (component_only u pre l post x s); [|apply letters_component; assumption|exact E|exact H].
    pose proof (move_at _ _ _ [] _ H) as H'. destruct (dends_never u _ _ _ (dends_noalnum _ _ D) H') as (N1 & N2 & _).
    rewrite upto_never by exact N1. rewrite (never_group _ _ _ _ N2). reflexivity.
Qed.
Lemma domain_best u n lt post t : top_level u t -> map fst lt = t -> dends u post -> forall cs lc pre s, length cs <= n -> Forall (component u) cs ->
  map fst lc = concat (map (fun c => c ++ [46%N]) cs) -> at_state pre (lc ++ lt ++ post) s ->
  best u (RSeq (upto true componentRe n) (RGroup 4 tldRe)) s (move s (lc ++ lt) post [(4, text_of lt)]).
Proof.
  intros T Et D cs lc pre s Ln F E H A k v K. cbn [mt]. change (mt u (upto true componentRe n) (mt u (RGroup 4 tldRe) k) s = Some v).
  revert n Ln lc pre s E H K. induction F as [|c cs C F IH]; intros n Ln lc pre s E H K.
  - cbn in E. apply map_eq_nil in E. subst lc. cbn [app] in *. rewrite (upto_tld u n lt post t pre s k T Et H D).
    apply (best_group u 4 tldRe pre lt post [] s H); [|exact K]. eapply tld_best; eassumption.
  - destruct n as [|n]; [cbn in Ln; lia|]. cbn [map concat] in E. apply map_app_inv in E. destruct E as (l1 & l2 & -> & E1 & E2). rewrite <- app_assoc in H.
    rewrite upto_step. rewrite (component_only u pre l1 (l2 ++ lt ++ post) c s C E1 H).
    rewrite (IH n ltac:(cbn [length] in Ln; lia) l2 (pre ++ l1) (move s l1 (l2 ++ lt ++ post) [])); [reflexivity|exact E2|apply move_at; exact H|].
    rewrite <- K. f_equal. rewrite (app_assoc l2). rewrite move_move, <- app_assoc. reflexivity.
Qed.

(** A path *)
Definition pends u (post : list (rune * str)) : Prop := match post with [] => True | p :: _ => ~ alnum u (fst p) /\ ~ In (fst p) [46; 64; 44; 126; 95; 45; 37]%N end.
Definition segRe : re := RAlt (RCls pathC) (RSeq (L 37%N) (RSeq (RCls hexC) (RSeq (RCls hexC) REmpty))).
Lemma never_cls u c p post s : rest s = p :: post -> (cls_match u c (fst p) = true -> False) -> never u (RCls c) s.
Proof. intros R N. apply cls_never. rewrite R. destruct (cls_match u c (fst p)); [exfalso; auto|reflexivity]. Qed.
Lemma segment_chain u post : pends u post -> forall rs, segment u rs -> forall l s, map fst l = rs -> rest s = l ++ post -> chain u segRe s (move s l post []).
Proof.
  intros P rs S. induction S as [|r rs Hr S IH|x y rs X Y S IH]; intros l s E R.
  - apply map_eq_nil in E. subst l. cbn [app] in R. rewrite (move_nil s post R). apply chain_stop. destruct post as [|p post].
    + apply never_alt; [|apply never_seq]; apply cls_never; rewrite R; exact I.
    + cbn [pends In] in P. apply never_alt; [|apply never_seq]; apply (never_cls u _ p post s R); intros Z.
      * apply pathC_iff in Z. cbn [In] in Z. tauto.
      * apply single_match in Z. rewrite Z in P. tauto.
  - destruct l as [|p l]; [discriminate|]. injection E as E1 E2. cbn [app] in R. apply chain_step with (move s [p] (l ++ post) []).
    + apply best_left, only_best, cls_only; [exact R|]. apply pathC_iff. rewrite E1. exact Hr.
    + rewrite R. cbn. lia.
    + replace (move s (p :: l) post []) with (move (move s [p] (l ++ post) []) l post []) by apply (move_two s [p] l). apply IH; [exact E2|reflexivity].
  - destruct l as [|p1 [|p2 [|p3 l]]]; try discriminate. cbn [map] in E. injection E as E1 E2 E3 E4. cbn [app] in R.
    assert (EM : move s (p1 :: p2 :: p3 :: l) post [] = move (move s [p1; p2; p3] (l ++ post) []) l post []) by (symmetry; apply (move_two s [p1; p2; p3] l)).
    apply chain_step with (move s [p1; p2; p3] (l ++ post) []).
    + apply best_right.
      * apply (never_cls u _ p1 _ s R). rewrite E1. intros Z. apply pathC_iff in Z. unfold alnum, is_letter, is_digit in Z. cbn [In] in Z. lia.
      * apply best_seq with (move s [p1] (p2 :: p3 :: l ++ post) []); [apply only_best, cls_only; [exact R|apply single_match; exact E1]|].
        apply best_seq with (move s [p1; p2] (p3 :: l ++ post) []).
        { rewrite <- (move_two s [p1] [p2] (p2 :: p3 :: l ++ post)). apply only_best, cls_only; [reflexivity|apply hexC_iff; rewrite E2; exact X]. }
        apply best_seq with (move s [p1; p2; p3] (l ++ post) []); [|apply best_empty].
        rewrite <- (move_two s [p1; p2] [p3] (p3 :: l ++ post)). apply only_best, cls_only; [reflexivity|apply hexC_iff; rewrite E3; exact Y].
    + rewrite R. cbn. lia.
    + rewrite EM. apply IH; [exact E4|reflexivity].
Qed.
Lemma path_best u (post : list (rune * str)) : match post with [] => True | p :: _ => fst p <> 47%N end -> forall segs, Forall (segment u) segs -> (segs <> [] -> pends u post) ->
  forall (l : list (rune * str)) s, map fst l = concat (map (cons 47%N) segs) -> rest s = l ++ post -> best u pathRe s (move s l post []).
Proof.
  intros NS segs F P l s E R. unfold pathRe. fold segRe. apply best_star. revert P l s E R. induction F as [|g segs G F IH]; intros P l s E R.
  - apply map_eq_nil in E. subst l. cbn [app] in R. rewrite (move_nil s post R). apply chain_stop. apply never_seq. apply cls_never. rewrite R.
    destruct post as [|p post]; [exact I|]. destruct (cls_match u (single 47%N) (fst p)) eqn:Z; [|reflexivity]. apply single_match in Z. contradiction.
  - cbn [map concat app] in E. destruct l as [|p l]; [discriminate|]. cbn [map] in E. injection E as E1 E. apply map_app_inv in E. destruct E as (lg & lr & -> & Eg & Er).
    cbn [app] in R. rewrite <- app_assoc in R.
    apply chain_step with (move s (p :: lg) (lr ++ post) []).
    + apply best_seq with (move s [p] (lg ++ lr ++ post) []); [apply only_best, cls_only; [exact R|apply single_match; exact E1]|].
      replace (move s (p :: lg) (lr ++ post) []) with (move (move s [p] (lg ++ lr ++ post) []) lg (lr ++ post) []) by apply (move_two s [p] lg).
      apply best_star. apply segment_chain with g; [|exact G|exact Eg|reflexivity].
      destruct lr as [|q lr]; [apply P; discriminate|]. destruct segs as [|g2 segs]; [discriminate|]. cbn [map concat app] in Er. injection Er as Er _. cbn [app pends]. rewrite Er.
      unfold alnum, is_letter, is_digit. cbn [In]. lia.
    + rewrite R. cbn [rest move length]. rewrite !app_length. lia.
    + replace (move s (p :: lg ++ lr) post []) with (move (move s (p :: lg) (lr ++ post) []) lr post []) by apply (move_two s (p :: lg) lr).
      apply IH; [intros _; apply P; discriminate|exact Er|reflexivity].
Qed.
(** A scheme *)
Lemma schema_best u l post pre s : schema (map fst l) -> at_state pre (l ++ post) s ->
  ((exists x, map fst l = x ++ [47%N]) \/ forall q, map fst post <> 47%N :: 47%N :: q) -> exists new, best u schemaRe s (move s l post new) /\ Forall (fun x => fst x = 2) new.
Proof.
  intros (x & Nx & F & E) H Q. pose proof H as (_ & R & _).
  assert (G : forall lx p tail, l ++ post = lx ++ p :: tail -> map fst lx = x -> fst p = 58%N -> 
    forall y s2, best u y (move s (lx ++ [p]) tail []) s2 -> best u (RSeq (RSeq (RCls alphaC) (RStar true (RCls alphaC))) (RSeq (L 58%N) y)) s s2).
  { intros lx p tail El Ex Ep y s2 B. rewrite <- Ex in F. apply (proj1 (Forall_map _ _ _)) in F.
    assert (F' : Forall (fun p => cls_match u alphaC (fst p) = true) lx) by (eapply Forall_impl; [|exact F]; intros a; apply alphaC_iff).
    rewrite El in R. apply best_seq with (move s lx (p :: tail) []).
    - destruct lx as [|p1 lx]; [subst x; exfalso; apply Nx; reflexivity|]. inversion F' as [|? ? M1 F1]. subst. cbn [app] in R.
      apply best_seq with (move s [p1] (lx ++ p :: tail) []); [apply only_best, cls_only; assumption|].
      replace (move s (p1 :: lx) (p :: tail) []) with (move (move s [p1] (lx ++ p :: tail) []) lx (p :: tail) []) by apply (move_two s [p1] lx).
      apply best_star, chain_cls; [reflexivity|exact F1|]. rewrite Ep. reflexivity.
    - apply best_seq with (move s (lx ++ [p]) tail []); [|exact B]. rewrite <- (move_two s lx [p] (p :: tail)). apply only_best, cls_only; [reflexivity|]. apply single_match. exact Ep. }
  destruct E as [E|E]; apply map_app_inv in E; destruct E as (lx & lp & -> & Ex & Ep).
  - destruct lp as [|p [|? ?]]; try discriminate. injection Ep as Ep. exists []. split; [|constructor]. unfold schemaRe. rewrite <- app_assoc in G.
    apply (G lx p post); [reflexivity|exact Ex|exact Ep|]. apply best_right; [|apply best_empty].
    assert (Q' : forall q, map fst post <> 47%N :: 47%N :: q).
    { destruct Q as [(y & Q)|Q]; [|exact Q]. rewrite map_app in Q. apply app_inj_tail in Q. destruct Q as [_ Q]. rewrite Ep in Q. discriminate. }
    apply never_group. intros A k. cbn [mt L move rest]. destruct post as [|[r1 b1] [|[r2 b2] post]]; try reflexivity.
    + destruct (cls_match u (single 47%N) r1); reflexivity.
    + destruct (cls_match u (single 47%N) r1) eqn:Z1; [|reflexivity]. cbn [rest]. destruct (cls_match u (single 47%N) r2) eqn:Z2; [|reflexivity]. exfalso.
      apply single_match in Z1, Z2. subst. apply (Q' (map fst post)). reflexivity.
  - destruct lp as [|p [|p2 [|p3 [|? ?]]]]; try discriminate. cbn [map] in Ep. injection Ep as Ep Ep2 Ep3.
    exists [(2, text_of [p2; p3])]. split; [|repeat constructor]. unfold schemaRe. rewrite <- app_assoc in G. cbn [app] in G.
    apply (G lx p (p2 :: p3 :: post)); [reflexivity|exact Ex|exact Ep|]. apply best_left.
    replace (move s (lx ++ [p; p2; p3]) post [(2, text_of [p2; p3])]) with (move (move s (lx ++ [p]) ([p2; p3] ++ post) []) [p2; p3] post [(2, text_of [p2; p3])]).
    2:{ rewrite move_move, <- app_assoc. reflexivity. }
    apply best_group with (pre ++ lx ++ [p]).
    + apply move_at. rewrite <- !app_assoc in H |- *. exact H.
    + apply best_seq with (move (move s (lx ++ [p]) ([p2; p3] ++ post) []) [p2] (p3 :: post) []); [apply only_best, cls_only; [reflexivity|apply single_match; exact Ep2]|].
      rewrite <- (move_two _ [p2] [p3] (p3 :: post)). apply only_best, cls_only; [reflexivity|apply single_match; exact Ep3].
Qed.

(** ** The whole pattern *)
Lemma no_schema (x c : list rune) a d : Forall (fun r => r <> 46%N) x -> Forall (fun r => r <> 58%N) c -> x ++ 58%N :: a <> c ++ 46%N :: d.
Proof.
  revert c. induction x as [|y x IH]; intros [|z c] Fx Fc E; cbn [app] in E; injection E as E1 E2; try discriminate.
  - apply Forall_inv in Fc. congruence.
  - apply Forall_inv in Fx. congruence.
  - inversion Fx. inversion Fc. subst. apply (IH c); assumption.
Qed.
Lemma schema_never u pre all s cs t d tail : at_state pre all s -> cs <> [] -> domain u cs t d -> map fst all = d ++ tail -> never u schemaRe s.
Proof.
  intros H N (_ & F & _ & ->) E. apply no_match with pre all; [exact H|]. intros l post new -> M. apply schema_ok in M. destruct M as [(x & _ & Fx & Ex) _].
  destruct F as [|c cs C F]; [congruence|]. apply component_chars in C. destruct C as [C _]. cbn [map concat] in E. rewrite map_app, <- !app_assoc in E. cbn [app] in E.
  assert (Fx' : Forall (fun r => r <> 46%N) x) by (eapply Forall_impl; [|exact Fx]; unfold is_letter; intros r Hr; lia).
  assert (Fc' : Forall (fun r => r <> 58%N) c) by (eapply Forall_impl; [|exact C]; intros r Hr; apply (dchar_not u r Hr)).
  destruct Ex as [Ex|Ex]; rewrite Ex, <- app_assoc in E; cbn [app] in E; eapply no_schema; eassumption.
Qed.
Definition url_caps (m : rmatch) (s d p : list (rune * str)) : Prop :=
  whole m = text_of (s ++ d ++ p) /\ group m 1 = text_of s /\ group m 3 = text_of d /\ group m 5 = text_of p.
Lemma text_more x y : Forall piece_ok x -> x <> [] -> text_of x <> [] /\ text_of (x ++ y) <> text_of y /\ text_of (y ++ x) <> text_of y.
Proof.
  intros F N. assert (T : text_of x <> []) by (intros E; apply (text_nil _ F) in E; contradiction). split; [exact T|]. rewrite !text_app.
  assert (Ln : length (text_of x) <> 0) by (destruct (text_of x); [congruence|discriminate]).
  split; intros E; apply (f_equal (@length _)) in E; rewrite app_length in E; lia.
Qed.
Lemma find_skip k (x y : list (nat * str)) : Forall (fun a => fst a <> k) x -> find (fun a => fst a =? k) (x ++ y) = find (fun a => fst a =? k) y.
Proof. intros F. induction F as [|a x N F IH]; [reflexivity|]. cbn [app find]. replace (fst a =? k) with false by lia. exact IH. Qed.
Lemma str_eqb_no x y : x <> y -> str_eqb x y = false.
Proof. intros N. destruct (str_eqb_spec x y); [contradiction|reflexivity]. Qed.
Lemma path_first u p : path u p -> p <> [] -> exists q, p = 47%N :: q.
Proof. intros (segs & _ & ->) N. destruct segs as [|g segs]; [contradiction|]. cbn [map concat app]. eauto. Qed.
Lemma schema_first u s : schema s -> exists a q, s = a :: q /\ alnum u a.
Proof. intros (x & N & F & E). destruct x as [|a x]; [contradiction|]. apply Forall_inv in F. apply (latin_alnum u) in F. destruct E as [->| ->]; cbn [app]; eauto. Qed.
Lemma url_best u ls ld lp post pre s : full_url u (map fst ls) (map fst ld) (map fst lp) -> ended u (map fst lp) (map fst post) ->
  at_state pre (ls ++ ld ++ lp ++ post) s -> Forall piece_ok (ls ++ ld ++ lp) ->
  exists new, best u reUrl s (move s (ls ++ ld ++ lp) post new) /\ url_caps (mkMatch (text_of (ls ++ ld ++ lp)) new) ls ld lp /\
    MatchIsUrl (mkMatch (text_of (ls ++ ld ++ lp)) new) = true /\ ls ++ ld ++ lp <> [].
Proof.
  intros (P & U) En H OK. rewrite !Forall_app in OK. destruct OK as (Os & Od & Op).
  assert (BP : forall pre2 s2, at_state pre2 (lp ++ post) s2 -> best u (RAlt (RGroup 5 pathRe) REmpty) s2 (move s2 lp post [(5, text_of lp)])).
  { intros pre2 s2 H2. apply best_left. apply best_group with pre2; [exact H2|]. destruct P as (segs & Fs & Ep).
    apply path_best with segs; [|exact Fs| |exact Ep|apply H2].
    - destruct post as [|q post]; [exact I|]. cbn [map ended] in En. intros Z. apply (proj1 (proj2 En)). rewrite Z. cbn. auto.
    - intros Ns. destruct post as [|q post]; [exact I|]. cbn [map ended] in En. cbn [pends]. destruct En as (E1 & E2 & E3). split; [exact E1|].
      assert (E4 : ~ In (fst q) [64; 44; 126; 37]%N). { apply E3. rewrite Ep. destruct segs; [contradiction|discriminate]. }
      cbn [In] in *. tauto. }
  assert (BD : forall cs t pre1 s1, domain u cs t (map fst ld) -> at_state pre1 (ld ++ lp ++ post) s1 -> exists lc lt, ld = lc ++ lt /\ (cs <> [] -> lc <> []) /\ lt <> [] /\
    best u (RAlt (RGroup 3 domainRe) REmpty) s1 (move s1 ld (lp ++ post) [(3, text_of ld); (4, text_of lt)])).
  { intros cs t pre1 s1 (Lc & Fc & T & Ed) H1. apply map_app_inv in Ed. destruct Ed as (lc & lt & -> & Ec & Et). exists lc, lt. split; [reflexivity|]. split.
    - intros N. destruct cs as [|c cs]; [contradiction|]. intros ->. cbn [map concat] in Ec. destruct c; discriminate.
    - split. { intros ->. destruct T as (x & Lx & _ & T). rewrite <- Et in T. destruct T as [T|T]; [rewrite <- T in Lx; cbn in Lx; lia|destruct x; discriminate]. }
      apply best_left. apply best_group with pre1; [exact H1|]. unfold domainRe. rewrite <- app_assoc in H1.
      apply domain_best with t cs pre1; try assumption.
      assert (X : noalnum u (lp ++ post) /\ dends u (lp ++ post)); [|apply X].
      destruct lp as [|q lp]; cbn [app].
      + destruct post as [|q post]; [split; exact I|]. cbn [map ended] in En. cbn [noalnum dends In] in *. tauto.
      + destruct (path_first u _ P) as (qq & Eq); [discriminate|]. cbn [map] in Eq. injection Eq as Eq _. cbn [noalnum dends]. rewrite Eq. unfold alnum, is_letter, is_digit. cbn [In]. lia. }
  assert (BS : schema (map fst ls) -> ((exists x, map fst ls = x ++ [47%N]) \/ forall q, map fst (ld ++ lp ++ post) <> 47%N :: 47%N :: q) -> exists new, Forall (fun x => fst x = 2) new /\
    best u (RAlt (RGroup 1 schemaRe) REmpty) s (move s ls (ld ++ lp ++ post) ((1, text_of ls) :: new))).
  { intros S Q. destruct (schema_best u ls (ld ++ lp ++ post) pre s S H Q) as (new & B & F). exists new. split; [exact F|]. apply best_left. apply best_group with pre; assumption. }
  assert (ALL : forall ns nd, best u (RAlt (RGroup 1 schemaRe) REmpty) s (move s ls (ld ++ lp ++ post) ns) ->
    best u (RAlt (RGroup 3 domainRe) REmpty) (move s ls (ld ++ lp ++ post) ns) (move (move s ls (ld ++ lp ++ post) ns) ld (lp ++ post) nd) ->
    best u reUrl s (move s (ls ++ ld ++ lp) post ((5, text_of lp) :: nd ++ ns))).
  { intros ns nd B1 B2. rewrite reUrl_eq. apply best_seq with (move s ls (ld ++ lp ++ post) ns); [exact B1|].
    apply best_seq with (move (move s ls (ld ++ lp ++ post) ns) ld (lp ++ post) nd); [exact B2|].
    replace (move s (ls ++ ld ++ lp) post ((5, text_of lp) :: nd ++ ns)) with
      (move (move (move s ls (ld ++ lp ++ post) ns) ld (lp ++ post) nd) lp post [(5, text_of lp)]) by (rewrite (move_move s ls ld), move_move, <- app_assoc; reflexivity).
    apply BP with ((pre ++ ls) ++ ld). apply move_at, move_at. exact H. }
  destruct U as [(S & cs & t & D)|[(S & Ed & Np & Q)|(Es & cs & t & Nc & D)]].
  - destruct (domain_starts _ _ _ _ D) as (a & dd & Ea & Aa).
    assert (Q : (exists x, map fst ls = x ++ [47%N]) \/ forall q, map fst (ld ++ lp ++ post) <> 47%N :: 47%N :: q).
    { right. intros q E. rewrite map_app, Ea in E. cbn [app] in E. injection E as E _. apply alnum_not in Aa. apply Aa. rewrite E. cbn. auto 10. }
    destruct (BS S Q) as (new & Fn & B1). destruct (BD cs t (pre ++ ls) _ D (move_at _ _ _ ((1, text_of ls) :: new) _ H)) as (lc & lt & El & _ & Nt & B2).
    exists ((5, text_of lp) :: [(3, text_of ld); (4, text_of lt)] ++ (1, text_of ls) :: new). split; [apply ALL; assumption|].
    assert (Ns : ls <> []) by (intros ->; destruct (schema_first u _ S) as (? & ? & X & _); discriminate).
    assert (Nd : ld <> []) by (intros ->; discriminate). destruct (text_more ls (ld ++ lp) Os Ns) as (X1 & X2 & _).
    split; [repeat split; reflexivity|]. split; [|intros E; apply app_eq_nil in E; tauto].
    assert (Odp : Forall piece_ok (ld ++ lp)) by (apply Forall_app; auto).
    assert (Z : text_of (ls ++ ld ++ lp) <> []) by (rewrite text_app; intros E; apply app_eq_nil in E; tauto).
    assert (Z1 : text_of (ls ++ ld ++ lp) <> text_of ls) by (apply (text_more (ld ++ lp) ls Odp); destruct ld; [congruence|discriminate]).
    assert (Z4 : text_of (ls ++ ld ++ lp) <> text_of lt).
    { intros E. rewrite El in E. rewrite <- app_assoc, text_app in E. apply (f_equal (@length _)) in E. rewrite !text_app, !app_length in E. 
      assert (length (text_of ls) <> 0) by (destruct (text_of ls); [congruence|discriminate]). lia. }
    assert (Z5 : text_of (ls ++ ld ++ lp) <> text_of lp).
    { rewrite app_assoc. apply (text_more (ls ++ ld) lp); [apply Forall_app; auto|destruct ls; [congruence|discriminate]]. }
    unfold MatchIsUrl, group. cbn [whole groups find fst Nat.eqb app].
    rewrite (str_eqb_no _ _ Z), (str_eqb_no _ _ Z1), (str_eqb_no _ _ Z4), (str_eqb_no _ _ X1), andb_false_r, (str_eqb_no _ _ Z5). reflexivity.
  - apply map_eq_nil in Ed. subst ld. cbn [app] in *. 
    assert (Nlp : lp <> []) by (intros ->; apply Np; reflexivity).
    assert (Ns : ls <> []) by (intros ->; destruct (schema_first u _ S) as (? & ? & X & _); discriminate).
    destruct (path_first u _ P Np) as (q0 & Eq).
    assert (Q' : (exists x, map fst ls = x ++ [47%N]) \/ forall q, map fst (lp ++ post) <> 47%N :: 47%N :: q).
    { destruct Q as [Q|Q]; [left; exact Q|]. destruct q0 as [|c q0].
      - right. intros q E. rewrite map_app, Eq in E. cbn [app] in E. injection E as E. destruct post as [|p post]; [discriminate|]. cbn [map] in E. injection E as E _.
        cbn [map ended] in En. rewrite E in En. cbn [In] in En. tauto.
      - right. intros q E. rewrite map_app, Eq in E. cbn [app] in E. injection E as E _. apply (Q q0). rewrite Eq, E. reflexivity. }
    destruct (BS S Q') as (new & Fn & B1).
    exists ((5, text_of lp) :: [] ++ (1, text_of ls) :: new). split.
    + apply ALL; [exact B1|]. apply best_right; [|rewrite move_nil by reflexivity; apply best_empty]. apply never_group.
      apply (dends_never u (pre ++ ls) (lp ++ post)); [|apply move_at; exact H]. destruct lp as [|p lp]; [congruence|]. cbn [map] in Eq. injection Eq as Eq _. cbn [app noalnum]. rewrite Eq.
      unfold alnum, is_letter, is_digit. lia.
    + assert (G3 : forall k, k = 3 \/ k = 4 -> group (mkMatch (text_of (ls ++ lp)) ((5, text_of lp) :: [] ++ (1, text_of ls) :: new)) k = []).
      { intros k K. unfold group. destruct k as [|k]; [lia|]. cbn [groups app]. 
        rewrite <- (app_nil_r new), (app_comm_cons _ _ (1, text_of ls)), (app_comm_cons _ _ (5, text_of lp)). rewrite find_skip; [reflexivity|].
        constructor; [cbn; lia|]. constructor; [cbn; lia|]. eapply Forall_impl; [|exact Fn]. cbn beta. intros a Ha. lia. }
      destruct (text_more ls lp Os Ns) as (X1 & X2 & _). destruct (text_more lp ls Op Nlp) as (_ & _ & X3).
      split; [split; [reflexivity|]; split; [reflexivity|]; split; [apply G3; auto|reflexivity]|]. split; [|intros E; apply app_eq_nil in E; tauto].
      assert (Z : text_of (ls ++ lp) <> []) by (rewrite text_app; intros E; apply app_eq_nil in E; tauto).
      unfold MatchIsUrl. rewrite (G3 3), (G3 4) by auto. unfold group. cbn [whole groups find fst Nat.eqb app].
      rewrite (str_eqb_no _ _ Z), (str_eqb_no _ _ X3), (str_eqb_no _ _ X1), (str_eqb_no _ _ X2), andb_false_r. reflexivity.
  - apply map_eq_nil in Es. subst ls. cbn [app] in *.
    destruct (BD cs t pre s D H) as (lc & lt & El & Nlc & Nt & B2). specialize (Nlc Nc).
    exists ((5, text_of lp) :: [(3, text_of ld); (4, text_of lt)] ++ []). split.
    + apply (ALL [] [(3, text_of ld); (4, text_of lt)]).
      * apply best_right; [|rewrite move_nil by apply H; apply best_empty]. apply never_group. eapply schema_never; [exact H|exact Nc|exact D|apply map_app].
      * rewrite move_nil by apply H. exact B2.
    + split; [repeat split; reflexivity|]. rewrite El in Od. apply Forall_app in Od. destruct Od as [Oc Ot].
      destruct (text_more lc lt Oc Nlc) as (X1 & X2 & _). split; [|intros E; apply app_eq_nil in E; destruct E as [E _]; rewrite E in El; symmetry in El; apply app_eq_nil in El; tauto].
      assert (L1 : length (text_of lc) <> 0) by (destruct (text_of lc); [congruence|discriminate]).
      assert (ET : length (text_of (ld ++ lp)) = length (text_of lc) + length (text_of lt) + length (text_of lp)) by (rewrite El, !text_app, !app_length; reflexivity).
      assert (Z : text_of (ld ++ lp) <> []) by (intros E; rewrite E in ET; cbn in ET; lia).
      assert (Z4 : text_of (ld ++ lp) <> text_of lt) by (intros E; rewrite E in ET; lia).
      assert (Z5 : text_of (ld ++ lp) <> text_of lp) by (intros E; rewrite E in ET; lia).
      assert (Z3 : text_of ld <> text_of lt) by (rewrite El; exact X2).
      unfold MatchIsUrl, group. cbn [whole groups find fst Nat.eqb app].
      rewrite !(str_eqb_no _ _ Z), (str_eqb_no _ _ Z4), (str_eqb_no _ _ Z3), (str_eqb_no _ _ Z5). reflexivity.
Qed.

(** ** All matches *)
Lemma reUrl_loops : loops_ok reUrl = true.
Proof. vm_compute. reflexivity. Qed.
Lemma url_search u pre l pv p : at_state pre l (mkSt pv p l []) ->
  exists mid post new, l = mid ++ post /\ mlist u reUrl pre mid post new /\ search u reUrl pv p l = Some (mkSt pv p l [], move (mkSt pv p l []) mid post new).
Proof.
  intros H. destruct (mt u reUrl Some (mkSt pv p l [])) as [s'|] eqn:E.
  - pose proof (mt_sound _ _ _ _ _ E) as (s1 & M & E1). injection E1 as ->. destruct (msem_mlist _ _ _ _ _ _ H M) as (mid & post & new & El & -> & ML).
    exists mid, post, new. split; [exact El|]. split; [exact ML|]. destruct l; cbn [search]; rewrite E; reflexivity.
  - exfalso. assert (M : mlist u reUrl pre [] l []).
    { rewrite reUrl_eq. exists [], [], [], []. split; [reflexivity|]. split; [reflexivity|]. split; [right; split; reflexivity|].
      exists [], [], [], []. split; [reflexivity|]. split; [reflexivity|]. split; right; split; reflexivity. }
    pose proof (mt_complete u reUrl reUrl_loops _ _ _ E (mlist_msem u reUrl pre [] l [] _ H M)). discriminate.
Qed.
(** Matches starting in [lead] do not reach [tail]. *)
Definition nocross u (pre lead tail : list (rune * str)) : Prop :=
  forall a c mid post new, lead = a ++ c -> c <> [] -> c ++ tail = mid ++ post -> mlist u reUrl (pre ++ a) mid post new -> length mid <= length c.
Lemma app_split {A} (c : list A) : forall tail mid post, c ++ tail = mid ++ post -> length mid <= length c -> exists d, c = mid ++ d /\ post = d ++ tail.
Proof.
  induction c as [|x c IH]; intros tail mid post E Ln; destruct mid as [|y mid]; cbn [length app] in *; try lia.
  - exists []. auto.
  - exists (x :: c). auto.
  - injection E as <- E. destruct (IH _ _ _ E ltac:(lia)) as (d & -> & ->). exists d. auto.
Qed.
Lemma walk u tail n : forall lead pre pv p e fuel, length lead <= n -> at_state pre (lead ++ tail) (mkSt pv p (lead ++ tail) []) -> length (lead ++ tail) < fuel -> nocross u pre lead tail ->
  exists pv' p' e' fuel', at_state (pre ++ lead) tail (mkSt pv' p' tail []) /\ length tail < fuel' /\
    forall m, In m (all_matches fuel' u reUrl pv' p' tail e') -> In m (all_matches fuel u reUrl pv p (lead ++ tail) e).
Proof.
  induction n as [|n IH]; intros lead pre pv p e fuel Ln H Lf NC; (destruct lead as [|[c bs] lead]; [exists pv, p, e, fuel; rewrite app_nil_r; auto|]); [cbn in Ln; lia|].
  destruct fuel as [|fuel]; [lia|]. destruct (url_search u _ _ _ _ H) as (mid & post & new & El & M & S).
  assert (Lm : length mid <= length ((c, bs) :: lead)). { apply (NC [] _ mid post new); [reflexivity|discriminate|exact El|rewrite app_nil_r; exact M]. }
  destruct (app_split _ _ _ _ El Lm) as (d & Ed & Ep). cbn [all_matches]. rewrite S. cbn [move pos prev rest]. destruct mid as [|x mid].
  - rewrite Nat.add_0_r, Nat.eqb_refl. cbn [app]. cbn [app] in H. apply at_step in H.
    destruct (IH lead (pre ++ [(c, bs)]) (Some c) (Datatypes.S p) (Some p) fuel) as (pv' & p' & e' & fuel' & A & B & C); [cbn in Ln; lia|exact H|cbn in Lf; lia| |].
    { intros a c' mid post' new' E N Em Mm. apply (NC ((c, bs) :: a) c' mid post' new'); [rewrite E; reflexivity|exact N|exact Em|]. rewrite <- app_assoc in Mm. exact Mm. }
    exists pv', p', e', fuel'. rewrite <- app_assoc in A. split; [exact A|]. split; [exact B|]. intros m I. apply in_or_app. right. apply C. exact I.
  - replace (p + length (x :: mid) =? p) with false by (cbn; lia).
    destruct (IH d (pre ++ x :: mid) (last_rune (x :: mid)) (p + length (x :: mid)) (Some (p + length (x :: mid))) fuel) as (pv' & p' & e' & fuel' & A & B & C).
    + apply (f_equal (@length _)) in Ed. rewrite app_length in Ed. cbn [length] in *. lia.
    + rewrite El in H. pose proof (move_at pre (x :: mid) post [] _ H) as H'. rewrite Ep in H'. exact H'.
    + apply (f_equal (@length _)) in El. rewrite Ep in El. rewrite (app_length (x :: mid)) in El. cbn [length] in *. lia.
    + intros a c' mid' post' new' E N Em Mm. apply (NC ((x :: mid) ++ a) c' mid' post' new'); [rewrite Ed, E, <- app_assoc; reflexivity|exact N|exact Em|]. rewrite <- app_assoc in Mm. exact Mm.
    + exists pv', p', e', fuel'. rewrite <- app_assoc in A. rewrite Ed. split; [exact A|]. split; [exact B|]. intros m I. apply in_or_app. right. rewrite <- Ep in C. apply C. exact I.
Qed.
(** Characters of matches *)
Definition belongs u (r : rune) : Prop := alnum u r \/ In r [46; 45; 95; 47; 64; 44; 126; 37; 58]%N.
Lemma is_hex_alnum u r : is_hex r -> alnum u r.
Proof. unfold is_hex, alnum, is_letter. intros [H|H]; [right; exact H|left; lia]. Qed.
Lemma segment_belongs u g : segment u g -> Forall (belongs u) g.
Proof.
  intros S. induction S as [|r g Hr S IH|x y g X Y S IH]; [constructor| |].
  - constructor; [|exact IH]. unfold belongs. cbn [In] in *. tauto.
  - constructor; [right; cbn; auto 10|]. constructor; [left; apply is_hex_alnum; exact X|]. constructor; [left; apply is_hex_alnum; exact Y|exact IH].
Qed.
Lemma path_belongs u p : path u p -> Forall (belongs u) p.
Proof.
  intros (segs & F & ->). induction F as [|g segs G F IH]; [constructor|]. cbn [map concat app]. constructor; [right; cbn; auto 10|]. apply Forall_app. split; [|exact IH].
  apply segment_belongs. exact G.
Qed.
Lemma dchar_belongs u r : dchar u r -> belongs u r.
Proof. unfold dchar, belongs. cbn [In]. intuition auto. Qed.
Lemma domain_belongs u cs t d : domain u cs t d -> Forall (belongs u) d.
Proof.
  intros (_ & F & (x & _ & Fx & T) & ->). apply Forall_app. split.
  - induction F as [|c cs C F IH]; [constructor|]. cbn [map concat]. rewrite !Forall_app. apply component_chars in C. split; [split|exact IH].
    + eapply Forall_impl; [|apply C]. apply dchar_belongs.
    + constructor; [right; cbn; auto 10|constructor].
  - assert (Bx : Forall (belongs u) x) by (eapply Forall_impl; [|exact Fx]; intros r Hr; left; apply letter_alnum; exact Hr).
    destruct T as [->| ->]; [exact Bx|]. apply Forall_app. split; [exact Bx|]. constructor; [right; cbn; auto 10|constructor].
Qed.
Lemma schema_belongs u s : schema s -> Forall (belongs u) s.
Proof.
  intros (x & _ & Fx & T). assert (Bx : Forall (belongs u) x) by (eapply Forall_impl; [|exact Fx]; intros r Hr; left; apply latin_alnum; exact Hr).
  destruct T as [->| ->]; apply Forall_app; (split; [exact Bx|]); repeat constructor; right; cbn; auto 10.
Qed.
Lemma match_chars u pre l post new : mlist u reUrl pre l post new -> Forall (belongs u) (map fst l) /\ match map fst l with [] => True | a :: _ => alnum u a \/ a = 47%N end.
Proof.
  intros M. rewrite reUrl_eq in M. seq M ls l2 ns n2 Ms. seq M ld lp nd np Md. rewrite !map_app, !Forall_app.
  assert (P : path u (map fst lp)).
  { destruct M as [(n & M & _)|[-> _]]; [|exists []; split; [constructor|reflexivity]]. apply path_ok in M. apply M. }
  assert (D : map fst ld = [] \/ exists cs t, domain u cs t (map fst ld)).
  { destruct Md as [(n & Md & _)|[-> _]]; [right|left; reflexivity]. apply domain_ok in Md. destruct Md as (a & t & cs & _ & _ & Hx & _). eauto. }
  assert (S : map fst ls = [] \/ schema (map fst ls)).
  { destruct Ms as [(n & Ms & _)|[-> _]]; [right|left; reflexivity]. apply schema_ok in Ms. apply Ms. }
  split; [split; [|split]|].
  - destruct S as [->|S]; [constructor|apply schema_belongs; exact S].
  - destruct D as [->|(cs & t & D)]; [constructor|eapply domain_belongs; exact D].
  - apply path_belongs. exact P.
  - destruct S as [->|S]; [|destruct (schema_first u _ S) as (a & q & -> & A); cbn [app]; auto]. cbn [app].
    destruct D as [->|(cs & t & D)]; [|destruct (domain_starts _ _ _ _ D) as (a & q & -> & A); cbn [app]; auto]. cbn [app].
    destruct (map fst lp) as [|a q] eqn:E; [exact I|]. destruct (path_first u _ P) as (q' & E'); [discriminate|]. injection E' as -> _. auto.
Qed.
Lemma started_nocross u pre lead tail : started u (map fst lead) -> nocross u pre lead tail.
Proof.
  intros (x & y & E & X & Y) a c mid post new El Nc Em M. apply match_chars in M. destruct M as [F1 F2].
  destruct (le_lt_dec (length mid) (length c)) as [Z|Z]; [exact Z|exfalso].
  assert (EM : exists d, mid = c ++ d /\ d <> []).
  { symmetry in Em. destruct (app_split _ _ _ _ Em ltac:(lia)) as (d & -> & _). exists d. split; [reflexivity|]. intros ->. rewrite app_nil_r in Z. lia. }
  destruct EM as (d & -> & Nd). rewrite map_app in F1, F2. apply Forall_app in F1. destruct F1 as [F1 _]. rewrite El, map_app in E.
  (* characters of [c] are either all from [y] or include the last one of [x] *)
  assert (C : (exists c', c' <> [] /\ exists w, y = w ++ c' /\ map fst c = c') \/ exists s, separator u s /\ In s (map fst c)).
  { assert (G : forall (p q r s : list rune), p ++ q = r ++ s -> (exists w, s = w ++ q) \/ (exists w, w <> [] /\ r = p ++ w /\ q = w ++ s)).
    { clear. induction p as [|h p IH]; intros q r s E; cbn [app] in E.
      - destruct r as [|k r]; [left; exists []; symmetry; exact E|]. right. exists (k :: r). split; [discriminate|]. auto.
      - destruct r as [|k r]; cbn [app] in E; [left; exists (h :: p); symmetry; exact E|]. injection E as <- E. destruct (IH _ _ _ E) as [W|(w & A & -> & B)]; [left; exact W|right].
        exists w. auto. }
    destruct (G _ _ _ _ E) as [(w & Ew)|(w & Nw & Ex & Ec)].
    - left. exists (map fst c). split; [intros Z0; apply map_eq_nil in Z0; contradiction|]. eauto.
    - right. destruct X as [->|(x' & s & -> & Sx)]; [destruct (map fst a); [cbn in Ex; congruence|discriminate]|].
      destruct w as [|k w _] using rev_ind; [congruence|]. rewrite app_assoc in Ex. apply app_inj_tail in Ex. destruct Ex as [_ <-]. exists s. split; [exact Sx|]. rewrite Ec.
      apply in_or_app. left. apply in_or_app. right. left. reflexivity. }
  destruct C as [(c' & Nc' & w & -> & Ec)|(s & Sp & Is)].
  - apply Forall_app in Y. destruct Y as [_ Y]. rewrite Ec in F2. destruct c' as [|h c']; [congruence|]. apply Forall_inv in Y. cbn [app] in F2. tauto.
  - rewrite Forall_forall in F1. apply F1 in Is. destruct Sp as [S1 S2]. destruct Is; contradiction.
Qed.

(** ** The match is reported *)
Lemma url_reported u w s d p : word_has u w s d p -> exists m, In m (FindAll u reUrl w) /\ MatchIsUrl m = true /\ url_caps m s d p.
Proof.
  intros (before & after & C & U & St & En). apply characters_unique in C. pose proof (pieces_shape w) as OK. rewrite <- C in OK.
  apply Forall_app in OK. destruct OK as [_ OK].
  assert (OK' : Forall piece_ok (s ++ d ++ p)) by (rewrite !Forall_app in *; tauto).
  unfold FindAll. rewrite <- C.
  destruct (walk u (s ++ d ++ p ++ after) (length before) before [] None 0 None (S (length (before ++ s ++ d ++ p ++ after)))) as (pv & q & e & fuel & A & Lf & Inc);
    [lia|apply at_start|lia|apply started_nocross; exact St|].
  destruct (url_best u s d p after _ _ U En A OK') as (new & B & Cp & V & N).
  exists (mkMatch (text_of (s ++ d ++ p)) new). split; [|split; assumption]. apply Inc.
  destruct fuel as [|fuel]; [lia|]. cbn [all_matches].
  assert (Se : search u reUrl pv q (s ++ d ++ p ++ after) = Some (mkSt pv q (s ++ d ++ p ++ after) [], move (mkSt pv q (s ++ d ++ p ++ after) []) (s ++ d ++ p) after new)).
  { pose proof (B _ Some _ eq_refl) as E. destruct (s ++ d ++ p ++ after) as [|[h hb] l]; cbn [search]; rewrite E; reflexivity. }
  rewrite Se. cbn [move pos]. replace (q + length (s ++ d ++ p) =? q) with false by (destruct (s ++ d ++ p); [congruence|cbn [length]; lia]). cbn [andb negb app].
  left. unfold match_of. cbn [fst snd]. f_equal.
  - replace (s ++ d ++ p ++ after) with ((s ++ d ++ p) ++ after) in * by (rewrite <- !app_assoc; reflexivity). eapply between_move. exact A.
  - cbn [move caps]. apply app_nil_r.
Qed.
