(** Links inside of lines that are found by their prefixes: regular expressions. *)
From Coq Require Import ZifyBool ZifyNat ZifyN.
From Verif Require Import GoBase GoSlice Utf8 Utf8Proofs Utf8Dec Regex RegexParse RegexSpec RegexProofs Pieces RegexLex RegexWords Patterns
  LinkTypes Extract ExtractSpec HeadingProofs SchemeProofs LinkProofs2 BracketProofs TextFound SetSpec SetProofs SetCompile SetMain OrgFoundSpec OrgFound OrgFoundMain SetFoundSpec.
From Verif Require Scanner.
Local Notation newline := Scanner.newline (only parsing).

(** ** Alternatives for prefixes *)
Lemma best_prefix u g qs X pre all s s' : prefix_re g qs -> loops_ok g = true -> at_state pre all s ->
  (exists l tl q, all = l ++ tl /\ In q qs /\ map fst l = runes_of q /\ best u X (move s l tl []) s') ->
  (forall l tl q, all = l ++ tl -> In q qs -> map fst l = runes_of q -> best u X (move s l tl []) s' \/ never u X (move s l tl [])) ->
  best u (RSeq g X) s s'.
Proof.
  intros P L H (l & tl & q & El & Iq & Rq & B) U A k v K. change (mt u g (mt u X k) s = Some v). destruct (mt u g (mt u X k) s) as [v'|] eqn:E.
  - apply mt_sound in E. destruct E as (s1 & M & E). destruct (msem_mlist _ _ _ _ _ _ H M) as (l' & tl' & new & El' & -> & M'). apply P in M'. destruct M' as (-> & q' & Iq' & Rq').
    destruct (U l' tl' q' El' Iq' Rq') as [B'|N']; [rewrite (B' A k v K) in E; congruence|rewrite N' in E; discriminate].
  - exfalso. assert (M : mlist u g pre l tl []) by (apply P; eauto). rewrite El in H. pose proof (mlist_msem _ _ _ _ _ _ _ H M) as M1.
    pose proof (mt_complete u g L _ _ _ E M1) as X1. cbv beta in X1. rewrite (B A k v K) in X1. discriminate.
Qed.

(** ** Text after a prefix *)
Lemma dead_star {A} u x y s (k : mstate -> option A) : dead u x y s -> mt u (RStar true x) (mt u y k) s = None.
Proof.
  intros H. rewrite star_steps. assert (D : forall n, length (rest s) <= n ->
    (fix loop (n : nat) (s : mstate) {struct n} : option A := match n with 0 => mt u y k s | S n => orelse (mt u x (loop n) s) (fun _ => mt u y k s) end) n s = None); [|apply D; lia].
  induction H as [s Nx Ny|s s1 B L Ny H IH]; intros n Ln.
  - destruct n as [|n]; [apply Ny|]. rewrite Nx. apply Ny.
  - destruct n as [|n]; [lia|]. rewrite B, IH by lia. apply Ny.
Qed.
Lemma dead_never u x y s : dead u x y s -> never u (RSeq (RSeq x (RStar true x)) y) s.
Proof.
  intros H A k. change (mt u x (mt u (RStar true x) (mt u y k)) s = None). destruct H as [s Nx Ny|s s1 B L Ny H]; [apply Nx|]. rewrite B. apply dead_star. exact H.
Qed.
Lemma end_never u s : plain_end (map fst (rest s)) -> never u rePl s.
Proof. intros E. rewrite rePl_eq. apply dead_never. eapply end_dead; [exact E|reflexivity]. Qed.
Definition last_unit (z : list rune) : Prop := (exists r, z = [r] /\ plain_rune r) \/ (exists g, nest 1 g /\ z = 40%N :: g ++ [41%N]).
Lemma unit_only u (l post : list (rune * str)) s : last_unit (map fst l) -> rest s = l ++ post -> only u (gRe 2) s (move s l post []).
Proof.
  intros [(r & E & P)|(g & G & E)] R.
  - destruct l as [|p [|? ?]]; try discriminate. injection E as E. rewrite <- E in *. apply g_char; assumption.
  - destruct l as [|p l]; [discriminate|]. cbn [map] in E. injection E as E1 E. apply map_app_inv in E. destruct E as (lg & [|q [|? ?]] & -> & E2 & E3); try discriminate.
    cbn [app] in R. rewrite <- app_assoc in R. cbn [app] in R. injection E3 as E3. apply only_right; [apply cls_never; rewrite R; rewrite E1; reflexivity|].
    apply (groups_ok u 1 g); assumption.
Qed.
Lemma short_never u (l post : list (rune * str)) s : last_unit (map fst l) -> plain_end (map fst post) -> rest s = l ++ post -> never u rePl s.
Proof.
  intros U E R. rewrite rePl_eq. intros A k. change (mt u (gRe 2) (mt u (RStar true (gRe 2)) (mt u bRe k)) s = None).
  rewrite (unit_only u l post s U R). apply dead_star. eapply end_dead; [exact E|reflexivity].
Qed.
Lemma nest_more n m y : Forall plain_rune m -> nest n y -> nest n (m ++ y).
Proof. intros F H. induction F as [|r m P F IH]; [exact H|]. apply nest_char; assumption. Qed.
Lemma nest_less n m y : Forall plain_rune m -> nest n (m ++ y) -> nest n y.
Proof.
  intros F. induction F as [|r m P F IH]; intros H; [exact H|]. cbn [app] in H. apply IH. inversion H as [|? ? ? P' H'|? ? ? ? ? E]; subst; [exact H'|].
  exfalso. destruct P as (_ & P & _). apply P. reflexivity.
Qed.
Lemma plain_more m y : Forall plain_rune m -> plain_text y -> plain_text (m ++ y).
Proof.
  intros F (a & z & -> & N & H & Z). exists (m ++ a), z. split; [apply app_assoc|]. split; [destruct m; [exact N|discriminate]|]. split; [apply nest_more; assumption|exact Z].
Qed.
(** A part of a plain text is dropped. *)
Lemma plain_less m y : Forall plain_rune m -> plain_text (m ++ y) -> plain_text y \/ last_unit y \/ y = [].
Proof.
  intros F (a & z & E & N & H & Z). symmetry in E. destruct (app_cases _ _ _ _ E) as [(w & ->)|(w & Nw & -> & ->)].
  - rewrite app_assoc in E. apply app_inv_tail in E. subst a. apply nest_less in H; [|exact F]. destruct w as [|r w].
    + right. left. cbn [app]. destruct Z as [(r & -> & P & _)|Z]; [left; eauto|right; exact Z].
    + left. exists (r :: w), z. split; [reflexivity|]. split; [discriminate|]. auto.
  - apply Forall_app in F. destruct F as [_ F]. destruct w as [|r w]; [congruence|]. right. right. destruct Z as [(r' & Z & _)|(g & _ & Z)]; injection Z as E1 E2.
    + apply app_eq_nil in E2. apply E2.
    + exfalso. apply Forall_inv in F. subst r. destruct F as (_ & F & _). apply F. reflexivity.
Qed.
Lemma end_less m y : Forall plain_rune m -> plain_end (m ++ y) -> plain_end y.
Proof.
  intros F (a & z & E & H & Z). symmetry in E. destruct (app_cases _ _ _ _ E) as [(w & ->)|(w & Nw & -> & ->)].
  - rewrite app_assoc in E. apply app_inv_tail in E. subst a. apply Forall_app in H. exists w, z. split; [reflexivity|]. split; [apply H|exact Z].
  - exfalso. destruct w as [|r w]; [congruence|]. cbn [app] in Z. apply Forall_app in F. destruct F as [_ F]. apply Forall_inv in F. destruct F as (F1 & _ & F3). tauto.
Qed.
(** Some prefix is followed by [ly], any other one does not change the text that is found. *)
Lemma prefixes_best u g qs (lq ly post : list (rune * str)) pre s q : prefix_re g qs -> loops_ok g = true -> (forall q, In q qs -> Forall plain_rune (runes_of q)) ->
  In q qs -> map fst lq = runes_of q -> plain_text (map fst ly) -> plain_end (map fst post) -> at_state pre ((lq ++ ly) ++ post) s ->
  best u (RSeq g rePl) s (move s (lq ++ ly) post []).
Proof.
  intros P L SI Iq Rq T E H. pose proof H as (_ & R & _).
  assert (G : forall l tl, (lq ++ ly) ++ post = l ++ tl -> Forall plain_rune (map fst l) -> best u rePl (move s l tl []) (move s (lq ++ ly) post []) \/ never u rePl (move s l tl [])).
  { intros l tl El Fl. rewrite <- app_assoc in El.
    assert (X : forall l2, lq ++ ly = l ++ l2 -> tl = l2 ++ post -> plain_text (map fst l2) -> best u rePl (move s l tl []) (move s (lq ++ ly) post [])).
    { intros l2 E1 E2 T2. rewrite E1, <- (move_two s l l2 tl). apply plain_best; [exact T2|exact E|exact E2]. }
    destruct (app_cases _ _ _ _ El) as [(m & ->)|(m & Nm & -> & Em)].
    - rewrite (app_assoc l m) in El. apply app_inv_tail in El. subst lq. left. apply (X (m ++ ly)); [symmetry; apply app_assoc|apply app_assoc|]. rewrite map_app. apply plain_more; [|exact T].
      specialize (SI _ Iq). rewrite <- Rq, map_app in SI. apply Forall_app in SI. apply SI.
    - rewrite map_app in Fl. apply Forall_app in Fl. destruct Fl as [_ Fm]. destruct (app_cases _ _ _ _ Em) as [(w & ->)|(w & Nw & -> & ->)].
      + rewrite (app_assoc m w) in Em. apply app_inv_tail in Em. subst ly. rewrite map_app in T. destruct (plain_less _ _ Fm T) as [T'|[T'|T']].
        * left. apply (X w); [apply app_assoc|reflexivity|exact T'].
        * right. eapply short_never; [exact T'|exact E|reflexivity].
        * right. apply map_eq_nil in T'. subst w. apply end_never. exact E.
      + right. rewrite map_app in Fm. apply Forall_app in Fm. destruct Fm as [_ Fw]. apply end_never. cbn [move rest]. rewrite map_app in E. eapply end_less; eassumption. }
  eapply best_prefix; [exact P|exact L|exact H| |].
  - exists lq, (ly ++ post), q. split; [symmetry; apply app_assoc|]. split; [exact Iq|]. split; [exact Rq|]. rewrite <- (move_two s lq ly (ly ++ post)). apply plain_best; [exact T|exact E|reflexivity].
  - intros l tl q' El Iq' Rq'. apply G; [exact El|]. rewrite Rq'. apply SI. exact Iq'.
Qed.
Lemma set_plain_best u n g qs (lq ly post : list (rune * str)) pre s q : prefix_re g qs -> loops_ok g = true -> (forall q, In q qs -> Forall plain_rune (runes_of q)) ->
  In q qs -> map fst lq = runes_of q -> xorb (word_at (last_rune pre)) (word_at (first_rune (lq ++ ly))) = true -> lq ++ ly <> [] ->
  plain_text (map fst ly) -> plain_end (map fst post) -> at_state pre ((lq ++ ly) ++ post) s ->
  best u (set_plain_re n g) s (move s (lq ++ ly) post [(n, text_of (lq ++ ly))]).
Proof.
  intros P L SI Iq Rq WB NE T E H. apply best_more with s.
  { intros A k. cbn [mt]. pose proof H as (P1 & R & P3). replace (prev s) with (last_rune pre) by (symmetry; exact P3). unfold next. rewrite R.
    destruct (lq ++ ly) as [|[r bs] t]; [congruence|]. cbn [first_rune app] in *. rewrite WB. reflexivity. }
  eapply best_group; [exact H|]. eapply prefixes_best; eassumption.
Qed.
Lemma set_angle_best u n g qs (c1 : rune * str) (lq ly : list (rune * str)) (c2 : rune * str) (post : list (rune * str)) pre s q : prefix_re g qs -> loops_ok g = true ->
  (forall q, In q qs -> Forall plain_rune (runes_of q)) -> In q qs -> map fst lq = runes_of q -> fst c1 = 60%N -> fst c2 = 62%N ->
  Forall (fun q : rune * str => fst q <> 62%N /\ fst q <> 10%N) ly -> at_state pre ((c1 :: (lq ++ ly) ++ [c2]) ++ post) s ->
  best u (set_angle_re n g) s (move s (c1 :: (lq ++ ly) ++ [c2]) post [(n, text_of (lq ++ ly))]).
Proof.
  intros P L SI Iq Rq E1 E2 F H. pose proof H as (P1 & R & P3). cbn [app] in R. rewrite <- app_assoc in R. cbn [app] in R.
  set (lx := lq ++ ly) in *.
  assert (PN : forall q (l : list (rune * str)), In q qs -> map fst l = runes_of q -> Forall (fun q : rune * str => fst q <> 62%N /\ fst q <> 10%N) l).
  { intros q' l I' R'. specialize (SI _ I'). rewrite <- R' in SI. apply (proj1 (Forall_map _ _ _)) in SI. eapply Forall_impl; [|exact SI]. intros z (Z & _). cbn in Z. split; intros Ez; apply Z; rewrite Ez; auto 10. }
  apply best_more with (move s [c1] (lx ++ c2 :: post) []); [apply lit_only; assumption|].
  assert (H1 : at_state (pre ++ [c1]) (lx ++ c2 :: post) (move s [c1] (lx ++ c2 :: post) [])).
  { apply move_at. split; [exact P1|]. split; [exact R|exact P3]. }
  set (s1 := move s [c1] (lx ++ c2 :: post) []) in *.
  assert (FX : Forall (fun q : rune * str => fst q <> 62%N /\ fst q <> 10%N) lx) by (apply Forall_app; split; [eapply PN; eassumption|exact F]).
  apply best_seq with (move s1 lx (c2 :: post) [(n, text_of lx)]).
  - eapply best_group; [exact H1|]. eapply best_prefix; [exact P|exact L|exact H1| |].
    + exists lq, (ly ++ c2 :: post), q. split; [unfold lx; symmetry; apply app_assoc|]. split; [exact Iq|]. split; [exact Rq|]. unfold lx. rewrite <- (move_two s1 lq ly (ly ++ c2 :: post)).
      apply angle_best; [exact F|exact E2|reflexivity].
    + intros l tl q' El Iq' Rq'. left. destruct (app_cases _ _ _ _ El) as [(m & ->)|(m & Nm & -> & Em)].
      * rewrite (app_assoc l m) in El. apply app_inv_tail in El. rewrite El in *. rewrite <- (move_two s1 l m (m ++ c2 :: post)). apply Forall_app in FX. apply angle_best; [apply FX|exact E2|reflexivity].
      * exfalso. destruct m as [|c m]; [congruence|]. injection Em as <- _. pose proof (PN _ _ Iq' Rq') as FN. apply Forall_app in FN. destruct FN as [_ FN]. apply Forall_inv in FN. tauto.
  - replace (move s (c1 :: lx ++ [c2]) post [(n, text_of lx)]) with (move (move s1 lx (c2 :: post) [(n, text_of lx)]) [c2] post []).
    + apply only_best, lit_only; [reflexivity|exact E2].
    + unfold s1. rewrite (move_move s [c1] lx (c2 :: post) []). rewrite (move_move s ([c1] ++ lx) [c2] post). f_equal.
Qed.
