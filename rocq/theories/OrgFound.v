(** Links inside of lines of Org files: what is the preferred match. *)
From Coq Require Import ZifyBool ZifyNat ZifyN.
From Verif Require Import GoBase GoSlice Utf8 Utf8Proofs Utf8Dec Regex RegexParse RegexSpec RegexProofs Pieces RegexLex RegexWords Patterns
  LinkTypes Extract ExtractSpec HeadingProofs SchemeProofs LinkProofs2 BracketProofs TextFound OrgFoundSpec.

(** ** The only way to match *)
Lemma only_empty u s : only u REmpty s s.
Proof. intros A k. reflexivity. Qed.
Lemma only_seq u x y s s1 s2 : only u x s s1 -> only u y s1 s2 -> only u (RSeq x y) s s2.
Proof. intros X Y A k. cbn [mt]. rewrite X. apply Y. Qed.
Lemma only_left u x y s s' : only u x s s' -> never u y s -> only u (RAlt x y) s s'.
Proof. intros X Y A k. cbn [mt]. rewrite X, Y. destruct (k s'); reflexivity. Qed.
Lemma only_right u x y s s' : never u x s -> only u y s s' -> only u (RAlt x y) s s'.
Proof. intros X Y A k. cbn [mt]. rewrite X. apply Y. Qed.
Lemma lit_only u r s p t : rest s = p :: t -> fst p = r -> only u (lit r) s (move s [p] t []).
Proof. intros R E. apply cls_only; [exact R|]. apply single_match. exact E. Qed.
Lemma lit_never u r s : match rest s with [] => True | p :: _ => fst p <> r end -> never u (lit r) s.
Proof.
  intros H. apply cls_never. destruct (rest s) as [|p t]; [exact I|]. destruct (cls_match u (single r) (fst p)) eqn:E; [|reflexivity]. apply single_match in E. contradiction.
Qed.
Lemma seq_never u x y s : never u x s -> never u (RSeq x y) s.
Proof. intros X A k. cbn [mt]. apply X. Qed.

(** Greedy loops *)
Inductive runs u (x y : re) : mstate -> mstate -> Prop :=
| runs_nil s : runs u x y s s
| runs_step s s1 s2 : only u x s s1 -> length (rest s1) < length (rest s) -> never u y s -> runs u x y s1 s2 -> runs u x y s s2.
Lemma star_steps {A} u x (k : mstate -> option A) s : mt u (RStar true x) k s =
  (fix loop (n : nat) (s : mstate) {struct n} : option A := match n with O => k s | S n => orelse (mt u x (loop n) s) (fun _ => k s) end) (length (rest s)) s.
Proof. reflexivity. Qed.
Lemma only_runs u x y s s1 s2 : runs u x y s s1 -> never u x s1 -> only u y s1 s2 -> only u (RSeq (RStar true x) y) s s2.
Proof.
  intros H N O A k. change (mt u (RSeq (RStar true x) y) k s) with (mt u (RStar true x) (mt u y k) s). rewrite star_steps.
  assert (G : forall n, length (rest s) <= n ->
    (fix loop (n : nat) (s : mstate) {struct n} : option A := match n with 0 => mt u y k s | S n => orelse (mt u x (loop n) s) (fun _ => mt u y k s) end) n s = k s2); [|apply G; lia].
  induction H as [s|s s0 s1 B L Ny H IH]; intros n Ln.
  - destruct n as [|n]; [apply O|]. rewrite N. cbn [orelse]. apply O.
  - destruct n as [|n]; [lia|]. rewrite B. rewrite (IH N O n) by lia. rewrite Ny. destruct (k s2); reflexivity.
Qed.
Inductive dead u (x y : re) : mstate -> Prop :=
| dead_stop s : never u x s -> never u y s -> dead u x y s
| dead_step s s1 : only u x s s1 -> length (rest s1) < length (rest s) -> never u y s -> dead u x y s1 -> dead u x y s.
Inductive live u (x y : re) : mstate -> mstate -> Prop :=
| live_here s s1 s2 : only u x s s1 -> length (rest s1) < length (rest s) -> dead u x y s1 -> best u y s s2 -> live u x y s s2
| live_step s s1 s2 : only u x s s1 -> length (rest s1) < length (rest s) -> live u x y s1 s2 -> live u x y s s2.
Lemma best_live u x y s s2 : live u x y s s2 -> best u (RSeq (RStar true x) y) s s2.
Proof.
  intros H A k v E. change (mt u (RSeq (RStar true x) y) k s) with (mt u (RStar true x) (mt u y k) s). rewrite star_steps.
  assert (D : forall s, dead u x y s -> forall n, length (rest s) <= n ->
    (fix loop (n : nat) (s : mstate) {struct n} : option A := match n with 0 => mt u y k s | S n => orelse (mt u x (loop n) s) (fun _ => mt u y k s) end) n s = None).
  { clear. intros s H. induction H as [s Nx Ny|s s1 B L Ny H IH]; intros n Ln.
    - destruct n as [|n]; [apply Ny|]. rewrite Nx. apply Ny.
    - destruct n as [|n]; [lia|]. rewrite B, (IH n) by lia. apply Ny. }
  assert (G : forall n, length (rest s) <= n ->
    (fix loop (n : nat) (s : mstate) {struct n} : option A := match n with 0 => mt u y k s | S n => orelse (mt u x (loop n) s) (fun _ => mt u y k s) end) n s = Some v); [|apply G; lia].
  induction H as [s s1 s2 B L Dd Be|s s1 s2 B L H IH]; intros n Ln; (destruct n as [|n]; [lia|]); rewrite B.
  - rewrite (D _ Dd n) by lia. cbn [orelse]. apply Be. exact E.
  - rewrite (IH E n) by lia. reflexivity.
Qed.
Lemma live_runs u x y z s s1 s2 : runs u x z s s1 -> live u x y s1 s2 -> live u x y s s2.
Proof. intros H L. induction H as [s|s s0 s1 B Ln Ny H IH]; [exact L|]. eapply live_step; eauto. Qed.

(** ** Links without brackets *)
Definition nsC : cls := mkCls true [CRange 93 93; CRange 91 91; CRange 32 32; CRange 9 9; CRange 10 10; CRange 40 40; CRange 41 41; CRange 60 60; CRange 62 62]%N.
Definition npC : cls := mkCls true [CRange 33 47; CRange 58 64; CRange 91 96; CRange 123 126; CRange 32 32; CRange 9 9; CRange 10 10]%N.
Definition inParens (x : re) : re := RSeq (lit 40%N) (RSeq (RStar true x) (lit 41%N)).
Fixpoint gRe (n : nat) : re := match n with O => RCls nsC | S n => RAlt (RCls nsC) (inParens (gRe n)) end.
Definition bRe : re := RAlt (RCls npC) (RAlt (lit 47%N) (inParens (gRe 1))).
Lemma rePl_eq : rePl = RSeq (RSeq (gRe 2) (RStar true (gRe 2))) bRe.
Proof. reflexivity. Qed.
Lemma nsC_iff u r : cls_match u nsC r = true <-> plain_rune r.
Proof. unfold cls_match, nsC, plain_rune, stops. cbn [cneg citems existsb item_match In]. unfold inr. lia. Qed.
Lemma npC_iff u r : cls_match u npC r = true <-> ~ punct r /\ r <> 32%N /\ r <> 9%N /\ r <> 10%N.
Proof. unfold cls_match, npC, punct. cbn [cneg citems existsb item_match]. unfold inr. lia. Qed.
Lemma g_never u n s : match rest s with [] => True | p :: _ => ~ plain_rune (fst p) /\ fst p <> 40%N end -> never u (gRe n) s.
Proof.
  intros H. assert (N : never u (RCls nsC) s).
  { apply cls_never. destruct (rest s) as [|p t]; [exact I|]. destruct (cls_match u nsC (fst p)) eqn:E; [|reflexivity]. apply nsC_iff in E. tauto. }
  destruct n as [|n]; [exact N|]. apply never_alt; [exact N|]. apply seq_never, lit_never. destruct (rest s); tauto.
Qed.
Lemma b_never u s : match rest s with [] => True | p :: _ => (punct (fst p) \/ In (fst p) stops) /\ fst p <> 47%N /\ fst p <> 40%N end -> never u bRe s.
Proof.
  intros H. apply never_alt; [|apply never_alt; [apply lit_never|apply seq_never, lit_never]].
  - apply cls_never. destruct (rest s) as [|p t]; [exact I|]. destruct (cls_match u npC (fst p)) eqn:E; [|reflexivity]. exfalso. apply npC_iff in E. unfold punct, stops in *. cbn [In] in H. lia.
  - destruct (rest s); tauto.
  - destruct (rest s); tauto.
Qed.
Lemma g_char u n s p t : rest s = p :: t -> plain_rune (fst p) -> only u (gRe n) s (move s [p] t []).
Proof.
  intros R P. assert (O : only u (RCls nsC) s (move s [p] t [])) by (apply cls_only; [exact R|apply nsC_iff; exact P]).
  destruct n as [|n]; [exact O|]. apply only_left; [exact O|]. apply seq_never, lit_never. rewrite R. apply P.
Qed.
Lemma plain_40 : ~ plain_rune 40%N. Proof. unfold plain_rune. tauto. Qed.
Lemma plain_41 : ~ plain_rune 41%N. Proof. unfold plain_rune. tauto. Qed.
Definition group_ok u n : Prop := forall (y : list rune) (l : list (rune * str)) s (post : list (rune * str)) (p q : rune * str), nest n y -> map fst l = y -> fst p = 40%N -> fst q = 41%N -> rest s = p :: l ++ q :: post ->
  only u (inParens (gRe n)) s (move s (p :: l ++ [q]) post []).
Lemma nest_runs u n : (match n with O => True | S m => group_ok u m end) -> forall y, nest n y -> forall (l : list (rune * str)) s (post : list (rune * str)), map fst l = y -> rest s = l ++ post ->
  runs u (gRe n) (lit 41%N) s (move s l post []).
Proof.
  intros G y H. induction H as [n|n r x P H IH|n g x Hg IHg H IH]; intros l s post E R.
  - apply map_eq_nil in E. subst l. rewrite (move_nil s post R). constructor.
  - destruct l as [|p l]; [discriminate|]. cbn [map] in E. injection E as E1 E. cbn [app] in R. rewrite <- E1 in P.
    apply runs_step with (move s [p] (l ++ post) []); [apply g_char; assumption|rewrite R; cbn; lia|apply lit_never; rewrite R; apply P|].
    replace (move s (p :: l) post []) with (move (move s [p] (l ++ post) []) l post []) by apply (move_two s [p] l). apply (IH G); [exact E|reflexivity].
  - destruct l as [|p l]; [discriminate|]. cbn [map] in E. injection E as E1 E. apply map_app_inv in E. destruct E as (lg & l2 & -> & Eg & E).
    destruct l2 as [|q l2]; [discriminate|]. cbn [map] in E. injection E as E2 E. cbn [app] in R. rewrite <- app_assoc in R. cbn [app] in R.
    apply runs_step with (move s (p :: lg ++ [q]) (l2 ++ post) []).
    + apply only_right; [apply cls_never; rewrite R; cbn [fst]; rewrite E1; reflexivity|]. apply (G g); assumption.
    + rewrite R. cbn [rest move length]. rewrite !app_length. cbn [length]. rewrite app_length. lia.
    + apply lit_never. rewrite R, E1. discriminate.
    + replace (move s (p :: lg ++ q :: l2) post []) with (move (move s (p :: lg ++ [q]) (l2 ++ post) []) l2 post []).
      2:{ rewrite (move_two s (p :: lg ++ [q]) l2). f_equal. cbn [app]. rewrite <- app_assoc. reflexivity. }
      apply (IH G); [exact E|reflexivity].
Qed.
Lemma groups_ok u n : group_ok u n.
Proof.
  induction n as [|n IH]; intros y l s post p q N E E1 E2 R.
  all: apply only_seq with (move s [p] (l ++ q :: post) []); [apply lit_only; assumption|].
  all: replace (move s (p :: l ++ [q]) post []) with (move (move (move s [p] (l ++ q :: post) []) l (q :: post) []) [q] post [])
    by (rewrite (move_two (move s [p] (l ++ q :: post) []) l [q]); apply (move_two s [p] (l ++ [q]))).
  all: apply only_runs with (move (move s [p] (l ++ q :: post) []) l (q :: post) []).
  all: try (apply lit_only; [reflexivity|exact E2]).
  all: try (apply g_never; cbn [rest move]; rewrite E2; split; [apply plain_41|discriminate]).
  - apply nest_runs with y; [exact I|exact N|exact E|reflexivity].
  - apply nest_runs with y; [exact IH|exact N|exact E|reflexivity].
Qed.
Lemma nest_all u n y l s post : nest n y -> map fst l = y -> rest s = l ++ post -> runs u (gRe n) (lit 41%N) s (move s l post []).
Proof. intros N. apply nest_runs; [|exact N]. destruct n; [exact I|apply groups_ok]. Qed.
Lemma end_dead u post : plain_end (map fst post) -> forall s, rest s = post -> dead u (gRe 2) bRe s.
Proof.
  intros (y & z & E & F & Z) s R. apply map_app_inv in E. destruct E as (ly & lz & -> & Ey & Ez). revert y Ey F s R. induction ly as [|p ly IH]; intros y Ey F s R.
  - cbn [app] in R. apply dead_stop; [apply g_never|apply b_never]; rewrite R; (destruct lz as [|q lz]; [exact I|]); subst z; cbn [map] in Z; unfold plain_rune, punct, stops in *; cbn [In] in *; lia.
  - subst y. inversion F as [|? ? (P & Q & N) F']. subst. cbn [app] in R. apply dead_step with (move s [p] (ly ++ lz) []).
    + apply g_char; assumption.
    + rewrite R. cbn. lia.
    + apply b_never. rewrite R. unfold plain_rune in P. tauto.
    + apply (IH _ eq_refl); [exact F'|reflexivity].
Qed.
Lemma plain_best u (l post : list (rune * str)) s : plain_text (map fst l) -> plain_end (map fst post) -> rest s = l ++ post -> best u rePl s (move s l post []).
Proof.
  intros (y & z & E & Ny & N & Z) D R. apply map_app_inv in E. destruct E as (ly & lz & -> & Ey & Ez). rewrite <- app_assoc in R.
  assert (L : live u (gRe 2) bRe (move s ly (lz ++ post) []) (move s (ly ++ lz) post [])).
  { rewrite <- (move_two s ly lz (lz ++ post)). set (s1 := move s ly (lz ++ post) []). assert (R1 : rest s1 = lz ++ post) by reflexivity. clearbody s1.
    apply live_here with (move s1 lz post []); [| |apply end_dead with post; [exact D|reflexivity]|]; (destruct Z as [(r & Er & P & Q)|(g & G & Eg)]).
    - subst z. destruct lz as [|p [|? ?]]; try discriminate. injection Er as Er. rewrite <- Er in *. apply g_char; assumption.
    - subst z. destruct lz as [|p lz]; [discriminate|]. cbn [map] in Eg. injection Eg as E1 Eg. apply map_app_inv in Eg. destruct Eg as (lg & [|q [|? ?]] & -> & E2 & E3); try discriminate.
      cbn [app] in R1. rewrite <- app_assoc in R1. cbn [app] in R1. injection E3 as E3. apply only_right; [apply cls_never; rewrite R1; cbn [fst]; rewrite E1; reflexivity|].
      apply (groups_ok u 1 g); assumption.
    - rewrite R1. subst z. destruct lz; [discriminate|]. cbn [rest move app length]. rewrite app_length. lia.
    - rewrite R1. subst z. destruct lz; [discriminate|]. cbn [rest move app length]. rewrite app_length. lia.
    - subst z. destruct lz as [|p [|? ?]]; try discriminate. injection Er as Er. rewrite <- Er in *. cbn [app] in R1. destruct Q as [Q|Q].
      + apply best_left, only_best, cls_only; [exact R1|]. apply npC_iff. unfold plain_rune, stops in P. cbn [In] in P. intuition congruence.
      + apply best_right; [apply cls_never; rewrite R1, Q; reflexivity|]. apply best_left, only_best, lit_only; assumption.
    - subst z. destruct lz as [|p lz]; [discriminate|]. cbn [map] in Eg. injection Eg as E1 Eg. apply map_app_inv in Eg. destruct Eg as (lg & [|q [|? ?]] & -> & E2 & E3); try discriminate.
      cbn [app] in R1. rewrite <- app_assoc in R1. cbn [app] in R1. injection E3 as E3. apply best_right; [apply cls_never; rewrite R1; cbn [fst]; rewrite E1; reflexivity|].
      apply best_right; [apply lit_never; rewrite R1, E1; discriminate|]. apply only_best, (groups_ok u 1 g); assumption. }
  rewrite rePl_eq. pose proof (nest_all u 2 y ly s (lz ++ post) N Ey R) as H.
  inversion H as [s0 E0 E1|s0 s1 s2 O Ln Nv H1 E0 E1].
  - exfalso. apply (f_equal (fun x => length (rest x))) in E1. cbn [rest move] in E1. rewrite R, !app_length in E1. destruct ly; [subst y; apply Ny; reflexivity|cbn in E1; lia].
  - subst s0 s2. intros A k v K. change (mt u (gRe 2) (mt u (RSeq (RStar true (gRe 2)) bRe) k) s = Some v). rewrite O.
    apply (best_live u (gRe 2) bRe s1 (move s (ly ++ lz) post [])); [|exact K]. eapply live_runs; eassumption.
Qed.

(** ** Schemes *)
Lemma first_colon (x y : list (rune * str)) : Forall (fun p => fst p <> 58%N) x -> Forall (fun p => fst p <> 58%N) y ->
  forall p q t t', fst p = 58%N -> fst q = 58%N -> x ++ p :: t = y ++ q :: t' -> x = y /\ p = q.
Proof.
  revert y. induction x as [|a x IH]; intros [|c y] Fx Fy p q t t' P Q E; cbn [app] in E; injection E as E1 E2.
  - auto.
  - subst. apply Forall_inv in Fy. contradiction.
  - subst. apply Forall_inv in Fx. contradiction.
  - inversion Fx. inversion Fy. subst. destruct (IH y H2 H6 p q t t' P Q E2) as [-> ->]. auto.
Qed.
Definition no_colon (ws : list (list item)) : Prop := Forall (Forall (fun i => irune i <> 58%N)) ws.
Lemma imatch_colon x rs : Forall (fun i => irune i <> 58%N) x -> imatch x rs -> Forall (fun r => r <> 58%N) rs.
Proof. intros F M. induction M as [|i w rs M IH|i w rs O M IH]; [constructor|inversion F; constructor; auto|inversion F; auto]. Qed.
Lemma scheme_only u g ws k pre (l : list (rune * str)) (p : rune * str) (post : list (rune * str)) s x : is_words g ws -> no_colon ws -> loops_ok g = true -> In x ws -> imatch x (map fst l) -> fst p = 58%N ->
  at_state pre (l ++ p :: post) s -> only u (RSeq (RGroup k g) (lit 58%N)) s (move s (l ++ [p]) post [(k, text_of l)]).
Proof.
  intros W NC L Ix Mx P H. assert (FC : forall x' l', In x' ws -> imatch x' (map fst l') -> Forall (fun p : rune * str => fst p <> 58%N) l').
  { intros x' l' I' M'. unfold no_colon in NC. rewrite Forall_forall in NC. pose proof (imatch_colon _ _ (NC _ I') M') as F. apply (proj1 (Forall_map _ _ _)) in F. exact F. }
  apply only_match with pre.
  - cbn [loops_ok]. rewrite L. reflexivity.
  - rewrite <- app_assoc. exact H.
  - exists l, [p], [(k, text_of l)], []. split; [reflexivity|]. split; [reflexivity|]. split.
    + exists []. split; [|reflexivity]. apply W. split; [reflexivity|]. exists x. auto.
    + destruct p as [r bs]. exists r, bs. cbn [fst] in P. split; [reflexivity|]. split; [apply single_match; exact P|reflexivity].
  - intros l' post' new' E (l1 & l2 & n1 & n2 & -> & -> & (n & M1 & ->) & M2). apply W in M1. destruct M1 as (-> & x' & Ix' & Mx').
    apply mlist_single in M2. destruct M2 as [M2 ->]. destruct l2 as [|q [|? ?]]; try discriminate. injection M2 as M2.
    rewrite <- !app_assoc in E. cbn [app] in E. destruct (first_colon _ _ (FC _ _ Ix Mx) (FC _ _ Ix' Mx') _ _ _ _ P M2 E) as [-> ->]. auto.
Qed.

(** ** Links in angle brackets *)
Definition noGtC : cls := mkCls true [CRange 62 62; CRange 10 10]%N.
Definition moreRe : re := match reAng with RSeq _ (RStar _ (RSeq _ x)) => x | _ => REmpty end.
Lemma reAng_eq : reAng = RSeq (RStar true (RCls noGtC)) (RStar true (RSeq (lit 10%N) moreRe)).
Proof. reflexivity. Qed.
Lemma angle_best u (l : list (rune * str)) (p : rune * str) (post : list (rune * str)) s : Forall (fun q : rune * str => fst q <> 62%N /\ fst q <> 10%N) l -> fst p = 62%N -> rest s = l ++ p :: post ->
  best u reAng s (move s l (p :: post) []).
Proof.
  intros F P R. rewrite reAng_eq. apply best_seq with (move s l (p :: post) []).
  - apply best_star, chain_cls; [exact R| |rewrite P; reflexivity]. eapply Forall_impl; [|exact F]. intros q [Q1 Q2]. unfold cls_match, noGtC. cbn [cneg citems existsb item_match]. unfold inr. lia.
  - apply best_star, chain_stop. apply seq_never, lit_never. cbn [rest move]. rewrite P. discriminate.
Qed.

(** ** Links in square brackets *)
Lemma unitRe_eq : exists x y, unitRe = RAlt (RCls (mkCls true [CRange 93 93; CRange 91 91]%N)) (RAlt (RSeq (lit 92%N) x) (RSeq (RSeq (lit 92%N) y) (RCls (mkCls true [CRange 93 93; CRange 91 91]%N)))).
Proof. eexists _, _. vm_compute. reflexivity. Qed.
Definition unitC : cls := mkCls true [CRange 93 93; CRange 91 91]%N.
Lemma unit_never u s (p : rune * str) t : rest s = p :: t -> fst p = 93%N -> never u unitRe s.
Proof.
  intros R P. destruct unitRe_eq as (x & y & ->). apply never_alt; [apply cls_never; rewrite R, P; reflexivity|].
  apply never_alt; repeat apply seq_never; apply lit_never; rewrite R, P; discriminate.
Qed.
Lemma unit_best u s (p : rune * str) t : rest s = p :: t -> fst p <> 93%N -> fst p <> 91%N -> best u unitRe s (move s [p] t []).
Proof.
  intros R P Q. destruct unitRe_eq as (x & y & ->). apply best_left, only_best, cls_only; [exact R|]. unfold cls_match. cbn [cneg citems existsb item_match]. unfold inr. lia.
Qed.
Lemma units_best u (l : list (rune * str)) (p : rune * str) (post : list (rune * str)) s : l <> [] -> Forall (fun q : rune * str => fst q <> 93%N /\ fst q <> 91%N) l -> fst p = 93%N -> rest s = l ++ p :: post ->
  best u (RSeq unitRe (RStar true unitRe)) s (move s l (p :: post) []).
Proof.
  intros N F P R. assert (C : forall l s, Forall (fun q : rune * str => fst q <> 93%N /\ fst q <> 91%N) l -> rest s = l ++ p :: post -> TextFound.chain u unitRe s (move s l (p :: post) [])).
  { clear - P. induction l as [|q l IH]; intros s F R.
    - rewrite move_nil by exact R. apply chain_stop. eapply unit_never; eassumption.
    - inversion F as [|? ? [F1 F2] F']. subst. cbn [app] in R. apply chain_step with (move s [q] (l ++ p :: post) []); [apply unit_best; assumption|rewrite R; cbn; lia|].
      replace (move s (q :: l) (p :: post) []) with (move (move s [q] (l ++ p :: post) []) l (p :: post) []) by apply (move_two s [q] l). apply IH; [exact F'|reflexivity]. }
  destruct l as [|q l]; [congruence|]. inversion F as [|? ? [F1 F2] F']. subst. cbn [app] in R. apply best_seq with (move s [q] (l ++ p :: post) []); [apply unit_best; assumption|].
  replace (move s (q :: l) (p :: post) []) with (move (move s [q] (l ++ p :: post) []) l (p :: post) []) by apply (move_two s [q] l). apply best_star, C; [exact F'|reflexivity].
Qed.
Lemma any_only u s (p : rune * str) t : rest s = p :: t -> only u anyRe s (move s [p] t []).
Proof.
  intros R. change anyRe with (RAlt (RCls (mkCls true [CRange 10 10]%N)) (RCls (mkCls false [CRange 10 10]%N))). destruct (N.eq_dec (fst p) 10) as [E|E].
  - apply only_right; [apply cls_never|apply cls_only; [exact R|]]; [rewrite R|]; rewrite E; reflexivity.
  - apply only_left; [apply cls_only; [exact R|]|apply cls_never; rewrite R]; unfold cls_match; cbn [cneg citems existsb item_match]; unfold inr; lia.
Qed.
Lemma lazy_steps {A} u x (k : mstate -> option A) s : mt u (RStar false x) k s =
  (fix loop (n : nat) (s : mstate) {struct n} : option A := match n with O => k s | S n => orelse (k s) (fun _ => mt u x (loop n) s) end) (length (rest s)) s.
Proof. reflexivity. Qed.
Lemma lazy_best {A} u post (k : mstate -> option A) v : forall l s, rest s = l ++ post ->
  (forall l1 l2, l = l1 ++ l2 -> l2 <> [] -> k (move s l1 (l2 ++ post) []) = None) -> k (move s l post []) = Some v -> mt u (RStar false anyRe) k s = Some v.
Proof.
  intros l s R N K. rewrite lazy_steps. assert (Ln : length l <= length (rest s)) by (rewrite R, app_length; lia). revert Ln. generalize (length (rest s)). intros n.
  revert l s R N K. induction n as [|n IH]; intros l s R N K Ln.
  - destruct l; [|cbn in Ln; lia]. rewrite move_nil in K by exact R. exact K.
  - destruct l as [|p l].
    + rewrite move_nil in K by exact R. rewrite K. reflexivity.
    + assert (K0 : k s = None) by (rewrite <- (move_nil s ((p :: l) ++ post) R); apply (N [] (p :: l)); [reflexivity|discriminate]). rewrite K0. cbn [orelse]. rewrite (any_only u s p (l ++ post) R).
      apply (IH l (move s [p] (l ++ post) [])); [reflexivity| |rewrite (move_two s [p] l); exact K|cbn in Ln; lia].
      intros l1 l2 -> N2. rewrite (move_two s [p] l1). apply (N (p :: l1) l2); [reflexivity|exact N2].
Qed.
Lemma descr_best u (l : list (rune * str)) (p : rune * str) (post pre : list (rune * str)) s : l <> [] -> Forall (fun q : rune * str => fst q <> 93%N) l -> fst p = 93%N -> at_state pre (l ++ p :: post) s ->
  best u (RSeq (RGroup 2 descrRe) (lit 93%N)) s (move s (l ++ [p]) post [(2, text_of l)]).
Proof.
  intros N F P H A k v K. pose proof H as (_ & R & _). destruct l as [|q l]; [congruence|]. cbn [app] in R. inversion F as [|? ? Fq F']. subst.
  rewrite descrRe_eq. cbn [mt].
  set (k1 := fun s1 : mstate => mt u (lit 93%N) k (mkSt (prev s1) (pos s1) (rest s1) ((2, between s s1) :: caps s1))).
  change (mt u anyRe (mt u (RStar false anyRe) k1) s = Some v).
  rewrite (any_only u s q (l ++ p :: post) R).
  assert (K1 : forall l1 l2 bs, q :: l = l1 ++ l2 -> l1 <> [] -> rest bs = l2 ++ p :: post -> bs = move s l1 (l2 ++ p :: post) [] -> 
    k1 bs = mt u (lit 93%N) k (move s l1 (l2 ++ p :: post) [(2, text_of l1)])).
  { intros l1 l2 bs E N1 Rb ->. unfold k1. rewrite (between_move pre l1 (l2 ++ p :: post) [] s); [reflexivity|]. rewrite app_assoc, <- E. exact H. }
  apply (lazy_best u (p :: post) k1 v l (move s [q] (l ++ p :: post) [])); [reflexivity| |].
  - intros l1 l2 E N2. rewrite (move_two s [q] l1). rewrite (K1 (q :: l1) l2 _); [|rewrite E; reflexivity|discriminate|reflexivity|reflexivity].
    apply lit_never. cbn [rest move]. destruct l2 as [|a l2]; [congruence|]. cbn [app]. rewrite E, Forall_app in F'. destruct F' as [_ F']. apply Forall_inv in F'. exact F'.
  - rewrite (move_two s [q] l). rewrite (K1 (q :: l) [] _); [|rewrite app_nil_r; reflexivity|discriminate|reflexivity|reflexivity]. cbn [app].
    change (mt u (lit 93%N) k ?x) with (mt u (lit 93%N) k x). rewrite (lit_only u 93%N _ p post); [|reflexivity|exact P].
    rewrite <- K. f_equal. exact (move_move s (q :: l) [p] post [(2, text_of (q :: l))] []).
Qed.

(** ** Whole links *)
Lemma best_more u x y s s1 s2 : only u x s s1 -> best u y s1 s2 -> best u (RSeq x y) s s2.
Proof. intros O. apply best_seq. apply only_best. exact O. Qed.
Definition tail_caps (ld : list (rune * str)) : list (nat * str) := match ld with [] => [] | _ => [(2, text_of ld)] end.
Definition tail_list (c4 c5 : rune * str) (ld : list (rune * str)) : list (rune * str) := match ld with [] => [] | _ => c4 :: ld ++ [c5] end.
Lemma bracket_left u r (pre : list (rune * str)) (c1 c2 : rune * str) (lt : list (rune * str)) (c3 c4 : rune * str) (ld : list (rune * str)) (c5 c6 : rune * str) (post : list (rune * str)) s : fst c1 = 91%N -> fst c2 = 91%N -> fst c3 = 93%N -> fst c4 = 91%N -> fst c5 = 93%N -> fst c6 = 93%N ->
  lt <> [] -> Forall (fun q : rune * str => fst q <> 93%N /\ fst q <> 91%N) lt -> Forall (fun q : rune * str => fst q <> 93%N) ld ->
  at_state pre ((c1 :: c2 :: lt ++ c3 :: tail_list c4 c5 ld ++ [c6]) ++ post) s ->
  best u (RAlt reBr r) s (move s (c1 :: c2 :: lt ++ c3 :: tail_list c4 c5 ld ++ [c6]) post (tail_caps ld ++ [(1, text_of lt)])).
Proof.
  intros E1 E2 E3 E4 E5 E6 N F D H. apply best_left. rewrite reBr_eq. pose proof H as (_ & R & _). cbn [app] in R. rewrite <- app_assoc in R. cbn [app] in R. rewrite <- app_assoc in R. cbn [app] in R.
  set (tl := tail_list c4 c5 ld) in *.
  apply best_more with (move s [c1] (c2 :: lt ++ c3 :: tl ++ c6 :: post) []); [apply lit_only; assumption|].
  apply best_more with (move s [c1; c2] (lt ++ c3 :: tl ++ c6 :: post) []).
  { rewrite <- (move_two s [c1] [c2] (c2 :: lt ++ c3 :: tl ++ c6 :: post)). apply lit_only; [reflexivity|assumption]. }
  assert (H2 : at_state (pre ++ [c1; c2]) (lt ++ c3 :: tl ++ c6 :: post) (move s [c1; c2] (lt ++ c3 :: tl ++ c6 :: post) [])).
  { apply move_at. cbn [app]. destruct H as (P1 & _ & P3). split; [exact P1|]. split; [exact R|exact P3]. }
  set (s2 := move s [c1; c2] (lt ++ c3 :: tl ++ c6 :: post) []) in *.
  apply best_seq with (move s2 lt (c3 :: tl ++ c6 :: post) [(1, text_of lt)]).
  { apply best_group with (pre ++ [c1; c2]); [exact H2|]. apply units_best; [exact N|exact F|exact E3|apply H2]. }
  pose proof (move_at _ _ _ [(1, text_of lt)] _ H2) as H3. set (s3 := move s2 lt (c3 :: tl ++ c6 :: post) [(1, text_of lt)]) in *.
  apply best_more with (move s3 [c3] (tl ++ c6 :: post) []); [apply lit_only; [apply H3|exact E3]|].
  pose proof (move_at ((pre ++ [c1; c2]) ++ lt) [c3] (tl ++ c6 :: post) [] s3 H3) as H4. set (s4 := move s3 [c3] (tl ++ c6 :: post) []) in *.
  apply best_seq with (move s4 tl (c6 :: post) (tail_caps ld)).
  - unfold tl in *. destruct ld as [|q ld]; cbn [tail_list tail_caps app] in *.
    + rewrite move_nil by reflexivity. apply best_right; [|apply best_empty]. apply seq_never, lit_never. replace (rest s4) with (c6 :: post) by reflexivity. rewrite E6. discriminate.
    + set (ldd := q :: ld) in *. apply best_left.
      assert (X : c4 :: q :: (ld ++ [c5]) ++ c6 :: post = c4 :: ldd ++ c5 :: c6 :: post) by (unfold ldd; cbn [app]; rewrite <- app_assoc; reflexivity). rewrite X in H4.
      apply best_more with (move s4 [c4] (ldd ++ c5 :: c6 :: post) []); [apply lit_only; [apply H4|exact E4]|].
      change (c4 :: q :: ld ++ [c5]) with (c4 :: ldd ++ [c5]). replace (move s4 (c4 :: ldd ++ [c5]) (c6 :: post) [(2, text_of ldd)]) with (move (move s4 [c4] ((ldd ++ [c5]) ++ c6 :: post) []) (ldd ++ [c5]) (c6 :: post) [(2, text_of ldd)])
        by apply (move_move s4 [c4] (ldd ++ [c5])).
      rewrite <- app_assoc. cbn [app].
      eapply descr_best; [discriminate|exact D|exact E5|]. apply (move_at (((pre ++ [c1; c2]) ++ lt) ++ [c3]) [c4] (ldd ++ c5 :: c6 :: post) [] s4). exact H4.
  - replace (move s (c1 :: c2 :: lt ++ c3 :: tl ++ [c6]) post (tail_caps ld ++ [(1, text_of lt)])) with (move (move s4 tl (c6 :: post) (tail_caps ld)) [c6] post []).
    + apply only_best, lit_only; [reflexivity|exact E6].
    + unfold s4, s3, s2. rewrite (move_move s [c1; c2] lt (c3 :: tl ++ c6 :: post) [] [(1, text_of lt)]).
      rewrite (move_move s ([c1; c2] ++ lt) [c3] (tl ++ c6 :: post)). rewrite (move_move s (([c1; c2] ++ lt) ++ [c3]) tl (c6 :: post)).
      rewrite (move_move s ((([c1; c2] ++ lt) ++ [c3]) ++ tl) [c6] post). f_equal.
      repeat (rewrite <- app_assoc; cbn [app]). reflexivity.
Qed.
Lemma bracket_best u g3 g5 (pre : list (rune * str)) (c1 c2 : rune * str) (lt : list (rune * str)) (c3 c4 : rune * str) (ld : list (rune * str)) (c5 c6 : rune * str) (post : list (rune * str)) s : fst c1 = 91%N -> fst c2 = 91%N -> fst c3 = 93%N -> fst c4 = 91%N -> fst c5 = 93%N -> fst c6 = 93%N ->
  lt <> [] -> Forall (fun q : rune * str => fst q <> 93%N /\ fst q <> 91%N) lt -> Forall (fun q : rune * str => fst q <> 93%N) ld ->
  at_state pre ((c1 :: c2 :: lt ++ c3 :: tail_list c4 c5 ld ++ [c6]) ++ post) s ->
  best u (link_re g3 g5) s (move s (c1 :: c2 :: lt ++ c3 :: tail_list c4 c5 ld ++ [c6]) post (tail_caps ld ++ [(1, text_of lt)])).
Proof. apply bracket_left. Qed.
Lemma angle_link_best u ws g3 g5 (pre : list (rune * str)) (c1 : rune * str) (lw : list (rune * str)) (c2 : rune * str) (ly : list (rune * str)) (c3 : rune * str) (post : list (rune * str)) s x : is_words g3 ws -> no_colon ws -> loops_ok g3 = true -> In x ws -> imatch x (map fst lw) ->
  fst c1 = 60%N -> fst c2 = 58%N -> fst c3 = 62%N -> Forall (fun q : rune * str => fst q <> 62%N /\ fst q <> 10%N) ly ->
  at_state pre ((c1 :: lw ++ c2 :: ly ++ [c3]) ++ post) s ->
  best u (link_re g3 g5) s (move s (c1 :: lw ++ c2 :: ly ++ [c3]) post [(4, text_of ly); (3, text_of lw)]).
Proof.
  intros W NC L Ix Mx E1 E2 E3 F H. pose proof H as (P1 & R & P3). cbn [app] in R. rewrite <- app_assoc in R. cbn [app] in R. rewrite <- app_assoc in R. cbn [app] in R.
  apply best_right. { rewrite reBr_eq. apply seq_never, lit_never. rewrite R, E1. discriminate. }
  apply best_left. apply best_more with (move s [c1] (lw ++ c2 :: ly ++ c3 :: post) []); [apply lit_only; assumption|].
  assert (H1 : at_state (pre ++ [c1]) (lw ++ c2 :: ly ++ c3 :: post) (move s [c1] (lw ++ c2 :: ly ++ c3 :: post) [])).
  { apply move_at. split; [exact P1|]. split; [exact R|exact P3]. }
  set (s1 := move s [c1] (lw ++ c2 :: ly ++ c3 :: post) []) in *.
  pose proof (scheme_only u g3 ws 3 _ lw c2 (ly ++ c3 :: post) s1 x W NC L Ix Mx E2 H1) as O.
  assert (H2 : at_state ((pre ++ [c1]) ++ lw ++ [c2]) (ly ++ c3 :: post) (move s1 (lw ++ [c2]) (ly ++ c3 :: post) [(3, text_of lw)])).
  { apply move_at. rewrite <- app_assoc. exact H1. }
  set (s2 := move s1 (lw ++ [c2]) (ly ++ c3 :: post) [(3, text_of lw)]) in *.
  intros A k v K. change (mt u (RSeq (RGroup 3 g3) (lit 58%N)) (mt u (RSeq (RGroup 4 reAng) (lit 62%N)) k) s1 = Some v). rewrite O.
  revert A k v K. change (best u (RSeq (RGroup 4 reAng) (lit 62%N)) s2 (move s (c1 :: lw ++ c2 :: ly ++ [c3]) post [(4, text_of ly); (3, text_of lw)])).
  apply best_seq with (move s2 ly (c3 :: post) [(4, text_of ly)]).
  - eapply best_group; [exact H2|]. apply angle_best; [exact F|exact E3|reflexivity].
  - replace (move s (c1 :: lw ++ c2 :: ly ++ [c3]) post [(4, text_of ly); (3, text_of lw)]) with (move (move s2 ly (c3 :: post) [(4, text_of ly)]) [c3] post []).
    + apply only_best, lit_only; [reflexivity|exact E3].
    + unfold s2, s1. pose proof (move_move s [c1] (lw ++ [c2]) (ly ++ c3 :: post) [] [(3, text_of lw)]) as X. rewrite <- (app_assoc lw) in X. cbn [app] in X. rewrite X. clear X.
      change (c1 :: lw ++ [c2]) with ([c1] ++ lw ++ [c2]).
      rewrite (move_move s ([c1] ++ lw ++ [c2]) ly (c3 :: post)). rewrite (move_move s (([c1] ++ lw ++ [c2]) ++ ly) [c3] post). f_equal.
      repeat (rewrite <- app_assoc; cbn [app]). reflexivity.
Qed.
Lemma plain_link_best u ws g3 g5 (pre lw : list (rune * str)) (c2 : rune * str) (ly post : list (rune * str)) s x : is_words g5 ws -> no_colon ws -> loops_ok g5 = true -> In x ws -> imatch x (map fst lw) ->
  fst c2 = 58%N -> xorb (word_at (last_rune pre)) (word_at (first_rune lw)) = true -> lw <> [] -> match lw with [] => True | p :: _ => fst p <> 91%N /\ fst p <> 60%N end ->
  plain_text (map fst ly) -> plain_end (map fst post) -> at_state pre ((lw ++ c2 :: ly) ++ post) s ->
  best u (link_re g3 g5) s (move s (lw ++ c2 :: ly) post [(6, text_of ly); (5, text_of lw)]).
Proof.
  intros W NC L Ix Mx E2 WB Nw Fw T En H. pose proof H as (P1 & R & P3). rewrite <- app_assoc in R. cbn [app] in R. rewrite <- app_assoc in H. cbn [app] in H.
  destruct lw as [|p lw]; [congruence|]. destruct Fw as [F1 F2].
  apply best_right. { rewrite reBr_eq. apply seq_never, lit_never. rewrite R. exact F1. }
  apply best_right. { apply seq_never, lit_never. rewrite R. exact F2. }
  apply best_more with s.
  { intros A k. cbn [mt]. replace (prev s) with (last_rune pre) by (symmetry; exact P3). unfold next. rewrite R. destruct p as [r bs]. cbn [first_rune app] in *. rewrite WB. reflexivity. }
  pose proof (scheme_only u g5 ws 5 _ (p :: lw) c2 (ly ++ post) s x W NC L Ix Mx E2 H) as O.
  assert (H2 : at_state (pre ++ (p :: lw) ++ [c2]) (ly ++ post) (move s ((p :: lw) ++ [c2]) (ly ++ post) [(5, text_of (p :: lw))])).
  { apply move_at. rewrite <- app_assoc. exact H. }
  set (s2 := move s ((p :: lw) ++ [c2]) (ly ++ post) [(5, text_of (p :: lw))]) in *.
  intros A k v K. change (mt u (RSeq (RGroup 5 g5) (lit 58%N)) (mt u (RGroup 6 rePl) k) s = Some v). rewrite O.
  revert A k v K. change (best u (RGroup 6 rePl) s2 (move s ((p :: lw) ++ c2 :: ly) post [(6, text_of ly); (5, text_of (p :: lw))])).
  replace (move s ((p :: lw) ++ c2 :: ly) post [(6, text_of ly); (5, text_of (p :: lw))]) with (move s2 ly post [(6, text_of ly)]).
  - eapply best_group; [exact H2|]. apply plain_best; [exact T|exact En|reflexivity].
  - unfold s2. rewrite (move_move s ((p :: lw) ++ [c2]) ly post). f_equal. rewrite <- app_assoc. reflexivity.
Qed.
