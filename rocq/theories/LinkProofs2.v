(** Lemmas about links of a line. *)
From Coq Require Import ZifyBool ZifyNat ZifyN.
From Verif Require Import GoBase GoSlice Utf8 Utf8Proofs Utf8Dec Regex RegexParse RegexSpec RegexProofs Pieces RegexLex RegexWords Patterns
  LinkTypes Extract ExtractSpec HeadingProofs SchemeProofs.

(** ** Values of the option *)
Lemma written_no_colon s : scheme_ok s -> has_suffix (written s) (b ":") = false.
Proof.
  intros [_ H]. destruct (has_suffix _ _) eqn:E; [|reflexivity]. exfalso. apply has_suffix_iff in E. destruct E as [t E].
  assert (I : In ":"%char (written s)) by (rewrite E; apply in_or_app; right; left; reflexivity). unfold written in I.
  apply in_flat_map in I. destruct I as (x & Ix & I). rewrite Forall_forall in H. destruct (H _ Ix) as [_ N]. unfold written_char in I.
  apply in_app_or in I. destruct I as [I|I].
  - destruct (existsb _ _); cbn in I; intuition congruence.
  - destruct (optional x); cbn in I; intuition congruence.
Qed.
Lemma drop_colon_ok v s : scheme_ok s -> v = written s \/ v = written s ++ b ":" -> drop_colon v = written s.
Proof.
  intros H [->| ->]; unfold drop_colon.
  - rewrite written_no_colon by exact H. reflexivity.
  - assert (E : has_suffix (written s ++ b ":") (b ":") = true) by (apply has_suffix_iff; eauto). rewrite E, app_length. cbn [length b list_ascii_of_string].
    replace (length (written s) + 1 - 1) with (length (written s)) by lia. rewrite firstn_app, Nat.sub_diag, firstn_all, firstn_O, app_nil_r. reflexivity.
Qed.
Lemma written_ne s : scheme_ok s -> written s <> [].
Proof.
  intros [N _] E. destruct s as [|x s]; [congruence|]. cbn [written flat_map] in E. apply app_eq_nil in E. destruct E as [E _]. unfold written_char in E.
  apply app_eq_nil in E. destruct E as [E _]. destruct (existsb (Ascii.eqb (char x)) special); discriminate.
Qed.
Lemma unique_ok variants ss : Forall scheme_ok ss -> Forall2 (fun v s => v = written s \/ v = written s ++ b ":") variants ss ->
  forall set, exists ss', unique set variants = map written ss' /\ (forall s, In s ss' -> In s ss) /\
    (forall s, In s ss -> In (written s) set \/ In (written s) (map written ss')) /\
    (NoDup (map written ss) -> (forall s, In s ss -> ~ In (written s) set) -> ss' = ss).
Proof.
  intros H F. induction F as [|v s variants ss Hv F IH]; intros set.
  - exists []. split; [reflexivity|]. split; [auto|]. split; [intros s []|auto].
  - inversion H as [|? ? H1 H2]. subst. specialize (IH H2). cbn [unique]. rewrite (drop_colon_ok v s H1 Hv).
    assert (NE : str_eqb (written s) [] = false). { destruct (str_eqb _ _) eqn:E; [|reflexivity]. apply str_eqb_eq in E. apply written_ne in E; [contradiction|exact H1]. }
    rewrite NE. cbn [negb andb]. destruct (existsb (str_eqb (written s)) set) eqn:X; cbn [negb].
    + apply existsb_exists in X. destruct X as (y & I & E). apply str_eqb_eq in E. subst y. destruct (IH set) as (ss' & A & B & C & D).
      exists ss'. split; [exact A|]. split; [intros x Ix; right; auto|]. split; [intros x [<-|Ix]; auto|].
      intros _ Z. exfalso. apply (Z s); [left; reflexivity|exact I].
    + destruct (IH (written s :: set)) as (ss' & A & B & C & D). exists (s :: ss'). cbn [map]. rewrite A. split; [reflexivity|].
      split; [intros x [<-|Ix]; [left; reflexivity|right; auto]|]. split.
      * intros x [<-|Ix]; [right; left; reflexivity|]. destruct (C x Ix) as [[E|I]|I]; [right; left; exact E|auto|right; right; exact I].
      * intros ND Z. inversion ND as [|? ? ND1 ND2]. subst. f_equal. apply D; [exact ND2|]. intros x Ix [E|I].
        -- apply ND1. rewrite E. apply in_map. exact Ix.
        -- apply (Z x); [right; exact Ix|exact I].
Qed.

(** Everything about compiled patterns *)
Lemma UpdateRe_ok variants ss : variants_of variants ss -> ss <> [] ->
  exists c ss' g3 g5, UpdateRe variants = Some c /\ (forall s, In s ss' -> In s ss) /\ ss' <> [] /\ Forall scheme_ok ss' /\
    (NoDup (map written ss) -> ss' = ss) /\
    reLink c = link_re g3 g5 /\ is_words g3 (map (map item_of) ss') /\ is_words g5 (map (map item_of) ss') /\
    compile (MakeReScheme (join (map written ss'))) = Some (reScheme c).
Proof.
  intros [H F] NE. destruct (unique_ok _ _ H F []) as (ss' & U & I1 & I2 & ND).
  assert (H' : Forall scheme_ok ss'). { apply Forall_forall. intros s Is. rewrite Forall_forall in H. auto. }
  assert (NE' : ss' <> []). { destruct ss as [|s ss]; [congruence|]. destruct (I2 s (or_introl eq_refl)) as [[]|I]. intros ->. destruct I. }
  destruct (link_compile ss' H' NE') as (g3 & g5 & CL & W3 & W5). destruct (scheme_compile ss' H' NE') as (r & CS & _).
  exists (mkSchemeRe r (link_re g3 g5)), ss', g3, g5. split.
  - unfold UpdateRe, MakeSchemeReStr. rewrite U. destruct (join (map written ss')) as [|x y] eqn:J.
    + exfalso. destruct ss' as [|s ss']; [congruence|]. inversion H' as [|? ? H1 _]. subst. apply written_ne in H1. cbn [map join] in J.
      destruct (map written ss'); [contradiction|]. apply app_eq_nil in J. destruct J. contradiction.
    + unfold makeRe. rewrite CS, CL. reflexivity.
  - cbn [reLink reScheme]. auto 12.
Qed.

(** ** Words as texts *)
Lemma imatch_word s l : Forall (fun x => (N_of_ascii (char x) < 128)%N) s -> Forall piece_ok l -> imatch (map item_of s) (map fst l) -> word s (text_of l).
Proof.
  intros A. revert l. induction A as [|x s A A' IH]; intros l H M; cbn [map] in M.
  - inversion M as [E1 E2| |]. symmetry in E2. apply map_eq_nil in E2. subst. constructor.
  - inversion M as [|i w rs M1 E1 E2|i w rs O M1 E1 E2]; subst.
    + destruct l as [|p l]; [discriminate|]. cbn [map] in E2. injection E2 as E2 E3. subst rs. inversion H as [|? ? H1 H2]. subst.
      apply piece_ascii in H1; [|rewrite <- E2; exact A]. rewrite H1, <- E2. change (text_of ((?r, ?t) :: l)) with (t ++ text_of l).
      cbn [irune item_of]. rewrite ascii_N_embedding. constructor. apply IH; assumption.
    + apply word_skip; [exact O|]. apply IH; assumption.
Qed.
Lemma scheme_ascii s : scheme_ok s -> Forall (fun x => (N_of_ascii (char x) < 128)%N) s.
Proof. intros [_ H]. eapply Forall_impl; [|exact H]. cbn. tauto. Qed.
Lemma word_imatch s w : word s w -> imatch (map item_of s) (bytesN w).
Proof. intros H. induction H; [constructor| |constructor; assumption]. cbn [map bytesN]. change (N_of_ascii (char x)) with (irune (item_of x)). constructor. exact IHword. Qed.

Lemma lit_text u r pre mid post new : (r < 128)%N -> Forall piece_ok mid -> mlist u (lit r) pre mid post new -> text_of mid = [ascii_of_N r] /\ new = [].
Proof.
  intros A H M. apply mlist_single in M. destruct M as [M ->]. destruct mid as [|p [|? ?]]; try discriminate. injection M as M. inversion H as [|? ? H1 _]. subst.
  apply piece_ascii in H1; [|exact A]. rewrite H1. split; reflexivity.
Qed.
Lemma app_prefix {A} (x : list A) : forall a y c, x ++ a = y ++ c -> length x <= length y -> exists z, y = x ++ z /\ a = z ++ c.
Proof.
  induction x as [|e x IH]; intros a y c E L; [exists y; auto|]. destruct y as [|f y]; [cbn in L; lia|]. cbn in E, L. injection E as -> E.
  destruct (IH a y c E (proj2 (Nat.succ_le_mono _ _) L)) as (z & -> & ->). exists z. auto.
Qed.
Lemma split_ascii l : forall x c y, Forall piece_ok l -> text_of l = x ++ c :: y -> (N_of_ascii c < 128)%N ->
  exists l1 l2, l = l1 ++ (N_of_ascii c, [c]) :: l2 /\ text_of l1 = x /\ text_of l2 = y.
Proof.
  induction l as [|p l IH]; intros x c y H E A. { destruct x; discriminate. }
  inversion H as [|? ? H1 H2]. subst. change (text_of (p :: l)) with (snd p ++ text_of l) in E.
  destruct H1 as [[B C]|(B & NE & C)].
  - rewrite C in E. destruct x as [|x0 x].
    + cbn [app] in E. injection E as <- <-. exists [], l. split; [|auto]. cbn [app]. f_equal. destruct p as [r s]. cbn [fst snd] in *.
      rewrite C, N_ascii_embedding by lia. reflexivity.
    + injection E as E1 E. destruct (IH x c y H2 E A) as (l1 & l2 & -> & <- & <-). exists (p :: l1), l2. split; [reflexivity|]. split; [|reflexivity].
      change (text_of (p :: l1)) with (snd p ++ text_of l1). rewrite C, E1. reflexivity.
  - destruct (Nat.le_gt_cases (length (snd p)) (length x)) as [L|L].
    + destruct (app_prefix _ _ _ _ E L) as (x' & -> & E'). destruct (IH x' c y H2 E' A) as (l1 & l2 & -> & <- & <-).
      exists (p :: l1), l2. auto.
    + exfalso. assert (I : nth_error (snd p ++ text_of l) (length x) = Some c). { rewrite E, nth_error_app2, Nat.sub_diag by lia. reflexivity. }
      rewrite nth_error_app1 in I by lia. apply nth_error_In in I. rewrite Forall_forall in C. specialize (C _ I). lia.
Qed.

(** ** The target of a bracket link *)
Definition unitRe : re := match reBr with RSeq _ (RSeq _ (RSeq (RGroup _ (RSeq x _)) _)) => x | _ => REmpty end.
Definition escaped (rs : list rune) : Prop := forall x c y, rs = x ++ c :: y -> (c = 91 \/ c = 93)%N -> exists z, x = z ++ [92%N].
Lemma escaped_nil : escaped []. Proof. intros x c y E. destruct x; discriminate. Qed.
Lemma escaped_app x y : escaped x -> escaped y -> escaped (x ++ y).
Proof.
  intros A B p c q E C. destruct (Nat.le_gt_cases (length x) (length p)) as [L|L].
  - destruct (app_prefix _ _ _ _ E L) as (p' & -> & E'). destruct (B p' c q E' C) as (z & ->). exists (x ++ z). apply app_assoc.
  - symmetry in E. destruct (app_prefix _ _ _ _ E (Nat.lt_le_incl _ _ L)) as (z & -> & E'). destruct z as [|e z]; [rewrite app_nil_r in L; lia|].
    injection E' as -> E'. apply (A p e z eq_refl C).
Qed.
Lemma escaped_plain rs : Forall (fun c => c <> 91 /\ c <> 93)%N rs -> escaped rs.
Proof. intros H x c y -> C. apply Forall_app in H. destruct H as [_ H]. inversion H. subst. lia. Qed.
Lemma not_bracket u r : cls_match u (mkCls true [CRange 93%N 93%N; CRange 91%N 91%N]) r = true -> (r <> 91 /\ r <> 93)%N.
Proof. unfold cls_match. cbn [cneg citems existsb item_match]. rewrite xorb_true_l, orb_false_r, negb_true_iff, orb_false_iff, !inr_false. lia. Qed.
Lemma backslashes u pre l post new : iterl (mlist u (lit 92%N)) pre l post new -> Forall (fun c => c = 92%N) (map fst l).
Proof.
  intros M. apply iterl_cls in M. destruct M as [M _]. apply Forall_map. eapply Forall_impl; [|exact M]. intros p. apply single_match.
Qed.
Lemma escaped_last a x : a <> [] -> Forall (fun c => c = 92%N) a -> escaped (a ++ [x]).
Proof.
  intros N F p c q E C. destruct q as [|e q _] using rev_ind.
  - apply app_inj_tail in E. destruct E as [<- _]. destruct (exists_last N) as (z & y & ->). apply Forall_app in F. destruct F as [_ F]. inversion F. subst. eauto.
  - rewrite app_comm_cons, app_assoc in E. apply app_inj_tail in E. destruct E as [-> _]. apply Forall_app in F. destruct F as [_ F]. inversion F. subst. lia.
Qed.
Lemma unit_escaped u pre l post new : mlist u unitRe pre l post new -> escaped (map fst l).
Proof.
  change unitRe with (RAlt (RCls (mkCls true [CRange 93%N 93%N; CRange 91%N 91%N]))
    (RAlt (RSeq (lit 92%N) (RSeq (RStar true (RSeq (lit 92%N) (lit 92%N))) (RCls (mkCls false [CRange 93%N 93%N; CRange 91%N 91%N]))))
          (RSeq (RSeq (lit 92%N) (RStar true (lit 92%N))) (RCls (mkCls true [CRange 93%N 93%N; CRange 91%N 91%N]))))).
  intros [M|[M|M]].
  - destruct M as (x & bs & -> & M & _). apply not_bracket in M. apply escaped_plain. repeat constructor; cbn; lia.
  - destruct M as (l1 & l2 & n1 & n2 & -> & _ & M1 & (l3 & l4 & n3 & n4 & -> & _ & M2 & (x & bs & -> & M3 & _))). apply mlist_single in M1. destruct M1 as [M1 _].
    assert (F : Forall (fun c => c = 92%N) (map fst l3)).
    { clear M1 M3. change (mlist u (RStar true (RSeq (lit 92%N) (lit 92%N)))) with (iterl (mlist u (RSeq (lit 92%N) (lit 92%N)))) in M2.
      induction M2 as [|pr a c po na nc (a1 & a2 & b1 & b2 & -> & _ & Ma & Mb) _ IH]; [constructor|].
      apply mlist_single in Ma, Mb. rewrite !map_app, (proj1 Ma), (proj1 Mb). cbn. auto. }
    rewrite !map_app, M1. cbn [map fst]. rewrite app_assoc. apply escaped_last; [discriminate|]. constructor; auto.
  - destruct M as (l1 & l2 & n1 & n2 & -> & _ & (l3 & l4 & n3 & n4 & -> & _ & M1 & M2) & (x & bs & -> & M3 & _)).
    apply mlist_single in M1. apply backslashes in M2. apply not_bracket in M3. apply escaped_plain. rewrite !map_app, (proj1 M1).
    cbn [app map fst]. constructor; [lia|]. apply Forall_app. split; [|repeat constructor; lia]. eapply Forall_impl; [|exact M2]. cbn. intros; lia.
Qed.

(** ** Characters that are not matched *)
Lemma cls_ascii u v c r : (r < 128)%N -> cls_match u c r = cls_match v c r.
Proof.
  intros H. unfold cls_match. f_equal. induction (citems c) as [|it l IH]; [reflexivity|]. cbn [existsb]. rewrite IH. f_equal.
  destruct it; [reflexivity|]. cbn. unfold letter. replace (r <? 128)%N with true by lia. reflexivity.
Qed.
Definition rejects (r : re) (rs : list rune) : bool :=
  forallb (fun c => forallb (fun x => (x <? 128)%N && negb (cls_match (fun _ => false) c x)) rs) (classes r).
Lemma rejects_ok u r bad pre l post new : rejects r (bytesN bad) = true -> Forall piece_ok l -> mlist u r pre l post new ->
  Forall (fun c => ~ In c bad) (text_of l).
Proof.
  intros R H M. apply mlist_classes in M. apply Forall_forall. intros c I J.
  assert (X : forall k, In k (classes r) -> (N_of_ascii c < 128)%N /\ cls_match (fun _ => false) k (N_of_ascii c) = false).
  { intros k Ik. unfold rejects in R. rewrite forallb_forall in R. specialize (R k Ik). rewrite forallb_forall in R.
    specialize (R (N_of_ascii c)). cbn beta in R. rewrite andb_true_iff, negb_true_iff in R. destruct R as [R1 R2]; [apply in_map; exact J|]. split; [lia|exact R2]. }
  destruct (Forall_forall (fun p => exists k, In k (classes r) /\ cls_match u k (fst p) = true) l) as [F _]. specialize (F M).
  assert (A : (N_of_ascii c < 128)%N).
  { apply in_text in I. destruct I as (p & Ip & _). destruct (F _ Ip) as (k & Ik & _). apply (X k Ik). }
  apply ascii_in_text in I; [|exact H|exact A]. destruct I as (p & Ip & E). destruct (F _ Ip) as (k & Ik & Mk). destruct (X k Ik) as [_ Z].
  rewrite E in Mk. rewrite (cls_ascii u (fun _ => false)) in Mk by exact A. congruence.
Qed.
Lemma text_ne l : Forall piece_ok l -> l <> [] -> text_of l <> [].
Proof.
  intros H N E. destruct l as [|p l]; [congruence|]. change (text_of (p :: l)) with (snd p ++ text_of l) in E. apply app_eq_nil in E. destruct E as [E _].
  inversion H as [|? ? [[_ H1]|(_ & H1 & _)] _]; congruence.
Qed.
Lemma escaped_text l : Forall piece_ok l -> escaped (map fst l) -> forall x c y, text_of l = x ++ c :: y -> In c (b "[]") -> exists z, x = z ++ b "\".
Proof.
  intros H E x c y T I. assert (A : (N_of_ascii c < 128)%N /\ (N_of_ascii c = 91 \/ N_of_ascii c = 93)%N).
  { destruct I as [<-|[<-|[]]]; cbn; lia. }
  destruct (split_ascii l x c y H T (proj1 A)) as (l1 & l2 & -> & <- & <-). rewrite map_app in E. destruct (E _ _ _ eq_refl (proj2 A)) as (z & Ez).
  destruct (map_app_inv fst l1 z [92%N] Ez) as (l3 & l4 & -> & _ & E4). destruct l4 as [|p [|? ?]]; try discriminate. injection E4 as E4.
  exists (text_of l3). rewrite text_app. f_equal. rewrite <- !app_assoc in H. apply Forall_app in H. destruct H as [_ H]. cbn [app] in H. apply Forall_inv in H.
  destruct p as [r s]. cbn [fst] in E4. subst r. apply piece_ascii in H; [|cbn; lia]. cbn [fst] in H. injection H as ->. reflexivity.
Qed.
Lemma units_escaped u pre l post new : iterl (mlist u unitRe) pre l post new -> escaped (map fst l).
Proof.
  intros M. induction M as [|pr a c po na nc Ma _ IH]; [apply escaped_nil|]. rewrite map_app. apply escaped_app; [eapply unit_escaped, Ma|exact IH].
Qed.

(** ** Structure of a match *)
Definition descrRe : re := match reBr with RSeq _ (RSeq _ (RSeq _ (RSeq _ (RSeq (RAlt (RSeq _ (RSeq (RGroup _ x) _)) _) _)))) => x | _ => REmpty end.
Lemma reBr_eq : reBr = RSeq (lit 91%N) (RSeq (lit 91%N) (RSeq (RGroup 1 (RSeq unitRe (RStar true unitRe))) (RSeq (lit 93%N)
   (RSeq (RAlt (RSeq (lit 91%N) (RSeq (RGroup 2 descrRe) (lit 93%N))) REmpty) (lit 93%N))))).
Proof. reflexivity. Qed.

(** Boundaries of words *)
Lemma word_char_byte r : (r < 128)%N -> word_char r = true <-> word_byte (ascii_of_N r).
Proof. intros H. unfold word_char, word_byte. rewrite N_ascii_embedding by lia. rewrite !orb_true_iff, !inr_true, N.eqb_eq. lia. Qed.
Lemma word_char_ascii r : (128 <= r)%N -> word_char r = false.
Proof. intros H. unfold word_char, inr. lia. Qed.
Lemma word_byte_ascii c : word_byte c -> (N_of_ascii c < 128)%N.
Proof. unfold word_byte. lia. Qed.
Lemma piece_word p : piece_ok p -> (forall c x, snd p = c :: x -> (word_char (fst p) = true <-> word_byte c)) /\ (forall c x, snd p = x ++ [c] -> (word_char (fst p) = true <-> word_byte c)).
Proof.
  intros [[A B]|(A & B & C)]; split; intros c x E.
  - rewrite B in E. injection E as <- _. apply word_char_byte. exact A.
  - rewrite B in E. destruct x as [|? [|]]; try discriminate. injection E as <-. apply word_char_byte. exact A.
  - rewrite word_char_ascii by exact A. split; [discriminate|]. intros W. apply word_byte_ascii in W. rewrite E in C. apply Forall_inv in C. lia.
  - rewrite word_char_ascii by exact A. split; [discriminate|]. intros W. apply word_byte_ascii in W. rewrite E in C. apply Forall_app in C. destruct C as [_ C]. apply Forall_inv in C. lia.
Qed.
Lemma first_word l : Forall piece_ok l -> word_at (first_rune l) = true <-> exists c x, text_of l = c :: x /\ word_byte c.
Proof.
  intros H. destruct l as [|[r s] l]. { split; [discriminate|]. intros (c & x & E & _). discriminate. }
  apply Forall_inv in H as H1. destruct (piece_word _ H1) as [W _]. cbn [fst snd] in W. cbn [first_rune word_at]. change (text_of ((r, s) :: l)) with (s ++ text_of l).
  destruct s as [|c s]. { exfalso. destruct H1 as [[_ H1]|(_ & H1 & _)]; cbn in H1; congruence. }
  rewrite (W c s eq_refl). cbn [app]. split; [eauto|]. intros (c' & x & E & Wc). injection E as <- _. exact Wc.
Qed.
Lemma last_word l : Forall piece_ok l -> word_at (last_rune l) = true <-> exists x c, text_of l = x ++ [c] /\ word_byte c.
Proof.
  intros H. destruct l as [|[r s] l _] using rev_ind. { split; [discriminate|]. intros (x & c & E & _). destruct x; discriminate. }
  apply Forall_app in H. destruct H as [_ H]. apply Forall_inv in H. destruct (piece_word _ H) as [_ W]. cbn [fst snd] in W.
  unfold last_rune. rewrite map_app, last_app_ne by discriminate. cbn [map last option_map fst word_at]. rewrite text_app. change (text_of [(r, s)]) with (s ++ []). rewrite app_nil_r.
  destruct s as [|c s _] using rev_ind. { exfalso. destruct H as [[_ H]|(_ & H & _)]; cbn in H; congruence. }
  rewrite (W c s eq_refl), app_assoc. split; [eauto|]. intros (x & c' & E & Wc). apply app_inj_tail in E. destruct E as [_ <-]. exact Wc.
Qed.
Lemma boundary_ok pre mid : Forall piece_ok pre -> Forall piece_ok mid -> xorb (word_at (last_rune pre)) (word_at (first_rune mid)) = true -> boundary (text_of pre) (text_of mid).
Proof.
  intros H1 H2 X. unfold boundary. rewrite <- (last_word _ H1), <- (first_word _ H2). destruct (word_at _), (word_at _); cbn in X; intuition congruence.
Qed.

(** Texts of groups of a match *)
Inductive match_shape (ws : list (list item)) (pre : list piece) : list piece -> rmatch -> Prop :=
| shape_bracket mid g1 tail g2 : mid <> [] -> g1 <> [] -> escaped (map fst g1) ->
    text_of mid = b "[[" ++ text_of g1 ++ b "]" ++ tail ++ b "]" -> ((g2 = [] /\ tail = []) \/ (g2 <> [] /\ tail = b "[" ++ g2 ++ b "]")) ->
    (exists p q, mid = p ++ g1 ++ q) ->
    forall m, group m 1 = text_of g1 -> group m 2 = g2 -> match_shape ws pre mid m
| shape_angle mid g3 g4 x : text_of mid = b "<" ++ text_of g3 ++ b ":" ++ text_of g4 ++ b ">" -> In x ws -> imatch x (map fst g3) ->
    ~ In ">"%char (text_of g4) -> Forall piece_ok g3 ->
    forall m, group m 1 = [] -> group m 3 = text_of g3 -> group m 4 = text_of g4 -> group m 5 = [] -> match_shape ws pre mid m
| shape_plain mid g5 g6 x : text_of mid = text_of g5 ++ b ":" ++ text_of g6 -> In x ws -> imatch x (map fst g5) ->
    Forall (fun c => ~ In c (b "[]<>" ++ blanks)) (text_of g6) -> Forall piece_ok g5 -> text_of g6 <> [] ->
    xorb (word_at (last_rune pre)) (word_at (first_rune mid)) = true ->
    forall m, group m 1 = [] -> group m 3 = [] -> group m 5 = text_of g5 -> group m 6 = text_of g6 -> match_shape ws pre mid m.

Ltac seq M l1 l2 n1 n2 M1 := 
  match type of M with mlist ?u (RSeq ?x ?y) ?pre ?l ?post ?new => 
    change (exists q1 q2 k1 k2, l = q1 ++ q2 /\ new = k2 ++ k1 /\ mlist u x pre q1 (q2 ++ post) k1 /\ mlist u y (pre ++ q1) q2 post k2) in M;
    destruct M as (l1 & l2 & n1 & n2 & -> & -> & M1 & M) end.

Lemma link_shape u ws g3 g5 pre mid post new : is_words g3 ws -> is_words g5 ws -> Forall piece_ok mid ->
  mlist u (link_re g3 g5) pre mid post new -> match_shape ws pre mid (mkMatch (text_of mid) new).
Proof.
  intros W3 W5 H [M|[M|M]].
  - rewrite reBr_eq in M. seq M la l1 na n1 Ma. seq M lb l2 nb n2 Mb. seq M lg l3 ng n3 Mg. seq M lc l4 nc n4 Mc. seq M ly ld nt nd Mt.
    rewrite !Forall_app in H. destruct H as (Ha & Hb & Hg & Hc & Ht & Hd).
    apply lit_text in Ma, Mb, Mc, M; try assumption; try lia. destruct Ma as [Ta ->], Mb as [Tb ->], Mc as [Tc ->], M as [Td ->].
    destruct Mg as (n & Mg & ->).
    assert (NG : n = []) by (eapply mlist_no_groups; [|exact Mg]; vm_compute; reflexivity). subst n.
    assert (EG : escaped (map fst lg)).
    { destruct Mg as (l5 & l6 & n5 & n6 & -> & _ & M5 & M6). rewrite map_app. apply escaped_app; [eapply unit_escaped, M5|]. eapply units_escaped. exact M6. }
    assert (NE : lg <> []) by (eapply mlist_nullable; [|exact Mg]; vm_compute; reflexivity).
    destruct Mt as [Mt|[-> ->]].
    + seq Mt le0 l5 ne n5 Me. seq Mt ls lf ns nf Ms. rewrite !Forall_app in Ht. destruct Ht as (He & Hs & Hf).
      apply lit_text in Me, Mt; try assumption; try lia. destruct Me as [Te ->], Mt as [Tf ->]. destruct Ms as (n & Ms & ->).
      assert (NG : n = []) by (eapply mlist_no_groups; [|exact Ms]; vm_compute; reflexivity). subst n.
      assert (NEs : ls <> []) by (eapply mlist_nullable; [|exact Ms]; vm_compute; reflexivity).
      eapply (shape_bracket ws pre _ lg (b "[" ++ text_of ls ++ b "]") (text_of ls)); try reflexivity; try assumption.
      * intros E. apply app_eq_nil in E. destruct E as [-> _]. discriminate.
      * rewrite !text_app, Ta, Tb, Tc, Td, Te, Tf. cbn [app b list_ascii_of_string]. rewrite <- !app_assoc. reflexivity.
      * right. split; [apply text_ne; assumption|reflexivity].
      * exists (la ++ lb), (lc ++ (le0 ++ ls ++ lf) ++ ld). rewrite <- !app_assoc. reflexivity.
    + eapply (shape_bracket ws pre _ lg [] []); try reflexivity; try assumption.
      * intros E. apply app_eq_nil in E. destruct E as [-> _]. discriminate.
      * rewrite !text_app, Ta, Tb, Tc, Td. reflexivity.
      * left. auto.
      * exists (la ++ lb), (lc ++ [] ++ ld). rewrite <- !app_assoc. reflexivity.
  - seq M la l1 na n1 Ma. seq M lg l2 ng n2 Mg. seq M lb l3 nb n3 Mb. seq M lh ld nh nd Mh. rewrite !Forall_app in H. destruct H as (Ha & Hg & Hb & Hh & Hd).
    apply lit_text in Ma, Mb, M; try assumption; try lia. destruct Ma as [Ta ->], Mb as [Tb ->], M as [Td ->].
    destruct Mg as (n & Mg & ->). apply W3 in Mg. destruct Mg as (-> & x & Ix & Mx). destruct Mh as (n & Mh & ->).
    assert (NG : n = []) by (eapply mlist_no_groups; [|exact Mh]; vm_compute; reflexivity). subst n.
    eapply (shape_angle ws pre _ lg lh x); try reflexivity; try assumption.
    + rewrite !text_app, Ta, Tb, Td. reflexivity.
    + pose proof (rejects_ok u reAng (b ">") _ lh _ _ ltac:(vm_compute; reflexivity) Hh Mh) as F. rewrite Forall_forall in F. intros I. apply F in I. apply I. left. reflexivity.
  - seq M la l1 na n1 Ma. seq M lg l2 ng n2 Mg. seq M lb lh nb nh Mb. rewrite !Forall_app in H. destruct H as (Ha & Hg & Hb & Hh).
    destruct Ma as (-> & WB & ->). apply lit_text in Mb; try assumption; try lia. destruct Mb as [Tb ->].
    destruct Mg as (n & Mg & ->). apply W5 in Mg. destruct Mg as (-> & x & Ix & Mx). destruct M as (n & Mh & ->).
    assert (NG : n = []) by (eapply mlist_no_groups; [|exact Mh]; vm_compute; reflexivity). subst n.
    eapply (shape_plain ws pre _ lg lh x); try reflexivity; try assumption.
    + rewrite !text_app, Tb. reflexivity.
    + eapply rejects_ok; [|exact Hh|exact Mh]. vm_compute. reflexivity.
    + apply text_ne; [exact Hh|]. eapply mlist_nullable; [|exact Mh]. vm_compute. reflexivity.
    + cbn [app] in WB |- *. destruct lb as [|pb lb]; [discriminate|]. destruct lg as [|pg lg]; exact WB.
Qed.

(** ** Links *)
Lemma link_cases variants ss c u m line : variants_of variants ss -> UpdateRe variants = Some c -> In m (FindAll u (reLink c) line) ->
  forall l, OrgLinkMatchIsUrl u c m = Some l ->
  (bracket_link line l /\ MatchString u (reScheme c) (URL l) = true) \/ angle_link ss line l \/ plain_link ss line l.
Proof.
  intros V U I l E. destruct ss as [|s0 ss0] eqn:Ess.
  { destruct V as [_ V]. inversion V. subst. discriminate. }
  rewrite <- Ess in *. assert (NE : ss <> []) by (rewrite Ess; discriminate). clear Ess s0 ss0.
  destruct (UpdateRe_ok _ _ V NE) as (c' & ss' & g3 & g5 & U' & Inc & _ & OK & _ & RL & W3 & W5 & _). rewrite U in U'. injection U' as <-.
  apply FindAll_in in I. destruct I as (pre & mid & post & new & EP & M & ->). rewrite RL in M.
  pose proof (pieces_shape line) as H. rewrite EP, !Forall_app in H. destruct H as (H0 & H & _).
  pose proof (pieces_part_text _ _ _ _ EP) as TL. pose proof (link_shape _ _ _ _ _ _ _ _ W3 W5 H M) as S.
  assert (WORD : forall x g, In x (map (map item_of) ss') -> imatch x (map fst g) -> Forall piece_ok g -> text_of g <> [] -> with_scheme ss (text_of g)).
  { intros x g Ix Mx Hg Ng. apply in_map_iff in Ix. destruct Ix as (s & <- & Is). split; [exact Ng|]. exists s. split; [auto|].
    apply imatch_word; try assumption. apply scheme_ascii. rewrite Forall_forall in OK. auto. }
  unfold OrgLinkMatchIsUrl in E. inversion S as [md g1 tail g2 NM NG ESC T D (p & q & SP) mm G1 G2 E1 E2|md g3' g4 x T Ix Mx F Hg mm G1 G3 G4 G5 E1 E2|md g5' g6 x T Ix Mx F Hg N6 WB mm G1 G3 G5 G6 E1 E2]; subst md mm.
  - rewrite G1, G2 in E. assert (Hg : Forall piece_ok g1). { rewrite SP, !Forall_app in H. apply H. } pose proof (text_ne _ Hg NG) as N1.
    destruct (text_of g1) as [|c1 t1] eqn:T1; [congruence|]. rewrite <- T1 in *. destruct (MatchString _ _ _) eqn:MS; [|discriminate]. injection E as <-. cbn [URL].
    left. split; [|exact MS]. split; [|split].
    + exists (text_of pre), tail, (text_of post). split; [|exact D]. rewrite TL, T. cbn [URL]. rewrite <- !app_assoc. reflexivity.
    + exact N1.
    + cbn [URL]. apply escaped_text; assumption.
  - rewrite G1, G3, G4, G5 in E. destruct (text_of g3') as [|c3 t3] eqn:T3; [discriminate|]. rewrite <- T3 in *. injection E as <-. right. left.
    exists (text_of pre), (text_of g3'), (text_of g4), (text_of post). cbn [URL Description]. split; [|split; [reflexivity|split; [|auto]]].
    + rewrite TL, T. rewrite <- !app_assoc. reflexivity.
    + eapply WORD; try eassumption. rewrite T3. discriminate.
  - rewrite G1, G3, G5, G6 in E. destruct (text_of g5') as [|c3 t3] eqn:T3; [discriminate|]. rewrite <- T3 in *. injection E as <-. right. right.
    exists (text_of pre), (text_of g5'), (text_of g6), (text_of post). cbn [URL Description]. split; [|split; [reflexivity|split; [|split; [|auto]]]].
    3:{ change (":"%char :: text_of g6) with (b ":" ++ text_of g6). rewrite <- T. apply boundary_ok; try assumption. }
    + rewrite TL, T. reflexivity.
    + eapply WORD; try eassumption. rewrite T3. discriminate.
Qed.
