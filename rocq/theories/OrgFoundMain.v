(** Links inside of lines of Org files: they are found. *)
From Coq Require Import ZifyBool ZifyNat ZifyN.
From Verif Require Import GoBase GoSlice Utf8 Utf8Proofs Utf8Dec Regex RegexParse RegexSpec RegexProofs Pieces RegexLex RegexWords Patterns
  LinkTypes Extract ExtractSpec HeadingProofs SchemeProofs LinkProofs2 BracketProofs TextFound OrgFoundSpec OrgFound.
From Verif Require Scanner.
Local Notation newline := Scanner.newline (only parsing).

(** ** Distinct schemes are written differently *)
Definition no_question (x : str) : Prop := match x with [] => True | c :: _ => c <> "?"%char end.
Lemma written_question s : no_question (written s).
Proof.
  destruct s as [|x s]; [exact I|]. cbn [written flat_map]. unfold written_char. destruct (existsb (Ascii.eqb (char x)) special) eqn:E; cbn; [discriminate|].
  intros H. rewrite H in E. discriminate E.
Qed.
Lemma char_written x y a c : no_question a -> no_question c -> written_char x ++ a = written_char y ++ c -> x = y /\ a = c.
Proof.
  destruct x as [x o], y as [y p]. unfold written_char. cbn [char optional]. intros A C E.
  assert (S : forall z, z = "\"%char -> existsb (Ascii.eqb z) special = true) by (intros z ->; reflexivity).
  assert (Q : forall o p : bool, (if o then b "?" else []) ++ a = (if p then b "?" else []) ++ c -> o = p /\ a = c).
  { clear E. intros [] [] E; cbn in E.
    - injection E as E. auto.
    - exfalso. subst c. apply C. reflexivity.
    - exfalso. subst a. apply A. reflexivity.
    - auto. }
  destruct (existsb (Ascii.eqb x) special) eqn:E1, (existsb (Ascii.eqb y) special) eqn:E2; cbn in E; injection E as E.
  - subst y. match goal with H : _ ++ a = _ ++ c |- _ => apply Q in H; destruct H as [-> ->] end. auto.
  - symmetry in E. apply S in E. congruence.
  - apply S in E. congruence.
  - subst y. match goal with H : _ ++ a = _ ++ c |- _ => apply Q in H; destruct H as [-> ->] end. auto.
Qed.
Lemma written_inj : forall s s', written s = written s' -> s = s'.
Proof.
  assert (N : forall x s, written (x :: s) <> []).
  { intros x s E. cbn [written flat_map] in E. apply app_eq_nil in E. destruct E as [E _]. unfold written_char in E. apply app_eq_nil in E. destruct E as [E _].
    destruct (existsb _ _); discriminate. }
  induction s as [|x s IH]; intros [|y s'] E; [reflexivity|symmetry in E; apply N in E; contradiction|apply N in E; contradiction|].
  cbn [written flat_map] in E. apply char_written in E; [|apply written_question|apply written_question]. destruct E as [-> E]. f_equal. apply IH. exact E.
Qed.
Lemma link_loops g3 g5 : loops_ok (link_re g3 g5) = true -> loops_ok g3 = true /\ loops_ok g5 = true.
Proof.
  unfold link_re. generalize reBr reAng rePl (lit 60%N) (lit 58%N) (lit 62%N). intros r1 r2 r3 r4 r5 r6. cbn [loops_ok].
  destruct (loops_ok g3), (loops_ok g5); rewrite ?andb_false_r, ?andb_false_l; intros H; try (split; reflexivity); exfalso; repeat rewrite andb_false_r in H; discriminate.
Qed.
Lemma UpdateRe_all variants ss c : variants_of variants ss -> UpdateRe variants = Some c ->
  exists ss' g3 g5, (forall s, In s ss' <-> In s ss) /\ ss' <> [] /\ Forall scheme_ok ss' /\ loops_ok g3 = true /\ loops_ok g5 = true /\
    reLink c = link_re g3 g5 /\ loops_ok (link_re g3 g5) = true /\ is_words g3 (map (map item_of) ss') /\ is_words g5 (map (map item_of) ss') /\
    compile (MakeReScheme (join (map written ss'))) = Some (reScheme c).
Proof.
  intros [H F] UR. assert (NE : ss <> []). { intros ->. inversion F. subst. discriminate. }
  destruct (unique_ok _ _ H F []) as (ss' & U & I1 & I2 & ND).
  assert (H' : Forall scheme_ok ss'). { apply Forall_forall. intros s Is. rewrite Forall_forall in H. auto. }
  assert (I3 : forall s, In s ss -> In s ss').
  { intros s Is. destruct (I2 s Is) as [[]|X]. apply in_map_iff in X. destruct X as (s' & E & Is'). apply written_inj in E. subst s'. exact Is'. }
  assert (NE' : ss' <> []). { destruct ss as [|s ss]; [congruence|]. pose proof (I3 s (or_introl eq_refl)) as X. intros ->. destruct X. }
  destruct (link_compile ss' H' NE') as (g3 & g5 & CL & W3 & W5). destruct (scheme_compile ss' H' NE') as (r & CS & _).
  exists ss', g3, g5. assert (LK : loops_ok (link_re g3 g5) = true) by (eapply compile_ok, CL).
  assert (EC : c = mkSchemeRe r (link_re g3 g5)).
  { assert (EM : MakeSchemeReStr variants = join (map written ss')) by (unfold MakeSchemeReStr; rewrite U; reflexivity).
    clear - UR EM CL CS. unfold UpdateRe in UR. rewrite EM in UR. revert UR CL CS. generalize (join (map written ss')). intros j UR CL CS.
    destruct j as [|x y]; [discriminate UR|]. unfold makeRe in UR. rewrite CS, CL in UR. injection UR as <-. reflexivity. }
  rewrite EC. cbn [reLink reScheme]. split; [split; auto|]. split; [exact NE'|]. split; [exact H'|].
  destruct (link_loops _ _ LK) as [L3 L5]. repeat (split; [assumption|]). split; [reflexivity|]. repeat (split; [assumption|]). assumption.
Qed.

(** ** Matches before a link do not disturb it *)
Lemma search_mt u r : forall l pv p s s', search u r pv p l = Some (s, s') -> mt u r Some s = Some s'.
Proof.
  induction l as [|[c bs] t IH]; intros pv p s s' E; cbn [search] in E.
  - destruct (mt u r Some _) as [s1|] eqn:M; [|discriminate]. injection E as <- <-. exact M.
  - destruct (mt u r Some _) as [s1|] eqn:M; [injection E as <- <-; exact M|]. eapply IH. exact E.
Qed.
Definition apart u (r : re) (pre lead tail : list (rune * str)) : Prop :=
  forall a c mid post new, lead = a ++ c -> c <> [] -> c ++ tail = mid ++ post -> mlist u r (pre ++ a) mid post new -> length mid <= length c.
Lemma reach u r (mid post : list (rune * str)) new : loops_ok r = true -> nullable r = false -> mid <> [] ->
  forall n lead pre pv p e fuel, length lead <= n -> at_state pre (lead ++ mid ++ post) (mkSt pv p (lead ++ mid ++ post) []) -> length (lead ++ mid ++ post) < fuel ->
  apart u r pre lead (mid ++ post) -> (forall s, at_state (pre ++ lead) (mid ++ post) s -> best u r s (move s mid post new)) ->
  exists pv' p' e' fuel', at_state (pre ++ lead ++ mid) post (mkSt pv' p' post []) /\ length post < fuel' /\
    In (mkMatch (text_of mid) new) (all_matches fuel u r pv p (lead ++ mid ++ post) e) /\
    forall m, In m (all_matches fuel' u r pv' p' post e') -> In m (all_matches fuel u r pv p (lead ++ mid ++ post) e).
Proof.
  intros LK NU NM. induction n as [n IH] using (well_founded_induction Wf_nat.lt_wf). intros lead pre pv p e fuel Ln H Lf AP B.
  destruct fuel as [|fuel]; [lia|]. cbn [all_matches].
  pose (s0 := mkSt (match lead with [] => pv | _ => last_rune lead end) (p + length lead) (mid ++ post) []).
  assert (A0 : at_state (pre ++ lead) (mid ++ post) s0) by (exact (move_at pre lead (mid ++ post) [] _ H)).
  pose proof (B s0 A0 _ Some _ eq_refl) as M0. apply mt_sound in M0. destruct M0 as (sx & M0 & Ex). injection Ex as ->.
  destruct (search u r pv p (lead ++ mid ++ post)) as [[s1 s2]|] eqn:SE.
  2:{ exfalso. exact (search_complete u r LK _ _ _ _ H SE lead (mid ++ post) s0 _ eq_refl A0 eq_refl M0). }
  pose proof (search_leftmost u r LK _ _ _ _ _ _ H SE lead (mid ++ post) s0 _ eq_refl A0 eq_refl M0) as LM.
  destruct (search_sound u r _ _ _ _ _ _ H SE) as (a & El & A1 & C1 & M1). apply search_mt in SE.
  assert (La : length a <= length lead). { apply (f_equal (@length _)) in El. rewrite !app_length in El. rewrite app_length in LM. lia. }
  destruct (app_split _ _ _ _ El La) as (c & -> & Er).
  destruct c as [|c0 c].
  - rewrite app_nil_r in *. cbn [app] in Er. rewrite Er in A1. rewrite (B s1 A1 _ Some _ eq_refl) in SE. injection SE as <-.
    pose proof (move_at (pre ++ a) mid post new s1 A1) as A2. destruct A1 as (P1 & R1 & V1). destruct H as (P0 & _ & _). cbn [pos] in P0.
    exists (prev (move s1 mid post new)), (pos (move s1 mid post new)), (Some (pos (move s1 mid post new))), fuel.
    replace (pos (move s1 mid post new) =? p) with false by (cbn [move pos]; rewrite P1, app_length; destruct mid; [congruence|cbn [length]; lia]).
    cbn [andb negb app]. split; [|split; [|split]].
    + destruct A2 as (A2 & _ & A3). rewrite app_assoc. split; [exact A2|]. split; [reflexivity|exact A3].
    + rewrite !app_length in Lf. destruct mid; [congruence|]. cbn [length] in Lf. lia.
    + left. unfold match_of. cbn [fst snd]. f_equal.
      * apply (between_move (pre ++ a)). split; [exact P1|]. split; [exact R1|exact V1].
      * cbn [move caps]. rewrite C1. apply app_nil_r.
    + intros m Im. right. exact Im.
  - destruct (msem_mlist u r (pre ++ a) (rest s1) s1 s2 A1 M1) as (mid' & post' & new' & E' & -> & ML).
    rewrite Er in E'. pose proof (AP a (c0 :: c) mid' post' new' eq_refl ltac:(discriminate) E' ML) as Lm.
    pose proof (mlist_nullable u r NU _ _ _ _ ML) as NE. destruct (app_split _ _ _ _ E' Lm) as (d & Ed & Ep).
    pose proof A1 as (P1 & R1 & V1). pose proof H as (P0 & _ & _). cbn [pos] in P0. rewrite Er, Ed, <- app_assoc, <- Ep in A1.
    pose proof (move_at (pre ++ a) mid' post' new' s1 A1) as A2. destruct A2 as (A2 & A2' & A3).
    assert (Ld : length d + length mid' = length (c0 :: c)) by (rewrite Ed, app_length; lia). assert (Lm' : 0 < length mid') by (destruct mid'; [congruence|cbn; lia]).
    destruct (IH (length d)) with (lead := d) (pre := (pre ++ a) ++ mid') (pv := prev (move s1 mid' post' new')) (p := pos (move s1 mid' post' new')) (e := Some (pos (move s1 mid' post' new'))) (fuel := fuel)
      as (pv' & p' & e' & fuel' & Q1 & Q2 & Q3 & Q4).
    + rewrite app_length in Ln. lia.
    + lia.
    + split; [exact A2|]. split; [reflexivity|exact A3].
    + rewrite !app_length in *. lia.
    + intros a' c' m' q' n' E1 N1 E2 M2. apply (AP (a ++ mid' ++ a') c' m' q' n'); [rewrite Ed, E1, <- !app_assoc; reflexivity|exact N1|exact E2|].
      rewrite <- !app_assoc in *. exact M2.
    + intros s As. apply B. rewrite Ed, <- !app_assoc in *. exact As.
    + exists pv', p', e', fuel'. replace (pos (move s1 mid' post' new') =? p) with false by (cbn [move pos]; rewrite P1, app_length; lia).
      cbn [andb negb app]. split; [|split; [exact Q2|]].
      * rewrite Ed, <- !app_assoc in *. exact Q1.
      * cbn [move rest] in *. rewrite Ep. cbn [move rest prev pos] in Q3, Q4. split; [right; exact Q3|]. intros m Im. right. apply Q4. exact Im.
Qed.

(** ** A match does not start before a link to end inside of it *)
Lemma quiet_tail x y : quiet (x ++ y) -> quiet y.
Proof.
  intros [A B]. split.
  - intros p q E. apply (A (x ++ p) q). rewrite E, app_assoc. reflexivity.
  - intros p q E. apply (B (x ++ p) q). rewrite E, app_assoc. reflexivity.
Qed.
Lemma app_cases {A} : forall (p q r s : list A), p ++ q = r ++ s -> (exists w, s = w ++ q) \/ (exists w, w <> [] /\ r = p ++ w /\ q = w ++ s).
Proof.
  induction p as [|h p IH]; intros q r s E; cbn [app] in E.
  - destruct r as [|k r]; [left; exists []; symmetry; exact E|]. right. exists (k :: r). split; [discriminate|]. auto.
  - destruct r as [|k r]; cbn [app] in E; [left; exists (h :: p); symmetry; exact E|]. injection E as <- E.
    destruct (IH _ _ _ E) as [W|(w & X & -> & Y)]; [left; exact W|right]. exists w. auto.
Qed.
Lemma stop_char c : stop c -> In c (b "[]<>" ++ blanks).
Proof.
  unfold stop, stops. cbn [In]. intros H.
  repeat match goal with H : _ \/ _ |- _ => destruct H as [H|H] end; try contradiction; apply (f_equal ascii_of_N) in H; rewrite ascii_N_embedding in H; rewrite <- H; vm_compute; auto 10.
Qed.
Lemma quiet_more a q : quiet a -> Forall (fun c => ~ stop c) q -> quiet (a ++ q).
Proof.
  assert (SQ : stop "["%char /\ stop "<"%char) by (split; vm_compute; auto). destruct SQ as [SB SL].
  intros [A B] F. rewrite Forall_forall in F. split; intros x y E.
  - symmetry in E. destruct (app_cases _ _ _ _ E) as [(w & ->)|(w & Nw & -> & Ew)].
    + apply (F "["%char); [apply in_or_app; right; left; reflexivity|exact SB].
    + destruct w as [|c1 w]; [congruence|]. injection Ew as <- Ew. destruct w as [|c2 w].
      * cbn [app] in Ew. subst q. apply (F "["%char); [left; reflexivity|exact SB].
      * injection Ew as <- Ew. apply (A x w). reflexivity.
  - symmetry in E. destruct (app_cases _ _ _ _ E) as [(w & ->)|(w & Nw & -> & Ew)].
    + exfalso. apply (F "<"%char); [apply in_or_app; right; left; reflexivity|exact SL].
    + destruct w as [|c1 w]; [congruence|]. injection Ew as <- ->. apply in_or_app. left. apply (B x w). reflexivity.
Qed.
Lemma first_same {A} (c : A) : forall x y x' y', ~ In c x -> ~ In c y -> x ++ c :: x' = y ++ c :: y' -> x = y /\ x' = y'.
Proof.
  induction x as [|h x IH]; intros [|k y] x' y' X Y E; cbn [app] in E.
  - injection E as E. auto.
  - exfalso. apply Y. left. congruence.
  - exfalso. apply X. left. congruence.
  - injection E as <- E2. destruct (IH y x' y') as [-> ->]; auto; intros I; [apply X|apply Y]; right; exact I.
Qed.
Definition begins_open (f : str) : Prop := match f with c1 :: c2 :: _ => c1 = "["%char -> c2 = "["%char | _ => True end.
Lemma cross_bracket (g1 tail a e p : str) : g1 <> [] -> (forall x c y, g1 = x ++ c :: y -> In c (b "[]") -> exists z, x = z ++ b "\") ->
  a ++ e = b "[[" ++ g1 ++ tail -> a <> [] -> e <> [] -> quiet a -> begins_open (e ++ p) -> False.
Proof.
  intros NG ESC T NA NE Q F. destruct a as [|c1 a]; [congruence|]. cbn in T. injection T as -> T. destruct a as [|c2 a].
  - cbn [app] in T. subst e. destruct g1 as [|c g1]; [congruence|]. cbn in F. specialize (F eq_refl). subst c.
    destruct (ESC [] "["%char g1 eq_refl (or_introl eq_refl)) as (z & E). destruct z; discriminate.
  - injection T as -> T. destruct Q as [Q _]. apply (Q [] a). reflexivity.
Qed.
Lemma cross_angle (g3 g4 a e : str) : ~ In ">"%char g3 -> ~ In ">"%char g4 -> a ++ e = b "<" ++ g3 ++ b ":" ++ g4 ++ b ">" -> a <> [] -> e <> [] -> quiet a -> False.
Proof.
  intros N3 N4 T NA NE [_ Q]. destruct a as [|c1 a]; [congruence|]. cbn in T. injection T as -> T. pose proof (Q [] a eq_refl) as I.
  destruct e as [|c e _] using rev_ind; [congruence|]. rewrite app_assoc in T. replace (g3 ++ ":"%char :: g4 ++ [">"%char]) with ((g3 ++ ":"%char :: g4) ++ [">"%char]) in T by (rewrite <- app_assoc; reflexivity).
  apply app_inj_tail in T. destruct T as [T _]. assert (I' : In ">"%char (g3 ++ ":"%char :: g4)) by (rewrite <- T; apply in_or_app; left; exact I).
  apply in_app_or in I'. destruct I' as [I'|[I'|I']]; [auto|discriminate|auto].
Qed.
Lemma word_chars s w c : word s w -> In c w -> exists x, In x s /\ char x = c.
Proof.
  intros W. induction W as [|x s w W IH|x s w O W IH]; intros I; [destruct I| |].
  - destruct I as [<-|I]; [exists x; split; [left; reflexivity|reflexivity]|]. destruct (IH I) as (y & Iy & E). exists y. split; [right; exact Iy|exact E].
  - destruct (IH I) as (y & Iy & E). exists y. split; [right; exact Iy|exact E].
Qed.
Lemma scheme_text ss x g : Forall scheme_ok ss -> simple_schemes ss -> In x (map (map item_of) ss) -> Forall piece_ok g -> imatch x (map fst g) ->
  (exists s, In s ss /\ word s (text_of g)) /\ forall c, In c (text_of g) -> ~ stop c /\ c <> ":"%char.
Proof.
  intros OK SI Ix Hg M. apply in_map_iff in Ix. destruct Ix as (s & <- & Is). rewrite Forall_forall in OK. pose proof (OK _ Is) as OKs.
  pose proof (imatch_word s g (scheme_ascii _ OKs) Hg M) as W. split; [eauto|]. intros c Ic. destruct (word_chars _ _ _ W Ic) as (y & Iy & <-).
  split; [apply (SI s); assumption|]. destruct OKs as [_ OKs]. rewrite Forall_forall in OKs. apply OKs. exact Iy.
Qed.
(** What is common for all kinds of links *)
Lemma apart_common u ss g3 g5 pre (lead tail : list (rune * str)) : Forall scheme_ok ss -> simple_schemes ss -> is_words g3 (map (map item_of) ss) -> is_words g5 (map (map item_of) ss) ->
  Forall piece_ok lead -> Forall piece_ok tail -> quiet (text_of lead) -> begins_open (text_of tail) ->
  (forall a c e p g h, text_of lead = a ++ c -> c <> [] -> e <> [] -> text_of tail = e ++ p -> c ++ e = g ++ b ":" ++ h -> (exists s, In s ss /\ word s g) -> (forall c, In c g -> c <> ":"%char) ->
     (forall c, In c (g ++ b ":" ++ h) -> ~ stop c) -> False) ->
  apart u (link_re g3 g5) pre lead tail.
Proof.
  intros OK SI W3 W5 HL HT Q BO PL a c mid post new El Nc Em M. destruct (le_lt_dec (length mid) (length c)) as [Z|Z]; [exact Z|exfalso].
  assert (EM : exists e, mid = c ++ e /\ e <> [] /\ tail = e ++ post).
  { symmetry in Em. destruct (app_split _ _ _ _ Em ltac:(lia)) as (e & -> & ->). exists e. split; [reflexivity|]. split; [|reflexivity]. intros ->. rewrite app_nil_r in Z. lia. }
  destruct EM as (e & -> & Ne & ->). rewrite El in HL. apply Forall_app in HL. destruct HL as [_ Hc]. apply Forall_app in HT. destruct HT as [He _].
  assert (Hm : Forall piece_ok (c ++ e)) by (apply Forall_app; split; assumption).
  assert (TL : text_of lead = text_of a ++ text_of c) by (rewrite El; apply text_app). rewrite TL in Q. apply quiet_tail in Q. rewrite text_app in BO.
  pose proof (text_ne _ Hc Nc) as Tc. pose proof (text_ne _ He Ne) as Te.
  pose proof (link_shape _ _ _ _ _ _ _ _ W3 W5 Hm M) as S.
  inversion S as [md g1 tl g2 NM NG ESC T D (p & q & SP) mm G1 G2 E1 E2|md g3' g4 x T Ix Mx F Hg mm G1 G3 G4 G5 E1 E2|md g5' g6 x T Ix Mx F Hg N6 WB mm G1 G3 G5 G6 E1 E2]; subst md mm; rewrite text_app in T.
  - assert (Hg : Forall piece_ok g1). { rewrite SP, !Forall_app in Hm. apply Hm. }
    exact (cross_bracket (text_of g1) _ _ _ (text_of post) (text_ne _ Hg NG) (escaped_text _ Hg ESC) T Tc Te Q BO).
  - destruct (scheme_text ss x g3' OK SI Ix Hg Mx) as [_ CH]. refine (cross_angle (text_of g3') (text_of g4) _ _ _ F T Tc Te Q).
    intros I. destruct (CH _ I) as [X _]. apply X. vm_compute. auto.
  - destruct (scheme_text ss x g5' OK SI Ix Hg Mx) as [W CH]. apply (PL (text_of a) (text_of c) (text_of e) (text_of post) (text_of g5') (text_of g6)); try assumption.
    + apply text_app.
    + intros y Iy. apply CH. exact Iy.
    + intros y Iy. apply in_app_or in Iy. destruct Iy as [Iy|[<-|Iy]]; [apply CH; exact Iy|vm_compute; intuition discriminate|].
      rewrite Forall_forall in F. intros St. apply (F _ Iy). apply stop_char. exact St.
Qed.
Lemma apart_quiet u ss g3 g5 pre a f c : Forall scheme_ok ss -> simple_schemes ss -> is_words g3 (map (map item_of) ss) -> is_words g5 (map (map item_of) ss) ->
  quiet a -> begins_open (c :: f) -> stop c -> apart u (link_re g3 g5) pre (pieces a) (pieces (c :: f)).
Proof.
  intros OK SI W3 W5 Q BO SC. apply apart_common with ss; try assumption; try apply pieces_shape; rewrite ?text_pieces; try assumption.
  intros x y e p g h E1 N1 N2 E2 E3 _ _ NS. destruct e as [|c' e]; [congruence|]. injection E2 as <- ->.
  apply (NS c); [|exact SC]. rewrite <- E3. apply in_or_app. right. left. reflexivity.
Qed.
Lemma apart_plain u ss g3 g5 pre edge a q w z : Forall scheme_ok ss -> simple_schemes ss -> is_words g3 (map (map item_of) ss) -> is_words g5 (map (map item_of) ss) ->
  quiet a -> separate ss edge a q -> with_scheme ss w -> (exists c v, w = c :: v /\ word_byte c) -> apart u (link_re g3 g5) pre (pieces (a ++ q)) (pieces (w ++ b ":" ++ z)).
Proof.
  intros OK SI W3 W5 Q (Fq & Sa & Sq) (Nw & s & Is & W) (c0 & v & -> & WB).
  assert (NC : forall c, In c (c0 :: v) -> c <> ":"%char).
  { intros c Ic. destruct (word_chars _ _ _ W Ic) as (x & Ix & <-). rewrite Forall_forall in OK. destruct (OK _ Is) as [_ O]. rewrite Forall_forall in O. apply O. exact Ix. }
  apply apart_common with ss; try assumption; try apply pieces_shape; rewrite ?text_pieces.
  - apply quiet_more; [exact Q|]. eapply Forall_impl; [|exact Fq]. cbn. tauto.
  - cbn [app begins_open]. destruct (v ++ b ":" ++ z); [exact I|]. intros ->. exfalso. revert WB. unfold word_byte. cbn. lia.
  - intros x y e p g h E1 N1 N2 E2 E3 (s' & Is' & Ws') NG NS. symmetry in E1. destruct (app_cases _ _ _ _ E1) as [(r & ->)|(r & Nr & -> & ->)].
    + destruct y as [|k y _] using rev_ind; [congruence|]. rewrite app_assoc in Sq. destruct Sq as [(q' & c & Eq & _ & NX)|[Eq _]]; [|destruct (r ++ y); discriminate].
      apply app_inj_tail in Eq. destruct Eq as [_ <-]. apply Forall_app in Fq. destruct Fq as [_ Fq].
      assert (EG : g = (y ++ [k]) ++ c0 :: v).
      { apply (first_same ":"%char g ((y ++ [k]) ++ c0 :: v) (h ++ p) z).
        - intros I. apply NG in I. congruence.
        - intros I. apply in_app_or in I. destruct I as [I|I]; [rewrite Forall_forall in Fq; apply Fq in I; tauto|apply NC in I; congruence].
        - cbn in E3. replace (g ++ ":"%char :: h ++ p) with ((g ++ ":"%char :: h) ++ p) by (rewrite <- app_assoc; reflexivity). rewrite <- E3, <- app_assoc, <- E2.
          rewrite <- !app_assoc. reflexivity. }
      destruct (word_chars _ _ k Ws') as (x' & Ix' & Ex'); [rewrite EG; apply in_or_app; left; apply in_or_app; right; left; reflexivity|]. exact (NX _ _ Is' Ix' Ex').
    + destruct Sa as [Sa|(y1 & c1 & Ea & Sc)]; [destruct x; [cbn in Sa; congruence|discriminate]|].
      destruct r as [|k r _] using rev_ind; [congruence|]. rewrite app_assoc in Ea. apply app_inj_tail in Ea. destruct Ea as [_ <-].
      apply (NS k); [|exact Sc]. rewrite <- E3. apply in_or_app. left. apply in_or_app. left. apply in_or_app. right. left. reflexivity.
Qed.

(** ** Characters of lines *)
Lemma not_char c s : (N_of_ascii c < 128)%N -> ~ In c s -> Forall (fun q : rune * str => fst q <> N_of_ascii c) (pieces s).
Proof.
  intros A N. apply Forall_forall. intros q Iq E. apply N. pose proof (pieces_shape s) as H. rewrite Forall_forall in H. pose proof (H _ Iq) as Hq.
  apply piece_ascii in Hq; [|rewrite E; exact A]. rewrite E, ascii_N_embedding in Hq. rewrite <- (text_pieces s). unfold text_of. apply in_concat. exists (snd q).
  split; [apply in_map; exact Iq|]. rewrite Hq. left. reflexivity.
Qed.
Lemma last_rune_app (x y : list (rune * str)) : y <> [] -> last_rune (x ++ y) = last_rune y.
Proof. intros N. unfold last_rune. rewrite map_app, last_app_ne; [reflexivity|]. intros E. apply map_eq_nil in E. contradiction. Qed.
Lemma last_not_word y c : ~ word_byte c -> word_at (last_rune (pieces (y ++ [c]))) = false.
Proof.
  intros N. destruct (word_at _) eqn:E; [|reflexivity]. apply last_word in E; [|apply pieces_shape]. rewrite text_pieces in E. destruct E as (x & c' & E & W).
  apply app_inj_tail in E. destruct E as [_ <-]. contradiction.
Qed.
Definition found_as (m : rmatch) (t d : str) : Prop :=
  (group m 1 = t /\ group m 2 = d) \/
  (group m 1 = [] /\ d = [] /\ exists w y, t = w ++ b ":" ++ y /\ w <> [] /\ ((group m 3 = w /\ group m 4 = y) \/ (group m 3 = [] /\ group m 5 = w /\ group m 6 = y))).
Definition pc (n : N) : rune * str := (n, [ascii_of_N n]).
Lemma bracket_pieces t d x : pieces (bracket_line t d ++ x) = (pc 91 :: pc 91 :: pieces t ++ pc 93 :: tail_list (pc 91) (pc 93) (pieces d) ++ [pc 93]) ++ pieces x.
Proof.
  unfold bracket_line. cbn [b list_ascii_of_string]. change ((["["; "["] ++ t ++ ["]"] ++ ?r ++ ["]"]) ++ x)%char with ("[" :: "[" :: (t ++ ["]"] ++ r ++ ["]"]) ++ x)%char.
  rewrite !pieces_ascii by (cbn; lia). cbn [app]. change (N_of_ascii "[", ["["%char]) with (pc 91). do 2 f_equal.
  rewrite <- !app_assoc. cbn [app]. rewrite pieces_split by (cbn; lia). change (N_of_ascii "]", ["]"%char]) with (pc 93). f_equal. f_equal.
  destruct d as [|c d].
  - cbn [app tail_list pieces]. rewrite pieces_ascii by (cbn; lia). reflexivity.
  - cbv iota. assert (NE : pieces (c :: d) <> []) by (apply pieces_ne; discriminate). remember (c :: d) as dd eqn:Ed. clear Ed.
    destruct (pieces dd) as [|p l] eqn:Ep; [congruence|]. rewrite <- Ep.
    unfold tail_list. rewrite Ep. rewrite <- Ep. match goal with |- pieces ?z = _ => replace z with ("["%char :: dd ++ "]"%char :: "]"%char :: x) by (cbn [app]; rewrite <- !app_assoc; reflexivity) end.
    rewrite pieces_ascii by (cbn; lia). rewrite pieces_split by (cbn; lia). rewrite pieces_ascii by (cbn; lia). cbn [app]. rewrite <- !app_assoc. reflexivity.
Qed.
Lemma pieces_stop x c f : (N_of_ascii c < 128)%N -> pieces (x ++ c :: f) = pieces x ++ pieces (c :: f).
Proof. intros A. rewrite pieces_split, pieces_ascii by exact A. reflexivity. Qed.
Lemma pieces_end y x : plain_end (runes_of x) -> pieces (y ++ x) = pieces y ++ pieces x.
Proof.
  intros E. destruct x as [|c x]; [rewrite app_nil_r; cbn; rewrite app_nil_r; reflexivity|]. apply pieces_stop.
  assert (FA : match runes_of (c :: x) with [] => True | r :: _ => (r < 128)%N end).
  { destruct E as (p & z & -> & F & Z). destruct p as [|r p]; cbn [app].
    - destruct z as [|r z]; [exact I|]. destruct Z as [Z| ->]; [|lia]. cbn in Z. lia.
    - apply Forall_inv in F. unfold punct in F. lia. }
  rewrite <- fst_pieces in FA. destruct (pieces (c :: x)) as [|q l] eqn:Ep; [exfalso; exact (pieces_ne (c :: x) ltac:(discriminate) Ep)|].
  cbn [map] in FA. pose proof (pieces_shape (c :: x)) as H. rewrite Ep in H. apply Forall_inv in H. apply piece_ascii in H; [|exact FA].
  pose proof (text_pieces (c :: x)) as T. rewrite Ep, H in T. unfold text_of in T. cbn [map snd concat app] in T. injection T as <- _. rewrite N_ascii_embedding by lia. exact FA.
Qed.
Lemma shown_found u ss g3 g5 : Forall scheme_ok ss -> simple_schemes ss -> is_words g3 (map (map item_of) ss) -> is_words g5 (map (map item_of) ss) ->
  loops_ok g3 = true -> loops_ok g5 = true -> loops_ok (link_re g3 g5) = true -> forall edge line ls, shown ss edge line ls ->
  forall pre pv p e fuel, at_state pre (pieces line) (mkSt pv p (pieces line) []) -> length (pieces line) < fuel -> ~ In newline line -> (edge = true -> word_at (last_rune pre) = false) ->
  forall t d, In (t, d) ls -> exists m, In m (all_matches fuel u (link_re g3 g5) pv p (pieces line) e) /\ found_as m t d.
Proof.
  intros OK SI W3 W5 L3 L5 LK edge line ls S.
  assert (NCs : no_colon (map (map item_of) ss)).
  { apply Forall_forall. intros x Ix. apply in_map_iff in Ix. destruct Ix as (s & <- & Is). apply Forall_forall. intros i Ii. apply in_map_iff in Ii. destruct Ii as (y & <- & Iy).
    rewrite Forall_forall in OK. destruct (OK _ Is) as [_ O]. rewrite Forall_forall in O. destruct (O _ Iy) as [_ O']. cbn. intros E. apply O'. rewrite <- (ascii_N_embedding (char y)), E. reflexivity. }
  induction S as [edge x|edge a t d x ls Q NT NB ND S IH|edge a w y x ls Q WS NG S IH|edge a q w y x ls Q SEP WS WB PT PE S IH]; intros pre pv p e fuel H Lf NL ED t0 d0 I0.
  - destruct I0.
  - assert (EP : pieces (a ++ bracket_line t d ++ x) = pieces a ++ pieces (bracket_line t d ++ x)) by (apply (pieces_stop a "["%char); cbn; lia).
    pose proof (apart_quiet u ss g3 g5 pre a ("[" :: (t ++ b "]" ++ match d with [] => [] | _ => b "[" ++ d ++ b "]" end ++ b "]") ++ x)%char "["%char OK SI W3 W5 Q (fun _ => eq_refl) ltac:(vm_compute; auto)) as AP.
    change (pieces ("[" :: "[" :: (t ++ b "]" ++ match d with [] => [] | _ => b "[" ++ d ++ b "]" end ++ b "]") ++ x)%char) with (pieces (bracket_line t d ++ x)) in AP.
    rewrite EP in *. rewrite bracket_pieces in *.
    assert (NM : pc 91 :: pc 91 :: pieces t ++ pc 93 :: tail_list (pc 91) (pc 93) (pieces d) ++ [pc 93] <> []) by discriminate.
    destruct (reach u (link_re g3 g5) _ _ (tail_caps (pieces d) ++ [(1, text_of (pieces t))]) LK (link_nullable _ _) NM (length (pieces a)) (pieces a) pre pv p e fuel (le_n _) H Lf AP)
      as (pv' & p' & e' & fuel' & A' & F' & I1 & I2).
    { intros s As. apply (bracket_best u g3 g5 (pre ++ pieces a)); try reflexivity; [apply pieces_ne; exact NT| | |exact As].
      - pose proof (not_char "["%char t ltac:(cbn; lia) (NB "["%char ltac:(cbn; auto))) as F1. pose proof (not_char "]"%char t ltac:(cbn; lia) (NB "]"%char ltac:(cbn; auto))) as F2.
        rewrite Forall_forall in *. intros z Iz. split; [apply F2|apply F1]; exact Iz.
      - apply (not_char "]"%char d); [cbn; lia|exact ND]. }
    destruct I0 as [E0|I0].
    + injection E0 as <- <-. eexists. split; [exact I1|]. left. destruct (pieces d) as [|pd ld] eqn:Ed.
      * cbn [group tail_caps app find fst Nat.eqb groups]. rewrite text_pieces. split; [reflexivity|]. rewrite <- (text_pieces d), Ed. reflexivity.
      * cbn [group tail_caps app find fst Nat.eqb groups]. rewrite text_pieces. split; [reflexivity|]. rewrite <- Ed. apply text_pieces.
    + destruct (IH _ _ _ e' _ A' F') with (t := t0) (d := d0) as (m & Im & Fm); [intros I; apply NL; apply in_or_app; right; apply in_or_app; right; exact I| |exact I0|].
      * intros _. rewrite app_assoc, last_rune_app by discriminate. change (pc 91 :: pc 91 :: pieces t ++ pc 93 :: tail_list (pc 91) (pc 93) (pieces d) ++ [pc 93]) with ((pc 91 :: pc 91 :: pieces t) ++ (pc 93 :: tail_list (pc 91) (pc 93) (pieces d)) ++ [pc 93]).
        rewrite app_assoc, last_rune_app by discriminate. reflexivity.
      * exists m. split; [apply I2; exact Im|exact Fm].
  - destruct WS as (Nw & s & Is & W). pose proof (word_ascii s w ltac:(rewrite Forall_forall in OK; auto) W) as AW.
    set (f := (w ++ b ":" ++ y) ++ b ">" ++ x) in *. assert (EP : pieces (a ++ b "<" ++ f) = pieces a ++ pieces (b "<" ++ f)) by (apply (pieces_stop a "<"%char); cbn; lia).
    pose proof (apart_quiet u ss g3 g5 pre a f "<"%char OK SI W3 W5 Q) as AP.
    assert (AP' : apart u (link_re g3 g5) pre (pieces a) (pieces (b "<" ++ f))). { apply AP; [|vm_compute; auto]. cbn [begins_open]. destruct f; [exact I|discriminate]. }
    clear AP. assert (EF : pieces (b "<" ++ f) = (pc 60 :: pieces w ++ pc 58 :: pieces y ++ [pc 62]) ++ pieces x).
    { cbn [b list_ascii_of_string app]. rewrite pieces_ascii by (cbn; lia). unfold f. rewrite <- !app_assoc. cbn [b list_ascii_of_string app]. rewrite pieces_split by (cbn; lia). rewrite pieces_split by (cbn; lia).
      cbn [app]. repeat (rewrite <- app_assoc; cbn [app]). reflexivity. }
    rewrite EP in *. rewrite EF in *. assert (NM : pc 60 :: pieces w ++ pc 58 :: pieces y ++ [pc 62] <> []) by discriminate.
    destruct (reach u (link_re g3 g5) _ _ [(4, text_of (pieces y)); (3, text_of (pieces w))] LK (link_nullable _ _) NM (length (pieces a)) (pieces a) pre pv p e fuel (le_n _) H Lf AP')
      as (pv' & p' & e' & fuel' & A' & F' & I1 & I2).
    { intros s' As. apply (angle_link_best u (map (map item_of) ss) g3 g5 (pre ++ pieces a)) with (x := map item_of s); try reflexivity; try assumption.
      - apply in_map. exact Is.
      - rewrite (pieces_ascii_all w AW), fst_ascii. apply word_imatch. exact W.
      - assert (NY : ~ In newline y). { intros I. apply NL. apply in_or_app. right. apply in_or_app. right. apply in_or_app. left. apply in_or_app. right. right. exact I. }
        pose proof (not_char ">"%char y ltac:(cbn; lia) NG) as F1. pose proof (not_char newline y ltac:(cbn; lia) NY) as F2.
        rewrite Forall_forall in *. intros z Iz. split; [apply F1|apply F2]; exact Iz. }
    destruct I0 as [E0|I0].
    + injection E0 as <- <-. eexists. split; [exact I1|]. right. cbn [group find fst Nat.eqb groups]. rewrite !text_pieces. split; [reflexivity|]. split; [reflexivity|]. exists w, y. auto 6.
    + destruct (IH _ _ _ e' _ A' F') with (t := t0) (d := d0) as (m & Im & Fm); [| |exact I0|].
      * intros I. apply NL. unfold f. apply in_or_app. right. apply in_or_app. right. apply in_or_app. right. apply in_or_app. right. exact I.
      * intros _. rewrite app_assoc, last_rune_app by discriminate. replace (pc 60 :: pieces w ++ pc 58 :: pieces y ++ [pc 62]) with ((pc 60 :: pieces w ++ pc 58 :: pieces y) ++ [pc 62]) by (cbn [app]; rewrite <- app_assoc; reflexivity).
        rewrite last_rune_app by discriminate. reflexivity.
      * exists m. split; [apply I2; exact Im|exact Fm].
  - pose proof WS as (Nw & s & Is & W). pose proof (word_ascii s w ltac:(rewrite Forall_forall in OK; auto) W) as AW.
    pose proof (apart_plain u ss g3 g5 pre edge a q w (y ++ x) OK SI W3 W5 Q SEP WS WB) as AP.
    assert (EF : pieces (w ++ b ":" ++ y ++ x) = (pieces w ++ pc 58 :: pieces y) ++ pieces x).
    { cbn [b list_ascii_of_string app]. rewrite pieces_split by (cbn; lia). rewrite (pieces_end y x PE), <- app_assoc. reflexivity. }
    assert (EP : pieces (a ++ q ++ (w ++ b ":" ++ y) ++ x) = pieces (a ++ q) ++ (pieces w ++ pc 58 :: pieces y) ++ pieces x).
    { rewrite <- EF. destruct WB as (c & v & -> & WB). rewrite app_assoc, <- !app_assoc. rewrite (app_assoc a q). apply (pieces_stop (a ++ q) c). apply word_byte_ascii. exact WB. }
    rewrite EP in *. rewrite EF in AP.
    assert (NM : pieces w ++ pc 58 :: pieces y <> []) by (destruct (pieces w); discriminate).
    destruct (reach u (link_re g3 g5) _ _ [(6, text_of (pieces y)); (5, text_of (pieces w))] LK (link_nullable _ _) NM (length (pieces (a ++ q))) (pieces (a ++ q)) pre pv p e fuel (le_n _) H Lf AP)
      as (pv' & p' & e' & fuel' & A' & F' & I1 & I2).
    { intros s' As. apply (plain_link_best u (map (map item_of) ss) g3 g5 (pre ++ pieces (a ++ q))) with (x := map item_of s); try reflexivity; try assumption.
      - apply in_map. exact Is.
      - rewrite (pieces_ascii_all w AW), fst_ascii. apply word_imatch. exact W.
      - assert (B1 : word_at (last_rune (pre ++ pieces (a ++ q))) = false).
        { destruct SEP as (Fq & Sa & Sq). destruct Sq as [(y0 & c & -> & NW & _)|[-> Sq]].
          - rewrite last_rune_app by (apply pieces_ne; destruct a; [destruct y0; discriminate|discriminate]). rewrite app_assoc. apply last_not_word. exact NW.
          - rewrite app_nil_r. destruct Sa as [->|(y1 & c & -> & Sc)].
            + change (pieces []) with (@nil piece). rewrite app_nil_r. destruct Sq as [Sq|Sq]; [congruence|auto].
            + rewrite last_rune_app by (apply pieces_ne; destruct y1; discriminate). apply last_not_word. revert Sc. unfold stop, stops, word_byte. cbn [In]. lia. }
        assert (B2 : word_at (first_rune (pieces w)) = true). { apply first_word; [apply pieces_shape|]. rewrite text_pieces. destruct WB as (c & v & -> & WB). eauto. }
        rewrite B1, B2. reflexivity.
      - apply pieces_ne. exact Nw.
      - destruct WB as (c & v & -> & WB). rewrite pieces_ascii by (apply word_byte_ascii; exact WB). cbn [fst]. revert WB. unfold word_byte. lia.
      - rewrite fst_pieces. exact PT.
      - rewrite fst_pieces. exact PE. }
    destruct I0 as [E0|I0].
    + injection E0 as <- <-. eexists. split; [exact I1|]. right. cbn [group find fst Nat.eqb groups]. rewrite !text_pieces. split; [reflexivity|]. split; [reflexivity|]. exists w, y. auto 8.
    + destruct (IH _ _ _ e' _ A' F') with (t := t0) (d := d0) as (m & Im & Fm); [|discriminate|exact I0|].
      * intros I. apply NL. apply in_or_app. right. apply in_or_app. right. apply in_or_app. right. exact I.
      * exists m. split; [apply I2; exact Im|exact Fm].
Qed.
