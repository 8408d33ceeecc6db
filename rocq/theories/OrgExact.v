(** Links of lines of Org files are exactly those that are seen there. *)
From Coq Require Import ZifyBool ZifyNat ZifyN.
From Verif Require Import GoBase GoSlice Utf8 Utf8Proofs Utf8Dec Regex RegexParse RegexSpec RegexProofs Pieces RegexLex RegexWords Patterns
  LinkTypes LinkTree Extract ScannerSpec ExtractSpec HeadingProofs SchemeProofs LinkProofs2 BracketProofs TextFound OrgFoundSpec OrgFound OrgFoundMain ExtractMain OrgFoundLines SchemeSpec SchemeRepeat OrgExactSpec.
From Verif Require Scanner.
Local Notation newline := Scanner.newline (only parsing).

(** No match starts inside. *)
Definition barren u (r : re) (pre lead tail : list (rune * str)) : Prop :=
  forall a c mid post new, lead = a ++ c -> c <> [] -> c ++ tail = mid ++ post -> ~ mlist u r (pre ++ a) mid post new.
Lemma reach_first u r (mid post : list (rune * str)) new : loops_ok r = true -> nullable r = false -> mid <> [] ->
  forall lead pre pv p e fuel, at_state pre (lead ++ mid ++ post) (mkSt pv p (lead ++ mid ++ post) []) -> length (lead ++ mid ++ post) < fuel ->
  barren u r pre lead (mid ++ post) -> (forall s, at_state (pre ++ lead) (mid ++ post) s -> best u r s (move s mid post new)) ->
  exists pv' p' e' fuel', at_state (pre ++ lead ++ mid) post (mkSt pv' p' post []) /\ length post < fuel' /\
    all_matches fuel u r pv p (lead ++ mid ++ post) e = mkMatch (text_of mid) new :: all_matches fuel' u r pv' p' post e'.
Proof.
  intros LK NU NM lead pre pv p e fuel H Lf BA B.
  destruct fuel as [|fuel]; [lia|]. cbn [all_matches].
  pose (s0 := mkSt (match lead with [] => pv | _ => last_rune lead end) (p + length lead) (mid ++ post) []).
  assert (A0 : at_state (pre ++ lead) (mid ++ post) s0) by (exact (move_at pre lead (mid ++ post) [] _ H)).
  pose proof (B s0 A0 _ Some _ eq_refl) as M0. apply mt_sound in M0. destruct M0 as (sx & M0 & Ex). injection Ex as ->.
  destruct (search u r pv p (lead ++ mid ++ post)) as [[s1 s2]|] eqn:SE.
  2:{ exfalso. exact (search_complete u r LK _ _ _ _ H SE lead (mid ++ post) s0 _ eq_refl A0 eq_refl M0). }
  pose proof (search_leftmost u r LK _ _ _ _ _ _ H SE lead (mid ++ post) s0 _ eq_refl A0 eq_refl M0) as LM.
  destruct (search_sound u r _ _ _ _ _ _ H SE) as (a & El & A1 & C1 & M1). apply search_mt in SE.
  assert (La : length a <= length lead). { apply (f_equal (@length _)) in El. rewrite !app_length in El. rewrite app_length in LM. lia. }
  destruct (app_split _ _ _ _ El La) as (c & -> & Er).
  destruct c as [|c0 c].
  - rewrite app_nil_r in *. cbn [app] in Er. rewrite Er in A1. rewrite (B s1 A1 _ Some _ eq_refl) in SE. injection SE as <-.
    pose proof (move_at (pre ++ a) mid post new s1 A1) as A2. destruct A1 as (P1 & R1 & V1). destruct H as (P0 & _ & _). cbn [pos] in P0.
    exists (prev (move s1 mid post new)), (pos (move s1 mid post new)), (Some (pos (move s1 mid post new))), fuel.
    replace (pos (move s1 mid post new) =? p) with false by (cbn [move pos]; rewrite P1, app_length; destruct mid; [congruence|cbn [length]; lia]).
    cbn [andb negb app]. split; [|split].
    + destruct A2 as (A2 & _ & A3). rewrite app_assoc. split; [exact A2|]. split; [reflexivity|exact A3].
    + rewrite !app_length in Lf. destruct mid; [congruence|]. cbn [length] in Lf. lia.
    + f_equal. unfold match_of. cbn [fst snd]. f_equal.
      * apply (between_move (pre ++ a)). split; [exact P1|]. split; [exact R1|exact V1].
      * cbn [move caps]. rewrite C1. apply app_nil_r.
  - exfalso. destruct (msem_mlist u r (pre ++ a) (rest s1) s1 s2 A1 M1) as (mid' & post' & new' & E' & -> & ML). rewrite Er in E'.
    exact (BA a (c0 :: c) mid' post' new' eq_refl ltac:(discriminate) E' ML).
Qed.
Lemma reach_none u r lead pre pv p e fuel : nullable r = false -> at_state pre lead (mkSt pv p lead []) -> barren u r pre lead [] -> all_matches fuel u r pv p lead e = [].
Proof.
  intros NU H BA. destruct fuel as [|fuel]; [reflexivity|]. cbn [all_matches]. destruct (search u r pv p lead) as [[s1 s2]|] eqn:SE; [exfalso|reflexivity].
  destruct (search_sound u r _ _ _ _ _ _ H SE) as (a & El & A1 & C1 & M1). destruct (msem_mlist u r (pre ++ a) (rest s1) s1 s2 A1 M1) as (mid' & post' & new' & E' & -> & ML).
  pose proof (mlist_nullable u r NU _ _ _ _ ML) as NE. apply (BA a (rest s1) mid' post' new' El); [|rewrite app_nil_r; exact E'|exact ML].
  intros Z. rewrite Z in E'. destruct mid'; [congruence|discriminate].
Qed.
Lemma barren_apart u ss g3 g5 pre (lead tail : list (rune * str)) : Forall scheme_ok ss -> simple_schemes ss -> is_words g3 (map (map item_of) ss) -> is_words g5 (map (map item_of) ss) ->
  Forall piece_ok lead -> plain_words ss (text_of lead) -> apart u (link_re g3 g5) pre lead tail -> barren u (link_re g3 g5) pre lead tail.
Proof.
  intros OK SI W3 W5 HL [NB NW] AP a c mid post new El Nc Em M. pose proof (AP _ _ _ _ _ El Nc Em M) as Lm. destruct (app_split _ _ _ _ Em Lm) as (d & -> & _).
  rewrite El, !Forall_app in HL. destruct HL as (_ & Hm & _). rewrite El, !text_app in NB, NW.
  pose proof (link_shape _ _ _ _ _ _ _ _ W3 W5 Hm M) as S.
  inversion S as [md g1 tl g2 NM NG ESC T D SP mm G1 G2 E1 E2|md g3' g4 x T Ix Mx F Hg mm G1 G3 G4 G5 E1 E2|md g5' g6 x T Ix Mx F Hg N6 WB mm G1 G3 G5 G6 E1 E2]; subst md mm; rewrite T in NB, NW.
  - eapply (NB (text_of a)). rewrite <- !app_assoc. reflexivity.
  - destruct (scheme_text ss x g3' OK SI Ix Hg Mx) as [(s & Is & W) _]. apply (NW (text_of a ++ b "<") (text_of g3') (text_of g4 ++ b ">" ++ text_of d) s); [|exact Is|exact W]. rewrite <- !app_assoc. reflexivity.
  - destruct (scheme_text ss x g5' OK SI Ix Hg Mx) as [(s & Is & W) _]. apply (NW (text_of a) (text_of g5') (text_of g6 ++ text_of d) s); [|exact Is|exact W]. rewrite <- !app_assoc. reflexivity.
Qed.

Definition exact_as (ss : list (list schar)) (m : rmatch) (l : str * str) : Prop :=
  (fst l <> [] /\ group m 1 = fst l /\ group m 2 = snd l) \/
  (group m 1 = [] /\ snd l = [] /\ exists w y, fst l = w ++ b ":" ++ y /\ with_scheme ss w /\ ((group m 3 = w /\ group m 4 = y) \/ (group m 3 = [] /\ group m 5 = w /\ group m 6 = y))).
Lemma consists_found u ss g3 g5 : Forall scheme_ok ss -> simple_schemes ss -> is_words g3 (map (map item_of) ss) -> is_words g5 (map (map item_of) ss) ->
  loops_ok g3 = true -> loops_ok g5 = true -> loops_ok (link_re g3 g5) = true -> forall edge line ls, consists ss edge line ls ->
  forall pre pv p e fuel, at_state pre (pieces line) (mkSt pv p (pieces line) []) -> length (pieces line) < fuel -> ~ In newline line -> (edge = true -> word_at (last_rune pre) = false) ->
  Forall2 (exact_as ss) (all_matches fuel u (link_re g3 g5) pv p (pieces line) e) ls.
Proof.
  intros OK SI W3 W5 L3 L5 LK edge line ls S.
  assert (NCs : no_colon (map (map item_of) ss)).
  { apply Forall_forall. intros x Ix. apply in_map_iff in Ix. destruct Ix as (s & <- & Is). apply Forall_forall. intros i Ii. apply in_map_iff in Ii. destruct Ii as (y & <- & Iy).
    rewrite Forall_forall in OK. destruct (OK _ Is) as [_ O]. rewrite Forall_forall in O. destruct (O _ Iy) as [_ O']. cbn. intros E. apply O'. rewrite <- (ascii_N_embedding (char y)), E. reflexivity. }
  induction S as [edge x PW|edge a t d x ls Q PW NT NB ND S IH|edge a w y x ls Q PW WS NG S IH|edge a q w y x ls Q PW SEP WS WB PT PE S IH]; intros pre pv p e fuel H Lf NL ED.
  - rewrite (reach_none u (link_re g3 g5) (pieces x) pre pv p e fuel (link_nullable _ _) H); [constructor|]. apply barren_apart with ss; try assumption; [apply pieces_shape|rewrite text_pieces; exact PW|].
    intros a c mid post new _ _ E _. rewrite app_nil_r in E. rewrite E, app_length. lia.
  - assert (EP : pieces (a ++ bracket_line t d ++ x) = pieces a ++ pieces (bracket_line t d ++ x)) by (apply (pieces_stop a "["%char); cbn; lia).
    pose proof (apart_quiet u ss g3 g5 pre a ("[" :: (t ++ b "]" ++ match d with [] => [] | _ => b "[" ++ d ++ b "]" end ++ b "]") ++ x)%char "["%char OK SI W3 W5 Q (fun _ => eq_refl) ltac:(vm_compute; auto)) as AP.
    change (pieces ("[" :: "[" :: (t ++ b "]" ++ match d with [] => [] | _ => b "[" ++ d ++ b "]" end ++ b "]") ++ x)%char) with (pieces (bracket_line t d ++ x)) in AP.
    apply (barren_apart u ss) in AP; try assumption; [|apply pieces_shape|rewrite text_pieces; exact PW].
    rewrite EP in *. rewrite bracket_pieces in *.
    assert (NM : pc 91 :: pc 91 :: pieces t ++ pc 93 :: tail_list (pc 91) (pc 93) (pieces d) ++ [pc 93] <> []) by discriminate.
    destruct (reach_first u (link_re g3 g5) _ _ (tail_caps (pieces d) ++ [(1, text_of (pieces t))]) LK (link_nullable _ _) NM (pieces a) pre pv p e fuel H Lf AP)
      as (pv' & p' & e' & fuel' & A' & F' & I1).
    { intros s As. apply (bracket_best u g3 g5 (pre ++ pieces a)); try reflexivity; [apply pieces_ne; exact NT| | |exact As].
      - pose proof (not_char "["%char t ltac:(cbn; lia) (NB "["%char ltac:(cbn; auto))) as F1. pose proof (not_char "]"%char t ltac:(cbn; lia) (NB "]"%char ltac:(cbn; auto))) as F2.
        rewrite Forall_forall in *. intros z Iz. split; [apply F2|apply F1]; exact Iz.
      - apply (not_char "]"%char d); [cbn; lia|exact ND]. }
    rewrite I1. constructor.
    + left. cbn [fst snd]. split; [exact NT|]. destruct (pieces d) as [|pd ld] eqn:Ed.
      * cbn [group tail_caps app find fst Nat.eqb groups]. rewrite text_pieces. split; [reflexivity|]. rewrite <- (text_pieces d), Ed. reflexivity.
      * cbn [group tail_caps app find fst Nat.eqb groups]. rewrite text_pieces. split; [reflexivity|]. rewrite <- Ed. apply text_pieces.
    + apply (IH _ _ _ e' _ A' F'); [intros I; apply NL; apply in_or_app; right; apply in_or_app; right; exact I|].
      intros _. rewrite app_assoc, last_rune_app by discriminate. change (pc 91 :: pc 91 :: pieces t ++ pc 93 :: tail_list (pc 91) (pc 93) (pieces d) ++ [pc 93]) with ((pc 91 :: pc 91 :: pieces t) ++ (pc 93 :: tail_list (pc 91) (pc 93) (pieces d)) ++ [pc 93]).
      rewrite app_assoc, last_rune_app by discriminate. reflexivity.
  - pose proof WS as WS'. destruct WS as (Nw & s & Is & W). pose proof (word_ascii s w ltac:(rewrite Forall_forall in OK; auto) W) as AW.
    set (f := (w ++ b ":" ++ y) ++ b ">" ++ x) in *. assert (EP : pieces (a ++ b "<" ++ f) = pieces a ++ pieces (b "<" ++ f)) by (apply (pieces_stop a "<"%char); cbn; lia).
    pose proof (apart_quiet u ss g3 g5 pre a f "<"%char OK SI W3 W5 Q) as AP.
    assert (AP' : apart u (link_re g3 g5) pre (pieces a) (pieces (b "<" ++ f))). { apply AP; [|vm_compute; auto]. cbn [begins_open]. destruct f; [exact I|discriminate]. }
    clear AP. apply (barren_apart u ss) in AP'; try assumption; [|apply pieces_shape|rewrite text_pieces; exact PW].
    assert (EF : pieces (b "<" ++ f) = (pc 60 :: pieces w ++ pc 58 :: pieces y ++ [pc 62]) ++ pieces x).
    { cbn [b list_ascii_of_string app]. rewrite pieces_ascii by (cbn; lia). unfold f. rewrite <- !app_assoc. cbn [b list_ascii_of_string app]. rewrite pieces_split by (cbn; lia). rewrite pieces_split by (cbn; lia).
      cbn [app]. repeat (rewrite <- app_assoc; cbn [app]). reflexivity. }
    rewrite EP in *. rewrite EF in *. assert (NM : pc 60 :: pieces w ++ pc 58 :: pieces y ++ [pc 62] <> []) by discriminate.
    destruct (reach_first u (link_re g3 g5) _ _ [(4, text_of (pieces y)); (3, text_of (pieces w))] LK (link_nullable _ _) NM (pieces a) pre pv p e fuel H Lf AP')
      as (pv' & p' & e' & fuel' & A' & F' & I1).
    { intros s' As. apply (angle_link_best u (map (map item_of) ss) g3 g5 (pre ++ pieces a)) with (x := map item_of s); try reflexivity; try assumption.
      - apply in_map. exact Is.
      - rewrite (pieces_ascii_all w AW), fst_ascii. apply word_imatch. exact W.
      - assert (NY : ~ In newline y). { intros I. apply NL. apply in_or_app. right. apply in_or_app. right. apply in_or_app. left. apply in_or_app. right. right. exact I. }
        pose proof (not_char ">"%char y ltac:(cbn; lia) NG) as F1. pose proof (not_char newline y ltac:(cbn; lia) NY) as F2.
        rewrite Forall_forall in *. intros z Iz. split; [apply F1|apply F2]; exact Iz. }
    rewrite I1. constructor.
    + right. cbn [group find fst snd Nat.eqb groups]. rewrite !text_pieces. split; [reflexivity|]. split; [reflexivity|]. exists w, y. auto 6.
    + apply (IH _ _ _ e' _ A' F').
      * intros I. apply NL. unfold f. apply in_or_app. right. apply in_or_app. right. apply in_or_app. right. apply in_or_app. right. exact I.
      * intros _. rewrite app_assoc, last_rune_app by discriminate. replace (pc 60 :: pieces w ++ pc 58 :: pieces y ++ [pc 62]) with ((pc 60 :: pieces w ++ pc 58 :: pieces y) ++ [pc 62]) by (cbn [app]; rewrite <- app_assoc; reflexivity).
        rewrite last_rune_app by discriminate. reflexivity.
  - pose proof WS as (Nw & s & Is & W). pose proof (word_ascii s w ltac:(rewrite Forall_forall in OK; auto) W) as AW.
    pose proof (apart_plain u ss g3 g5 pre edge a q w (y ++ x) OK SI W3 W5 Q SEP WS WB) as AP.
    apply (barren_apart u ss) in AP; try assumption; [|apply pieces_shape|rewrite text_pieces; exact PW].
    assert (EF : pieces (w ++ b ":" ++ y ++ x) = (pieces w ++ pc 58 :: pieces y) ++ pieces x).
    { cbn [b list_ascii_of_string app]. rewrite pieces_split by (cbn; lia). rewrite (pieces_end y x PE), <- app_assoc. reflexivity. }
    assert (EP : pieces (a ++ q ++ (w ++ b ":" ++ y) ++ x) = pieces (a ++ q) ++ (pieces w ++ pc 58 :: pieces y) ++ pieces x).
    { rewrite <- EF. destruct WB as (c & v & -> & WB). rewrite app_assoc, <- !app_assoc. rewrite (app_assoc a q). apply (pieces_stop (a ++ q) c). apply word_byte_ascii. exact WB. }
    rewrite EP in *. rewrite EF in AP.
    assert (NM : pieces w ++ pc 58 :: pieces y <> []) by (destruct (pieces w); discriminate).
    destruct (reach_first u (link_re g3 g5) _ _ [(6, text_of (pieces y)); (5, text_of (pieces w))] LK (link_nullable _ _) NM (pieces (a ++ q)) pre pv p e fuel H Lf AP)
      as (pv' & p' & e' & fuel' & A' & F' & I1).
    { intros s' As. apply (plain_link_best u (map (map item_of) ss) g3 g5 (pre ++ pieces (a ++ q))) with (x := map item_of s); try reflexivity; try assumption.
      - apply in_map. exact Is.
      - rewrite (pieces_ascii_all w AW), fst_ascii. apply word_imatch. exact W.
      - assert (B1 : word_at (last_rune (pre ++ pieces (a ++ q))) = false).
        { destruct SEP as (Fq & Sa & Sq). destruct Sq as [(y0 & c & -> & NW & _)|[-> Sq]].
          - rewrite last_rune_app by (apply pieces_ne; destruct a; [destruct y0; discriminate|discriminate]). rewrite app_assoc. apply last_not_word. exact NW.
          - rewrite app_nil_r. destruct Sa as [->|(y1 & c & -> & Sc)].
            + change (pieces []) with (@nil piece). rewrite app_nil_r. destruct Sq as [Sq|Sq]; [congruence|auto].
            + rewrite last_rune_app by (apply pieces_ne; destruct y1; discriminate). apply last_not_word. revert Sc. unfold stop, stops, word_byte. cbn [In]. lia. }
        assert (B2 : word_at (first_rune (pieces w)) = true). { apply first_word; [apply pieces_shape|]. rewrite text_pieces. destruct WB as (c & v & -> & WB). eauto. }
        rewrite B1, B2. reflexivity.
      - apply pieces_ne. exact Nw.
      - destruct WB as (c & v & -> & WB). rewrite pieces_ascii by (apply word_byte_ascii; exact WB). cbn [fst]. revert WB. unfold word_byte. lia.
      - rewrite fst_pieces. exact PT.
      - rewrite fst_pieces. exact PE. }
    rewrite I1. constructor.
    + right. cbn [group find fst snd Nat.eqb groups]. rewrite !text_pieces. split; [reflexivity|]. split; [reflexivity|]. exists w, y. auto 8.
    + apply (IH _ _ _ e' _ A' F'); [|discriminate]. intros I. apply NL. apply in_or_app. right. apply in_or_app. right. apply in_or_app. right. exact I.
Qed.
Lemma consists_same ss ss' edge line ls : (forall s, In s ss' <-> In s ss) -> consists ss edge line ls -> consists ss' edge line ls.
Proof.
  intros EQ S. assert (WS : forall w, with_scheme ss w -> with_scheme ss' w) by (intros w (N & s & Is & W); split; [exact N|exists s; split; [apply EQ; exact Is|exact W]]).
  assert (PW : forall a, plain_words ss a -> plain_words ss' a) by (intros a [P1 P2]; split; [exact P1|intros x w y s E Is; exact (P2 x w y s E (proj1 (EQ s) Is))]).
  induction S as [edge x P|edge a t d x ls Q P NT NB ND S IH|edge a w y x ls Q P W NG S IH|edge a q w y x ls Q P SEP W WB PT PE S IH]; constructor; auto.
  destruct SEP as (F & A & D). split; [exact F|]. split; [exact A|]. destruct D as [(y0 & c & E & N & X)|D]; [|right; exact D].
  left. exists y0, c. split; [exact E|]. split; [exact N|]. intros s z Is. apply X. apply EQ. exact Is.
Qed.
Lemma links_exact variants ss ss' c u n line ls ls' : variants_of variants ss -> firsts ss ss' -> UpdateRe variants = Some c -> simple_schemes ss -> ~ In newline line ->
  consists ss true line ls -> chosen ss' ls ls' -> links_of u c n line = map (fun l => mkLink (fst l) (snd l) n) ls'.
Proof.
  intros V F U SI NL S CH. destruct (firsts_variants _ _ _ _ V F U) as (V' & N & U').
  assert (NE : ss' <> []). { intros ->. discriminate U'. }
  destruct (UpdateRe_all _ _ _ V' U') as (s2 & g3 & g5 & EQ & NE2 & OK & L3 & L5 & RL & LK & W3 & W5 & _).
  destruct (UpdateRe_ok _ _ V' NE) as (c' & s3 & g3' & g5' & U2 & _ & _ & OK3 & EQ3 & _ & _ & _ & CS). rewrite U' in U2. injection U2 as <-. rewrite (EQ3 N) in *.
  assert (EQ' : forall s, In s s2 <-> In s ss) by (intros s; rewrite EQ; apply firsts_in, F).
  assert (SI' : simple_schemes s2) by (intros s y Is; apply SI; apply EQ'; exact Is). apply (consists_same ss s2) in S; [|exact EQ'].
  pose proof (consists_found u s2 g3 g5 OK SI' W3 W5 L3 L5 LK _ _ _ S [] None 0 None (Datatypes.S (length (pieces line))) (at_start _) (Nat.lt_succ_diag_r _) NL (fun _ => eq_refl)) as M.
  unfold links_of, FindAll. rewrite RL. revert M. generalize (all_matches (Datatypes.S (length (pieces line))) u (link_re g3 g5) None 0 (pieces line) None). intros ms M. clear S.
  assert (A : forall m l, exact_as s2 m l -> OrgLinkMatchIsUrl u c m = if MatchString u (reScheme c) (fst l) then Some (mkLink (fst l) (snd l) 0) else None).
  { intros m [t d] H. cbn [fst snd]. unfold OrgLinkMatchIsUrl. destruct H as [(Nt & G1 & G2)|(G1 & Ed & w & y & Et & (Nw & s & Is & W) & G)]; cbn [fst snd] in *.
    - rewrite G1, G2. destruct t; [congruence|reflexivity].
    - subst d t. rewrite (proj2 (accepted_iff u ss' (reScheme c) (w ++ b ":" ++ y) OK3 NE CS)) by (apply proper_accepted with s; [apply EQ; exact Is|exact W]). rewrite G1.
      destruct G as [[G3 G4]|(G3 & G5 & G6)]; rewrite G3; [rewrite G4|rewrite G5, G6]; destruct w; try congruence; reflexivity. }
  revert ms M. induction CH as [|t d ls ls' AC CH IH|t d ls ls' AC CH IH]; intros ms M; inversion M as [|m l ms' ls0 H M' E1 E2]; subst; [reflexivity| |]; cbn [flat_map]; rewrite (A _ _ H), (IH _ M'); cbn [fst snd].
  - rewrite (proj2 (accepted_iff u ss' (reScheme c) t OK3 NE CS) AC). reflexivity.
  - destruct (MatchString u (reScheme c) t) eqn:Z; [exfalso; apply AC; exact (proj1 (accepted_iff u ss' (reScheme c) t OK3 NE CS) Z)|reflexivity].
Qed.
Lemma passing_filtered f ls ls' : passing f ls ls' -> filtered f ls = ls'.
Proof.
  intros P. induction P as [|l ls ls' H P IH|l ls ls' H P IH]; destruct f as [g|]; cbn [filtered filter] in *; try reflexivity; cbn in H, IH; try congruence.
  - rewrite H. cbn. congruence.
  - destruct (g _) eqn:E; [exfalso; auto|exact IH].
  - exfalso. auto.
Qed.
Lemma org_exact variants ss ss' c u chunk f content broken t err lines e k line ls ls' links : variants_of variants ss -> firsts ss ss' -> UpdateRe variants = Some c -> simple_schemes ss ->
  OrgExtract u c chunk f content broken = Done (Some t, err) -> seen_lines content broken lines e -> nth_error lines k = Some line ->
  consists ss true line ls -> chosen ss' ls ls' -> passing f (map (fun l => mkLink (fst l) (snd l) (S k)) ls') links ->
  filter (fun l => LineNo l =? S k) (map snd (paths t)) = links.
Proof.
  intros V F U SI E SL N S CH P. pose proof (seen_break _ _ _ _ SL) as NB. rewrite Forall_forall in NB. apply nth_error_In in N as IL. specialize (NB _ IL).
  rewrite (org_line_links _ _ _ _ _ _ _ _ _ _ _ _ E SL N), (links_exact _ _ _ _ u (Datatypes.S k) _ _ _ V F U SI NB S CH). apply passing_filtered, P.
Qed.
Lemma org_none variants ss c u chunk f content broken t err lines e k line : variants_of variants ss -> UpdateRe variants = Some c -> simple_schemes ss ->
  OrgExtract u c chunk f content broken = Done (Some t, err) -> seen_lines content broken lines e -> nth_error lines k = Some line ->
  plain_words ss line -> forall p l, In (p, l) (paths t) -> LineNo l <> S k.
Proof.
  intros V U SI E SL N PW p l I H. destruct (firsts_exists ss) as (ss' & F).
  pose proof (org_exact _ _ _ _ _ _ _ _ _ _ _ _ _ _ _ _ _ _ V F U SI E SL N (consists_end ss true line PW) (chosen_nil ss') (passing_nil f)) as Q.
  assert (J : In l (filter (fun l => LineNo l =? Datatypes.S k) (map snd (paths t)))) by (apply filter_In; split; [exact (in_map snd _ _ I)|rewrite H; apply Nat.eqb_refl]). rewrite Q in J. exact J.
Qed.
Lemma org_file variants ss ss' c u chunk f content broken t err lines e links : variants_of variants ss -> firsts ss ss' -> UpdateRe variants = Some c -> simple_schemes ss ->
  OrgExtract u c chunk f content broken = Done (Some t, err) -> seen_lines content broken lines e -> file_links ss ss' f 1 lines links -> err = e /\ map snd (paths t) = links.
Proof.
  intros V F U SI E SL FL. pose proof (seen_break _ _ _ _ SL) as NB. destruct (org_total u c chunk f _ _ _ _ SL) as (t' & E' & P). rewrite E in E'. injection E' as <- <-. split; [reflexivity|]. rewrite P. clear P E SL.
  assert (G : forall a links, file_links ss ss' f (Datatypes.S a) lines links -> flat_map (fun p => filtered f (links_of u c (1 + fst p) (snd p))) (combine (seq a (length lines)) lines) = links); [|exact (G 0 _ FL)].
  clear FL links. induction lines as [|line lines IH]; intros a links FL; inversion FL as [|n l0 ls0 ls ls' x more C CH PA FL']; subst; [reflexivity|].
  cbn [length seq combine flat_map fst snd]. change (1 + a) with (Datatypes.S a). inversion NB as [|? ? N1 N2]; subst. rewrite (links_exact _ _ _ _ u (Datatypes.S a) _ _ _ V F U SI N1 C CH), (passing_filtered _ _ _ PA), (IH N2 (Datatypes.S a) _ FL'). reflexivity.
Qed.
