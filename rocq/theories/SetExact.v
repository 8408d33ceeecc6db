(** Lines of files: links that are found by prefixes are exactly those that are seen there. *)
From Coq Require Import ZifyBool ZifyNat ZifyN.
From Verif Require Import GoBase GoSlice Utf8 Utf8Proofs Utf8Dec Regex RegexParse RegexSpec RegexProofs Pieces RegexLex RegexWords Patterns
  Flags Emacs LinkTypes Extract ExtractSpec HeadingProofs SchemeProofs LinkProofs2 BracketProofs TextFound SetSpec SetProofs SetCompile SetMain OrgFoundSpec OrgFound OrgFoundMain SetFoundSpec SetFound SetFoundMain OrgExact SetExactSpec.
From Verif Require Scanner OrgProofs OrgFoundLines.
Local Notation newline := Scanner.newline (only parsing).

Lemma barren_part u k g g' filters qs s pre tail : prefix_re g qs -> prefix_re g' qs -> Forall2 full_prefix filters qs -> plain_part k filters s ->
  apart u (whole_re k g g') pre (pieces s) tail -> barren u (whole_re k g g') pre (pieces s) tail.
Proof.
  intros P P' F [NB NP] AP a c mid post new El Nc Em M. pose proof (AP _ _ _ _ _ El Nc Em M) as Lm. destruct (app_split _ _ _ _ Em Lm) as (d & -> & _).
  pose proof (pieces_shape s) as HL. rewrite El, !Forall_app in HL. destruct HL as (_ & Hm & _).
  assert (TS : s = text_of a ++ text_of mid ++ text_of d) by (rewrite <- (text_pieces s), El, !text_app; reflexivity).
  assert (PL : forall x y z q, pieces s = x ++ y ++ z -> In q qs -> map fst y = runes_of q -> False).
  { intros x y z q E Iq R. destruct (full_in _ _ _ F Iq) as (p & Ip & Fp). apply (NP (text_of x) (text_of y) (text_of z) p q); [|exact Ip|exact Fp|rewrite <- R; exact (runes_part _ _ _ _ E)].
    rewrite <- !text_app, <- E, text_pieces. reflexivity. }
  assert (PLAIN : forall n, mlist u (set_plain_re n g') (pre ++ a) mid post new -> False).
  { intros n M1. unfold set_plain_re in M1. seq M1 l1 l2 n1 n2 M0. destruct M0 as (-> & _ & ->). destruct M1 as (n0 & M1 & ->). cbn [app] in *. seq M1 la lb na nb Ma. apply P' in Ma.
    destruct Ma as (-> & q & Iq & R). apply (PL a la (lb ++ d) q); [rewrite El, <- !app_assoc; reflexivity|exact Iq|exact R]. }
  destruct k; [|exact (PLAIN 1 M)]. destruct M as [M|[M|M]]; [| |exact (PLAIN 4 M)].
  - pose proof (link_shape u [] none_re none_re (pre ++ a) mid post new none_words none_words Hm (or_introl M)) as Sh.
    inversion Sh as [md g1 tl g2 NM NG ESC T D (p & q & SP) mm G1 G2 E1 E2|md g3' g4 x T [] Mx F' Hg mm G1 G3 G4 G5 E1 E2|md g5' g6 x T [] Mx F' Hg N6 WB mm G1 G3 G5 G6 E1 E2]; subst md mm.
    rewrite T in TS. eapply (NB eq_refl (text_of a)). rewrite TS, <- !app_assoc. reflexivity.
  - unfold set_angle_re in M. seq M l1 l2 n1 n2 M1. seq M l3 l4 n3 n4 M3. destruct M3 as (n0 & M3 & ->). seq M3 la lb na nb Ma. apply P in Ma. destruct Ma as (-> & q & Iq & R).
    apply (PL (a ++ l1) la (lb ++ l4 ++ d) q); [rewrite El, <- !app_assoc; reflexivity|exact Iq|exact R].
Qed.

Definition exactly_as (k : kind) (filters : list str) (m : rmatch) (x : str) : Prop :=
  (x <> [] /\ group m 1 = x) \/ (k = Org /\ group m 1 = [] /\ x <> [] /\ starts_with filters x /\ (group m 3 = x \/ (group m 3 = [] /\ group m 4 = x))).
Lemma begins_starts filters x more : prefixes_ok filters -> begins filters x more -> starts_with filters x /\ x <> [].
Proof.
  intros [_ OK] (p & q & Ip & Fp & ->). rewrite Forall_forall in OK. destruct (OK _ Ip) as [Op Vp]. split.
  - exists p, q, (runes_of more). split; [exact Ip|]. split; [exact Fp|]. apply runes_app_valid. apply (full_valid _ _ Fp). exact Vp.
  - intros E. apply (full_ne _ _ Fp Op). destruct q; [reflexivity|discriminate].
Qed.
Lemma holds_found u k g g' filters qs : prefix_re g qs -> prefix_re g' qs -> simple_q qs -> Forall2 full_prefix filters qs -> prefixes_ok filters -> loops_ok (whole_re k g g') = true ->
  forall edge line ls, holds k filters edge line ls ->
  forall pre pv p e fuel, at_state pre (pieces line) (mkSt pv p (pieces line) []) -> length (pieces line) < fuel -> ~ In newline line -> (edge = true -> word_at (last_rune pre) = false) ->
  Forall2 (exactly_as k filters) (all_matches fuel u (whole_re k g g') pv p (pieces line) e) ls.
Proof.
  intros P P' SI F OK LK edge line ls S. destruct (whole_loops _ _ _ LK) as [Lg Lg'].
  pose proof (fun q Iq => simple_plain qs q SI Iq) as SP.
  induction S as [edge x PW|edge a t d x ls -> Q PW NT NB ND S IH|edge a l more x ls -> Q PW BG NG S IH|edge a q l more x ls Q PW SEP BG WB PT PE S IH]; intros pre pv p e fuel H Lf NL ED.
  - rewrite (reach_none u (whole_re k g g') (pieces x) pre pv p e fuel (whole_nullable _ _ _) H); [constructor|]. apply barren_part with filters qs; try assumption.
    intros a c mid post new _ _ E _. rewrite app_nil_r in E. rewrite E, app_length. lia.
  - assert (EP : pieces (a ++ bracket_line t d ++ x) = pieces a ++ pieces (bracket_line t d ++ x)) by (apply (pieces_stop a "["%char); cbn; lia).
    pose proof (apart_stop u g g' qs pre a ("[" :: (t ++ b "]" ++ match d with [] => [] | _ => b "[" ++ d ++ b "]" end ++ b "]") ++ x)%char "["%char P P' SI Q (fun _ => eq_refl) ltac:(vm_compute; auto)) as AP.
    change (pieces ("[" :: "[" :: (t ++ b "]" ++ match d with [] => [] | _ => b "[" ++ d ++ b "]" end ++ b "]") ++ x)%char) with (pieces (bracket_line t d ++ x)) in AP.
    apply (barren_part u Org g g' filters qs _ _ _ P P' F PW) in AP.
    rewrite EP in *. rewrite bracket_pieces in *.
    assert (NM : pc 91 :: pc 91 :: pieces t ++ pc 93 :: tail_list (pc 91) (pc 93) (pieces d) ++ [pc 93] <> []) by discriminate.
    destruct (reach_first u (whole_re Org g g') _ _ (tail_caps (pieces d) ++ [(1, text_of (pieces t))]) LK (whole_nullable _ _ _) NM (pieces a) pre pv p e fuel H Lf AP)
      as (pv' & p' & e' & fuel' & A' & F' & I1).
    { intros s As. apply (bracket_left u _ (pre ++ pieces a)); try reflexivity; [apply pieces_ne; exact NT| | |exact As].
      - pose proof (not_char "["%char t ltac:(cbn; lia) (NB "["%char ltac:(cbn; auto))) as F1. pose proof (not_char "]"%char t ltac:(cbn; lia) (NB "]"%char ltac:(cbn; auto))) as F2.
        rewrite Forall_forall in *. intros z Iz. split; [apply F2|apply F1]; exact Iz.
      - apply (not_char "]"%char d); [cbn; lia|exact ND]. }
    rewrite I1. constructor.
    + left. split; [exact NT|]. destruct (pieces d) as [|pd ld]; cbn [group tail_caps app find fst Nat.eqb groups]; apply text_pieces.
    + apply (IH _ _ _ e' _ A' F'); [intros I; apply NL; apply in_or_app; right; apply in_or_app; right; exact I|].
      * intros _. rewrite app_assoc, last_rune_app by discriminate. change (pc 91 :: pc 91 :: pieces t ++ pc 93 :: tail_list (pc 91) (pc 93) (pieces d) ++ [pc 93]) with ((pc 91 :: pc 91 :: pieces t) ++ (pc 93 :: tail_list (pc 91) (pc 93) (pieces d)) ++ [pc 93]).
        rewrite app_assoc, last_rune_app by discriminate. reflexivity.
  - destruct (begins_parts _ _ _ _ F OK BG) as (q & lq & ly & Iq & El & Nq & EPl & R1 & R2).
    set (f := l ++ b ">" ++ x) in *. assert (EP : pieces (a ++ b "<" ++ f) = pieces a ++ pieces (b "<" ++ f)) by (apply (pieces_stop a "<"%char); cbn; lia).
    assert (AP' : apart u (whole_re Org g g') pre (pieces a) (pieces (b "<" ++ f))).
    { apply (apart_stop u g g' qs pre a f "<"%char P P' SI Q); [|vm_compute; auto]. cbn [begins_open]. destruct f; [exact I|discriminate]. }
    apply (barren_part u Org g g' filters qs _ _ _ P P' F PW) in AP'.
    assert (EF : pieces (b "<" ++ f) = (pc 60 :: (lq ++ ly) ++ [pc 62]) ++ pieces x).
    { cbn [b list_ascii_of_string app]. rewrite pieces_ascii by (cbn; lia). unfold f. cbn [b list_ascii_of_string app]. rewrite pieces_split by (cbn; lia). rewrite EPl.
      repeat (rewrite <- app_assoc; cbn [app]). reflexivity. }
    rewrite EP in *. rewrite EF in *. assert (NM : pc 60 :: (lq ++ ly) ++ [pc 62] <> []) by discriminate.
    destruct (reach_first u (whole_re Org g g') _ _ [(3, text_of (lq ++ ly))] LK (whole_nullable _ _ _) NM (pieces a) pre pv p e fuel H Lf AP')
      as (pv' & p' & e' & fuel' & A' & F' & I1).
    { intros s' As. apply best_right. { pose proof As as (_ & R & _). rewrite reBr_eq. apply seq_never, lit_never. rewrite R. discriminate. }
      apply best_left. apply (set_angle_best u 3 g qs (pc 60) lq ly (pc 62) (pieces x) (pre ++ pieces a) s' q); try reflexivity; try assumption; [apply Lg; reflexivity|].
      assert (NY : ~ In newline more). { intros I. apply NL. unfold f. apply in_or_app. right. apply in_or_app. right. apply in_or_app. left. rewrite El. apply in_or_app. right. exact I. }
      assert (X : forall c, (N_of_ascii c < 128)%N -> ~ In c more -> Forall (fun r => r <> N_of_ascii c) (map fst ly)).
      { intros c A N. rewrite R2, <- fst_pieces. apply Forall_map. apply not_char; assumption. }
      pose proof (X ">"%char ltac:(cbn; lia) NG) as F1. pose proof (X newline ltac:(cbn; lia) NY) as F2. apply (proj1 (Forall_map _ _ _)) in F1. apply (proj1 (Forall_map _ _ _)) in F2.
      rewrite Forall_forall in *. intros z Iz. split; [apply F1|apply F2]; exact Iz. }
    rewrite I1. constructor.
    + destruct (begins_starts _ _ _ OK BG) as [BS BN]. right. split; [reflexivity|]. cbn [group find fst Nat.eqb groups]. split; [reflexivity|]. split; [exact BN|]. split; [exact BS|]. left. rewrite <- EPl. apply text_pieces.
    + apply (IH _ _ _ e' _ A' F').
      * intros I. apply NL. unfold f. apply in_or_app. right. apply in_or_app. right. apply in_or_app. right. apply in_or_app. right. exact I.
      * intros _. rewrite app_assoc, last_rune_app by discriminate. change (pc 60 :: (lq ++ ly) ++ [pc 62]) with ((pc 60 :: (lq ++ ly)) ++ [pc 62]).
        rewrite last_rune_app by discriminate. reflexivity.
  - destruct (begins_parts _ _ _ _ F OK BG) as (q0 & lq & ly & Iq & El & Nq & EPl & R1 & R2).
    pose proof (apart_word u k g g' filters qs pre edge a q l more x q0 P P' SI F OK Q SEP Iq El WB) as AP.
    apply (barren_part u k g g' filters qs _ _ _ P P' F PW) in AP.
    assert (EF : pieces (l ++ x) = (lq ++ ly) ++ pieces x) by (rewrite (pieces_end l x PE), EPl; reflexivity).
    assert (EP : pieces (a ++ q ++ l ++ x) = pieces (a ++ q) ++ (lq ++ ly) ++ pieces x).
    { rewrite <- EF. destruct WB as (c & v & -> & WB). rewrite (app_assoc a q). apply (pieces_stop (a ++ q) c). apply word_byte_ascii. exact WB. }
    rewrite EP in *. rewrite EF in AP.
    assert (NM : lq ++ ly <> []) by (intros E; apply app_eq_nil in E; destruct E as [-> _]; apply Nq; symmetry; exact R1).
    assert (B : forall n s', at_state (pre ++ pieces (a ++ q)) ((lq ++ ly) ++ pieces x) s' -> best u (set_plain_re n g') s' (move s' (lq ++ ly) (pieces x) [(n, text_of (lq ++ ly))])).
    { intros n s' As. apply (set_plain_best u n g' qs lq ly (pieces x) (pre ++ pieces (a ++ q)) s' q0); try assumption.
      - assert (B1 : word_at (last_rune (pre ++ pieces (a ++ q))) = false).
        { destruct SEP as (Fq & Sa & Sq). destruct Sq as [(y0 & c & -> & NW & _)|[-> Sq]].
          - rewrite last_rune_app by (apply pieces_ne; destruct a; [destruct y0; discriminate|discriminate]). rewrite app_assoc. apply last_not_word. exact NW.
          - rewrite app_nil_r. destruct Sa as [->|(y1 & c & -> & Sc)].
            + change (pieces []) with (@nil piece). rewrite app_nil_r. destruct Sq as [Sq|Sq]; [congruence|auto].
            + rewrite last_rune_app by (apply pieces_ne; destruct y1; discriminate). apply last_not_word. revert Sc. unfold stop, stops, word_byte. cbn [In]. lia. }
        assert (B2 : word_at (first_rune (lq ++ ly)) = true). { rewrite <- EPl. apply first_word; [apply pieces_shape|]. rewrite text_pieces. destruct WB as (c & v & -> & WB). eauto. }
        rewrite B1, B2. reflexivity.
      - rewrite R2. exact PT.
      - rewrite fst_pieces. exact PE. }
    destruct (reach_first u (whole_re k g g') _ _ [(plain_no k, text_of (lq ++ ly))] LK (whole_nullable _ _ _) NM (pieces (a ++ q)) pre pv p e fuel H Lf AP)
      as (pv' & p' & e' & fuel' & A' & F' & I1).
    { intros s' As. destruct k; [|apply B; exact As]. destruct WB as (c & v & Ec & WB).
      assert (R0 : exists t, rest s' = (N_of_ascii c, [c]) :: t).
      { pose proof As as (_ & R & _). rewrite R, <- EF, Ec. cbn [app]. rewrite pieces_ascii by (apply word_byte_ascii; exact WB). eauto. }
      destruct R0 as (t & R0). assert (NC : N_of_ascii c <> 91%N /\ N_of_ascii c <> 60%N) by (revert WB; unfold word_byte; lia).
      apply best_right. { rewrite reBr_eq. apply seq_never, lit_never. rewrite R0. cbn [fst]. lia. }
      apply best_right. { apply seq_never, lit_never. rewrite R0. cbn [fst]. lia. }
      apply B. exact As. }
    rewrite I1. constructor.
    + destruct (begins_starts _ _ _ OK BG) as [BS BN]. destruct k; [right; split; [reflexivity|]; cbn [group find fst Nat.eqb groups plain_no]; split; [reflexivity|]; split; [exact BN|]; split; [exact BS|]; right; split; [reflexivity|]|left; split; [exact BN|]; cbn [group find fst Nat.eqb groups plain_no]];
        rewrite <- EPl; apply text_pieces.
    + apply (IH _ _ _ e' _ A' F'); [|discriminate].
      * intros I. apply NL. apply in_or_app. right. apply in_or_app. right. apply in_or_app. right. exact I.
Qed.

(** ** Files *)
Lemma starts_q_iff filters qs x : Forall2 full_prefix filters qs -> starts_with filters x <-> exists q more, In q qs /\ runes_of x = runes_of q ++ more.
Proof.
  intros F. split.
  - intros (p & q & more & Ip & Fp & E). exists q, more. split; [|exact E]. clear -F Ip Fp. induction F as [|p' q' ps qs Hp F IH]; [destruct Ip|]. destruct Ip as [->|Ip]; [|right; apply IH, Ip]. left.
    destruct Hp as [[A ->]|[A ->]], Fp as [[A' ->]|[A' ->]]; try contradiction; reflexivity.
  - intros (q & more & Iq & E). destruct (full_in _ _ _ F Iq) as (p & Ip & Fp). exists p, q, more. auto.
Qed.
Lemma check_starts_with u g filters qs r x : prefix_re g qs -> Forall2 full_prefix filters qs -> compile r = Some (RSeq RBegin g) -> MatchString u (RSeq RBegin g) x = true <-> starts_with filters x.
Proof.
  intros P F C. rewrite (check_iff _ _ _ _ _ P C), (starts_q_iff _ _ _ F). split.
  - intros (q & rest & I & E & _). eauto.
  - intros (q & more & I & E). rewrite <- fst_pieces in E. apply split_fst in E. destruct E as (mid & rest & E & R1 & R2). exists q, rest. split; [exact I|].
    split; [rewrite <- fst_pieces, E, map_app, R1; reflexivity|]. eauto.
Qed.
Lemma keys_exact k g gp filters qs r ms ls x : prefix_re gp qs -> Forall2 full_prefix filters qs -> compile r = Some (RSeq RBegin gp) -> g = RSeq RBegin gp -> Forall2 (exactly_as k filters) ms ls ->
  In x (flat_map (fun m => key_of (set_key (is_org k) g m)) ms) <-> In x ls /\ starts_with filters x.
Proof.
  intros P F C Eg A. assert (CH : forall y, MatchString (fun _ => false) g y = true <-> starts_with filters y) by (intros y; rewrite Eg; exact (check_starts_with _ _ _ _ _ _ P F C)). clear Eg C P.
  induction A as [|m l ms ls H A IH]; [cbn; tauto|]. cbn [flat_map In]. rewrite in_app_iff, IH.
  assert (X : In x (key_of (set_key (is_org k) g m)) <-> l = x /\ starts_with filters x); [|tauto].
  destruct H as [[NE G]|(-> & G1 & NE & ST & G)]; unfold set_key.
  - rewrite G. destruct l as [|c l]; [congruence|]. specialize (CH (c :: l)). destruct (MatchString (fun _ => false) g (c :: l)); cbn [key_of In].
    + split; [intros [<-|[]]; split; [reflexivity|apply CH; reflexivity]|intros [<- _]; auto].
    + split; [tauto|]. intros [<- S]. apply CH in S. discriminate S.
  - rewrite G1. cbn [is_org]. assert (Y : forall s : str, s <> [] -> s = l -> In x (key_of (Done (Some s))) <-> l = x /\ starts_with filters x).
    { intros s _ ->. cbn [key_of In]. split; [intros [<-|[]]; auto|intros [<- _]; auto]. }
    destruct G as [G|[G G']]; rewrite G.
    + destruct l; [congruence|]. apply Y; congruence.
    + rewrite G'. destruct l; [congruence|]. apply Y; congruence.
Qed.
Lemma set_exact k chunk content broken filters lines err set lss : prefixes_ok filters -> simple_prefixes filters -> seen_lines content broken lines err ->
  Forall2 (holds k filters true) lines lss ->
  exists set', ExtractSet k chunk content broken filters set = Done (set', err) /\ forall x, In x set' <-> In x set \/ (In x (concat lss) /\ starts_with filters x).
Proof.
  intros H SI Sn L. destruct (whole_patterns k filters H) as (base & g & g' & gp & qs & B & C & Cp & Pp & F2 & V & P & P' & K).
  unfold ExtractSet. rewrite B, C, Cp. destruct (OrgProofs.scan_seen broken chunk _ _ _ Sn) as (e & -> & Ee).
  destruct (set_lines_ok (is_org k) (whole_re k g g') (RSeq RBegin gp) lines) with (s := set) as (s' & E & I & _).
  { apply Forall_forall. intros l _. apply Forall_forall. intros m Im. exact (K l m Im). }
  exists s'. replace (match k with Org => true | Txt => false end) with (is_org k) by (destruct k; reflexivity). rewrite E. cbn [obind]. rewrite Ee. split; [reflexivity|].
  intros x. rewrite I. assert (X : In x (flat_map (found_in (is_org k) (whole_re k g g') (RSeq RBegin gp)) lines) <-> In x (concat lss) /\ starts_with filters x); [|tauto].
  pose proof (OrgFoundLines.seen_break _ _ _ _ Sn) as NL. clear E Ee Sn I. induction L as [|line ls lines lss Hl L IH]; [cbn; tauto|].
  inversion NL as [|? ? NL1 NL2]; subst. cbn [flat_map concat]. rewrite !in_app_iff, (IH NL2). unfold found_in.
  rewrite (keys_exact k (RSeq RBegin gp) gp filters qs _ _ ls x Pp F2 Cp eq_refl); [tauto|].
  apply (holds_found (fun _ => false) k g g' filters qs P P' (simple_full _ _ F2 SI) F2 H (compile_ok _ _ C) true line ls Hl [] None 0 None (Datatypes.S (length (pieces line))));
    [split; [reflexivity|split; reflexivity]|lia|exact NL1|reflexivity].
Qed.
