(** Exact result for bracket links. *)
From Coq Require Import ZifyBool ZifyNat ZifyN.
From Verif Require Import GoBase GoSlice Utf8 Utf8Proofs Utf8Dec Regex RegexParse RegexSpec RegexProofs Pieces RegexLex RegexWords Patterns
  LinkTypes Extract ExtractSpec HeadingProofs SchemeProofs LinkProofs2.

Lemma FindAll_single u r s : loops_ok r = true -> nullable r = false ->
  (exists mid post new, pieces s = mid ++ post /\ mlist u r [] mid post new) ->
  (forall mid post new, pieces s = mid ++ post -> mlist u r [] mid post new -> post = []) ->
  exists new, FindAll u r s = [mkMatch s new] /\ mlist u r [] (pieces s) [] new.
Proof.
  intros L N (mid0 & post0 & new0 & E0 & M0) U. unfold FindAll. cbn [all_matches].
  pose proof (at_exists [] (mid0 ++ post0)) as A0. pose proof (mlist_msem u r _ _ _ _ _ A0 M0) as S0.
  destruct (search u r None 0 (pieces s)) as [[s1 s2]|] eqn:E.
  2:{ exfalso. exact (search_complete u r L _ _ _ _ (at_start _) E [] (mid0 ++ post0) _ _ E0 A0 eq_refl S0). }
  pose proof (search_leftmost u r L _ _ _ _ _ _ (at_start _) E [] (mid0 ++ post0) _ _ E0 A0 eq_refl S0) as LM.
  destruct (search_sound _ _ _ _ _ _ _ _ (at_start _) E) as (a & Ea & Ha & Ca & Ma).
  assert (a = []). { apply length_zero_iff_nil. rewrite <- E0, Ea, app_length in LM. lia. } subst a. cbn [app] in Ea, Ha.
  destruct (match_of_found u r (pieces s) [] [] s1 s2 Ea Ha Ca Ma) as (mid & F & Em). apply found_iff in F. destruct F as (Ef & new & Mf & Ef2).
  cbn [app] in Ef, Mf. pose proof (U _ _ _ Ef Mf) as Z. rewrite Z, app_nil_r in Ef. rewrite Z in Mf. subst mid.
  pose proof (mlist_nullable u r N _ _ _ _ Mf) as NE.
  assert (P2 : pos s2 = length (pieces s)).
  { pose proof (msem_forward _ _ _ _ Ma) as (l & nw & X1 & X2 & _). destruct Ha as (P1 & _). rewrite X2, P1. cbn [length]. rewrite Z, app_nil_r, <- Ea in X1. rewrite X1. reflexivity. }
  assert (X : (pos s2 =? 0) = false). { destruct (pieces s); [congruence|]. rewrite P2. reflexivity. }
  rewrite X. cbn [andb negb app]. rewrite Z, P2. exists new. rewrite Ef2, text_pieces. split; [|exact Mf]. f_equal.
  destruct (length (pieces s)) as [|k]; [reflexivity|]. cbn [all_matches].
  destruct (search u r (prev s2) (S k) []) as [[s3 s4]|] eqn:E3; [|reflexivity]. exfalso.
  cbn [search] in E3. destruct (mt u r Some _) as [s5|] eqn:E5; [|discriminate]. apply mt_sound in E5. destruct E5 as (s6 & M6 & _).
  pose proof (msem_progress u r N _ _ M6) as PR. cbn in PR. lia.
Qed.

(** ** Counting of brackets *)
Definition count (c : ascii) (s : str) : nat := count_occ ascii_dec s c.
Lemma count_app c x y : count c (x ++ y) = count c x + count c y.
Proof. apply count_occ_app. Qed.
Lemma count_0 c s : count c s = 0 <-> ~ In c s.
Proof. symmetry. apply count_occ_not_In. Qed.
Lemma count_same c s : count c (c :: s) = S (count c s).
Proof. apply count_occ_cons_eq. reflexivity. Qed.
Lemma count_other c d s : d <> c -> count c (d :: s) = count c s.
Proof. apply count_occ_cons_neq. Qed.
Ltac counts := repeat first [rewrite count_app in * | rewrite count_same in * | rewrite count_other in * by discriminate | change (count ?c []) with 0 in *].
Lemma split_first {A} (c : A) x y x' y' : ~ In c x -> ~ In c x' -> x ++ c :: y = x' ++ c :: y' -> x = x' /\ y = y'.
Proof.
  revert x'. induction x as [|a x IH]; intros [|a' x'] N N' E; cbn in *.
  - injection E as ->. auto.
  - injection E as -> _. tauto.
  - injection E as <- _. tauto.
  - injection E as -> E. destruct (IH x' ltac:(tauto) ltac:(tauto) E) as [-> ->]. auto.
Qed.
Lemma bracket_unique t g1 tail g2 post : no_brackets t ->
  b "[[" ++ t ++ b "]]" = (b "[[" ++ g1 ++ b "]" ++ tail ++ b "]") ++ post ->
  (g2 = [] /\ tail = []) \/ (g2 <> [] /\ tail = b "[" ++ g2 ++ b "]") -> g1 = t /\ g2 = [] /\ post = [].
Proof.
  intros NB E D. cbn [b list_ascii_of_string app] in *. injection E as E. rewrite <- !app_assoc in E. cbn [app] in E. rewrite <- app_assoc in E. cbn [app] in E.
  assert (T1 : ~ In "["%char t) by (apply NB; cbn; auto). assert (T2 : ~ In "]"%char t) by (apply NB; cbn; auto).
  pose proof (proj2 (count_0 _ _) T1) as C1. pose proof (proj2 (count_0 _ _) T2) as C2.
  pose proof (f_equal (count "["%char) E) as E1. pose proof (f_equal (count "]"%char) E) as E2.
  destruct D as [[-> ->]|[_ ->]]; cbn [app] in *; counts.
  - assert (G : count "]" g1 = 0) by lia. apply count_0 in G. destruct (split_first _ _ _ _ _ T2 G E) as [-> E']. injection E' as <-. auto.
  - lia.
Qed.
Lemma in_first c (s : str) : In c s -> exists x y, s = x ++ c :: y /\ ~ In c x.
Proof.
  induction s as [|a s IH]; [intros []|]. intros I. destruct (ascii_dec a c) as [->|N]. { exists [], s. auto. }
  destruct I as [->|I]; [congruence|]. destruct (IH I) as (x & y & -> & Nx). exists (a :: x), y. split; [reflexivity|]. intros [->|J]; [congruence|auto].
Qed.
Lemma bracket_unique2 t d g1 tail g2 post : no_brackets t -> no_brackets d ->
  b "[[" ++ t ++ b "][" ++ d ++ b "]]" = (b "[[" ++ g1 ++ b "]" ++ tail ++ b "]") ++ post ->
  (forall x c y, g1 = x ++ c :: y -> In c (b "[]") -> exists z, x = z ++ b "\") ->
  (g2 = [] /\ tail = []) \/ (g2 <> [] /\ tail = b "[" ++ g2 ++ b "]") -> g1 = t /\ g2 = d /\ post = [].
Proof.
  intros NB ND E ES D. cbn [b list_ascii_of_string app] in *. injection E as E. rewrite <- !app_assoc in E. cbn [app] in E. rewrite <- app_assoc in E. cbn [app] in E.
  assert (T1 : ~ In "["%char t) by (apply NB; cbn; auto). assert (T2 : ~ In "]"%char t) by (apply NB; cbn; auto).
  assert (D1 : ~ In "["%char d) by (apply ND; cbn; auto). assert (D2 : ~ In "]"%char d) by (apply ND; cbn; auto).
  pose proof (proj2 (count_0 _ _) T1) as C1. pose proof (proj2 (count_0 _ _) T2) as C2.
  pose proof (proj2 (count_0 _ _) D1) as C3. pose proof (proj2 (count_0 _ _) D2) as C4.
  assert (TB : ~ In "["%char (t ++ ["]"%char])). { intros I. apply in_app_or in I. destruct I as [I|[I|[]]]; [contradiction|discriminate]. }
  assert (E' : (t ++ ["]"%char]) ++ "["%char :: d ++ ["]"%char; "]"%char] = g1 ++ "]"%char :: tail ++ "]"%char :: post) by (rewrite <- app_assoc; exact E). clear E.
  pose proof (f_equal (count "["%char) E') as E1. pose proof (f_equal (count "]"%char) E') as E2.
  destruct D as [[-> ->]|[_ ->]]; cbn [app] in *.
  - exfalso. destruct (in_dec ascii_dec "["%char g1) as [I|I].
    + apply in_first in I. destruct I as (x & y & -> & Nx). destruct (ES x "["%char y eq_refl ltac:(cbn; auto)) as (z & ->).
      rewrite <- (app_assoc _ ("["%char :: y)) in E'. cbn [app] in E'. destruct (split_first _ _ _ _ _ TB Nx E') as [X _]. apply app_inj_tail in X. destruct X. discriminate.
    + assert (P : In "["%char post).
      { destruct (in_dec ascii_dec "["%char post) as [P|P]; [exact P|]. exfalso. apply count_0 in I, P. counts. lia. }
      apply in_first in P. destruct P as (x & y & -> & Nx).
      assert (N1 : ~ In "["%char (g1 ++ "]"%char :: "]"%char :: x)). { intros J. apply in_app_or in J. cbn in J. destruct J as [J|[J|[J|J]]]; try contradiction; discriminate. }
      assert (E3 : (t ++ ["]"%char]) ++ "["%char :: d ++ ["]"%char; "]"%char] = (g1 ++ "]"%char :: "]"%char :: x) ++ "["%char :: y). { rewrite E', <- app_assoc. reflexivity. }
      destruct (split_first _ _ _ _ _ TB N1 E3) as [X _]. apply (f_equal (count "]"%char)) in X. counts. lia.
  - assert (G1 : ~ In "["%char g1) by (apply count_0; counts; lia).
    assert (N1 : ~ In "["%char (g1 ++ ["]"%char])). { intros J. apply in_app_or in J. cbn in J. destruct J as [J|[J|[]]]; try contradiction; discriminate. }
    assert (E3 : (t ++ ["]"%char]) ++ "["%char :: d ++ ["]"%char; "]"%char] = (g1 ++ ["]"%char]) ++ "["%char :: g2 ++ "]"%char :: "]"%char :: post).
    { rewrite E'. repeat (rewrite <- app_assoc; cbn [app]). reflexivity. }
    destruct (split_first _ _ _ _ _ TB N1 E3) as [X Y]. apply app_inj_tail in X. destruct X as [-> _].
    assert (G2 : ~ In "]"%char g2) by (apply count_0; apply (f_equal (count "]"%char)) in Y; counts; lia).
    destruct (split_first _ _ _ _ _ D2 G2 Y) as [-> Z]. injection Z as <-. auto.
Qed.

(** ** A bracket link that takes the whole line *)
Lemma pieces_split x c y : (N_of_ascii c < 128)%N -> pieces (x ++ c :: y) = pieces x ++ (N_of_ascii c, [c]) :: pieces y.
Proof.
  intros A. destruct (split_ascii _ _ _ _ (pieces_shape (x ++ c :: y)) (text_pieces _) A) as (l1 & l2 & E & <- & <-).
  rewrite E. f_equal.
  - symmetry. apply (pieces_part (text_of l1 ++ c :: text_of l2) [] l1 ((N_of_ascii c, [c]) :: l2)). exact E.
  - f_equal. symmetry. apply (pieces_part (text_of l1 ++ c :: text_of l2) (l1 ++ [(N_of_ascii c, [c])]) l2 []). rewrite E, app_nil_r, <- app_assoc. reflexivity.
Qed.
Lemma iterl_all u x l : (forall p pre post, In p l -> mlist u x pre [p] post []) -> forall pre post, iterl (mlist u x) pre l post [].
Proof.
  induction l as [|p l IH]; intros H pre post; [constructor|].
  change (iterl (mlist u x) pre ([p] ++ l) post ([] ++ [])). constructor; [apply H; left; reflexivity|]. apply IH. intros q pr po I. apply H. right. exact I.
Qed.
Lemma plus_all u x g l : l <> [] -> (forall p pre post, In p l -> mlist u x pre [p] post []) -> forall pre post, mlist u (RSeq x (RStar g x)) pre l post [].
Proof.
  intros N H pre post. destruct l as [|p l]; [congruence|]. exists [p], l, [], []. split; [reflexivity|]. split; [reflexivity|].
  split; [apply H; left; reflexivity|]. apply iterl_all. intros q pr po I. apply H. right. exact I.
Qed.
Lemma unit_one u p pre post : (fst p <> 91 /\ fst p <> 93)%N -> mlist u unitRe pre [p] post [].
Proof.
  intros H. left. destruct p as [r s]. exists r, s. split; [reflexivity|]. split; [|reflexivity]. cbn [fst] in H. 
  unfold cls_match. cbn [cneg citems existsb item_match]. rewrite xorb_true_l, orb_false_r, negb_true_iff, orb_false_iff, !inr_false. lia.
Qed.
Definition anyRe : re := match descrRe with RSeq x _ => x | _ => REmpty end.
Lemma descrRe_eq : descrRe = RSeq anyRe (RStar false anyRe). Proof. reflexivity. Qed.
Lemma any_one u p pre post : mlist u anyRe pre [p] post [].
Proof.
  destruct p as [r s]. destruct (N.eq_dec r 10) as [->|N].
  - right. exists 10%N, s. split; [reflexivity|]. split; reflexivity.
  - left. exists r, s. split; [reflexivity|]. split; [|reflexivity]. unfold cls_match. cbn [cneg citems existsb item_match].
    rewrite xorb_true_l, orb_false_r, negb_true_iff, inr_false. lia.
Qed.
Lemma in_piece r s t : In (r, s) (pieces t) -> (r < 128)%N -> In (ascii_of_N r) t.
Proof.
  intros I A. pose proof (pieces_shape t) as H. rewrite Forall_forall in H. pose proof (H _ I) as P. apply piece_ascii in P; [|exact A]. cbn [fst] in P.
  injection P as ->. rewrite <- (text_pieces t). unfold text_of. apply in_concat. exists [ascii_of_N r]. split; [|left; reflexivity].
  apply in_map_iff. exists (r, [ascii_of_N r]). auto.
Qed.
Lemma no_brackets_units t : no_brackets t -> forall p, In p (pieces t) -> (fst p <> 91 /\ fst p <> 93)%N.
Proof.
  intros N [r s] I. cbn [fst]. split; intros ->; apply in_piece in I; try lia.
  - apply (N "["%char); [left; reflexivity|exact I].
  - apply (N "]"%char); [right; left; reflexivity|exact I].
Qed.
Lemma pieces_ne t : t <> [] -> pieces t <> [].
Proof. intros N E. apply N. rewrite <- (text_pieces t), E. reflexivity. Qed.

Definition described_tail (d : str) : str := match d with [] => [] | _ => b "[" ++ d ++ b "]" end.
Definition whole_link (t d : str) : str := b "[[" ++ t ++ b "]" ++ described_tail d ++ b "]".
Lemma lit_one u r pre post : mlist u (lit r) pre [(r, [ascii_of_N r])] post [].
Proof. exists r, [ascii_of_N r]. split; [reflexivity|]. split; [|reflexivity]. apply single_match. reflexivity. Qed.
Definition tail_pieces (d : str) : list piece := match d with [] => [] | _ => (91%N, ["["%char]) :: pieces d ++ [(93%N, ["]"%char])] end.
Lemma whole_exists u t d : t <> [] -> no_brackets t -> exists new, mlist u reBr [] (pieces (whole_link t d)) [] new.
Proof.
  intros NT NB.
  set (tl := tail_pieces d).
  assert (E : pieces (whole_link t d) = [(91%N, ["["%char])] ++ [(91%N, ["["%char])] ++ pieces t ++ [(93%N, ["]"%char])] ++ tl ++ [(93%N, ["]"%char])]).
  { unfold whole_link. cbn [b list_ascii_of_string app]. rewrite !pieces_ascii by (cbn; lia). cbn [app]. do 2 f_equal.
    rewrite pieces_split by (cbn; lia). f_equal. f_equal. unfold tl, described_tail, tail_pieces. clear tl. destruct d as [|c d]; [reflexivity|]. 
    cbn [b list_ascii_of_string]. rewrite <- !app_assoc. cbn [app]. rewrite pieces_ascii by (cbn; lia). f_equal.
    rewrite app_comm_cons. rewrite pieces_split by (cbn; lia). rewrite <- app_assoc. reflexivity. }
  rewrite E, reBr_eq.
  assert (L91 : forall pre post, mlist u (lit 91%N) pre [(91%N, ["["%char])] post []) by (intros; apply (lit_one u 91%N)).
  assert (L93 : forall pre post, mlist u (lit 93%N) pre [(93%N, ["]"%char])] post []) by (intros; apply (lit_one u 93%N)).
  assert (TL : forall pre post, exists new, mlist u (RAlt (RSeq (lit 91%N) (RSeq (RGroup 2 descrRe) (lit 93%N))) REmpty) pre tl post new).
  { intros pre post. clear E. unfold tl, tail_pieces. clear tl. destruct d as [|c d]. { exists []. right. split; reflexivity. } set (dd := c :: d).
    exists (([] ++ [(2, text_of (pieces dd))]) ++ []). left.
    exists [(91%N, ["["%char])], (pieces dd ++ [(93%N, ["]"%char])]), [], ([] ++ [(2, text_of (pieces dd))]). split; [reflexivity|]. split; [reflexivity|]. split; [apply L91|].
    exists (pieces dd), [(93%N, ["]"%char])], [(2, text_of (pieces dd))], []. split; [reflexivity|]. split; [reflexivity|]. split; [|apply L93].
    exists []. split; [|reflexivity]. rewrite descrRe_eq. apply plus_all; [apply pieces_ne; discriminate|]. intros. apply any_one. }
  destruct (TL (((([] ++ [(91%N, ["["%char])]) ++ [(91%N, ["["%char])]) ++ pieces t) ++ [(93%N, ["]"%char])]) ([(93%N, ["]"%char])] ++ [])) as (nt & MT).
  exists (((((([] ++ nt) ++ []) ++ [(1, text_of (pieces t))])) ++ []) ++ []).
  eexists _, _, [], _. split; [reflexivity|]. split; [reflexivity|]. split; [apply L91|].
  eexists _, _, [], _. split; [reflexivity|]. split; [reflexivity|]. split; [apply L91|].
  eexists _, _, [(1, text_of (pieces t))], _. split; [reflexivity|]. split; [reflexivity|]. split.
  { exists []. split; [|reflexivity]. apply plus_all; [apply pieces_ne; exact NT|]. intros p pr po I. apply unit_one. apply (no_brackets_units t NB). exact I. }
  eexists _, _, [], _. split; [reflexivity|]. split; [reflexivity|]. split; [apply L93|].
  eexists _, _, nt, _. split; [reflexivity|]. split; [reflexivity|]. split; [exact MT|apply L93].
Qed.
Lemma whole_unique t d g1 tail g2 post : no_brackets t -> no_brackets d -> 
  whole_link t d = (b "[[" ++ g1 ++ b "]" ++ tail ++ b "]") ++ post ->
  (forall x c y, g1 = x ++ c :: y -> In c (b "[]") -> exists z, x = z ++ b "\") ->
  (g2 = [] /\ tail = []) \/ (g2 <> [] /\ tail = b "[" ++ g2 ++ b "]") -> g1 = t /\ g2 = d /\ post = [].
Proof.
  intros NT ND E ES D. unfold whole_link, described_tail in E. destruct d as [|c d].
  - eapply bracket_unique; eassumption.
  - eapply bracket_unique2; try eassumption. rewrite <- E. cbn [b list_ascii_of_string app]. repeat (rewrite <- app_assoc; cbn [app]). reflexivity.
Qed.
Lemma link_nullable g3 g5 : nullable (link_re g3 g5) = false.
Proof. cbn [nullable link_re]. rewrite !andb_false_r. vm_compute. reflexivity. Qed.
Lemma link_first_plain c l pre' mid post : pieces (c :: l) = mid ++ post -> (N_of_ascii c < 128)%N -> ~ word_byte c -> mid <> [] ->
  xorb (word_at (last_rune [])) (word_at (first_rune mid)) = true -> pre' = @nil piece -> False.
Proof.
  intros E A W N X _. rewrite pieces_ascii in E by exact A. destruct mid as [|p mid]; [congruence|]. cbn [app] in E. injection E as <- _.
  cbn [first_rune word_at last_rune] in X. change (word_at (last_rune [])) with false in X. rewrite xorb_false_l in X. apply word_char_byte in X; [|exact A].
  rewrite ascii_N_embedding in X. contradiction.
Qed.
(** The list of links of such a line *)
Lemma whole_links variants ss c u n t d : variants_of variants ss -> UpdateRe variants = Some c -> t <> [] -> no_brackets t -> no_brackets d ->
  links_of u c n (whole_link t d) = if MatchString u (reScheme c) t then [mkLink t d n] else [].
Proof.
  intros V U NT NB ND. destruct ss as [|s0 ss0] eqn:Ess.
  { destruct V as [_ V]. inversion V. subst. discriminate. }
  rewrite <- Ess in *. assert (NE : ss <> []) by (rewrite Ess; discriminate). clear Ess s0 ss0.
  destruct (UpdateRe_ok _ _ V NE) as (c' & ss' & g3 & g5 & U' & Inc & _ & OK & _ & RL & W3 & W5 & CS). rewrite U in U'. injection U' as <-.
  set (line := whole_link t d).
  assert (HP : Forall piece_ok (pieces line)) by apply pieces_shape.
  assert (SH : forall mid post new, pieces line = mid ++ post -> mlist u (link_re g3 g5) [] mid post new ->
                 post = [] /\ group (mkMatch (text_of mid) new) 1 = t /\ group (mkMatch (text_of mid) new) 2 = d).
  { intros mid post new E M. assert (H : Forall piece_ok mid /\ Forall piece_ok post) by (rewrite E, Forall_app in HP; exact HP). destruct H as [H1 H2].
    assert (TL : line = text_of mid ++ text_of post) by (rewrite <- text_app, <- E, text_pieces; reflexivity).
    pose proof (link_shape _ _ _ _ _ _ _ _ W3 W5 H1 M) as S.
    inversion S as [md g1 tail g2 NM NG ESC T D (p & q & SP) mm G1 G2 E1 E2|md g3' g4 x T Ix Mx F Hg mm G1 G3 G4 G5 E1 E2|md g5' g6 x T Ix Mx F Hg N6 WB mm G1 G3 G5 G6 E1 E2]; subst md mm.
    - rewrite T in TL. assert (Hg : Forall piece_ok g1). { rewrite SP, !Forall_app in H1. apply H1. }
      destruct (whole_unique t d _ _ _ _ NB ND TL (escaped_text _ Hg ESC) D) as (X1 & X2 & X3).
      rewrite G1, G2. split; [|auto]. destruct post as [|p0 post]; [reflexivity|]. exfalso. exact (text_ne _ H2 ltac:(discriminate) X3).
    - exfalso. rewrite T in TL. discriminate TL.
    - exfalso. eapply (link_first_plain "["%char _ [] mid post E); [cbn; lia|unfold word_byte; cbn; lia| |exact WB|reflexivity].
      intros ->. symmetry in T. apply app_eq_nil in T. destruct T as [_ T]. discriminate. }
  assert (LK : loops_ok (link_re g3 g5) = true).
  { unfold UpdateRe in U. destruct (MakeSchemeReStr variants) as [|x y]; [discriminate|]. unfold makeRe in U.
    destruct (compile (MakeReScheme _)) as [r0|]; [|discriminate]. destruct (compile (MakeLinkReStr _)) as [r|] eqn:CC; [|discriminate]. injection U as <-.
    cbn [reLink] in RL. subst r. eapply compile_ok, CC. }
  destruct (FindAll_single u (link_re g3 g5) line LK (link_nullable _ _)) as (new & EF & MF).
  { destruct (whole_exists u t d NT NB) as (new & M). exists (pieces line), [], new. rewrite app_nil_r. split; [reflexivity|]. left. exact M. }
  { intros mid post new E M. apply (SH _ _ _ E M). }
  unfold links_of. rewrite RL, EF. cbn [flat_map]. rewrite app_nil_r.
  destruct (SH (pieces line) [] new (eq_sym (app_nil_r _)) MF) as (_ & G1 & G2). rewrite text_pieces in G1, G2.
  unfold OrgLinkMatchIsUrl. rewrite G1, G2. destruct t as [|c0 t0]; [congruence|]. destruct (MatchString _ _ _); reflexivity.
Qed.

(** ** What is accepted *)
Lemma imatch_app_colon w rs : imatch (w ++ [colon_item]) rs <-> exists a, rs = a ++ [58%N] /\ imatch w a.
Proof.
  split.
  - revert rs. induction w as [|i w IH]; intros rs M; cbn [app] in M.
    + inversion M as [|i w rs' M1 E1 E2|i w rs' O M1 E1 E2]; subst; [|discriminate]. inversion M1. subst. exists []. split; [reflexivity|constructor].
    + inversion M as [|i' w' rs' M1 E1 E2|i' w' rs' O M1 E1 E2]; subst.
      * destruct (IH _ M1) as (a & -> & Ma). exists (irune i :: a). split; [reflexivity|]. constructor. exact Ma.
      * destruct (IH _ M1) as (a & -> & Ma). exists a. split; [reflexivity|]. constructor; assumption.
  - intros (a & -> & M). induction M; cbn [app]; [apply (imatch_here colon_item [] []); constructor| |]; constructor; assumption.
Qed.
Definition ascii_str (w : str) : Prop := Forall (fun c => (N_of_ascii c < 128)%N) w.
Lemma pieces_middle y w x : ascii_str w -> w <> [] -> pieces (y ++ w ++ x) = pieces y ++ map (fun c => (N_of_ascii c, [c])) w ++ pieces x.
Proof.
  intros A N. destruct w as [|c w]; [congruence|]. apply Forall_inv in A as A1. apply Forall_inv_tail in A. cbn [app map].
  rewrite pieces_split by exact A1. rewrite pieces_ascii_app by exact A. reflexivity.
Qed.
Lemma fst_ascii w : map fst (map (fun c => (N_of_ascii c, [c])) w) = bytesN w.
Proof. rewrite map_map. reflexivity. Qed.
Lemma word_ascii s w : scheme_ok s -> word s w -> ascii_str w.
Proof.
  intros H W. apply scheme_ascii in H. unfold ascii_str. induction W; [constructor|inversion H; constructor; auto|inversion H; auto].
Qed.
Lemma accepted_iff u ss r t : Forall scheme_ok ss -> ss <> [] -> compile (MakeReScheme (join (map written ss))) = Some r ->
  MatchString u r t = true <-> accepted ss t.
Proof.
  intros H NE C. destruct (scheme_compile ss H NE) as (r' & C' & R1 & R2). rewrite C in C'. injection C' as <-.
  rewrite (MatchString_true u r t (compile_ok _ _ C)). destruct ss as [|s others]; [congruence|]. apply Forall_inv in H as H1. apply Forall_inv_tail in H as H2.
  assert (COL : forall s', scheme_ok s' -> forall pre mid post, pieces t = pre ++ mid ++ post -> imatch (map item_of s' ++ [colon_item]) (map fst mid) ->
            exists w, word s' w /\ t = text_of pre ++ w ++ b ":" ++ text_of post).
  { intros s' Hs pre mid post E M. pose proof (pieces_shape t) as HP. rewrite E, !Forall_app in HP. destruct HP as (_ & HP & _).
    apply imatch_app_colon in M. destruct M as (a & Ea & M). destruct (map_app_inv _ _ _ _ Ea) as (m1 & m2 & -> & Em1 & Em2). subst a.
    destruct m2 as [|p [|? ?]]; try discriminate. injection Em2 as Ep. apply Forall_app in HP. destruct HP as [Hm1 Hp]. apply Forall_inv in Hp.
    apply piece_ascii in Hp; [|rewrite Ep; lia]. rewrite Ep in Hp. exists (text_of m1). split; [apply imatch_word; try assumption; apply scheme_ascii, Hs|].
    rewrite (pieces_part_text _ _ _ _ E), text_app, Hp. rewrite <- app_assoc. reflexivity. }
  assert (PL : forall s', scheme_ok s' -> forall pre mid post, pieces t = pre ++ mid ++ post -> imatch (map item_of s') (map fst mid) ->
            exists w, word s' w /\ t = text_of pre ++ w ++ text_of post).
  { intros s' Hs pre mid post E M. pose proof (pieces_shape t) as HP. rewrite E, !Forall_app in HP. destruct HP as (_ & HP & _).
    exists (text_of mid). split; [apply imatch_word; try assumption; apply scheme_ascii, Hs|]. apply (pieces_part_text _ _ _ _ E). }
  assert (LOC : forall y w x, ascii_str w -> w <> [] -> t = y ++ w ++ x -> pieces t = pieces y ++ map (fun c => (N_of_ascii c, [c])) w ++ pieces x).
  { intros y w x A N ->. apply pieces_middle; assumption. }
  assert (COLc : forall s' y w x, scheme_ok s' -> word s' w -> t = y ++ w ++ b ":" ++ x ->
            exists mid, pieces t = pieces y ++ mid ++ pieces x /\ imatch (map item_of s' ++ [colon_item]) (map fst mid)).
  { intros s' y w x Hs W E. exists (map (fun c => (N_of_ascii c, [c])) (w ++ b ":")). split.
    - apply LOC; [|intros Z; apply app_eq_nil in Z; destruct Z; discriminate|rewrite <- app_assoc; exact E].
      apply Forall_app. split; [eapply word_ascii; eassumption|repeat constructor].
    - rewrite fst_ascii, bytesN_app. apply imatch_app_colon. exists (bytesN w). split; [reflexivity|apply word_imatch, W]. }
  destruct others as [|s2 others] using rev_ind.
  - specialize (R1 s eq_refl). cbn [accepted]. split.
    + intros (pre & mid & post & new & E & M). apply R1 in M. destruct M as (-> & -> & M). destruct (COL s H1 _ _ _ E M) as (w & W & Et). exists w, (text_of post). auto.
    + intros (w & x & W & E). destruct (COLc s [] w x H1 W E) as (mid & EP & M). exists [], mid, (pieces x), []. split; [exact EP|]. apply R1. auto.
  - clear IHothers. specialize (R2 s others s2 eq_refl). apply Forall_app in H2. destruct H2 as [H2 H3]. apply Forall_inv in H3.
    assert (EA : accepted (s :: others ++ [s2]) t <-> 
      (exists w x, word s w /\ t = w ++ x) \/ (exists m y w x, In m others /\ word m w /\ t = y ++ w ++ x) \/ (exists y w x, word s2 w /\ t = y ++ w ++ b ":" ++ x)).
    { unfold accepted. destruct (others ++ [s2]) as [|o1 oo] eqn:EO; [apply app_eq_nil in EO; destruct EO; discriminate|]. rewrite <- EO. rewrite removelast_last, last_last. reflexivity. }
    rewrite EA. clear EA. split.
    + intros (pre & mid & post & new & E & M). apply R2 in M. destruct M as (-> & [(-> & M)|[(m & Im & M)|M]]).
      * left. destruct (PL s H1 _ _ _ E M) as (w & W & Et). exists w, (text_of post). auto.
      * right. left. rewrite Forall_forall in H2. destruct (PL m (H2 _ Im) _ _ _ E M) as (w & W & Et). exists m, (text_of pre), w, (text_of post). auto.
      * right. right. destruct (COL s2 H3 _ _ _ E M) as (w & W & Et). exists (text_of pre), w, (text_of post). auto.
    + intros [(w & x & W & E)|[(m & y & w & x & Im & W & E)|(y & w & x & W & E)]].
      * exists [], (map (fun c => (N_of_ascii c, [c])) w), (pieces x), []. split; [|apply R2; split; [reflexivity|]; left; split; [reflexivity|]; rewrite fst_ascii; apply word_imatch, W].
        rewrite E. cbn [app]. rewrite pieces_ascii_app; [reflexivity|]. exact (word_ascii _ _ H1 W).
      * rewrite Forall_forall in H2. destruct w as [|c0 w0] eqn:Ew.
        -- exists [], [], (pieces t), []. split; [reflexivity|]. apply R2. split; [reflexivity|]. right. left. exists m. split; [exact Im|]. apply (word_imatch m []). exact W.
        -- rewrite <- Ew in *. exists (pieces y), (map (fun c => (N_of_ascii c, [c])) w), (pieces x), []. split.
           ++ apply LOC; [eapply word_ascii; [apply H2, Im|exact W]|rewrite Ew; discriminate|exact E].
           ++ apply R2. split; [reflexivity|]. right. left. exists m. split; [exact Im|]. rewrite fst_ascii. apply word_imatch, W.
      * destruct (COLc s2 y w x H3 W E) as (mid & EP & M). exists (pieces y), mid, (pieces x), []. split; [exact EP|]. apply R2. auto.
Qed.
