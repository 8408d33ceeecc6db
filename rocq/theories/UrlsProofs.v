(** Words of a file do not depend on sizes of blocks; calls of the callback of ExtractUrls. *)
From Coq Require Import ZifyBool ZifyNat ZifyN.
From Verif Require Import GoBase GoSlice Utf8 Utf8Proofs Utf8Dec Regex RegexSpec RegexProofs Pieces Patterns LinkTypes LinkTree LinkHeap Emacs Fuzzy FuzzySpec FuzzyRank Extract ExtractSpec
  TextSpec ExtractTree HeadingProofs OrgProofs TextProofs Scanner ScannerSpec ScannerProofs Urls UrlsSpec.
Local Open Scope N_scope.

(** ** Characters of a concatenation *)
Definition head_ok (y : list N) : Prop := match y with [] => True | c :: _ => cont c = false end.
Lemma second3_cont b0 c : cont c = false -> second3 b0 c = false.
Proof. unfold second3, cont, inr. destruct (b0 =? 224), (b0 =? 237); lia. Qed.
Lemma second4_cont b0 c : cont c = false -> second4 b0 c = false.
Proof. unfold second4, cont, inr. destruct (b0 =? 240), (b0 =? 244); lia. Qed.
Lemma decode1_valid b0 s1 y r rest : decode1 b0 s1 = (r, rest) -> r <> rune_error -> decode1 b0 (s1 ++ y) = (r, rest ++ y).
Proof.
  unfold decode1. intros H NR. assert (ERR : forall z, (rune_error, z) = (r, rest) -> False) by (intros z E; injection E; congruence).
  destruct (b0 <? 128). { injection H as <- <-. reflexivity. }
  destruct (inr 194 223 b0). { destruct s1 as [|b1 s2]; cbn [app]; [destruct (ERR _ H)|]. destruct (cont b1); [|destruct (ERR _ H)]. injection H as <- <-. reflexivity. }
  destruct (inr 224 239 b0).
  { destruct s1 as [|b1 [|b2 s3]]; cbn [app]; try destruct (ERR _ H). destruct (_ && _); [|destruct (ERR _ H)]. injection H as <- <-. reflexivity. }
  destruct (inr 240 244 b0); [|destruct (ERR _ H)].
  destruct s1 as [|b1 [|b2 [|b3 s4]]]; cbn [app]; try destruct (ERR _ H). destruct (_ && _); [|destruct (ERR _ H)]. injection H as <- <-. reflexivity.
Qed.
Lemma decode1_bound b0 s1 y : head_ok y -> decode1 b0 (s1 ++ y) = (fst (decode1 b0 s1), snd (decode1 b0 s1) ++ y).
Proof.
  intros H. destruct y as [|c y]; [rewrite !app_nil_r; destruct (decode1 b0 s1); reflexivity|]. cbn [head_ok] in H. unfold decode1.
  pose proof (second3_cont b0 c H) as H3. pose proof (second4_cont b0 c H) as H4.
  destruct (b0 <? 128); [reflexivity|].
  destruct (inr 194 223 b0). { destruct s1 as [|b1 s2]; cbn [app]; [rewrite H; reflexivity|]. destruct (cont b1); reflexivity. }
  destruct (inr 224 239 b0).
  { destruct s1 as [|b1 [|b2 s3]]; cbn [app].
    - destruct y; [reflexivity|]. rewrite H3. reflexivity.
    - rewrite H, andb_false_r. reflexivity.
    - destruct (_ && _); reflexivity. }
  destruct (inr 240 244 b0); [|reflexivity].
  destruct s1 as [|b1 [|b2 [|b3 s4]]]; cbn [app].
  - destruct y as [|d [|e y]]; try reflexivity. rewrite H4. reflexivity.
  - destruct y; [reflexivity|]. rewrite H, andb_false_r. reflexivity.
  - rewrite H, andb_false_r. reflexivity.
  - destruct (_ && _); reflexivity.
Qed.
Lemma firstn_short {A} (x y : list A) n : (n <= length x)%nat -> firstn n (x ++ y) = firstn n x.
Proof. intros H. rewrite firstn_app. replace (n - length x)%nat with 0%nat by lia. apply app_nil_r. Qed.
Lemma pl_step b0 s1 y r rest : decode1 b0 s1 = (r, rest) -> decode1 b0 (s1 ++ y) = (r, rest ++ y) ->
  pl (b0 :: s1 ++ y) = (r, firstn (S (length s1) - length rest) (b0 :: s1)) :: pl (rest ++ y).
Proof.
  intros E D. rewrite pl_cons, D. cbn [fst snd]. f_equal. f_equal. pose proof (decode1_short b0 s1) as L. rewrite E in L. cbn [snd] in L. rewrite !app_length.
  replace (S (length s1 + length y) - (length rest + length y))%nat with (S (length s1) - length rest)%nat by lia.
  change (b0 :: s1 ++ y) with ((b0 :: s1) ++ y). apply firstn_short. cbn [length]. lia.
Qed.
Lemma pl_app x y : head_ok y -> pl (x ++ y) = pl x ++ pl y.
Proof.
  intros H. remember (length x) as n eqn:En. assert (L : (length x <= n)%nat) by lia. clear En. revert x L.
  induction n as [|n IH]; intros [|b0 s1] L; cbn [length] in L; try lia; try reflexivity.
  pose proof (decode1_bound b0 s1 y H) as D. pose proof (decode1_short b0 s1) as L2. rewrite (pl_cons b0 s1). destruct (decode1 b0 s1) as [r rest] eqn:E. cbn [fst snd app] in *.
  rewrite (pl_step b0 s1 y r rest E D). f_equal. apply IH. lia.
Qed.
Lemma bytesN_app x y : bytesN (x ++ y) = bytesN x ++ bytesN y.
Proof. apply map_app. Qed.
Lemma pieces_app x y : head_ok (bytesN y) -> pieces (x ++ y) = pieces x ++ pieces y.
Proof. intros H. rewrite !pieces_pl, bytesN_app, pl_app by exact H. apply map_app. Qed.
(** A valid character is the same in a longer text. *)
Lemma pieces_one s p y : pieces s = [p] -> fst p <> rune_error -> pieces (s ++ y) = p :: pieces y /\ head_ok (bytesN s).
Proof.
  intros E NR. rewrite !pieces_pl, bytesN_app in *. destruct (bytesN s) as [|b0 s1] eqn:Es; [discriminate|].
  rewrite pl_cons in E. cbn [map] in E. injection E as E1 E2. destruct (decode1 b0 s1) as [r rest] eqn:D. cbn [fst snd] in *.
  assert (Er : rest = []). { destruct rest; [reflexivity|]. rewrite pl_cons in E2. discriminate. } subst rest p. cbn [fst] in NR.
  split.
  - cbn [app]. rewrite (pl_step b0 s1 (bytesN y) r [] D (decode1_valid _ _ _ _ _ D NR)). cbn [app map fst snd]. reflexivity.
  - cbn [head_ok]. destruct (cont b0) eqn:C; [|reflexivity]. exfalso. unfold cont in C. rewrite inr_true in C. unfold decode1 in D.
    replace (b0 <? 128) with false in D by lia. replace (inr 194 223 b0) with false in D by (unfold inr; lia).
    replace (inr 224 239 b0) with false in D by (unfold inr; lia). replace (inr 240 244 b0) with false in D by (unfold inr; lia). injection D as D _. congruence.
Qed.
Lemma pieces_space x a s t y : pieces x = a ++ s :: t -> IsSpace (fst s) = true -> pieces (x ++ y) = a ++ s :: pieces (text_of t ++ y).
Proof.
  intros E S. assert (NR : fst s <> rune_error) by (intros Z; rewrite Z in S; discriminate).
  assert (Ea : pieces (text_of a) = a) by (apply (pieces_part x [] a (s :: t)); exact E).
  assert (Es : pieces (snd s) = [s]). { pose proof (pieces_part x a [s] t E) as H. unfold text_of in H. cbn in H. rewrite app_nil_r in H. exact H. }
  destruct (pieces_one _ _ (text_of t ++ y) Es NR) as [P H]. pose proof (text_pieces x) as T. rewrite E in T. unfold text_of in T. rewrite map_app, concat_app in T. cbn [map concat] in T.
  fold (text_of a) in T. fold (text_of t) in T. rewrite <- T, <- !app_assoc. rewrite pieces_app, Ea, P; [reflexivity|].
  rewrite bytesN_app. destruct (bytesN (snd s)) eqn:Z; [|exact H]. exfalso. destruct (snd s); [discriminate Es|discriminate Z].
Qed.

(** ** Words *)
Lemma pieces_spaces x a l y : pieces x = a ++ l -> Forall (fun p => IsSpace (fst p) = true) a -> pieces (x ++ y) = a ++ pieces (text_of l ++ y).
Proof.
  intros E F. destruct a as [|s a] using rev_ind; [cbn [app] in *; rewrite <- E, text_pieces; reflexivity|]. clear IHa.
  apply Forall_app in F. destruct F as [_ F]. apply Forall_inv in F. rewrite <- app_assoc in *. cbn [app] in *. apply pieces_space; assumption.
Qed.
Lemma rooms_spaces a l ws : Forall (fun p => IsSpace (fst p) = true) a -> rooms (a ++ l) ws -> rooms l ws.
Proof.
  intros F. induction F as [|p a Sp F IH]; [auto|]. intros H. apply IH. cbn [app] in H. apply IsSpace_white in Sp.
  inversion H as [|? ? ? _ H'|? _ Fw|w ? ? ? NE Fw _ _ E]; subst; [exact H'| |].
  - apply Forall_inv in Fw. contradiction.
  - destruct w as [|q w]; [congruence|]. cbn [app] in E. injection E as -> E. apply Forall_inv in Fw. contradiction.
Qed.
Lemma split_unique {A} (P : A -> Prop) m m' s s' t t' : Forall (fun a => ~ P a) m -> Forall (fun a => ~ P a) m' -> P s -> P s' ->
  m ++ s :: t = m' ++ s' :: t' -> m = m' /\ s = s' /\ t = t'.
Proof.
  revert m'. induction m as [|x m IH]; intros [|y m'] F F' S S' E; cbn [app] in E; injection E as E1 E2; subst.
  - auto.
  - apply Forall_inv in F'. contradiction.
  - apply Forall_inv in F. contradiction.
  - inversion F. inversion F'. subst. destruct (IH m') as (-> & -> & ->); auto.
Qed.
Lemma rooms_first m s q ws : m <> [] -> Forall (fun p => IsSpace (fst p) = false) m -> IsSpace (fst s) = true -> rooms (m ++ s :: q) ws ->
  exists ws', ws = (text_of m, (length (text_of m) + length (snd s))%nat) :: ws' /\ rooms q ws'.
Proof.
  intros NE F S H. apply IsSpace_white in S. assert (F' : Forall (fun p : rune * str => ~ white (fst p)) m). { eapply Forall_impl; [|exact F]. intros p Hp. apply IsSpace_not. exact Hp. }
  inversion H as [E|a l ? W H' E|? _ Fw|w a l ws' NE2 Fw W H' E]; subst.
  - destruct m; discriminate.
  - destruct m as [|p m]; [congruence|]. cbn [app] in E. injection E as -> E. apply Forall_inv in F'. contradiction.
  - apply Forall_app in Fw. destruct Fw as [_ Fw]. apply Forall_inv in Fw. contradiction.
  - apply (split_unique (fun p => white (fst p))) in E; auto. destruct E as (-> & -> & ->). exists ws'. auto.
Qed.
Lemma rooms_only m ws : m <> [] -> Forall (fun p => IsSpace (fst p) = false) m -> rooms m ws -> ws = [(text_of m, (length (text_of m) + 1)%nat)].
Proof.
  intros NE F H. assert (F' : Forall (fun p : rune * str => ~ white (fst p)) m). { eapply Forall_impl; [|exact F]. intros p Hp. apply IsSpace_not. exact Hp. }
  inversion H as [E|a l ? W H' E|? _ Fw|w a l ws' NE2 Fw W H' E]; subst.
  - congruence.
  - apply Forall_inv in F'. contradiction.
  - reflexivity.
  - apply Forall_app in F'. destruct F' as [_ F']. apply Forall_inv in F'. contradiction.
Qed.
Lemma word_end_ok l : match word_end l with
  | Some (w, t) => exists m s, w = text_of m /\ l = m ++ s :: t /\ Forall (fun p => IsSpace (fst p) = false) m /\ IsSpace (fst s) = true
  | None => Forall (fun p => IsSpace (fst p) = false) l
  end.
Proof.
  induction l as [|[r bs] l IH]; cbn [word_end]; [constructor|]. destruct (IsSpace r) eqn:E.
  - exists [], (r, bs). repeat split; auto.
  - destruct (word_end l) as [[w t]|]; cbn [option_map fst snd].
    + destruct IH as (m & s & -> & -> & F & S). exists ((r, bs) :: m), s. repeat split; auto.
    + constructor; auto.
Qed.
Inductive splits (data : str) (atEOF : bool) : option str -> str -> Prop :=
| splits_word a m s t : pieces data = a ++ m ++ s :: t -> Forall (fun p => IsSpace (fst p) = true) a -> m <> [] -> Forall (fun p => IsSpace (fst p) = false) m ->
    IsSpace (fst s) = true -> splits data atEOF (Some (text_of m)) (text_of t)
| splits_last a m : atEOF = true -> pieces data = a ++ m -> Forall (fun p => IsSpace (fst p) = true) a -> m <> [] -> Forall (fun p => IsSpace (fst p) = false) m ->
    splits data atEOF (Some (text_of m)) []
| splits_more a m : atEOF = false \/ m = [] -> pieces data = a ++ m -> Forall (fun p => IsSpace (fst p) = true) a -> Forall (fun p => IsSpace (fst p) = false) m ->
    splits data atEOF None (text_of m).
Lemma word_split_ok data atEOF : splits data atEOF (fst (word_split data atEOF)) (snd (word_split data atEOF)).
Proof.
  unfold word_split. destruct (skip_space_ok (pieces data)) as (a & Ea & Fa & Ha). remember (skip_space (pieces data)) as l eqn:El. clear El.
  pose proof (word_end_ok l) as W. destruct (word_end l) as [[w t]|].
  - destruct W as (m & s & -> & -> & F & S). cbn [fst snd]. apply (splits_word _ _ a m s t); auto.
    intros ->. cbn [app] in Ha. destruct s. cbn [fst] in S. congruence.
  - destruct l as [|p l]; cbn [fst snd].
    + apply (splits_more _ _ a []); auto.
    + destruct atEOF; cbn [fst snd].
      * apply (splits_last _ _ a); auto. discriminate.
      * apply (splits_more _ _ a); auto.
Qed.

(** ** Size of characters *)
Lemma decode1_size b0 s1 : (length s1 <= length (snd (decode1 b0 s1)) + 3)%nat.
Proof.
  unfold decode1. destruct (b0 <? 128); [cbn; lia|].
  destruct (inr 194 223 b0). { destruct s1 as [|b1 s2]; [cbn; lia|]. destruct (cont b1); cbn; lia. }
  destruct (inr 224 239 b0). { destruct s1 as [|b1 [|b2 s3]]; try (cbn; lia). destruct (_ && _); cbn; lia. }
  destruct (inr 240 244 b0); [|cbn; lia]. destruct s1 as [|b1 [|b2 [|b3 s4]]]; try (cbn; lia). destruct (_ && _); cbn; lia.
Qed.
Lemma pieces_first_size x p q : pieces x = p :: q -> (length (snd p) <= 4)%nat.
Proof.
  rewrite pieces_pl. destruct (bytesN x) as [|b0 s1]; [discriminate|]. rewrite pl_cons. cbn [map]. intros E. injection E as E _. subst p. cbn [snd]. unfold strN.
  rewrite map_length, firstn_length. pose proof (decode1_size b0 s1). destruct (decode1 b0 s1) as [r rest]. cbn [fst snd length] in *. destruct (length rest); lia.
Qed.
Lemma text_cons p l : text_of (p :: l) = snd p ++ text_of l.
Proof. reflexivity. Qed.
(** White space that is a part of the beginning of a text *)
Lemma pieces_inside x y m s t : pieces (x ++ y) = m ++ s :: t -> IsSpace (fst s) = true -> (length (text_of m) + length (snd s) <= length x)%nat -> In s (pieces x).
Proof.
  intros E S L. pose proof (text_pieces (x ++ y)) as T. rewrite E in T. change (s :: t) with ([s] ++ t) in T. rewrite app_assoc, text_app in T.
  assert (P : pieces (text_of (m ++ [s])) = m ++ [s]). { apply (pieces_part (x ++ y) [] (m ++ [s]) t). cbn [app]. rewrite <- app_assoc. exact E. }
  assert (Lm : length (text_of (m ++ [s])) = (length (text_of m) + length (snd s))%nat). { rewrite text_app, text_cons, !app_length. cbn. lia. }
  assert (X : x = text_of (m ++ [s]) ++ skipn (length (text_of (m ++ [s]))) x).
  { rewrite <- (firstn_skipn (length (text_of (m ++ [s]))) x) at 1. f_equal. rewrite <- (firstn_short x y) by lia. rewrite <- T, firstn_app, Nat.sub_diag, firstn_all. apply app_nil_r. }
  rewrite X. rewrite (pieces_space _ m s []); [|exact P|exact S]. apply in_or_app. right. left. reflexivity.
Qed.

(** ** Scanner *)
Definition sending (broken : bool) : serr := if broken then SRead else SEof.
Fixpoint expected_words (broken : bool) (ws : list (str * nat)) : list str * option serr :=
  match ws with
  | [] => ([], final broken)
  | (w, k) :: ws' => if N.of_nat k <=? 65536 then (w :: fst (expected_words broken ws'), snd (expected_words broken ws')) else ([], Some STooLong)
  end.
Lemma text_nil l : text_of l = [] -> Forall piece_ok l -> l = [].
Proof.
  intros E F. destruct l as [|p l]; [reflexivity|]. exfalso. apply Forall_inv in F. rewrite text_cons in E. apply app_eq_nil in E. destruct E as [E _].
  destruct F as [[_ F]|(_ & F & _)]; congruence.
Qed.
Lemma word_scan_ok (broken : bool) chunk fuel : forall s ws,
  sinv s -> (match serror s with Some e => e = sending broken | None => True end) ->
  rooms (pieces (win s ++ left_ s)) ws -> (smeasure s < fuel)%nat ->
  word_scan fuel broken chunk s = Some (expected_words broken ws).
Proof.
  induction fuel as [|fuel IH]; intros s ws (I1 & I2 & I3) Ie H F; [lia|].
  cbn [word_scan]. unfold word_step.
  replace (if (0 <? len (win s)) || match serror s with Some _ => true | None => false end then word_split (win s) (match serror s with Some _ => true | None => false end) else (None, win s))
    with (word_split (win s) (match serror s with Some _ => true | None => false end)).
  2:{ destruct (serror s); [rewrite orb_true_r; reflexivity|]. rewrite orb_false_r. destruct (win s); reflexivity. }
  pose proof (word_split_ok (win s) (match serror s with Some _ => true | None => false end)) as W.
  destruct (word_split (win s) _) as [t w]. cbn [fst snd] in W.
  assert (PT : forall l, pieces (win s) = l -> len (win s) = len (text_of l)) by (intros l <-; rewrite text_pieces; reflexivity).
  inversion W as [a m sp r E Fa NE Fm S|a m EOF E Fa NE Fm|a m EOF E Fa Fm]; subst t w.
  - (* a complete word *)
    apply PT in E as L. change (sp :: r) with ([sp] ++ r) in L. rewrite !text_app, !len_app in L. rewrite text_cons in L. rewrite len_app in L. change (len (text_of [])) with 0 in L.
    replace (a ++ m ++ sp :: r) with ((a ++ m) ++ sp :: r) in E by (rewrite <- app_assoc; reflexivity).
    rewrite (pieces_space _ _ _ _ _ E S), <- app_assoc in H. apply rooms_spaces in H; [|exact Fa].
    apply rooms_first in H; auto. destruct H as (ws' & -> & H).
    assert (NP : 1 <= len (snd sp)).
    { pose proof (pieces_shape (win s)) as PS. rewrite E in PS. apply Forall_app in PS. destruct PS as [_ PS]. apply Forall_inv in PS. unfold len.
      destruct PS as [[_ PS]|(_ & PS & _)]; destruct (snd sp); cbn [length]; try congruence; lia. }
    rewrite IH with (ws := ws').
    + cbn [expected_words option_map fst snd]. unfold len in *. match goal with |- context [N.of_nat ?x <=? 65536] => replace (N.of_nat x <=? 65536) with true by lia end. reflexivity.
    + unfold sinv. cbn [win start bufLen serror left_]. split; [lia|]. split; [lia|]. intros Z. destruct (I3 Z). split; [assumption|lia].
    + exact Ie.
    + exact H.
    + unfold smeasure in *. cbn [win start bufLen serror left_]. unfold len in *. lia.
  - (* the last word *)
    destruct (serror s) as [e|] eqn:Es; [|discriminate]. destruct (I3 ltac:(discriminate)) as [El Lw]. apply PT in E as L. rewrite text_app, len_app in L.
    rewrite El, app_nil_r, E in H. apply rooms_spaces in H; [|exact Fa]. apply rooms_only in H; auto. subst ws.
    rewrite IH with (ws := []).
    + cbn [expected_words option_map fst snd]. unfold len in *. match goal with |- context [N.of_nat ?x <=? 65536] => replace (N.of_nat x <=? 65536) with true by lia end. reflexivity.
    + unfold sinv. cbn [win start bufLen serror left_]. change (len []) with 0. split; [lia|]. split; [lia|]. intros _. split; [exact El|lia].
    + exact Ie.
    + cbn [win left_]. rewrite El. constructor.
    + assert (NM : (1 <= length (text_of m))%nat).
      { destruct (text_of m) eqn:Z; [|cbn; lia]. exfalso. apply NE. apply text_nil; [exact Z|]. pose proof (pieces_shape (win s)) as PS. rewrite E in PS. apply Forall_app in PS. apply PS. }
      unfold smeasure in *. cbn [win start bufLen serror left_]. rewrite Es in F. unfold len in *. cbn [length]. lia.
  - (* no word *)
    apply PT in E as L. rewrite text_app, len_app in L.
    rewrite (pieces_spaces _ a m _ E Fa) in H. apply rooms_spaces in H; [|exact Fa].
    assert (Pm : pieces (text_of m) = m). { apply (pieces_part (win s) a m []). rewrite app_nil_r. exact E. }
    cbn [serror]. destruct (serror s) as [e|] eqn:Es.
    + destruct (I3 ltac:(discriminate)) as [El Lw]. destruct EOF as [EOF| ->]; [discriminate|]. rewrite El in H. cbn in H. assert (Ew : ws = []). { inversion H as [|? ? ? _ _ E0|? NE0|w0 ? ? ? _ _ _ _ E0]; [reflexivity|congruence|destruct w0; discriminate E0]. } subst ws.
      cbn [serror expected_words]. rewrite Ie. unfold final, sending. destruct broken; reflexivity.
    + cbn [win start bufLen left_ reads].
      set (st := start s + (len (win s) - len (text_of m))). assert (J1 : st + len (text_of m) <= bufLen s) by lia.
      assert (F1 : (2 * length (left_ s) + length (text_of m) + 1 <= fuel)%nat) by (unfold smeasure in F; rewrite Es in F; unfold len in L; lia).
      clearbody st. remember (text_of m) as x eqn:Ex. clear I1 I3 L PT W E a Fa F. 
      set (start1 := if (0 <? st) && ((st + len x =? bufLen s) || (bufLen s / 2 <? st)) then 0 else st).
      assert (S1 : start1 = 0 \/ start1 = st) by (unfold start1; destruct (_ && _); auto).
      assert (S2 : start1 + len x = bufLen s -> start1 = 0).
      { unfold start1. destruct (N.ltb_spec 0 st); cbn [andb]; [|lia].
        destruct (N.eqb_spec (st + len x) (bufLen s)); cbn [orb]; [lia|]. destruct (_ <? _); lia. }
      destruct (N.eqb_spec (start1 + len x) (bufLen s)) as [Fu|Fu].
      * cbn [andb]. destruct (N.leb_spec maxTokenSize (bufLen s)) as [M|M].
        -- (* too long *)
           unfold maxTokenSize in M. assert (Lw : len x = 65536) by (specialize (S2 Fu); lia). cbn [serror].
           assert (NS : forall q, In q (pieces x) -> IsSpace (fst q) = false). { rewrite Pm. apply Forall_forall. exact Fm. }
           assert (TQ : text_of (pieces (x ++ left_ s)) = x ++ left_ s) by apply text_pieces.
           inversion H as [E|p l ? Wh H' E|? _ Fw|w p l ws' NE2 Fw Wh H' E]; subst ws.
           ++ exfalso. rewrite <- E in TQ. cbn in TQ. symmetry in TQ. apply app_eq_nil in TQ. destruct TQ as [TQ _]. rewrite TQ in Lw. cbn in Lw. lia.
           ++ exfalso. symmetry in E. pose proof (pieces_first_size _ _ _ E) as Sz. apply IsSpace_white in Wh.
              rewrite (NS p) in Wh; [discriminate|]. apply (pieces_inside x (left_ s) [] p l); [exact E|exact Wh|]. unfold len in Lw. cbn. lia.
           ++ cbn [expected_words]. match goal with |- context [N.of_nat ?k <=? 65536] => replace (N.of_nat k <=? 65536) with false end; [reflexivity|].
              fold (text_of (pieces (x ++ left_ s))). rewrite TQ, app_length. unfold len in Lw. lia.
           ++ cbn [expected_words]. fold (text_of w). match goal with |- context [N.of_nat ?k <=? 65536] => destruct (N.leb_spec (N.of_nat k) 65536) as [K|K] end; [|reflexivity].
              exfalso. apply IsSpace_white in Wh. symmetry in E. rewrite (NS p) in Wh; [discriminate|].
              apply (pieces_inside x (left_ s) w p l); [exact E|exact Wh|]. unfold len in Lw. lia.
        -- unfold maxTokenSize, startBufSize in *. specialize (S2 Fu).
           set (size2 := if 65536 <? (if bufLen s =? 0 then 4096 else bufLen s * 2) then 65536 else if bufLen s =? 0 then 4096 else bufLen s * 2).
           assert (Z2 : len x < size2 <= 65536).
           { unfold size2. destruct (N.eqb_spec (bufLen s) 0). { cbn. lia. } destruct (N.ltb_spec 65536 (bufLen s * 2)); lia. }
           clearbody size2. destruct (left_ s) as [|c r] eqn:El.
           ++ apply IH.
              ** unfold sinv. cbn [win start bufLen serror left_]. repeat split; lia.
              ** cbn [serror]. reflexivity.
              ** cbn [win left_]. exact H.
              ** unfold smeasure in *. cbn [win start bufLen serror left_]. cbn [length] in *. lia.
           ++ rewrite <- El in *.
              set (n := N.to_nat _).
              assert (B : (1 <= n)%nat /\ N.of_nat n <= size2 - len x /\ (n <= length (left_ s))%nat).
              { subst n. assert (0 < len (left_ s)) by (rewrite El; unfold len; cbn [length]; lia). unfold len in *. lia. }
              clearbody n. destruct B as (B1 & B2 & B3).
              assert (Lf : length (firstn n (left_ s)) = n) by (apply firstn_length_le; lia).
              apply IH.
              ** unfold sinv. cbn [win start bufLen serror left_]. rewrite len_app. split; [unfold len in *; rewrite Lf; lia|]. split; [lia|]. congruence.
              ** cbn [serror]. exact Logic.I.
              ** cbn [win left_]. rewrite <- app_assoc, firstn_skipn. exact H.
              ** unfold smeasure in *. cbn [win start bufLen serror left_]. rewrite app_length, Lf, skipn_length. lia.
      * cbn [andb]. destruct (left_ s) as [|c r] eqn:El.
        -- apply IH.
           ++ unfold sinv. cbn [win start bufLen serror left_]. repeat split; lia.
           ++ cbn [serror]. reflexivity.
           ++ cbn [win left_]. exact H.
           ++ unfold smeasure in *. cbn [win start bufLen serror left_]. cbn [length] in *. lia.
        -- rewrite <- El in *.
           set (n := N.to_nat _).
           assert (B : (1 <= n)%nat /\ N.of_nat n <= bufLen s - (start1 + len x) /\ (n <= length (left_ s))%nat).
           { subst n. assert (0 < len (left_ s)) by (rewrite El; unfold len; cbn [length]; lia). unfold len in *. lia. }
           clearbody n. destruct B as (B1 & B2 & B3).
           assert (Lf : length (firstn n (left_ s)) = n) by (apply firstn_length_le; lia).
           apply IH.
           ++ unfold sinv. cbn [win start bufLen serror left_]. rewrite len_app. split; [unfold len in *; rewrite Lf; lia|]. split; [lia|]. congruence.
           ++ cbn [serror]. exact Logic.I.
           ++ cbn [win left_]. rewrite <- app_assoc, firstn_skipn. exact H.
           ++ unfold smeasure in *. cbn [win start bufLen serror left_]. rewrite app_length, Lf, skipn_length. lia.
Qed.

Lemma rooms_total l : exists ws, rooms l ws.
Proof.
  remember (length l) as n eqn:En. assert (L : (length l <= n)%nat) by lia. clear En. revert l L. induction n as [|n IH]; intros [|p l] L; cbn [length] in L; try lia.
  - exists []. constructor.
  - exists []. constructor.
  - destruct (IsSpace (fst p)) eqn:E.
    + destruct (IH l ltac:(lia)) as (ws & H). exists ws. constructor; [apply IsSpace_white; exact E|exact H].
    + pose proof (word_end_ok (p :: l)) as W. destruct (word_end (p :: l)) as [[w t]|].
      * destruct W as (m & s & _ & El & F & S). destruct m as [|q m]; [cbn in El; injection El as -> _; congruence|]. rewrite El.
        destruct (IH t) as (ws & H). { apply (f_equal (@length _)) in El. cbn [app length] in El. rewrite app_length in El. cbn [length] in El. lia. }
        eexists. apply rooms_word; [discriminate| |apply IsSpace_white; exact S|exact H].
        eapply Forall_impl; [|exact F]. intros a. apply IsSpace_not.
      * eexists. apply rooms_last; [discriminate|]. eapply Forall_impl; [|exact W]. intros a. apply IsSpace_not.
Qed.
Lemma rooms_parts l ws : rooms l ws -> Forall (fun p => snd p <> []) l -> Forall (fun w => exists x m y, l = x ++ m ++ y /\ m <> [] /\ Forall (fun p => IsSpace (fst p) = false) m /\
  fst w = text_of m /\ (length (fst w) + 1 <= snd w)%nat) ws.
Proof.
  intros H. induction H as [|a s ws Wh H IH|w NE F|w a s ws NE F Wh H IH]; intros PS.
  - constructor.
  - inversion PS as [|? ? P1 P2]. subst. eapply Forall_impl; [|exact (IH P2)]. intros w (x & m & y & -> & M). exists (a :: x), m, y. auto.
  - constructor; [|constructor]. exists [], w, []. rewrite app_nil_r. split; [reflexivity|]. split; [exact NE|]. split; [|cbn [fst snd]; split; [reflexivity|lia]].
    eapply Forall_impl; [|exact F]. intros a. apply IsSpace_not.
  - apply Forall_app in PS. destruct PS as [_ PS]. inversion PS as [|? ? P1 P2]. subst. constructor.
    + exists [], w, (a :: s). split; [reflexivity|]. split; [exact NE|]. split; [|cbn [fst snd]; split; [reflexivity|]].
      * eapply Forall_impl; [|exact F]. intros q. apply IsSpace_not.
      * destruct (snd a) eqn:Z; [exfalso; apply P1; exact Z|cbn [length]; lia].
    + eapply Forall_impl; [|exact (IH P2)]. intros v (x & m & y & -> & M). exists (w ++ a :: x), m, y. rewrite <- app_assoc. auto.
Qed.
Lemma rooms_fields l ws : rooms l ws -> Forall (fun p => snd p <> []) l -> map fst ws = fields_loop l [].
Proof.
  intros H. induction H as [|a s ws Wh H IH|w NE F|w a s ws NE F Wh H IH]; intros PS.
  - reflexivity.
  - inversion PS. subst. destruct a as [r bs]. cbn [fields_loop fst] in *. apply IsSpace_white in Wh. rewrite Wh. auto.
  - assert (F' : Forall (fun p : rune * str => IsSpace (fst p) = false) w) by (eapply Forall_impl; [|exact F]; intros a; apply IsSpace_not).
    replace (fields_loop w []) with (fields_loop (w ++ []) []) by (rewrite app_nil_r; reflexivity). rewrite fields_word by exact F'. cbn [fields_loop app map fst]. fold (text_of w).
    destruct (text_of w) eqn:Z; [|reflexivity]. exfalso. destruct w as [|p w]; [congruence|]. apply Forall_inv in PS. rewrite text_cons in Z. apply app_eq_nil in Z. destruct Z. contradiction.
  - apply Forall_app in PS. destruct PS as [Pw PS]. inversion PS. subst.
    assert (F' : Forall (fun p : rune * str => IsSpace (fst p) = false) w) by (eapply Forall_impl; [|exact F]; intros q; apply IsSpace_not).
    rewrite fields_word by exact F'. destruct a as [r bs]. cbn [fields_loop app map fst] in *. apply IsSpace_white in Wh. rewrite Wh. fold (text_of w).
    destruct (text_of w) eqn:Z; [|rewrite IH by assumption; reflexivity].
    exfalso. destruct w as [|p w]; [congruence|]. apply Forall_inv in Pw. rewrite text_cons in Z. apply app_eq_nil in Z. destruct Z. contradiction.
Qed.
Lemma pieces_nonempty s : Forall (fun p => snd p <> []) (pieces s).
Proof. apply pieces_ok. Qed.
Lemma scan_words_ok broken chunk content ws : rooms (pieces content) ws -> scan_words broken chunk content = Some (expected_words broken ws).
Proof.
  intros H. unfold scan_words. apply word_scan_ok.
  - unfold sinv. cbn [win start bufLen serror left_]. change (len []) with 0. repeat split; try lia; congruence.
  - exact Logic.I.
  - exact H.
  - unfold smeasure. cbn. lia.
Qed.
Lemma expected_fit broken ws : Forall fits ws -> expected_words broken ws = (map fst ws, final broken).
Proof.
  intros H. induction H as [|[w k] ws A H IH]; [reflexivity|]. cbn [expected_words map fst snd]. unfold fits in A. cbn [snd] in A.
  replace (N.of_nat k <=? 65536) with true by lia. rewrite IH. reflexivity.
Qed.
Lemma expected_over broken before w rest : Forall fits before -> ~ fits w -> expected_words broken (before ++ w :: rest) = (map fst before, Some STooLong).
Proof.
  intros H N. induction H as [|[x k] ws A H IH]; cbn [app expected_words map fst snd]; unfold fits in *; cbn [snd] in *.
  - destruct w as [w k]. cbn [snd] in N. replace (N.of_nat k <=? 65536) with false by lia. reflexivity.
  - replace (N.of_nat k <=? 65536) with true by lia. rewrite IH. reflexivity.
Qed.
Lemma split_fits ws : Forall fits ws \/ exists before w rest, ws = before ++ w :: rest /\ Forall fits before /\ ~ fits w.
Proof.
  induction ws as [|w ws IH]; [left; constructor|]. destruct (N.leb_spec (N.of_nat (snd w)) 65536) as [L|L].
  - destruct IH as [F|(before & v & rest & -> & F & N)].
    + left. constructor; assumption.
    + right. exists (w :: before), v, rest. split; [reflexivity|]. split; [constructor; assumption|exact N].
  - right. exists [], w, ws. split; [reflexivity|]. split; [constructor|]. unfold fits. lia.
Qed.

(** ** Calls *)
Definition word_urls (u : rune -> bool) (w : str) : list rmatch := filter MatchIsUrl (FindAll u reUrl w).
Lemma url_matches_ok cb ms : forall done, exists calls, url_matches cb ms done = done ++ calls /\ asked cb done (filter MatchIsUrl ms) calls.
Proof.
  induction ms as [|m ms IH]; intros done; cbn [url_matches filter].
  - exists []. rewrite app_nil_r. split; [reflexivity|constructor].
  - destruct (MatchIsUrl m); [|apply IH]. destruct (cb done m) eqn:E.
    + destruct (IH (done ++ [m])) as (calls & -> & A). exists (m :: calls). rewrite <- app_assoc. split; [reflexivity|]. apply asked_next; assumption.
    + exists [m]. split; [reflexivity|]. apply asked_stop. exact E.
Qed.
Lemma url_words_ok u cb words : forall done, exists calls, url_words u cb words done = done ++ calls /\ visited cb done (map (word_urls u) words) calls.
Proof.
  induction words as [|w words IH]; intros done; cbn [url_words map].
  - exists []. rewrite app_nil_r. split; [reflexivity|constructor].
  - destruct (url_matches_ok cb (FindAll u reUrl w) done) as (c1 & -> & A). destruct (IH (done ++ c1)) as (c2 & -> & B). exists (c1 ++ c2). rewrite app_assoc. split; [reflexivity|].
    constructor; assumption.
Qed.
Definition always (_ : list rmatch) (_ : rmatch) : bool := true.
Lemma asked_always done ms calls : asked always done ms calls -> calls = ms.
Proof. intros H. induction H; [reflexivity|discriminate|congruence]. Qed.
Lemma visited_always done words calls : visited always done words calls -> calls = concat words.
Proof. intros H. induction H as [|? ? ? ? ? A H IH]; [reflexivity|]. apply asked_always in A. subst. reflexivity. Qed.
Lemma url_words_always u words : url_words u always words [] = flat_map (word_urls u) words.
Proof. destruct (url_words_ok u always words []) as (calls & -> & V). apply visited_always in V. subst. rewrite flat_map_concat_map. reflexivity. Qed.

(** URLs of a word *)
Lemma word_urls_ok u w m : In m (word_urls u w) -> text_url u (runes_of (whole m)) /\ exists x y, w = x ++ whole m ++ y.
Proof.
  intros I. apply filter_In in I. destruct I as [Im V].
  apply FindAll_in in Im. destruct Im as (pre & mid & post & new & EP & M & ->).
  pose proof (pieces_shape w) as H. rewrite EP, !Forall_app in H. destruct H as (_ & H & _). pose proof (url_shape u pre mid post new H M V) as T.
  cbn [whole] in *. pose proof (pieces_part _ _ _ _ EP) as PM. assert (RM : runes_of (text_of mid) = map fst mid) by (rewrite <- fst_pieces, PM; reflexivity).
  rewrite RM. split; [exact T|]. exists (text_of pre), (text_of post). apply pieces_part_text. exact EP.
Qed.
Lemma word_urls_nil u : word_urls u [] = [].
Proof.
  destruct (word_urls u []) as [|m l] eqn:E; [reflexivity|]. exfalso. assert (I : In m (word_urls u [])) by (rewrite E; left; reflexivity).
  apply word_urls_ok in I as J. destruct J as (_ & x & y & J). symmetry in J. apply app_eq_nil in J. destruct J as [_ J]. apply app_eq_nil in J. destruct J as [J _].
  apply filter_In in I. destruct I as [_ V]. unfold MatchIsUrl in V. rewrite J in V. discriminate.
Qed.

Lemma scan_error_final broken : scan_error (final broken) = if broken then Some ERead else None.
Proof. destruct broken; reflexivity. Qed.
Lemma extract_alone u chunk w : pieces w <> [] -> Forall (fun p => IsSpace (fst p) = false) (pieces w) -> (N.of_nat (length w + 1) <= 65536) ->
  ExtractUrls u always chunk w false = Done (word_urls u w, None).
Proof.
  intros NE F L. unfold ExtractUrls. destruct (rooms_total (pieces w)) as (ws & H). rewrite (scan_words_ok _ _ _ _ H). apply rooms_only in H; [|exact NE|exact F]. subst ws. rewrite text_pieces.
  rewrite expected_fit. { cbn [map fst]. rewrite url_words_always. cbn [flat_map]. rewrite app_nil_r. reflexivity. }
  constructor; [exact L|constructor].
Qed.
Theorem calls_ok u content broken : exists words err, seen_words content broken words err /\
  forall chunk, exists urls, Forall2 (fun w ms => ExtractUrls u always chunk w false = Done (ms, None)) words urls /\
    forall cb, exists calls, ExtractUrls u cb chunk content broken = Done (calls, err) /\ visited cb [] urls calls.
Proof.
  destruct (rooms_total (pieces content)) as (ws & H). pose proof (rooms_parts _ _ H (pieces_nonempty content)) as P.
  assert (G : forall part, Forall fits part -> incl part ws -> forall chunk, Forall2 (fun w ms => ExtractUrls u always chunk w false = Done (ms, None)) (map fst part) (map (word_urls u) (map fst part))).
  { intros part F I chunk. induction F as [|w part Fw F IH]; [constructor|]. cbn [map]. constructor; [|apply IH; intros v Iv; apply I; right; exact Iv].
    rewrite Forall_forall in P. destruct (P w (I w (or_introl eq_refl))) as (x & m & y & E & NE & Fm & -> & L).
    apply pieces_part in E. apply extract_alone; rewrite ?E; auto. unfold fits in Fw. lia. }
  destruct (split_fits ws) as [F|(before & w & rest & Ew & F & NF)].
  - exists (map fst ws), (if broken then Some ERead else None). split.
    { exists (pieces content), ws. split; [apply characters_pieces|]. split; [exact H|]. left. auto. }
    intros chunk. exists (map (word_urls u) (map fst ws)). split; [apply G; [exact F|apply incl_refl]|].
    intros cb. destruct (url_words_ok u cb (map fst ws) []) as (calls & E & V). exists calls. split; [|exact V]. unfold ExtractUrls.
    rewrite (scan_words_ok _ _ _ _ H), expected_fit, E by exact F. rewrite scan_error_final. reflexivity.
  - exists (map fst before), (Some ETooLong). split.
    { exists (pieces content), ws. split; [apply characters_pieces|]. split; [exact H|]. right. exists before, w, rest. auto. }
    intros chunk. exists (map (word_urls u) (map fst before)). split; [apply G; [exact F|rewrite Ew; intros v Iv; apply in_or_app; left; exact Iv]|].
    intros cb. destruct (url_words_ok u cb (map fst before) []) as (calls & E & V). exists calls. split; [|exact V]. unfold ExtractUrls.
    rewrite (scan_words_ok _ _ _ _ H), Ew, expected_over, E by assumption. reflexivity.
Qed.

(** Every call is for a URL. *)
Lemma asked_in {A} cb (done ms calls : list A) : asked cb done ms calls -> incl calls ms.
Proof. intros H. induction H as [|? m ms|? m ms calls _ _ IH]; intros x I; [destruct I|destruct I as [<-|[]]; left; reflexivity|]. destruct I as [<-|I]; [left; reflexivity|right; auto]. Qed.
Lemma visited_in {A} cb (done : list A) words calls m : visited cb done words calls -> In m calls -> exists ms, In ms words /\ In m ms.
Proof.
  intros H. induction H as [|done ms words calls rest As H IH]; intros I; [destruct I|]. apply in_app_or in I. destruct I as [I|I].
  - exists ms. split; [left; reflexivity|]. exact (asked_in _ _ _ _ As _ I).
  - destruct (IH I) as (ms' & I1 & I2). exists ms'. split; [right; exact I1|exact I2].
Qed.
Theorem urls_ok u cb chunk content broken calls err : ExtractUrls u cb chunk content broken = Done (calls, err) ->
  forall m, In m calls -> text_url u (runes_of (whole m)) /\
    exists words w x y, line_words content words /\ In w words /\ w = x ++ whole m ++ y.
Proof.
  intros E m I. destruct (rooms_total (pieces content)) as (ws & H). unfold ExtractUrls in E. rewrite (scan_words_ok _ _ _ _ H) in E.
  assert (S : incl (fst (expected_words broken ws)) (Fields content)).
  { unfold Fields. rewrite <- (rooms_fields _ _ H (pieces_nonempty content)). destruct (split_fits ws) as [F|(before & w & rest & -> & F & NF)].
    - rewrite expected_fit by exact F. apply incl_refl.
    - rewrite expected_over by assumption. rewrite map_app. cbn [fst]. intros v Iv. apply in_or_app. left. exact Iv. }
  destruct (expected_words broken ws) as [words e]. cbn [fst] in S. destruct (url_words_ok u cb words []) as (calls' & E' & V). rewrite E' in E. cbn [app] in E. injection E as -> _.
  destruct (visited_in _ _ _ _ _ V I) as (ms & I1 & I2). apply in_map_iff in I1. destruct I1 as (w & <- & Iw). apply word_urls_ok in I2. destruct I2 as (T & x & y & Ew).
  split; [exact T|]. exists (Fields content), w, x, y. split; [apply line_words_ok|]. split; [apply S; exact Iw|exact Ew].
Qed.

(** ** The same URLs as links of TxtLinkSource.Extract *)
Lemma fields_app x y : forall w, fields_loop (x ++ (10, [newline]) :: y) w = fields_loop x w ++ fields_loop y [].
Proof.
  induction x as [|[r bs] x IH]; intros w; cbn [app fields_loop].
  - change (IsSpace 10) with true. cbv iota. destruct w; reflexivity.
  - destruct (IsSpace r); [|apply IH]. destruct w; rewrite IH; reflexivity.
Qed.
Lemma Fields_newline x y : Fields (x ++ newline :: y) = Fields x ++ Fields y.
Proof. unfold Fields. rewrite pieces_app by reflexivity. rewrite pieces_ascii by reflexivity. apply fields_app. Qed.
Lemma Fields_cr x : Fields (x ++ [ascii_of_nat 13]) = Fields x.
Proof.
  unfold Fields. rewrite pieces_app by reflexivity. change (pieces [ascii_of_nat 13]) with [(13, [ascii_of_nat 13])].
  assert (G : forall l w, fields_loop (l ++ [(13, [ascii_of_nat 13])]) w = fields_loop l w); [|apply G].
  induction l as [|[r bs] l IH]; intros w; cbn [app fields_loop].
  - change (IsSpace 13) with true. cbv iota. destruct w; reflexivity.
  - destruct (IsSpace r); [|apply IH]. destruct w; rewrite IH; reflexivity.
Qed.
Lemma Fields_without_cr l m : without_cr l m -> Fields m = Fields l.
Proof. intros H. destruct H; [symmetry; apply Fields_cr|reflexivity]. Qed.
Lemma Fields_lines content all lines : lines_of content all -> Forall2 without_cr all lines -> Fields content = flat_map Fields lines.
Proof.
  intros H. revert lines. induction H as [|l NE NN|l t ls NN H IH]; intros lines F; inversion F as [|? ? ? ? C F']; subst.
  - reflexivity.
  - inversion F'. subst. cbn [flat_map]. rewrite app_nil_r. symmetry. apply Fields_without_cr. exact C.
  - rewrite Fields_newline, (IH _ F'). cbn [flat_map]. f_equal. symmetry. apply Fields_without_cr. exact C.
Qed.
Lemma flat_nonempty u l : flat_map (word_urls u) (filter nonempty l) = flat_map (word_urls u) l.
Proof. induction l as [|w l IH]; [reflexivity|]. cbn [filter flat_map]. destruct w; cbn [nonempty]; [rewrite word_urls_nil; exact IH|]. cbn [flat_map]. rewrite IH. reflexivity. Qed.
Lemma txt_urls u n line : map URL (txt_links u n line) = map whole (flat_map (word_urls u) (Fields line)).
Proof.
  rewrite <- (words_fields (length line) line) by lia. rewrite flat_nonempty. unfold txt_links. induction (words_loop (length line) line) as [|w l IH]; [reflexivity|].
  cbn [flat_map]. rewrite !map_app, IH. f_equal. unfold word_urls. induction (FindAll u reUrl w) as [|m ms IHm]; [reflexivity|]. cbn [flat_map filter]. destruct (MatchIsUrl m); cbn [app map URL]; rewrite IHm; reflexivity.
Qed.
Lemma txt_lines_urls u lines : forall n done, exists ls, txt_lines u None n lines (layout 0 (txt_tree done)) = Done (layout 0 (txt_tree (done ++ ls))) /\
  map URL ls = map whole (flat_map (word_urls u) (flat_map Fields lines)).
Proof.
  induction lines as [|line lines IH]; intros n done.
  - exists []. split; [cbn; rewrite app_nil_r; reflexivity|reflexivity].
  - destruct (IH (S n) (done ++ txt_links u n line)) as (ls & E & L). exists (txt_links u n line ++ ls). split.
    + cbn [txt_lines]. fold add_all. rewrite add_all_ok. cbn [obind]. rewrite E, app_assoc. reflexivity.
    + cbn [flat_map]. rewrite flat_map_app, !map_app, L, txt_urls. reflexivity.
Qed.
Lemma lines_total s : exists ls, lines_of s ls.
Proof. 
  remember (length s) as n eqn:En. assert (L : (length s <= n)%nat) by lia. clear En. revert s L. induction n as [|n IH]; intros s L.
  - destruct s; [exists []; constructor|cbn in L; lia].
  - destruct (Scanner.cut s) as [[l t]|] eqn:C.
    + apply cut_some in C. destruct C as [-> NN]. destruct (IH t) as (ls & H). { rewrite app_length in L. cbn in L. lia. } exists (l :: ls). constructor; assumption.
    + apply cut_none in C. destruct s as [|c s]; [exists []; constructor|]. exists [c :: s]. constructor; [discriminate|exact C].
Qed.
Theorem same_urls u chunk chunk' content broken calls err t err' :
  ExtractUrls u always chunk content broken = Done (calls, err) -> err <> Some ETooLong ->
  TxtExtract u chunk' None content broken = Done (Some t, err') -> err' <> Some ETooLong ->
  err = err' /\ map whole calls = map (fun p => URL (snd p)) (paths t).
Proof.
  intros E NE E' NE'. destruct (rooms_total (pieces content)) as (ws & H). unfold ExtractUrls in E. rewrite (scan_words_ok _ _ _ _ H) in E.
  destruct (split_fits ws) as [F|(before & w & rest & -> & F & NF)].
  2:{ rewrite expected_over in E by assumption. injection E as _ E. cbn in E. congruence. }
  rewrite expected_fit in E by exact F. rewrite url_words_always, scan_error_final in E. injection E as <- <-. rewrite (rooms_fields _ _ H (pieces_nonempty content)). fold (Fields content).
  destruct (lines_total content) as (all & A). unfold TxtExtract in E'. rewrite (scan_lines_ok _ _ _ _ A) in E'.
  assert (SS : Forall short all \/ exists x l y, all = x ++ l :: y /\ Forall short x /\ ~ short l).
  { clear. induction all as [|l all IH]; [left; constructor|]. destruct (N.ltb_spec (N.of_nat (length l)) 65536) as [L|L].
    - destruct IH as [F|(x & k & y & -> & F & NF)]; [left; constructor; assumption|]. right. exists (l :: x), k, y. split; [reflexivity|]. split; [constructor; assumption|exact NF].
    - right. exists [], l, all. split; [reflexivity|]. split; [constructor|]. unfold short. lia. }
  destruct SS as [SS|(x & l & y & -> & SS & NS)].
  2:{ rewrite expected_long in E' by assumption. destruct (txt_lines u None 1 (map dropCR x) [OInner PNil []]); cbn [obind] in E'; [|discriminate]. injection E' as _ E'. cbn in E'. congruence. }
  rewrite expected_short in E' by exact SS. change [OInner PNil []] with (layout 0 (txt_tree [])) in E'.
  destruct (txt_lines_urls u (map dropCR all) 1 []) as (ls & Et & L). rewrite Et in E'. cbn [app obind] in E'. rewrite read_root, scan_error_final in E'.
  2:{ unfold txt_tree. destruct ls; cbn; lia. }
  injection E' as <- <-. split; [reflexivity|].
  rewrite (Fields_lines content all (map dropCR all) A).
  - rewrite <- L. unfold txt_tree. destruct ls as [|l ls]; [reflexivity|]. cbn [paths flat_map]. rewrite app_nil_r, !map_map. reflexivity.
  - clear. induction all as [|l all IH]; [constructor|]. cbn [map]. constructor; [|exact IH]. apply dropCR_ok.
Qed.

(** ** Witness *)
Theorem not_stopped : ~ forall u cb chunk content broken calls err, ExtractUrls u cb chunk content broken = Done (calls, err) ->
  forall before m after, calls = before ++ m :: after -> cb before m = false -> after = [].
Proof.
  assert (E : match ExtractUrls (fun _ => false) (fun _ _ => false) (fun _ => 3) (b "a.org b.org") false with Done ([_; _], None) => true | _ => false end = true) by (vm_compute; reflexivity).
  intros H. specialize (H (fun _ => false) (fun _ _ => false) (fun _ => 3) (b "a.org b.org") false).
  destruct (ExtractUrls _ _ _ _ _) as [[[|m [|m' [|? ?]]] [?|]]|]; try discriminate.
  specialize (H _ _ eq_refl [] m [m'] eq_refl eq_refl). discriminate.
Qed.
