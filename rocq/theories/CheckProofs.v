(** Lemmas about checkValid and about values of type interface{}. *)
From Coq Require Import ZifyBool ZifyNat ZifyN.
From Coq Require Import Sorting.Sorted Permutation.
From Verif Require Import GoBase Utf8 Utf8Dec Utf8Proofs JsonStr JsonSpec Emacs Json JsonProofs Compact CompactProofs ReplyJson Stream StreamSpec StreamProofs StreamSound StreamRfc
  Unmarshal UnmarshalSpec UnmarshalProofs ParseProofs Client Print PrintSpec PrintProofs.
Local Open Scope nat_scope.

(** ** checkValid *)
Definition blank (s : str) : bool := forallb (fun c => isSpace (N_of_ascii c)) s.
Lemma blank_space s : blank s = true <-> space s.
Proof. unfold blank, space. rewrite forallb_forall, Forall_forall. split; intros H x I; specialize (H x I); cbn in *; [unfold isSpace in H|unfold isSpace]; lia. Qed.
Lemma top_check l : forall st, check_bytes (mkScan stateEndTop st) l = blank l.
Proof.
  assert (E : forall st x, check_bytes (mkScan stateError st) x = false) by (intros st [|c x]; reflexivity).
  induction l as [|c l IH]; intros st; [reflexivity|]. cbn [check_bytes sstep step]. unfold do_EndTop. cbn [blank forallb]. destruct (isSpace (N_of_ascii c)); [apply IH|apply E].
Qed.
Definition running (s : scanner) : Prop := step s <> stateEndTop /\ step s <> stateError.
Ltac crush := repeat match goal with
  | |- context [if ?x then _ else _] => destruct x
  | H : context [if ?x then _ else _] |- _ => destruct x
  end.
Lemma end_value_cases st f c k s' : do_EndValue (mkScan f st) c = (k, s') ->
  k = scanError \/ (k = scanEnd /\ s' = mkScan (if isSpace c then stateEndTop else stateError) st /\ st = []) \/ ((k = scanEndObject \/ k = scanEndArray) /\ (exists st', s' = pop st') /\ c <> 32%N) \/ (~ In k [scanEnd; scanEndObject; scanEndArray; scanError] /\ running s').
Proof.
  unfold do_EndValue, do_EndTop, go, fail. cbn [parseState step]. intros H. destruct st as [|p st].
  - injection H as <- <-. right. left. auto.
  - destruct (isSpace c) eqn:S; [injection H as <- <-; right; right; right; split; [cbn; intuition discriminate|split; discriminate]|].
    assert (N : c <> 32%N) by (intros ->; discriminate S).
    destruct p; crush; injection H as <- <-; auto; try (right; right; left; split; [auto|]; split; [eauto|exact N]); right; right; right; (split; [cbn; intuition discriminate|split; discriminate]).
Qed.
Lemma step_cases s c k s' : running s -> sstep s c = (k, s') ->
  k = scanError \/ (k = scanEnd /\ s' = mkScan (if isSpace c then stateEndTop else stateError) []) \/ ((k = scanEndObject \/ k = scanEndArray) /\ (exists st', s' = pop st') /\ c <> 32%N) \/ (~ In k [scanEnd; scanEndObject; scanEndArray; scanError] /\ running s').
Proof.
  destruct s as [f st]. intros [R1 R2] H. cbn [step parseState] in *.
  assert (EV : forall f st, do_EndValue (mkScan f st) c = (k, s') -> k = scanError \/ (k = scanEnd /\ s' = mkScan (if isSpace c then stateEndTop else stateError) []) \/ ((k = scanEndObject \/ k = scanEndArray) /\ (exists st', s' = pop st') /\ c <> 32%N) \/ (~ In k [scanEnd; scanEndObject; scanEndArray; scanError] /\ running s')).
  { clear. intros f st E. apply end_value_cases in E. destruct E as [E|[(E1 & E2 & E3)|[E|E]]]; [auto|subst st; auto|auto|auto]. }
  destruct f; try congruence; cbn [sstep step] in H; unfold do_BeginValue, do_BeginString, do_0, do_ESign, expect, hexa, push, go, fail in H; cbn [parseState] in H.
  all: repeat match type of H with (if ?x then _ else _) = _ => destruct x end; try (eapply EV; exact H); injection H as <- <-; auto; right; right; right; (split; [cbn; intuition discriminate|split; discriminate]).
Qed.
Lemma check_scan l : forall s, running s -> check_bytes s l = match scan_bytes s (l ++ b " ") with SEnd n => (n <=? length l) && blank (skipn n l) | _ => false end.
Proof.
  induction l as [|c l IH]; intros s R.
  - cbn [check_bytes app scan_bytes b list_ascii_of_string length]. destruct (sstep s (N_of_ascii " ")) as [k s'] eqn:E. pose proof (step_cases _ _ _ _ R E) as C. unfold scan_eof. change 32%N with (N_of_ascii " "). rewrite E. destruct R as [R1 R2].
    replace (match step s with stateEndTop => true | stateError => false | _ => is_top (step (snd (k, s'))) end) with (is_top (step s')) by (destruct (step s); congruence || reflexivity). cbn [snd].
    destruct C as [->|[(-> & ->)|[(_ & _ & C)|(N & R' & _)]]].
    + destruct (step s') eqn:E'; try reflexivity. exfalso.
      destruct s as [f st]. destruct f; try (cbn in R1, R2; congruence); cbn [sstep step] in E; unfold do_BeginValue, do_BeginString, do_0, do_ESign, expect, hexa, push, go, fail, do_EndValue, do_EndTop, go, fail in E; cbn [parseState] in E;
        repeat match type of E with (if ?x then _ else _) = _ => destruct x end; try (injection E as <-; discriminate E'); try discriminate E; try (injection E as <- ; discriminate E'); destruct st as [|p st]; try discriminate E; destruct p; crush; try discriminate E; injection E as <-; discriminate E'.
    + reflexivity.
    + exfalso. apply C. reflexivity.
    + replace (is_top (step s')) with false by (destruct (step s'); congruence || reflexivity). destruct k; cbn in N; try (exfalso; tauto); reflexivity.
  - cbn [check_bytes app scan_bytes length]. destruct (sstep s (N_of_ascii c)) as [k s'] eqn:E. destruct (step_cases _ _ _ _ R E) as [->|[(-> & ->)|[(K & (st' & ->) & _)|(N & R')]]].
    + reflexivity.
    + cbn [skipn]. change (0 <=? S (length l)) with true. cbn [andb blank forallb]. destruct (isSpace (N_of_ascii c)); [apply top_check|destruct l; reflexivity].
    + destruct st' as [|p' st'].
      * assert (Z : check_bytes (pop []) l = (1 <=? S (length l)) && blank (skipn 1 (c :: l))) by (cbn [skipn]; change (1 <=? S (length l)) with true; apply top_check). destruct K as [->| ->]; exact Z.
      * assert (Z : check_bytes (pop (p' :: st')) l = match more (scan_bytes (mkScan stateEndValue (p' :: st')) (l ++ b " ")) with SEnd n => (n <=? S (length l)) && blank (skipn n (c :: l)) | _ => false end).
        { rewrite (IH (pop (p' :: st'))) by (split; discriminate). unfold pop. destruct (scan_bytes _ _); reflexivity. }
        destruct K as [->| ->]; exact Z.
    + rewrite (IH s' R'). destruct k; cbn in N; try (exfalso; tauto); destruct (scan_bytes s' (l ++ b " ")); reflexivity.
Qed.
Lemma text_scan n x w : gtext n x -> (N.of_nat n <= 10000)%N -> space w -> scan_bytes reset (x ++ w ++ b " ") = SEnd (length x).
Proof.
  intros J F W. assert (T : exists c y, w ++ b " " = c :: y /\ isSpace (N_of_ascii c) = true).
  { destruct W as [|c w C W]; [exists " "%char, []; split; reflexivity|]. exists c, (w ++ b " "). split; [reflexivity|]. apply space_in, C. }
  destruct T as (c & y & -> & C). assert (Fl : follows (N_of_ascii c)) by (unfold follows, isSpace in *; cbn; lia).
  assert (K : forall s', goes reset x s' -> after s' [] -> scan_bytes reset (x ++ c :: y) = SEnd (length x)).
  { intros s' G A. rewrite scan_app. unfold goes in G. rewrite G. cbn [scan_bytes]. rewrite (after_step _ _ _ A Fl). cbn [do_EndValue parseState do_EndTop shift]. f_equal. lia. }
  destruct J as [n x I|n x J|n x J|n w' W'|n x J|n w' W'|n x J].
  - apply (K (mkScan stateEndValue [])); [destruct I as [<-|[<-|[<-|[]]]]; reflexivity|split; [reflexivity|left; reflexivity]].
  - destruct (number_goes [] x J) as (s' & G & A). apply (K s' G A).
  - apply (K (mkScan stateEndValue [])); [apply string_goes; [exact J|cbn; auto]|split; [reflexivity|left; reflexivity]].
  - assert (G : goes reset (b "[" ++ w') (mkScan stateBeginValueOrEmpty [parseArrayValue])) by (eapply goes_app; [reflexivity|apply space_begin0, W']).
    rewrite (app_assoc (b "[")), <- app_assoc, scan_app. unfold goes in G. rewrite G. cbn [app b list_ascii_of_string scan_bytes]. cbn. f_equal. rewrite !app_length. cbn. lia.
  - destruct (proj1 (proj2 json_goes) _ _ J [] ) as [_ (s' & G & A)]; [unfold fits; cbn [length]; lia|].
    assert (G' : goes reset (b "[" ++ x) s') by (eapply goes_app; [reflexivity|exact G]).
    rewrite (app_assoc (b "[")), <- app_assoc, scan_app. unfold goes in G'. rewrite G'. cbn [app b list_ascii_of_string scan_bytes]. rewrite (after_step _ _ _ A) by (unfold follows; cbn; tauto). cbn. f_equal. rewrite !app_length. cbn. lia.
  - assert (G : goes reset (b "{" ++ w') (mkScan stateBeginStringOrEmpty [parseObjectKey])) by (eapply goes_app; [reflexivity|apply space_string0, W']).
    rewrite (app_assoc (b "{")), <- app_assoc, scan_app. unfold goes in G. rewrite G. cbn [app b list_ascii_of_string scan_bytes]. cbn. f_equal. rewrite !app_length. cbn. lia.
  - destruct (proj2 (proj2 json_goes) _ _ J [] stateBeginStringOrEmpty) as (s' & G & A); [cbn; auto|unfold fits; cbn [length]; lia|].
    assert (G' : goes reset (b "{" ++ x) s') by (eapply goes_app; [reflexivity|exact G]).
    rewrite (app_assoc (b "{")), <- app_assoc, scan_app. unfold goes in G'. rewrite G'. cbn [app b list_ascii_of_string scan_bytes]. rewrite (after_step _ _ _ A) by (unfold follows; cbn; tauto). cbn. f_equal. rewrite !app_length. cbn. lia.
Qed.
Lemma check_exact t : checkValid t = true <-> document_text t.
Proof.
  unfold checkValid. rewrite check_scan by (split; discriminate). split.
  - destruct (scan_bytes reset (t ++ b " ")) as [n| |] eqn:E; try discriminate. rewrite andb_true_iff, blank_space. intros [L W]. apply Nat.leb_le in L.
    apply scan_value in E. destruct E as (w & k & x & W1 & K & G & E). rewrite firstn_app in E. replace (n - length t) with 0 in E by lia. cbn [firstn] in E. rewrite app_nil_r in E.
    exists w, k, x, (skipn n t). split; [exact W1|]. split; [exact W|]. split; [exact K|]. split; [exact G|]. rewrite app_assoc, <- E. symmetry. apply firstn_skipn.
  - intros (w1 & n & x & w2 & W1 & W2 & L & G & ->). rewrite <- !app_assoc, scan_app. pose proof (space_begin [] w1 W1) as Sp. unfold goes in Sp. change (mkScan stateBeginValue []) with reset in Sp. rewrite Sp, (text_scan n x w2 G L W2). cbn [shift].
    rewrite andb_true_iff, blank_space. split; [apply Nat.leb_le; rewrite !app_length; lia|]. rewrite app_assoc, <- app_length, skipn_app, skipn_all. replace (length (w1 ++ x) - length (w1 ++ x)) with 0 by lia. exact W2.
Qed.

(** ** Strings are Unicode *)
Lemma add_some A B (a : A) (r : option (list A * B)) l x : add a r = Some (l, x) -> exists l', r = Some (l', x) /\ l = a :: l'.
Proof. destruct r as [[l' x']|]; cbn [add]; intros E; [injection E as <- <-; eauto|discriminate]. Qed.
Lemma decode1_valid c s : valid_rune (fst (decode1 (N_of_ascii c) (bytesN s))) = true.
Proof. pose proof (runes_of_valid (c :: s)) as V. unfold runes_of in V. cbn [bytesN map] in V. rewrite decodeN_step in V. inversion V; assumption. Qed.
Notation unicode := (Forall (fun r => valid_rune r = true)).
Lemma hexval_bound c n : hexval c = Some n -> (n < 16)%N.
Proof.
  unfold hexval. cbv zeta. generalize (N_of_ascii c) as k. intros k.
  destruct ((48 <=? k)%N && (k <=? 57)%N) eqn:A; [|destruct ((65 <=? k)%N && (k <=? 70)%N) eqn:B; [|destruct ((97 <=? k)%N && (k <=? 102)%N) eqn:C; [|discriminate]]].
  all: intros E; assert (X : forall a b : N, Some a = Some b -> a = b) by congruence; apply X in E; lia.
Qed.
Lemma hex4_bound s n y : hex4 s = Some (n, y) -> (n < 65536)%N.
Proof.
  destruct s as [|c1 [|c2 [|c3 [|c4 s]]]]; cbn [hex4]; try discriminate. destruct (hexval c1) as [n1|] eqn:E1; [|discriminate]. destruct (hexval c2) as [n2|] eqn:E2; [|discriminate]. destruct (hexval c3) as [n3|] eqn:E3; [|discriminate]. destruct (hexval c4) as [n4|] eqn:E4; [|discriminate].
  intros E. assert (X : forall (a b : N) (x y : str), Some (a, x) = Some (b, y) -> a = b) by congruence. apply X in E. apply hexval_bound in E1, E2, E3, E4. lia.
Qed.
Lemma unquote_unicode fuel : forall s rs y, unquote fuel s = Some (rs, y) -> unicode rs.
Proof.
  induction fuel as [|fuel IH]; intros s rs y E; [discriminate|]. cbn [unquote] in E. destruct s as [|c s]; [discriminate|]. destruct (Ascii.eqb c quote); [injection E as <- _; constructor|]. destruct (Ascii.eqb c backslash).
  - destruct s as [|e s]; [discriminate|]. destruct (Ascii.eqb e "u").
    + destruct (hex4 s) as [[rr s3]|] eqn:H; [|discriminate]. apply hex4_bound in H. destruct ((55296 <=? rr)%N && (rr <? 57344)%N) eqn:Su.
      * destruct (getu4 s3) as [[rr1 s4]|] eqn:G.
        -- destruct ((rr <? 56320)%N && (56320 <=? rr1)%N && (rr1 <? 57344)%N) eqn:P; apply add_some in E; destruct E as (l & E & ->); (constructor; [|eapply IH, E]); [|reflexivity]. unfold valid_rune, inr. lia.
        -- apply add_some in E. destruct E as (l & E & ->). constructor; [reflexivity|eapply IH, E].
      * apply add_some in E. destruct E as (l & E & ->). constructor; [unfold valid_rune, inr; lia|eapply IH, E].
    + unfold escaped in E. destruct (find (fun x => Ascii.eqb (fst x) e) escapes) as [[c' r]|] eqn:F; cbn [option_map snd] in E; [|discriminate]. apply add_some in E. destruct E as (l & E & ->). constructor; [|eapply IH, E].
      apply find_some in F. destruct F as [F _]. cbn in F. repeat (destruct F as [F|F]; [injection F as _ <-; reflexivity|]). contradiction.
  - destruct (N_of_ascii c <? 32)%N; [discriminate|]. pose proof (decode1_valid c s) as V. destruct (decode1 (N_of_ascii c) (bytesN s)) as [r rest]. apply add_some in E. destruct E as (l & E & ->). constructor; [exact V|eapply IH, E].
Qed.
Lemma parse_proper fuel : (forall s v y, parse_value fuel s = Some (v, y) -> proper v) /\ (forall s l y, parse_items fuel s = Some (l, y) -> Forall proper l) /\
  (forall s l y, parse_members fuel s = Some (l, y) -> Forall (fun m => unicode (fst m) /\ proper (snd m)) (map fst l)).
Proof.
  induction fuel as [|fuel (IHv & IHi & IHm)]; [repeat split; intros; discriminate|]. repeat split.
  - intros s v y E. cbn [parse_value] in E. destruct (skip s) as [|c s1]; [discriminate|]. destruct (Ascii.eqb c quote).
    { destruct (unquote (S (length s1)) s1) as [[rs y']|] eqn:U; [|discriminate]. injection E as <- _. constructor. eapply unquote_unicode, U. }
    destruct (Ascii.eqb c "{").
    { destruct (parse_members fuel s1) as [[l y']|] eqn:M.
      - assert (P : proper (VObj (map fst l))) by (constructor; eapply IHm, M). destruct (skip s1) as [|c' s2]; [injection E as <- _; exact P|]. destruct (Ascii.eqb_spec c' "}") as [->|N]; [injection E as <- _; constructor; constructor|].
        assert (E' : Some (VObj (map fst l), y') = Some (v, y)) by (destruct c' as [[] [] [] [] [] [] [] []]; try exact E; congruence). injection E' as <- _. exact P.
      - destruct (skip s1) as [|c' s2]; [discriminate|]. destruct c' as [[] [] [] [] [] [] [] []]; try discriminate E. injection E as <- _. constructor. constructor. }
    destruct (Ascii.eqb c "[").
    { destruct (parse_items fuel s1) as [[l y']|] eqn:M.
      - assert (P : proper (VArr l)) by (constructor; eapply IHi, M). destruct (skip s1) as [|c' s2]; [injection E as <- _; exact P|]. destruct (Ascii.eqb_spec c' "]") as [->|N]; [injection E as <- _; constructor; constructor|].
        assert (E' : Some (VArr l, y') = Some (v, y)) by (destruct c' as [[] [] [] [] [] [] [] []]; try exact E; congruence). injection E' as <- _. exact P.
      - destruct (skip s1) as [|c' s2]; [discriminate|]. destruct c' as [[] [] [] [] [] [] [] []]; try discriminate E. injection E as <- _. constructor. constructor. }
    destruct (cut (b "null") (c :: s1)); [injection E as <- _; constructor|]. destruct (cut (b "true") (c :: s1)); [injection E as <- _; constructor|]. destruct (cut (b "false") (c :: s1)); [injection E as <- _; constructor|].
    destruct (span number_byte (c :: s1)) as [[|d t] y']; [discriminate|]. injection E as <- _. constructor.
  - intros s l y E. cbn [parse_items] in E. destruct (parse_value fuel s) as [[v y']|] eqn:V; [|discriminate]. apply IHv in V. destruct (skip y') as [|c y2]; [discriminate|].
    destruct (Ascii.eqb_spec c ",") as [->|N]; [apply add_some in E; destruct E as (l' & E & ->); constructor; [exact V|eapply IHi, E]|].
    destruct (Ascii.eqb_spec c "]") as [->|N']; [injection E as <- _; constructor; [exact V|constructor]|]. exfalso. destruct c as [[] [] [] [] [] [] [] []]; try discriminate E; congruence.
  - intros s l y E. cbn [parse_members] in E. destruct (skip s) as [|c s1]; [discriminate|]. destruct (Ascii.eqb c quote); [|discriminate]. destruct (unquote (S (length s1)) s1) as [[k y']|] eqn:U; [|discriminate]. apply unquote_unicode in U.
    destruct (skip y') as [|c2 y2]; [discriminate|]. destruct (Ascii.eqb_spec c2 ":") as [->|N]; [|exfalso; destruct c2 as [[] [] [] [] [] [] [] []]; try discriminate E; congruence]. cbv zeta in E.
    destruct (parse_value fuel (skip y2)) as [[v y3]|] eqn:V; [|discriminate]. apply IHv in V. destruct (skip y3) as [|c4 y4]; [discriminate|].
    destruct (Ascii.eqb_spec c4 ",") as [->|N]; [apply add_some in E; destruct E as (l' & E & ->); constructor; [split; [exact U|exact V]|eapply IHm, E]|].
    destruct (Ascii.eqb_spec c4 "}") as [->|N']; [injection E as <- _; constructor; [split; [exact U|exact V]|constructor]|]. exfalso. destruct c4 as [[] [] [] [] [] [] [] []]; try discriminate E; congruence.
Qed.
Lemma parsed_proper t v : parse t = Some v -> proper v.
Proof. unfold parse. destruct (parse_value (budget_of t) t) as [[v' y]|] eqn:E; [|discriminate]. destruct (skip y); [|discriminate]. intros H. injection H as <-. eapply (proj1 (parse_proper _)), E. Qed.
Lemma jtext_proper v t : jtext v t -> proper v.
Proof. intros J. apply (parsed_proper t), document_parsed. exists [], t, []. split; [constructor|]. split; [constructor|]. split; [exact J|rewrite app_nil_r; reflexivity]. Qed.
