(** Lemmas about the scanner of JSON. *)
From Coq Require Import ZifyBool ZifyNat ZifyN.
From Verif Require Import GoBase Utf8 Utf8Proofs JsonSpec CompactProofs Frame Stream StreamSpec.

Definition goes (s : scanner) (t : str) (s' : scanner) : Prop := scan_bytes s t = SMore s'.
Definition shift (n : nat) (r : scanned) : scanned := match r with SEnd k => SEnd (n + k) | r => r end.
Lemma scan_app s t : forall x, scan_bytes s (t ++ x) = match scan_bytes s t with SMore s' => shift (length t) (scan_bytes s' x) | r => r end.
Proof.
  revert s. induction t as [|c t IH]; intros s x; cbn [app scan_bytes length].
  - destruct (scan_bytes s x); reflexivity.
  - assert (Z : forall s', more (scan_bytes s' (t ++ x)) = match more (scan_bytes s' t) with SMore s'' => shift (S (length t)) (scan_bytes s'' x) | r => r end).
    { intros s'. rewrite IH. destruct (scan_bytes s' t) as [n| |s'']; cbn [more]; try reflexivity. destruct (scan_bytes s'' x); reflexivity. }
    destruct (sstep s (N_of_ascii c)) as [[] s']; try reflexivity; try apply Z; destruct (do_EndValue s' 32) as [[] s'']; try reflexivity; apply Z.
Qed.
Lemma goes_nil s : goes s [] s. Proof. reflexivity. Qed.
Lemma goes_app s t s' u s'' : goes s t s' -> goes s' u s'' -> goes s (t ++ u) s''.
Proof. unfold goes. intros A B. rewrite scan_app, A, B. reflexivity. Qed.
Lemma goes_cons s c s' u s'' : goes s [c] s' -> goes s' u s'' -> goes s (c :: u) s''.
Proof. apply (goes_app s [c]). Qed.
Lemma goes_one s c k s' : sstep s (N_of_ascii c) = (k, s') -> ~ In k [scanEnd; scanEndObject; scanEndArray; scanError] -> goes s [c] s'.
Proof. intros E N. unfold goes. cbn [scan_bytes]. rewrite E. destruct k; cbn in N; try (exfalso; tauto); reflexivity. Qed.
Lemma goes_end s t s' c x : goes s t s' -> sstep s' (N_of_ascii c) = (scanEndObject, pop []) -> scan_bytes s (t ++ c :: x) = SEnd (length t + 1).
Proof. intros A E. rewrite scan_app, A. cbn [scan_bytes]. rewrite E. reflexivity. Qed.

(** Spaces *)
Lemma space_step s w : Forall (fun c => In (N_of_ascii c) [9; 10; 13; 32]%N) w -> (forall c, In c [9; 10; 13; 32]%N -> sstep s c = (scanSkipSpace, s)) -> goes s w s.
Proof. intros W H. induction W as [|c w I W IH]; [reflexivity|]. eapply goes_cons; [|exact IH]. eapply goes_one; [apply H, I|cbn; intuition discriminate]. Qed.
Lemma space_in c : In c [9; 10; 13; 32]%N -> isSpace c = true. Proof. cbn. intros [<-|[<-|[<-|[<-|[]]]]]; reflexivity. Qed.
Lemma space_begin st w : space w -> goes (mkScan stateBeginValue st) w (mkScan stateBeginValue st).
Proof. intros W. apply space_step; [exact W|]. intros c I. unfold sstep. cbn [step]. unfold do_BeginValue. rewrite space_in by exact I. reflexivity. Qed.
Lemma space_begin0 st w : space w -> goes (mkScan stateBeginValueOrEmpty st) w (mkScan stateBeginValueOrEmpty st).
Proof. intros W. apply space_step; [exact W|]. intros c I. unfold sstep. cbn [step]. rewrite space_in by exact I. reflexivity. Qed.
Lemma space_string st w : space w -> goes (mkScan stateBeginString st) w (mkScan stateBeginString st).
Proof. intros W. apply space_step; [exact W|]. intros c I. unfold sstep. cbn [step]. unfold do_BeginString. rewrite space_in by exact I. reflexivity. Qed.
Lemma space_string0 st w : space w -> goes (mkScan stateBeginStringOrEmpty st) w (mkScan stateBeginStringOrEmpty st).
Proof. intros W. apply space_step; [exact W|]. intros c I. unfold sstep. cbn [step]. rewrite space_in by exact I. reflexivity. Qed.
Lemma space_end p st w : space w -> goes (mkScan stateEndValue (p :: st)) w (mkScan stateEndValue (p :: st)).
Proof. intros W. apply space_step; [exact W|]. intros c I. unfold sstep. cbn [step]. unfold do_EndValue. cbn [parseState]. rewrite space_in by exact I. reflexivity. Qed.

(** ** Strings *)
Definition ins (st : list pstate) : scanner := mkScan stateInString st.
Lemma plain_byte st c : (32 <= N_of_ascii c)%N -> N_of_ascii c <> 34%N -> N_of_ascii c <> 92%N -> goes (ins st) [c] (ins st).
Proof.
  intros L Q B. eapply goes_one with (k := scanContinue); [|cbn; intuition discriminate]. unfold sstep, ins. cbn [step].
  destruct (N.eqb_spec (N_of_ascii c) 34); [contradiction|]. destruct (N.eqb_spec (N_of_ascii c) 92); [contradiction|]. destruct (N.ltb_spec (N_of_ascii c) 32); [lia|]. reflexivity.
Qed.
Lemma plain_bytes st t : Forall (fun c => 32 <= N_of_ascii c /\ N_of_ascii c <> 34 /\ N_of_ascii c <> 92)%N t -> goes (ins st) t (ins st).
Proof. induction 1 as [|c t (L & Q & B) F IH]; [reflexivity|]. eapply goes_cons; [apply plain_byte; assumption|exact IH]. Qed.
Lemma hex_is c n : hex_digit c n -> isHex (N_of_ascii c) = true.
Proof. unfold hex_digit, isHex, isDigit. cbn zeta. lia. Qed.
Lemma hex_step st f f' c n : hex_digit c n -> sstep (mkScan f st) (N_of_ascii c) = hexa f' (mkScan f st) (N_of_ascii c) -> goes (mkScan f st) [c] (mkScan f' st).
Proof. intros H E. eapply goes_one with (k := scanContinue); [|cbn; intuition discriminate]. rewrite E. unfold hexa. rewrite (hex_is _ _ H). reflexivity. Qed.
Lemma code_goes st h1 h2 h3 h4 : hex_byte h1 -> hex_byte h2 -> hex_byte h3 -> hex_byte h4 -> goes (mkScan stateInStringEscU st) [h1; h2; h3; h4] (ins st).
Proof.
  intros (n1 & H1) (n2 & H2) (n3 & H3) (n4 & H4).
  eapply goes_cons; [eapply hex_step; [exact H1|reflexivity]|]. eapply goes_cons; [eapply hex_step; [exact H2|reflexivity]|].
  eapply goes_cons; [eapply hex_step; [exact H3|reflexivity]|]. eapply hex_step; [exact H4|reflexivity].
Qed.
Lemma backslash_goes st : goes (ins st) [backslash] (mkScan stateInStringEsc st). Proof. reflexivity. Qed.
Lemma u_goes st : goes (mkScan stateInStringEsc st) ["u"%char] (mkScan stateInStringEscU st). Proof. reflexivity. Qed.
Lemma byte_quote c : c <> quote -> N_of_ascii c <> 34%N. Proof. intros H E. apply H. rewrite <- (ascii_N_embedding c), E. reflexivity. Qed.
Lemma byte_backslash c : c <> backslash -> N_of_ascii c <> 92%N. Proof. intros H E. apply H. rewrite <- (ascii_N_embedding c), E. reflexivity. Qed.
Lemma chars_goes t : gchars t -> forall st, goes (ins st) t (ins st).
Proof.
  induction 1 as [|c t L Q B J IH|c t I J IH|h1 h2 h3 h4 t H1 H2 H3 H4 J IH]; intros st.
  - reflexivity.
  - eapply goes_cons; [apply plain_byte; [exact L|apply byte_quote, Q|apply byte_backslash, B]|apply IH].
  - eapply goes_cons; [apply backslash_goes|]. eapply goes_cons; [|apply IH].
    cbn in I. repeat (destruct I as [<-|I]; [reflexivity|]). contradiction.
  - eapply goes_cons; [apply backslash_goes|]. eapply goes_cons; [apply u_goes|]. eapply (goes_app _ [h1; h2; h3; h4]); [apply code_goes; assumption|apply IH].
Qed.
Lemma string_goes t : gstring t -> forall f st, In f [stateBeginValueOrEmpty; stateBeginValue; stateBeginStringOrEmpty; stateBeginString] -> goes (mkScan f st) t (mkScan stateEndValue st).
Proof.
  intros (x & J & ->) f st I. eapply goes_cons with (s' := ins st); [cbn in I; destruct I as [<-|[<-|[<-|[<-|[]]]]]; reflexivity|].
  eapply goes_app; [apply (chars_goes _ J)|reflexivity].
Qed.

(** ** Values: what is after a value *)
Definition after (s : scanner) (st : list pstate) : Prop := parseState s = st /\ In (step s) [stateEndValue; state1; state0; stateDot0; stateE0].
Definition follows (c : N) : Prop := In c [9; 10; 13; 32; 44; 58; 93; 125]%N.
Lemma after_step s st c : after s st -> follows c -> sstep s c = do_EndValue (mkScan (step s) st) c.
Proof.
  intros [E I] F. destruct s as [f st0]. cbn [step parseState] in *. subst st0. unfold follows in F. cbn in F.
  repeat (destruct F as [<-|F]; [cbn in I; destruct I as [<-|[<-|[<-|[<-|[<-|[]]]]]]; reflexivity|]). contradiction.
Qed.
Lemma after_space s p st w : after s (p :: st) -> space w -> exists s', goes s w s' /\ after s' (p :: st).
Proof.
  intros A W. destruct w as [|c w]; [exists s; split; [reflexivity|exact A]|]. inversion_clear W as [|? ? I W']. exists (mkScan stateEndValue (p :: st)). split; [|split; [reflexivity|left; reflexivity]].
  eapply goes_cons; [|apply space_end, W']. eapply goes_one with (k := scanSkipSpace); [|cbn; intuition discriminate].
  rewrite (after_step _ _ _ A) by (unfold follows; cbn in *; tauto). unfold do_EndValue. cbn [parseState]. rewrite space_in by exact I. reflexivity.
Qed.

(** Numbers *)
Definition dig (c : ascii) : Prop := (48 <= N_of_ascii c <= 57)%N.
Lemma dig_is c : dig c -> isDigit (N_of_ascii c) = true. Proof. unfold dig, isDigit. lia. Qed.
Lemma digits_goes f st d : In f [state1; stateDot0; stateE0] -> Forall dig d -> goes (mkScan f st) d (mkScan f st).
Proof.
  intros I F. induction F as [|c d D F IH]; [reflexivity|]. eapply goes_cons; [|exact IH]. eapply goes_one with (k := scanContinue); [|cbn; intuition discriminate].
  cbn in I. destruct I as [<-|[<-|[<-|[]]]]; unfold sstep; cbn [step]; rewrite dig_is by exact D; reflexivity.
Qed.
Lemma int_goes f st int : In f [stateBeginValue; stateNeg] -> (int = b "0" \/ (digits int /\ forall x, int <> "0"%char :: x)) -> exists f', In f' [state1; state0] /\ goes (mkScan f st) int (mkScan f' st).
Proof.
  intros I [->|[[N D] Z]].
  - exists state0. split; [cbn; auto|]. cbn in I. destruct I as [<-|[<-|[]]]; reflexivity.
  - destruct int as [|c int]; [congruence|]. exists state1. split; [cbn; auto|]. inversion_clear D as [|? ? Dc D'].
    assert (K : (49 <= N_of_ascii c <= 57)%N). { assert (N_of_ascii c <> 48%N); [|lia]. intros E. apply (Z int). f_equal. rewrite <- (ascii_N_embedding c), E. reflexivity. }
    eapply goes_cons; [|apply digits_goes; [cbn; auto|exact D']]. cbn in I. destruct I as [<-|[<-|[]]].
    + eapply goes_one with (k := scanBeginLiteral); [|cbn; intuition discriminate]. unfold sstep. cbn [step]. unfold do_BeginValue, isSpace.
      generalize dependent (N_of_ascii c). intros n _ Kn. repeat match goal with |- context [(n =? ?k)%N] => destruct (N.eqb_spec n k); [lia|] end. destruct (N.leb_spec n 32); [lia|]. cbn [andb orb].
      destruct (N.leb_spec 49 n); [|lia]. destruct (N.leb_spec n 57); [|lia]. reflexivity.
    + eapply goes_one with (k := scanContinue); [|cbn; intuition discriminate]. unfold sstep. cbn [step]. destruct (N.eqb_spec (N_of_ascii c) 48); [lia|].
      destruct (N.leb_spec 49 (N_of_ascii c)); [|lia]. destruct (N.leb_spec (N_of_ascii c) 57); [|lia]. reflexivity.
Qed.
Lemma frac_goes f st frac : In f [state1; state0] -> (frac = [] \/ exists d, digits d /\ frac = b "." ++ d) -> exists f', In f' [state1; state0; stateDot0] /\ goes (mkScan f st) frac (mkScan f' st).
Proof.
  intros I [->|(d & [N D] & ->)].
  - exists f. split; [cbn in *; tauto|reflexivity].
  - exists stateDot0. split; [cbn; auto|]. destruct d as [|c d]; [congruence|]. inversion_clear D as [|? ? Dc D'].
    eapply goes_cons with (s' := mkScan stateDot st); [cbn in I; destruct I as [<-|[<-|[]]]; reflexivity|].
    eapply goes_cons; [|apply digits_goes; [cbn; auto|exact D']]. eapply goes_one with (k := scanContinue); [|cbn; intuition discriminate]. unfold sstep. cbn [step]. rewrite dig_is by exact Dc. reflexivity.
Qed.
Lemma exp_goes f st exp : In f [state1; state0; stateDot0] -> (exp = [] \/ exists e s d, In e (b "eE") /\ (s = [] \/ s = b "-" \/ s = b "+") /\ digits d /\ exp = e :: s ++ d) ->
  exists f', In f' [state1; state0; stateDot0; stateE0] /\ goes (mkScan f st) exp (mkScan f' st).
Proof.
  intros I [->|(e & s & d & Ie & Is & [N D] & ->)].
  - exists f. split; [cbn in *; tauto|reflexivity].
  - exists stateE0. split; [cbn; auto|]. destruct d as [|c d]; [congruence|]. inversion_clear D as [|? ? Dc D'].
    eapply goes_cons with (s' := mkScan stateE st); [cbn in I, Ie; destruct Ie as [<-|[<-|[]]], I as [<-|[<-|[<-|[]]]]; reflexivity|].
    assert (S : exists f', In f' [stateE; stateESign] /\ goes (mkScan stateE st) s (mkScan f' st)).
    { destruct Is as [->|[->| ->]]; [exists stateE|exists stateESign|exists stateESign]; (split; [cbn; auto|reflexivity]). }
    destruct S as (f' & If & G). eapply goes_app; [exact G|]. eapply goes_cons; [|apply digits_goes; [cbn; auto|exact D']].
    eapply goes_one with (k := scanContinue); [|cbn; intuition discriminate]. cbn in If. destruct If as [<-|[<-|[]]]; unfold sstep; cbn [step]; unfold do_ESign; rewrite dig_is by exact Dc; [|reflexivity].
    unfold dig in Dc. destruct (N.eqb_spec (N_of_ascii c) 43); [lia|]. destruct (N.eqb_spec (N_of_ascii c) 45); [lia|]. reflexivity.
Qed.
Lemma number_goes st t : jnumber t -> exists s', goes (mkScan stateBeginValue st) t s' /\ after s' st.
Proof.
  intros (sign & int & frac & exp & -> & Is & Ii & If & Ie).
  assert (S : exists f, In f [stateBeginValue; stateNeg] /\ goes (mkScan stateBeginValue st) sign (mkScan f st)). { destruct Is as [->| ->]; [exists stateBeginValue|exists stateNeg]; (split; [cbn; auto|reflexivity]). }
  destruct S as (f & Hf & G0). destruct (int_goes f st int Hf Ii) as (f1 & H1 & G1). destruct (frac_goes f1 st frac H1 If) as (f2 & H2 & G2). destruct (exp_goes f2 st exp H2 Ie) as (f3 & H3 & G3).
  exists (mkScan f3 st). split; [|split; [reflexivity|cbn in *; tauto]]. eapply goes_app; [exact G0|]. eapply goes_app; [exact G1|]. eapply goes_app; [exact G2|exact G3].
Qed.

(** First characters *)
Lemma number_first t : jnumber t -> exists c x, t = c :: x /\ isSpace (N_of_ascii c) = false /\ N_of_ascii c <> 93%N /\ N_of_ascii c <> 123%N.
Proof.
  intros (sign & int & frac & exp & -> & Is & Ii & _). destruct Is as [->| ->]; [|eexists; eexists; split; [reflexivity|repeat split; discriminate]].
  destruct Ii as [->|[[N D] _]]; [eexists; eexists; split; [reflexivity|repeat split; discriminate]|]. destruct int as [|c int]; [congruence|]. inversion_clear D as [|? ? Dc D'].
  eexists; eexists; split; [reflexivity|]. unfold isSpace. repeat split; lia.
Qed.
Lemma text_first n t : gtext n t -> exists c x, t = c :: x /\ isSpace (N_of_ascii c) = false /\ N_of_ascii c <> 93%N.
Proof.
  intros J. destruct J as [n t I|n t J|n t (x & _ & ->)|n w W|n t J|n w W|n t J]; try (eexists; eexists; split; [reflexivity|split; [reflexivity|discriminate]]).
  - destruct I as [<-|[<-|[<-|[]]]]; (eexists; eexists; split; [reflexivity|split; [reflexivity|discriminate]]).
  - destruct (number_first _ J) as (c & x & E & A & B & _). eauto.
Qed.
Lemma scan_first s s' c x : sstep s (N_of_ascii c) = sstep s' (N_of_ascii c) -> scan_bytes s (c :: x) = scan_bytes s' (c :: x).
Proof. intros E. cbn [scan_bytes]. rewrite E. reflexivity. Qed.
Lemma begin_empty n t st s' : gtext n t -> goes (mkScan stateBeginValue st) t s' -> goes (mkScan stateBeginValueOrEmpty st) t s'.
Proof.
  intros J. destruct (text_first _ _ J) as (c & x & -> & S & N). unfold goes. rewrite (scan_first _ (mkScan stateBeginValueOrEmpty st)); [auto|].
  unfold sstep. cbn [step]. rewrite S. destruct (N.eqb_spec (N_of_ascii c) 93); [contradiction|].
  unfold do_BeginValue. rewrite S. unfold push, go, fail. cbn [parseState]. reflexivity.
Qed.

(** ** Values, elements, members *)
Definition fits (k : nat) (st : list pstate) : Prop := (N.of_nat (k + length st) <= 10000)%N.
Lemma push_ok f0 st f p r : fits 1 st -> push (mkScan f0 st) f p r = (r, mkScan f (p :: st)).
Proof. unfold fits, push, maxNestingDepth. cbn [parseState length]. intros H. destruct (N.leb_spec (N.of_nat (S (length st))) 10000); [reflexivity|lia]. Qed.
Lemma pop_after p st : after (pop (p :: st)) (p :: st). Proof. split; [reflexivity|left; reflexivity]. Qed.
Lemma closes s0 p st c k s1 : sstep s0 (N_of_ascii c) = (k, s1) -> s1 = pop (p :: st) -> k = scanEndObject \/ k = scanEndArray -> goes s0 [c] (mkScan stateEndValue (p :: st)).
Proof. intros E -> K. unfold goes. cbn [scan_bytes]. rewrite E. destruct K as [->| ->]; reflexivity. Qed.
Lemma after_end p st : after (mkScan stateEndValue (p :: st)) (p :: st). Proof. split; [reflexivity|left; reflexivity]. Qed.

Scheme gtext_mut := Minimality for gtext Sort Prop with gitems_mut := Minimality for gitems Sort Prop with gmembers_mut := Minimality for gmembers Sort Prop.
Combined Scheme gtext_mind from gtext_mut, gitems_mut, gmembers_mut.
Lemma json_goes :
  (forall n t, gtext n t -> forall p st, fits n (p :: st) -> exists s', goes (mkScan stateBeginValue (p :: st)) t s' /\ after s' (p :: st)) /\
  (forall n t, gitems n t -> forall st, fits n (parseArrayValue :: st) ->
     (exists s', goes (mkScan stateBeginValue (parseArrayValue :: st)) t s' /\ after s' (parseArrayValue :: st)) /\
     (exists s', goes (mkScan stateBeginValueOrEmpty (parseArrayValue :: st)) t s' /\ after s' (parseArrayValue :: st))) /\
  (forall n t, gmembers n t -> forall st f, In f [stateBeginStringOrEmpty; stateBeginString] -> fits n (parseObjectValue :: st) ->
     exists s', goes (mkScan f (parseObjectKey :: st)) t s' /\ after s' (parseObjectValue :: st)).
Proof.
  apply gtext_mind.
  - intros n t I p st F. exists (mkScan stateEndValue (p :: st)). split; [|apply after_end]. destruct I as [<-|[<-|[<-|[]]]]; reflexivity.
  - intros n t J p st F. apply number_goes, J.
  - intros n t J p st F. exists (mkScan stateEndValue (p :: st)). split; [apply string_goes; [exact J|cbn; auto]|apply after_end].
  - (* [] *) intros n w W p st F. exists (mkScan stateEndValue (p :: st)). split; [|apply after_end].
    eapply goes_cons; [eapply goes_one with (k := scanBeginArray); [apply push_ok; unfold fits in *; lia|cbn; intuition discriminate]|].
    eapply goes_app; [apply space_begin0, W|]. eapply closes with (k := scanEndArray); [reflexivity|reflexivity|auto].
  - (* [items] *) intros n t J IH p st F. destruct (IH (p :: st)) as [_ (s' & G & A)]; [unfold fits in *; cbn [length] in *; lia|].
    exists (mkScan stateEndValue (p :: st)). split; [|apply after_end].
    eapply goes_cons; [eapply goes_one with (k := scanBeginArray); [apply push_ok; unfold fits in *; lia|cbn; intuition discriminate]|].
    eapply goes_app; [exact G|]. eapply closes with (k := scanEndArray); [rewrite (after_step _ _ _ A) by (unfold follows; cbn; tauto); reflexivity|reflexivity|auto].
  - (* {} *) intros n w W p st F. exists (mkScan stateEndValue (p :: st)). split; [|apply after_end].
    eapply goes_cons; [eapply goes_one with (k := scanBeginObject); [apply push_ok; unfold fits in *; lia|cbn; intuition discriminate]|].
    eapply goes_app; [apply space_string0, W|]. eapply closes with (k := scanEndObject); [reflexivity|reflexivity|auto].
  - (* {members} *) intros n t J IH p st F. destruct (IH (p :: st) stateBeginStringOrEmpty) as (s' & G & A); [cbn; auto|unfold fits in *; cbn [length] in *; lia|].
    exists (mkScan stateEndValue (p :: st)). split; [|apply after_end].
    eapply goes_cons; [eapply goes_one with (k := scanBeginObject); [apply push_ok; unfold fits in *; lia|cbn; intuition discriminate]|].
    eapply goes_app; [exact G|]. eapply closes with (k := scanEndObject); [rewrite (after_step _ _ _ A) by (unfold follows; cbn; tauto); reflexivity|reflexivity|auto].
  - (* the last element *) intros n w1 w2 t W1 W2 J IH st F. destruct (IH parseArrayValue st) as (s' & G & A); [exact F|].
    destruct (after_space _ _ _ _ A W2) as (s'' & G2 & A2). split; exists s''; (split; [|exact A2]).
    + eapply goes_app; [apply space_begin, W1|]. eapply goes_app; [exact G|exact G2].
    + eapply goes_app; [apply space_begin0, W1|]. eapply goes_app; [eapply begin_empty; [exact J|exact G]|exact G2].
  - intros n w1 w2 t x W1 W2 J IH Jl IHl st F. destruct (IH parseArrayValue st) as (s' & G & A); [exact F|].
    destruct (after_space _ _ _ _ A W2) as (s'' & G2 & A2). destruct (IHl st) as [(s3 & G3 & A3) _]; [exact F|].
    assert (K : goes s'' (b ",") (mkScan stateBeginValue (parseArrayValue :: st))).
    { eapply goes_one with (k := scanArrayValue); [|cbn; intuition discriminate]. rewrite (after_step _ _ _ A2) by (unfold follows; cbn; tauto). reflexivity. }
    split; exists s3; (split; [|exact A3]).
    + eapply goes_app; [apply space_begin, W1|]. eapply goes_app; [exact G|]. eapply goes_app; [exact G2|]. eapply goes_app; [exact K|exact G3].
    + eapply goes_app; [apply space_begin0, W1|]. eapply goes_app; [eapply begin_empty; [exact J|exact G]|]. eapply goes_app; [exact G2|]. eapply goes_app; [exact K|exact G3].
  - (* the last member *) intros n w1 w2 w3 w4 k t W1 W2 W3 W4 Jk J IH st f I F.
    destruct (IH parseObjectValue st) as (s' & G & A); [exact F|]. destruct (after_space _ _ _ _ A W4) as (s'' & G2 & A2). exists s''. split; [|exact A2].
    eapply goes_app; [cbn in I; destruct I as [<-|[<-|[]]]; [apply space_string0|apply space_string]; exact W1|].
    eapply goes_app; [apply string_goes; [exact Jk|cbn in *; tauto]|]. eapply goes_app; [apply space_end, W2|]. eapply goes_app with (s' := mkScan stateBeginValue (parseObjectValue :: st)); [reflexivity|].
    eapply goes_app; [apply space_begin, W3|]. eapply goes_app; [exact G|exact G2].
  - intros n w1 w2 w3 w4 k t x W1 W2 W3 W4 Jk J IH Jl IHl st f I F.
    destruct (IH parseObjectValue st) as (s' & G & A); [exact F|]. destruct (after_space _ _ _ _ A W4) as (s'' & G2 & A2).
    destruct (IHl st stateBeginString) as (s3 & G3 & A3); [cbn; auto|exact F|]. exists s3. split; [|exact A3].
    eapply goes_app; [cbn in I; destruct I as [<-|[<-|[]]]; [apply space_string0|apply space_string]; exact W1|].
    eapply goes_app; [apply string_goes; [exact Jk|cbn in *; tauto]|]. eapply goes_app; [apply space_end, W2|]. eapply goes_app with (s' := mkScan stateBeginValue (parseObjectValue :: st)); [reflexivity|].
    eapply goes_app; [apply space_begin, W3|]. eapply goes_app; [exact G|]. eapply goes_app; [exact G2|]. eapply goes_app; [|exact G3].
    eapply goes_one with (k := scanObjectValue); [|cbn; intuition discriminate]. rewrite (after_step _ _ _ A2) by (unfold follows; cbn; tauto). reflexivity.
Qed.
Lemma object_shape n x : gtext n ("{"%char :: x) -> exists k t, n = S k /\ x = t ++ b "}" /\ (space t \/ gmembers k t).
Proof.
  intros J. remember ("{"%char :: x) as y eqn:E in J. destruct J as [n t I|n t H|n t (y & _ & ->)|n w W|n t H|n w W|n t H]; try discriminate.
  - destruct I as [<-|[<-|[<-|[]]]]; discriminate.
  - destruct (number_first _ H) as (c & y & -> & _ & _ & Z). injection E as -> _. exfalso. apply Z. reflexivity.
  - injection E as <-. exists n, w. auto.
  - injection E as <-. exists n, t. auto.
Qed.
(** The end of an object is found exactly at its last byte. *)
Lemma object_end n x : gtext n ("{"%char :: x) -> (N.of_nat n <= 10000)%N -> exists x', "{"%char :: x = x' ++ b "}" /\
  exists s', goes reset x' s' /\ sstep s' (N_of_ascii "}"%char) = (scanEndObject, pop []).
Proof.
  intros J F. assert (P : goes reset (b "{") (mkScan stateBeginStringOrEmpty [parseObjectKey])) by reflexivity.
  destruct (object_shape _ _ J) as (k & t & -> & -> & [W|Jm]).
  - exists (b "{" ++ t). split; [reflexivity|]. eexists. split; [eapply goes_app; [exact P|apply space_string0, W]|reflexivity].
  - exists (b "{" ++ t). split; [reflexivity|].
    destruct (proj2 (proj2 json_goes) _ _ Jm [] stateBeginStringOrEmpty) as (s' & G & A); [cbn; auto|unfold fits; cbn [length]; lia|].
    exists s'. split; [eapply goes_app; [exact P|exact G]|]. rewrite (after_step _ _ _ A) by (unfold follows; cbn; tauto). reflexivity.
Qed.
Lemma object_scan w t y : space w -> object_text t -> scan_bytes reset (w ++ t ++ y) = SEnd (length (w ++ t)) /\
  (forall z, (exists q, q <> [] /\ w ++ t = z ++ q) -> exists s', goes reset z s').
Proof.
  intros W (w' & n & x & W' & J & F & ->). destruct (object_end _ _ J F) as (x' & -> & s' & G & E).
  assert (G' : goes reset (w ++ w' ++ x') s') by (eapply goes_app; [apply space_begin, W|]; eapply goes_app; [apply space_begin, W'|exact G]). split.
  - replace (w ++ (w' ++ x' ++ b "}") ++ y) with ((w ++ w' ++ x') ++ "}"%char :: y) by (rewrite <- !app_assoc; reflexivity).
    rewrite (goes_end _ _ _ _ _ G' E). f_equal. rewrite !app_length. cbn [length b list_ascii_of_string]. lia.
  - intros z (q & Nq & Eq). destruct (exists_last Nq) as (q' & c & ->). replace (w ++ w' ++ x' ++ b "}") with ((w ++ w' ++ x') ++ b "}") in Eq by (rewrite <- !app_assoc; reflexivity).
    rewrite (app_assoc z) in Eq. apply app_inj_tail in Eq. destruct Eq as [Eq _]. unfold goes in *. rewrite Eq, scan_app in G'. destruct (scan_bytes reset z) as [i| |s0]; try discriminate. eauto.
Qed.
