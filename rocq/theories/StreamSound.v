(** Only texts of JSON values are accepted. *)
From Coq Require Import ZifyBool ZifyNat ZifyN.
From Verif Require Import GoBase Utf8 JsonSpec Frame FrameSpec FrameProofs Stream StreamSpec StreamProofs StreamMain.

Lemma char_is a k : N_of_ascii a = k -> a = ascii_of_N k. Proof. intros <-. symmetry. apply ascii_N_embedding. Qed.
Lemma not_char a k : N_of_ascii a <> k -> (k < 256)%N -> a <> ascii_of_N k. Proof. intros H L ->. rewrite N_ascii_embedding in H by exact L. congruence. Qed.

(** ** What may follow in each state *)
Definition room (st : list pstate) : nat := N.to_nat (10000 - N.of_nat (length st)).
Definition after_items (close : str) (rest : nat -> str -> Prop) (n : nat) (P : str -> Prop) (y : str) : Prop :=
  exists w z, space w /\ P z /\ (y = w ++ close ++ z \/ exists t, rest n t /\ y = w ++ b "," ++ t ++ close ++ z).
Fixpoint After (st : list pstate) (y : str) : Prop :=
  match st with
  | [] => y = []
  | parseArrayValue :: st => after_items (b "]") gitems (room (parseArrayValue :: st)) (After st) y
  | parseObjectValue :: st => after_items (b "}") gmembers (room (parseObjectValue :: st)) (After st) y
  | parseObjectKey :: st => exists w w' t z, space w /\ space w' /\ gtext (room (parseObjectValue :: st)) t /\
      after_items (b "}") gmembers (room (parseObjectValue :: st)) (After st) z /\ y = w ++ b ":" ++ w' ++ t ++ z
  end.
Definition digs (t : str) : Prop := Forall (fun c => 48 <= N_of_ascii c <= 57)%N t.
Definition expo (t : str) : Prop := t = [] \/ exists e s d, In e (b "eE") /\ (s = [] \/ s = b "-" \/ s = b "+") /\ digits d /\ t = e :: s ++ d.
Definition fract (t : str) : Prop := t = [] \/ exists d, digits d /\ t = b "." ++ d.
Definition in_string (st : list pstate) (x : str) : Prop := exists c y, gchars c /\ After st y /\ x = c ++ quote :: y.
Fixpoint hexes (k : nat) (P : str -> Prop) (x : str) : Prop :=
  match k with
  | O => P x
  | S k => exists c x', hex_byte c /\ hexes k P x' /\ x = c :: x'
  end.
Definition word (w : str) (st : list pstate) (x : str) : Prop := exists y, After st y /\ x = w ++ y.
Definition begin_value (st : list pstate) (x : str) : Prop := exists w t y, space w /\ gtext (room st) t /\ After st y /\ x = w ++ t ++ y.
Definition begin_string (st : list pstate) (x : str) : Prop := exists w t y, space w /\ gstring t /\ After st y /\ x = w ++ t ++ y.
Definition or_empty (close : str) (st : list pstate) (x : str) : Prop := exists w z, space w /\ After (tl st) z /\ x = w ++ close ++ z.
Definition Comp (f : sfun) (st : list pstate) (x : str) : Prop :=
  match f with
  | stateBeginValue => begin_value st x
  | stateBeginValueOrEmpty => begin_value st x \/ or_empty (b "]") st x
  | stateBeginString => begin_string st x
  | stateBeginStringOrEmpty => begin_string st x \/ or_empty (b "}") st x
  | stateEndValue => After st x
  | stateEndTop => x = []
  | stateInString => in_string st x
  | stateInStringEsc => (exists c x', In c (map fst escapes) /\ in_string st x' /\ x = c :: x') \/ exists x', hexes 4 (in_string st) x' /\ x = "u"%char :: x'
  | stateInStringEscU => hexes 4 (in_string st) x
  | stateInStringEscU1 => hexes 3 (in_string st) x
  | stateInStringEscU12 => hexes 2 (in_string st) x
  | stateInStringEscU123 => hexes 1 (in_string st) x
  | stateNeg => exists int fr e y, (int = b "0" \/ (digits int /\ forall z, int <> "0"%char :: z)) /\ fract fr /\ expo e /\ After st y /\ x = int ++ fr ++ e ++ y
  | state1 => exists d fr e y, digs d /\ fract fr /\ expo e /\ After st y /\ x = d ++ fr ++ e ++ y
  | state0 => exists fr e y, fract fr /\ expo e /\ After st y /\ x = fr ++ e ++ y
  | stateDot => exists d e y, digits d /\ expo e /\ After st y /\ x = d ++ e ++ y
  | stateDot0 => exists d e y, digs d /\ expo e /\ After st y /\ x = d ++ e ++ y
  | stateE => exists s d y, (s = [] \/ s = b "-" \/ s = b "+") /\ digits d /\ After st y /\ x = s ++ d ++ y
  | stateESign => exists d y, digits d /\ After st y /\ x = d ++ y
  | stateE0 => exists d y, digs d /\ After st y /\ x = d ++ y
  | stateT => word (b "rue") st x
  | stateTr => word (b "ue") st x
  | stateTru => word (b "e") st x
  | stateF => word (b "alse") st x
  | stateFa => word (b "lse") st x
  | stateFal => word (b "se") st x
  | stateFals => word (b "e") st x
  | stateN => word (b "ull") st x
  | stateNu => word (b "ll") st x
  | stateNul => word (b "l") st x
  | stateError => False
  end.
Definition wf (s : scanner) : Prop :=
  match step s with
  | stateBeginValueOrEmpty => exists st, parseState s = parseArrayValue :: st
  | stateBeginStringOrEmpty | stateBeginString => exists st, parseState s = parseObjectKey :: st
  | _ => True
  end.
Definition sound (x : str) : Prop := forall f st n, wf (mkScan f st) -> scan_bytes (mkScan f st) x = SEnd n -> Comp f st (firstn n x).

(** ** One step *)
(** the result [r] of a step with byte [a]: what follows *)
Inductive leads (x : str) : code * scanner -> nat -> Prop :=
| le_end s : leads x (scanEnd, s) 0
| le_stop k s s' : In k [scanEndObject; scanEndArray] -> do_EndValue s 32 = (scanEnd, s') -> leads x (k, s) 1
| le_close k s k' s' m : In k [scanEndObject; scanEndArray] -> do_EndValue s 32 = (k', s') -> k' <> scanEnd -> scan_bytes s' x = SEnd m -> leads x (k, s) (S m)
| le_go k s m : ~ In k [scanEnd; scanEndObject; scanEndArray; scanError] -> scan_bytes s x = SEnd m -> leads x (k, s) (S m).
Lemma scan_leads s a x n : scan_bytes s (a :: x) = SEnd n -> leads x (sstep s (N_of_ascii a)) n.
Proof.
  cbn [scan_bytes]. destruct (sstep s (N_of_ascii a)) as [k s'].
  assert (Z : forall s2, more (scan_bytes s2 x) = SEnd n -> exists m, n = S m /\ scan_bytes s2 x = SEnd m). { intros s2. destruct (scan_bytes s2 x); try discriminate. intros H. injection H as <-. eauto. }
  destruct k; intros H; try (apply Z in H; destruct H as (m & -> & H); apply le_go; [cbn; intuition discriminate|exact H]); try discriminate H.
  - destruct (do_EndValue s' 32) as [k2 s2] eqn:E. assert (D : k2 = scanEnd \/ k2 <> scanEnd) by (destruct k2; auto; right; discriminate). destruct D as [->|D].
    + injection H as <-. eapply le_stop; [cbn; auto|exact E].
    + assert (H' : more (scan_bytes s2 x) = SEnd n) by (destruct k2; first [exact H | congruence]). apply Z in H'. destruct H' as (m & -> & H'). eapply le_close; [cbn; auto|exact E|exact D|exact H'].
  - destruct (do_EndValue s' 32) as [k2 s2] eqn:E. assert (D : k2 = scanEnd \/ k2 <> scanEnd) by (destruct k2; auto; right; discriminate). destruct D as [->|D].
    + injection H as <-. eapply le_stop; [cbn; auto|exact E].
    + assert (H' : more (scan_bytes s2 x) = SEnd n) by (destruct k2; first [exact H | congruence]). apply Z in H'. destruct H' as (m & -> & H'). eapply le_close; [cbn; auto|exact E|exact D|exact H'].
  - injection H as <-. constructor.
Qed.
Lemma leads_go x k s n : leads x (k, s) n -> ~ In k [scanEnd; scanEndObject; scanEndArray; scanError] -> exists m, n = S m /\ scan_bytes s x = SEnd m.
Proof. intros H N. inversion H; subst; cbn in N; cbn in *; try tauto; eauto. Qed.
Lemma leads_error x s n : ~ leads x (scanError, s) n.
Proof. intros H. inversion H; subst; cbn in *; intuition discriminate. Qed.
Lemma leads_pop x k st n : sound x -> leads x (k, pop st) n -> In k [scanEndObject; scanEndArray] -> exists m, n = S m /\ After st (firstn m x).
Proof.
  intros S H I. inversion H as [s E|k0 s s' I0 E E1|k0 s k' s' m I0 E N E1 E2|k0 s m N E1 E2]; subst.
  - cbn in I. intuition discriminate.
  - exists 0. split; [reflexivity|]. destruct st; [reflexivity|]. discriminate E.
  - exists m. split; [reflexivity|]. destruct st as [|p st]; [injection E as <- <-; congruence|]. injection E as <- <-. exact (S stateEndValue (p :: st) m Logic.I E1).
  - exfalso. apply N. cbn in *. tauto.
Qed.
Lemma is_space a : isSpace (N_of_ascii a) = true -> In (N_of_ascii a) [9; 10; 13; 32]%N. Proof. unfold isSpace. cbn. lia. Qed.
Lemma space_cons a w : isSpace (N_of_ascii a) = true -> space w -> space (a :: w). Proof. intros H W. constructor; [apply is_space, H|exact W]. Qed.
Lemma items_space close rest n P a y : isSpace (N_of_ascii a) = true -> after_items close rest n P y -> after_items close rest n P (a :: y).
Proof. intros H (w & z & W & Z & [->|(t & T & ->)]); (exists (a :: w), z; split; [apply space_cons; assumption|]; split; [exact Z|]); [left; reflexivity|right; exists t; split; [exact T|reflexivity]]. Qed.
Lemma after_space_cons p st a y : isSpace (N_of_ascii a) = true -> After (p :: st) y -> After (p :: st) (a :: y).
Proof.
  intros H. destruct p; cbn [After]; try apply items_space, H. intros (w & w' & t & z & W & W' & T & Z & ->). exists (a :: w), w', t, z. split; [apply space_cons; assumption|]. auto.
Qed.
Lemma members_of st w k y : space w -> gstring k -> After (parseObjectKey :: st) y -> exists t z, gmembers (room (parseObjectValue :: st)) t /\ After st z /\ w ++ k ++ y = t ++ b "}" ++ z.
Proof.
  intros W K (w2 & w3 & t & z0 & W2 & W3 & T & (w4 & z & W4 & Z & [->|(x & X & ->)]) & ->).
  - exists (w ++ k ++ w2 ++ b ":" ++ w3 ++ t ++ w4), z. split; [apply gm_one; assumption|]. split; [exact Z|]. rewrite <- !app_assoc. reflexivity.
  - exists (w ++ k ++ w2 ++ b ":" ++ w3 ++ t ++ w4 ++ b "," ++ x), z. split; [apply gm_more; assumption|]. split; [exact Z|]. rewrite <- !app_assoc. reflexivity.
Qed.
Lemma items_of st w t y : space w -> gtext (room (parseArrayValue :: st)) t -> After (parseArrayValue :: st) y -> exists l z, gitems (room (parseArrayValue :: st)) l /\ After st z /\ w ++ t ++ y = l ++ b "]" ++ z.
Proof.
  intros W T (w4 & z & W4 & Z & [->|(x & X & ->)]).
  - exists (w ++ t ++ w4), z. split; [apply gi_one; assumption|]. split; [exact Z|]. rewrite <- !app_assoc. reflexivity.
  - exists (w ++ t ++ w4 ++ b "," ++ x), z. split; [apply gi_more; assumption|]. split; [exact Z|]. rewrite <- !app_assoc. reflexivity.
Qed.
Ltac go_on H m E := apply leads_go in H; [|cbn; intuition discriminate]; destruct H as (m & -> & E); cbn [firstn].
Lemma end_sound st f a x n : sound x -> leads x (do_EndValue (mkScan f st) (N_of_ascii a)) n -> After st (firstn n (a :: x)).
Proof.
  intros S H. unfold do_EndValue in H. cbn [parseState] in H. destruct st as [|p st].
  - unfold do_EndTop in H. inversion H; subst; cbn in *; try reflexivity; exfalso; intuition discriminate.
  - destruct (isSpace (N_of_ascii a)) eqn:Sp.
    { unfold go in H. go_on H m E. apply after_space_cons; [exact Sp|]. exact (S stateEndValue _ m I E). }
    destruct p.
    + destruct (N.eqb_spec (N_of_ascii a) 58) as [Ea|_]; [|exfalso; eapply leads_error, H]. apply char_is in Ea. subst a. go_on H m E.
      destruct (S stateBeginValue _ m I E) as (w & t & y & W & T & Y & ->). exists [], w, t, y. split; [constructor|]. auto.
    + destruct (N.eqb_spec (N_of_ascii a) 44) as [Ea|_].
      * apply char_is in Ea. subst a. go_on H m E. destruct (S stateBeginString _ m (ex_intro _ st eq_refl) E) as (w & t & y & W & T & Y & ->).
        destruct (members_of st w t y W T Y) as (l & z & L & Z & ->). exists [], z. split; [constructor|]. split; [exact Z|]. right. exists l. auto.
      * destruct (N.eqb_spec (N_of_ascii a) 125) as [Ea|_]; [|exfalso; eapply leads_error, H]. apply char_is in Ea. subst a.
        destruct (leads_pop x _ st n S H ltac:(cbn; auto)) as (m & -> & Z). exists [], (firstn m x). split; [constructor|]. split; [exact Z|]. left. reflexivity.
    + destruct (N.eqb_spec (N_of_ascii a) 44) as [Ea|_].
      * apply char_is in Ea. subst a. unfold go in H. go_on H m E. destruct (S stateBeginValue _ m I E) as (w & t & y & W & T & Y & ->).
        destruct (items_of st w t y W T Y) as (l & z & L & Z & ->). exists [], z. split; [constructor|]. split; [exact Z|]. right. exists l. auto.
      * destruct (N.eqb_spec (N_of_ascii a) 93) as [Ea|_]; [|exfalso; eapply leads_error, H]. apply char_is in Ea. subst a.
        destruct (leads_pop x _ st n S H ltac:(cbn; auto)) as (m & -> & Z). exists [], (firstn m x). split; [constructor|]. split; [exact Z|]. left. reflexivity.
Qed.
Lemma string_assemble st x : in_string st x -> exists t y, gstring t /\ After st y /\ quote :: x = t ++ y.
Proof. intros (c & y & C & Y & ->). exists (quote :: c ++ [quote]), y. split; [exists c; auto|]. split; [exact Y|]. cbn [app]. rewrite <- app_assoc. reflexivity. Qed.
Lemma room_cons p st : (N.of_nat (length (p :: st)) <=? maxNestingDepth)%N = true -> room st = S (room (p :: st)).
Proof. unfold room, maxNestingDepth. cbn [length]. lia. Qed.
Lemma dig_one a : (49 <=? N_of_ascii a)%N && (N_of_ascii a <=? 57)%N = true -> (49 <= N_of_ascii a <= 57)%N. Proof. lia. Qed.
Lemma value_sound st f a x n : sound x -> isSpace (N_of_ascii a) = false -> leads x (do_BeginValue (mkScan f st) (N_of_ascii a)) n -> begin_value st (firstn n (a :: x)).
Proof.
  intros S Sp H. unfold do_BeginValue in H. rewrite Sp in H.
  assert (W : forall t y, gtext (room st) t -> After st y -> begin_value st (t ++ y)) by (intros t y T Y; exists [], t, y; split; [constructor|]; auto).
  destruct (N.eqb_spec (N_of_ascii a) 123) as [Ea|_].
  { apply char_is in Ea. subst a. unfold push in H. cbn [parseState] in H. destruct (N.of_nat _ <=? _)%N eqn:R; [|exfalso; eapply leads_error, H]. apply room_cons in R. go_on H m E.
    destruct (S stateBeginStringOrEmpty _ m (ex_intro _ st eq_refl) E) as [(w & t & y & Ws & T & Y & ->)|(w & z & Ws & Z & ->)].
    - destruct (members_of st w t y Ws T Y) as (l & z & L & Z & ->). replace (_ :: l ++ b "}" ++ z) with ((b "{" ++ l ++ b "}") ++ z) by (rewrite <- !app_assoc; reflexivity). apply W; [|exact Z]. rewrite R. apply gt_obj. exact L.
    - replace (_ :: w ++ b "}" ++ z) with ((b "{" ++ w ++ b "}") ++ z) by (rewrite <- !app_assoc; reflexivity). apply W; [|exact Z]. rewrite R. apply gt_obj0. exact Ws. }
  destruct (N.eqb_spec (N_of_ascii a) 91) as [Ea|_].
  { apply char_is in Ea. subst a. unfold push in H. cbn [parseState] in H. destruct (N.of_nat _ <=? _)%N eqn:R; [|exfalso; eapply leads_error, H]. apply room_cons in R. go_on H m E.
    destruct (S stateBeginValueOrEmpty _ m (ex_intro _ st eq_refl) E) as [(w & t & y & Ws & T & Y & ->)|(w & z & Ws & Z & ->)].
    - destruct (items_of st w t y Ws T Y) as (l & z & L & Z & ->). replace (_ :: l ++ b "]" ++ z) with ((b "[" ++ l ++ b "]") ++ z) by (rewrite <- !app_assoc; reflexivity). apply W; [|exact Z]. rewrite R. apply gt_arr. exact L.
    - replace (_ :: w ++ b "]" ++ z) with ((b "[" ++ w ++ b "]") ++ z) by (rewrite <- !app_assoc; reflexivity). apply W; [|exact Z]. rewrite R. apply gt_arr0. exact Ws. }
  unfold go in H. cbn [parseState] in H.
  destruct (N.eqb_spec (N_of_ascii a) 34) as [Ea|_].
  { apply char_is in Ea. subst a. go_on H m E. destruct (string_assemble st _ (S stateInString _ m I E)) as (t & y & T & Y & Ex). change (ascii_of_N 34) with quote. rewrite Ex. apply W; [apply gt_str, T|exact Y]. }
  destruct (N.eqb_spec (N_of_ascii a) 45) as [Ea|_].
  { apply char_is in Ea. subst a. go_on H m E. destruct (S stateNeg _ m I E) as (int & fr & e & y & Hi & Hf & He & Y & ->).
    replace (_ :: int ++ fr ++ e ++ y) with ((b "-" ++ int ++ fr ++ e) ++ y) by (rewrite <- !app_assoc; reflexivity). apply W; [|exact Y]. apply gt_num. exists (b "-"), int, fr, e. auto. }
  destruct (N.eqb_spec (N_of_ascii a) 48) as [Ea|_].
  { apply char_is in Ea. subst a. go_on H m E. destruct (S state0 _ m I E) as (fr & e & y & Hf & He & Y & ->).
    replace (_ :: fr ++ e ++ y) with (([] ++ b "0" ++ fr ++ e) ++ y) by (rewrite <- !app_assoc; reflexivity). apply W; [|exact Y]. apply gt_num. exists [], (b "0"), fr, e. auto. }
  destruct (N.eqb_spec (N_of_ascii a) 116) as [Ea|_].
  { apply char_is in Ea. subst a. go_on H m E. destruct (S stateT _ m I E) as (y & Y & ->). apply (W (b "true")); [apply gt_word; cbn; auto|exact Y]. }
  destruct (N.eqb_spec (N_of_ascii a) 102) as [Ea|_].
  { apply char_is in Ea. subst a. go_on H m E. destruct (S stateF _ m I E) as (y & Y & ->). apply (W (b "false")); [apply gt_word; cbn; auto|exact Y]. }
  destruct (N.eqb_spec (N_of_ascii a) 110) as [Ea|_].
  { apply char_is in Ea. subst a. go_on H m E. destruct (S stateN _ m I E) as (y & Y & ->). apply (W (b "null")); [apply gt_word; cbn; auto|exact Y]. }
  destruct ((49 <=? N_of_ascii a)%N && (N_of_ascii a <=? 57)%N) eqn:D; [|exfalso; eapply leads_error, H]. apply dig_one in D. go_on H m E. destruct (S state1 _ m I E) as (d & fr & e & y & Hd & Hf & He & Y & ->).
  replace (a :: d ++ fr ++ e ++ y) with (([] ++ (a :: d) ++ fr ++ e) ++ y) by (cbn [app]; rewrite <- !app_assoc; reflexivity). apply W; [|exact Y]. apply gt_num. exists [], (a :: d), fr, e.
  split; [reflexivity|]. split; [auto|]. split; [|auto]. right. split; [split; [discriminate|constructor; [lia|exact Hd]]|]. intros z Ez. injection Ez as -> _. cbn in D. lia.
Qed.
Lemma string_sound st f a x n : sound x -> isSpace (N_of_ascii a) = false -> leads x (do_BeginString (mkScan f st) (N_of_ascii a)) n -> begin_string st (firstn n (a :: x)).
Proof.
  intros S Sp H. unfold do_BeginString in H. rewrite Sp in H. unfold go in H. cbn [parseState] in H.
  destruct (N.eqb_spec (N_of_ascii a) 34) as [Ea|_]; [|exfalso; eapply leads_error, H]. apply char_is in Ea. subst a. go_on H m E.
  destruct (string_assemble st _ (S stateInString _ m I E)) as (t & y & T & Y & Ex). change (ascii_of_N 34) with quote. rewrite Ex. exists [], t, y. split; [constructor|]. auto.
Qed.
Lemma begin_space st a x : isSpace (N_of_ascii a) = true -> begin_value st x -> begin_value st (a :: x).
Proof. intros H (w & t & y & W & T & Y & ->). exists (a :: w), t, y. split; [apply space_cons; assumption|]. auto. Qed.
Lemma bstring_space st a x : isSpace (N_of_ascii a) = true -> begin_string st x -> begin_string st (a :: x).
Proof. intros H (w & t & y & W & T & Y & ->). exists (a :: w), t, y. split; [apply space_cons; assumption|]. auto. Qed.
Lemma empty_space close st a x : isSpace (N_of_ascii a) = true -> or_empty close st x -> or_empty close st (a :: x).
Proof. intros H (w & z & W & Z & ->). exists (a :: w), z. split; [apply space_cons; assumption|]. auto. Qed.
Lemma is_digit a : isDigit (N_of_ascii a) = true -> (48 <= N_of_ascii a <= 57)%N. Proof. unfold isDigit. lia. Qed.
Lemma is_hex a : isHex (N_of_ascii a) = true -> hex_byte a.
Proof. unfold isHex, isDigit, hex_byte, hex_digit. cbn zeta. intros H. destruct (N.leb_spec 97 (N_of_ascii a)); [eexists; right; right; split; [lia|reflexivity]|]. destruct (N.leb_spec 65 (N_of_ascii a)); [eexists; right; left; split; [lia|reflexivity]|]. eexists. left. split; [lia|reflexivity]. Qed.
(** state0 and a part of state1 *)
Lemma zero_sound st f a x n : sound x -> leads x (do_0 (mkScan f st) (N_of_ascii a)) n -> exists fr e y, fract fr /\ expo e /\ After st y /\ firstn n (a :: x) = fr ++ e ++ y.
Proof.
  intros S H. unfold do_0, go in H. cbn [parseState] in H. destruct (N.eqb_spec (N_of_ascii a) 46) as [Ea|_].
  { apply char_is in Ea. subst a. go_on H m E. destruct (S stateDot _ m I E) as (d & e & y & D & He & Y & ->). exists (b "." ++ d), e, y. split; [right; eauto|]. split; [exact He|]. split; [exact Y|]. rewrite <- app_assoc. reflexivity. }
  destruct ((N_of_ascii a =? 101)%N || (N_of_ascii a =? 69)%N) eqn:Ee.
  { go_on H m E. destruct (S stateE _ m I E) as (s & d & y & Hs & D & Y & ->). exists [], (a :: s ++ d), y. split; [left; reflexivity|]. split; [|split; [exact Y|cbn [app]; rewrite <- app_assoc; reflexivity]].
    right. exists a, s, d. split; [|auto]. assert (K : N_of_ascii a = 101%N \/ N_of_ascii a = 69%N) by lia. destruct K as [K|K]; apply char_is in K; subst a; cbn; auto. }
  exists [], [], (firstn n (a :: x)). split; [left; reflexivity|]. split; [left; reflexivity|]. split; [|reflexivity]. eapply end_sound; [exact S|exact H].
Qed.
Lemma esign_sound st f a x n : sound x -> leads x (do_ESign (mkScan f st) (N_of_ascii a)) n -> exists d y, digits d /\ After st y /\ firstn n (a :: x) = d ++ y.
Proof.
  intros S H. unfold do_ESign, go, fail in H. cbn [parseState] in H. destruct (isDigit _) eqn:D; [|exfalso; eapply leads_error, H]. go_on H m E. destruct (S stateE0 _ m I E) as (d & y & Hd & Y & ->).
  exists (a :: d), y. split; [split; [discriminate|constructor; [apply is_digit, D|exact Hd]]|]. auto.
Qed.
Lemma expect_sound w k f' f st a x n : sound x -> (forall z, Comp f' st z -> word w st z) -> wf (mkScan f' st) -> leads x (expect k f' (mkScan f st) (N_of_ascii a)) n -> word (ascii_of_N k :: w) st (firstn n (a :: x)).
Proof.
  intros S C Wf H. unfold expect, go, fail in H. cbn [parseState] in H. destruct (N.eqb_spec (N_of_ascii a) k) as [Ea|_]; [|exfalso; eapply leads_error, H]. apply char_is in Ea. subst a. go_on H m E.
  destruct (C _ (S f' st m Wf E)) as (y & Y & ->). exists y. auto.
Qed.
Lemma hexa_sound j f' f st a x n : sound x -> (forall z, Comp f' st z -> hexes j (in_string st) z) -> wf (mkScan f' st) -> leads x (hexa f' (mkScan f st) (N_of_ascii a)) n -> hexes (S j) (in_string st) (firstn n (a :: x)).
Proof.
  intros S C Wf H. unfold hexa, go, fail in H. cbn [parseState] in H. destruct (isHex _) eqn:X; [|exfalso; eapply leads_error, H]. go_on H m E. cbn [hexes]. exists a, (firstn m x). split; [apply is_hex, X|]. split; [|reflexivity]. apply C. exact (S f' st m Wf E).
Qed.
Lemma end_word w st z : Comp stateEndValue st z -> w = [] -> word w st z. Proof. intros H ->. exists z. auto. Qed.
Lemma scan_sound x : sound x.
Proof.
  induction x as [|a x S]; intros f st n Wf H; [discriminate H|]. apply scan_leads in H. unfold sstep in H. cbn [step] in H.
  destruct f; cbn [Comp].
  - (* BeginValueOrEmpty *) destruct (isSpace (N_of_ascii a)) eqn:Sp.
    { go_on H m E. destruct (S stateBeginValueOrEmpty _ m Wf E) as [V|V]; [left; apply begin_space|right; apply empty_space]; assumption. }
    destruct (N.eqb_spec (N_of_ascii a) 93) as [Ea|_]; [|left; eapply value_sound; eassumption]. destruct Wf as (st' & Est). cbn [parseState] in Est. subst st.
    right. apply char_is in Ea. subst a. unfold do_EndValue in H. cbn in H. destruct (leads_pop x _ st' n S H ltac:(cbn; auto)) as (m & -> & Z). exists [], (firstn m x). split; [constructor|]. split; [exact Z|]. reflexivity.
  - destruct (isSpace (N_of_ascii a)) eqn:Sp; [|eapply value_sound; eassumption]. unfold do_BeginValue in H. rewrite Sp in H. go_on H m E. apply begin_space; [exact Sp|]. exact (S stateBeginValue _ m Wf E).
  - (* BeginStringOrEmpty *) destruct (isSpace (N_of_ascii a)) eqn:Sp.
    { go_on H m E. destruct (S stateBeginStringOrEmpty _ m Wf E) as [V|V]; [left; apply bstring_space|right; apply empty_space]; assumption. }
    destruct (N.eqb_spec (N_of_ascii a) 125) as [Ea|_]; [|left; eapply string_sound; eassumption]. destruct Wf as (st' & Est). cbn [parseState] in Est. subst st.
    right. apply char_is in Ea. subst a. unfold do_EndValue in H. cbn in H. destruct (leads_pop x _ st' n S H ltac:(cbn; auto)) as (m & -> & Z). exists [], (firstn m x). split; [constructor|]. split; [exact Z|]. reflexivity.
  - destruct (isSpace (N_of_ascii a)) eqn:Sp; [|eapply string_sound; eassumption]. unfold do_BeginString in H. rewrite Sp in H. go_on H m E. apply bstring_space; [exact Sp|]. exact (S stateBeginString _ m Wf E).
  - eapply end_sound; [exact S|exact H].
  - unfold do_EndTop in H. inversion H as [s E|k0 s s' I0 E E1|k0 s k' s' m I0 E N E1 E2|k0 s m N E1 E2]; subst; [reflexivity| | |]; exfalso; cbn in *; intuition discriminate.
  - (* InString *) unfold go in H. cbn [parseState] in H. destruct (N.eqb_spec (N_of_ascii a) 34) as [Ea|Na].
    { apply char_is in Ea. subst a. go_on H m E. exists [], (firstn m x). split; [constructor|]. split; [exact (S stateEndValue _ m I E)|reflexivity]. }
    destruct (N.eqb_spec (N_of_ascii a) 92) as [Ea|Nb].
    { apply char_is in Ea. subst a. go_on H m E. destruct (S stateInStringEsc _ m I E) as [(c & x' & Ic & (t & y & T & Y & ->) & ->)|(x' & Hx & ->)].
      - exists (backslash :: c :: t), y. split; [apply gc_escape; assumption|]. auto.
      - cbn [hexes] in Hx. destruct Hx as (c1 & x1 & C1 & (c2 & x2 & C2 & (c3 & x3 & C3 & (c4 & x4 & C4 & (t & y & T & Y & ->) & ->) & ->) & ->) & ->).
        exists (backslash :: "u"%char :: c1 :: c2 :: c3 :: c4 :: t), y. split; [apply gc_code; assumption|]. auto. }
    destruct (N.ltb_spec (N_of_ascii a) 32) as [_|L]; [exfalso; eapply leads_error, H|]. go_on H m E. destruct (S stateInString _ m I E) as (t & y & T & Y & ->).
    exists (a :: t), y. split; [|auto]. apply gc_plain; try assumption; [apply (not_char a 34 Na); reflexivity|apply (not_char a 92 Nb); reflexivity].
  - (* Esc *) unfold go in H. cbn [parseState] in H. destruct (existsb _ _) eqn:X.
    { left. go_on H m E. exists a, (firstn m x). split; [|split; [exact (S stateInString _ m I E)|reflexivity]]. apply existsb_exists in X. destruct X as (k & Ik & Ek). apply N.eqb_eq in Ek. apply char_is in Ek. subst a. cbn in Ik. cbn. intuition subst; cbn; auto 10. }
    destruct (N.eqb_spec (N_of_ascii a) 117) as [Ea|_]; [|exfalso; eapply leads_error, H]. apply char_is in Ea. subst a. go_on H m E. right. exists (firstn m x). split; [|reflexivity]. exact (S stateInStringEscU _ m I E).
  - eapply (hexa_sound 3); [exact S| | |exact H]; [auto|exact I].
  - eapply (hexa_sound 2); [exact S| | |exact H]; [auto|exact I].
  - eapply (hexa_sound 1); [exact S| | |exact H]; [auto|exact I].
  - eapply (hexa_sound 0); [exact S| | |exact H]; [auto|exact I].
  - (* Neg *) unfold go in H. cbn [parseState] in H. destruct (N.eqb_spec (N_of_ascii a) 48) as [Ea|_].
    { apply char_is in Ea. subst a. go_on H m E. destruct (S state0 _ m I E) as (fr & e & y & Hf & He & Y & ->). exists (b "0"), fr, e, y. auto. }
    destruct ((49 <=? N_of_ascii a)%N && (N_of_ascii a <=? 57)%N) eqn:D; [|exfalso; eapply leads_error, H]. apply dig_one in D. go_on H m E. destruct (S state1 _ m I E) as (d & fr & e & y & Hd & Hf & He & Y & ->).
    exists (a :: d), fr, e, y. split; [|auto]. right. split; [split; [discriminate|constructor; [lia|exact Hd]]|]. intros z Ez. injection Ez as -> _. cbn in D. lia.
  - (* 1 *) unfold go in H. cbn [parseState] in H. destruct (isDigit _) eqn:D.
    { go_on H m E. destruct (S state1 _ m I E) as (d & fr & e & y & Hd & Hf & He & Y & ->). exists (a :: d), fr, e, y. split; [constructor; [apply is_digit, D|exact Hd]|]. auto. }
    destruct (zero_sound st _ a x n S H) as (fr & e & y & Hf & He & Y & ->). exists [], fr, e, y. split; [constructor|]. auto.
  - exact (zero_sound st _ a x n S H).
  - (* Dot *) unfold go in H. cbn [parseState] in H. destruct (isDigit _) eqn:D; [|exfalso; eapply leads_error, H]. go_on H m E. destruct (S stateDot0 _ m I E) as (d & e & y & Hd & He & Y & ->).
    exists (a :: d), e, y. split; [split; [discriminate|constructor; [apply is_digit, D|exact Hd]]|]. auto.
  - (* Dot0 *) unfold go in H. cbn [parseState] in H. destruct (isDigit _) eqn:D.
    { go_on H m E. destruct (S stateDot0 _ m I E) as (d & e & y & Hd & He & Y & ->). exists (a :: d), e, y. split; [constructor; [apply is_digit, D|exact Hd]|]. auto. }
    destruct ((N_of_ascii a =? 101)%N || (N_of_ascii a =? 69)%N) eqn:Ee.
    { go_on H m E. destruct (S stateE _ m I E) as (s & d & y & Hs & D' & Y & ->). exists [], (a :: s ++ d), y. split; [constructor|]. split; [|split; [exact Y|cbn [app]; rewrite <- app_assoc; reflexivity]].
      right. exists a, s, d. split; [|auto]. assert (K : N_of_ascii a = 101%N \/ N_of_ascii a = 69%N) by lia. destruct K as [K|K]; apply char_is in K; subst a; cbn; auto. }
    exists [], [], (firstn n (a :: x)). split; [constructor|]. split; [left; reflexivity|]. split; [|reflexivity]. eapply end_sound; [exact S|exact H].
  - (* E *) unfold go in H. cbn [parseState] in H. destruct ((N_of_ascii a =? 43)%N || (N_of_ascii a =? 45)%N) eqn:Ee.
    { go_on H m E. destruct (S stateESign _ m I E) as (d & y & D & Y & ->). exists [a], d, y. split; [|auto]. right. assert (K : N_of_ascii a = 45%N \/ N_of_ascii a = 43%N) by lia. destruct K as [K|K]; apply char_is in K; subst a; auto. }
    destruct (esign_sound st _ a x n S H) as (d & y & D & Y & ->). exists [], d, y. auto.
  - exact (esign_sound st _ a x n S H).
  - (* E0 *) unfold go in H. cbn [parseState] in H. destruct (isDigit _) eqn:D.
    { go_on H m E. destruct (S stateE0 _ m I E) as (d & y & Hd & Y & ->). exists (a :: d), y. split; [constructor; [apply is_digit, D|exact Hd]|]. auto. }
    exists [], (firstn n (a :: x)). split; [constructor|]. split; [|reflexivity]. eapply end_sound; [exact S|exact H].
  - eapply (expect_sound (b "ue") 114); [exact S| | |exact H]; [auto|exact I].
  - eapply (expect_sound (b "e") 117); [exact S| | |exact H]; [auto|exact I].
  - eapply (expect_sound [] 101); [exact S| | |exact H]; [intros z Hz; apply end_word; auto|exact I].
  - eapply (expect_sound (b "lse") 97); [exact S| | |exact H]; [auto|exact I].
  - eapply (expect_sound (b "se") 108); [exact S| | |exact H]; [auto|exact I].
  - eapply (expect_sound (b "e") 115); [exact S| | |exact H]; [auto|exact I].
  - eapply (expect_sound [] 101); [exact S| | |exact H]; [intros z Hz; apply end_word; auto|exact I].
  - eapply (expect_sound (b "ll") 117); [exact S| | |exact H]; [auto|exact I].
  - eapply (expect_sound (b "l") 108); [exact S| | |exact H]; [auto|exact I].
  - eapply (expect_sound [] 108); [exact S| | |exact H]; [intros z Hz; apply end_word; auto|exact I].
  - eapply leads_error, H.
Qed.
Lemma scan_value x n : scan_bytes reset x = SEnd n -> value_text (firstn n x).
Proof.
  intros H. destruct (scan_sound x stateBeginValue [] n I H) as (w & t & y & W & T & Y & E). cbn in Y. subst y. rewrite app_nil_r in E. exists w, (room []), t. split; [exact W|]. split; [unfold room; cbn; lia|]. auto.
Qed.
