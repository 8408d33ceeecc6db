(** Decoding of requests agrees with its specification. *)
From Coq Require Import ZifyBool ZifyNat ZifyN.
From Verif Require Import GoBase Utf8 Utf8Proofs JsonSpec JsonProofs Json Emacs Frame Stream Backend Server Unmarshal UnmarshalSpec.

Lemma fold_letter r c : N.eqb (fold_rune r) (fold_rune (N_of_ascii c)) = true <-> same_letter r c.
Proof.
  unfold fold_rune, same_letter. cbn zeta. pose proof (N_ascii_bounded c). rewrite N.eqb_eq.
  repeat match goal with |- context [if ?x then _ else _] => destruct x eqn:? end; lia.
Qed.
Lemma fold_name k : forall name, same_fold k name = true <-> same_name k name.
Proof.
  induction k as [|r k IH]; intros [|c name]; cbn [same_fold].
  - split; [constructor|reflexivity].
  - split; [discriminate|intros H; inversion H].
  - split; [discriminate|intros H; inversion H].
  - rewrite andb_true_iff, fold_letter, IH. split; [intros []; constructor; assumption|intros H; inversion_clear H; auto].
Qed.
Lemma fold_no k name : same_fold k name = false <-> ~ same_name k name.
Proof. rewrite <- fold_name. destruct (same_fold k name); intuition congruence. Qed.

(** A mismatch does not depend on the previous value. *)
Definition steady {A} (d : dec A) : Prop := forall v a a', snd (d v a) = snd (d v a').
(** [f]: what is taken from the variable *)
Definition implements {A B} (d : dec A) (zero : A) (f : A -> B) (R : value -> B -> Prop) : Prop :=
  steady d /\ forall v x, tidy v -> ((snd (d v zero) = true /\ f (fst (d v zero)) = x) <-> R v x).
Definition same {A} (x : A) : A := x.

Lemma string_implements : implements d_string [] same a_string.
Proof.
  split; [intros [] a a'; reflexivity|]. intros v x _. unfold a_string, same. destruct v; cbn [d_string fst snd].
  all: try (split; [intros [E <-]; solve [discriminate E|auto]|intros [[E1 E2]|(rs & E1 & E2)]; try discriminate E1; solve [subst; auto]]).
  split; [intros [_ <-]; right; eauto|]. intros [[E _]|(rs & E & ->)]; [discriminate E|]. injection E as ->. auto.
Qed.

(** Integers *)
Lemma digits_app s : forall n t, digits_value (s ++ t) n = match digits_value s n with Some m => digits_value t m | None => None end.
Proof. induction s as [|c s IH]; intros n t; cbn [app digits_value]; [reflexivity|]. destruct (isDigit (N_of_ascii c)); [apply IH|reflexivity]. Qed.
Lemma digits_isdig s : forall n m, digits_value s n = Some m -> Forall (fun c => 48 <= N_of_ascii c <= 57)%N s.
Proof. induction s as [|c s IH]; intros n m H; [constructor|]. cbn [digits_value] in H. destruct (isDigit (N_of_ascii c)) eqn:E; [|discriminate]. constructor; [unfold isDigit in E; lia|eapply IH, H]. Qed.
Lemma digit_byte n : (n < 10)%N -> N_of_ascii (digit n) = (48 + n)%N.
Proof. intros L. unfold digit. apply N_ascii_embedding. lia. Qed.
Lemma loop_value fuel : forall n acc k, (n < 10 ^ N.of_nat fuel)%N -> 0 < fuel -> k = 0%Z -> digits_value (dec_loop fuel n acc) k = digits_value acc (Z.of_N n).
Proof.
  induction fuel as [|fuel IH]; intros n acc k L F ->; [lia|]. cbn [dec_loop]. destruct (N.ltb_spec n 10) as [S|S].
  - cbn [digits_value]. rewrite digit_byte by exact S. unfold isDigit. replace ((48 <=? 48 + n) && (48 + n <=? 57))%N with true by lia. f_equal. lia.
  - assert (M : (n mod 10 < 10)%N) by (apply N.mod_lt; lia). pose proof (N.div_mod n 10 ltac:(lia)) as D. rewrite Nat2N.inj_succ, N.pow_succ_r' in L.
    assert (Q : (n / 10 < 10 ^ N.of_nat fuel)%N) by (apply N.div_lt_upper_bound; lia). destruct fuel as [|fuel]; [cbn in Q; lia|].
    rewrite IH by (assumption || lia || reflexivity). cbn [digits_value]. rewrite digit_byte by exact M. unfold isDigit. replace ((48 <=? 48 + n mod 10) && (48 + n mod 10 <=? 57))%N with true by lia. f_equal. lia.
Qed.
Lemma decimal_value n : (0 <= n)%Z -> digits_value (decimal n) 0 = Some n.
Proof.
  intros L. unfold decimal. rewrite loop_value; [cbn [digits_value]; f_equal; lia| |lia|reflexivity].
  rewrite Nat2N.inj_succ, N2Nat.id. destruct (N.eq_dec (Z.to_N n) 0) as [->|K]; [reflexivity|]. destruct (N.log2_spec (Z.to_N n) ltac:(lia)) as [_ U].
  eapply N.lt_le_trans; [exact U|]. apply N.pow_le_mono_l. lia.
Qed.
Definition number_text (s : str) : Prop := s = b "0" \/ (digits s /\ forall x, s <> "0"%char :: x).
Lemma value_grows s : forall n m, digits_value s n = Some m -> (0 <= n)%Z -> (n <= m)%Z.
Proof.
  induction s as [|c s IH]; intros n m H L; cbn [digits_value] in H; [injection H as ->; lia|]. destruct (isDigit (N_of_ascii c)) eqn:E; [|discriminate]. unfold isDigit in E. apply IH in H; lia.
Qed.
Lemma value_pos s : digits s -> (forall x, s <> "0"%char :: x) -> forall m, digits_value s 0 = Some m -> (0 < m)%Z.
Proof.
  intros [N F] Z m H. destruct s as [|c s]; [congruence|]. inversion_clear F. cbn [digits_value] in H. destruct (isDigit (N_of_ascii c)) eqn:E; [|discriminate]. apply value_grows in H; [|lia].
  enough (N_of_ascii c <> 48%N) by lia. intros K. apply (Z s). f_equal. rewrite <- (ascii_N_embedding c), K. reflexivity.
Qed.
Lemma value_snoc s c m : digits_value (s ++ [c]) 0 = Some m -> exists k, digits_value s 0 = Some k /\ (48 <= N_of_ascii c <= 57)%N /\ m = (10 * k + (Z.of_N (N_of_ascii c) - 48))%Z.
Proof.
  rewrite digits_app. destruct (digits_value s 0) as [k|]; [|discriminate]. cbn [digits_value]. destruct (isDigit (N_of_ascii c)) eqn:E; [|discriminate]. unfold isDigit in E. intros H. injection H as <-. exists k. split; [reflexivity|]. split; [lia|reflexivity].
Qed.
Lemma value_inj s : forall s' m, (s = [] \/ forall x, s <> "0"%char :: x) -> (s' = [] \/ forall x, s' <> "0"%char :: x) -> digits_value s 0 = Some m -> digits_value s' 0 = Some m -> s = s'.
Proof.
  assert (P : forall s m, s <> [] -> (s = [] \/ forall x, s <> "0"%char :: x) -> digits_value s 0 = Some m -> (0 < m)%Z).
  { intros u m Nu Zu H. destruct Zu as [->|Zu]; [congruence|]. apply (value_pos u); [split; [exact Nu|eapply digits_isdig, H]|exact Zu|exact H]. }
  assert (T : forall s c, (s ++ [c] = [] \/ forall x, s ++ [c] <> "0"%char :: x) -> s = [] \/ forall x, s <> "0"%char :: x).
  { intros u c [E|H]; [destruct u; discriminate|]. destruct u as [|d u]; [left; reflexivity|]. right. intros x E. injection E as -> ->. apply (H (x ++ [c])). reflexivity. }
  induction s as [|c s IH] using rev_ind; intros s' m Z Z' H H'.
  - destruct s' as [|d s']; [reflexivity|]. pose proof (P (d :: s') m ltac:(discriminate) Z' H'). cbn in H. injection H as <-. lia.
  - destruct s' as [|d s' _] using rev_ind.
    + pose proof (P (s ++ [c]) m ltac:(destruct s; discriminate) Z H). cbn in H'. injection H' as <-. lia.
    + destruct (value_snoc _ _ _ H) as (k & K & C & E). destruct (value_snoc _ _ _ H') as (k' & K' & D & E'). assert (k = k' /\ N_of_ascii c = N_of_ascii d) as [<- X] by lia.
      f_equal; [apply (IH s' k); try assumption; eapply T; eassumption|]. f_equal. rewrite <- (ascii_N_embedding c), <- (ascii_N_embedding d), X. reflexivity.
Qed.
Lemma decimal_text n : (0 <= n)%Z -> number_text (decimal n).
Proof.
  intros L. pose proof (integer_ok n) as J. unfold integer in J. replace (n <? 0)%Z with false in J by lia. pose proof (decimal_value n L) as V. apply digits_isdig in V.
  destruct J as (sign & int & frac & exp & E & S & I & F & X). rewrite E in V. rewrite !Forall_app in V. destruct V as (V1 & V2 & V3 & V4).
  destruct S as [->| ->]; [|inversion_clear V1; cbn in H; lia]. destruct F as [->|(d & _ & ->)]; [|inversion_clear V3; cbn in H; lia]. destruct X as [->|(e & sg & d & Ie & _ & _ & ->)]; [|inversion_clear V4; cbn in Ie; destruct Ie as [<-|[<-|[]]]; cbn in H; lia].
  cbn [app] in E. rewrite app_nil_r in E. rewrite E. exact I.
Qed.
Lemma value_decimal s m : number_text s -> digits_value s 0 = Some m -> s = decimal m.
Proof.
  intros T H. destruct T as [->|[D Z]]; [injection H as <-; reflexivity|]. pose proof (value_pos s D Z m H) as P. apply (value_inj s (decimal m) m); [right; exact Z| |exact H|apply decimal_value; lia].
  right. destruct (decimal_text m ltac:(lia)) as [E|[_ E]]; [|exact E]. pose proof (decimal_value m ltac:(lia)) as V. rewrite E in V. injection V as <-. lia.
Qed.
Lemma no_minus s x : number_text s -> s <> "-"%char :: x.
Proof. intros [->|[[_ F] _]]; [discriminate|]. intros ->. inversion_clear F. cbn in H. lia. Qed.
Definition in64 (n : Z) : Prop := (- 9223372036854775808 <= n <= 9223372036854775807)%Z.
Definition signed_value (s : str) : option Z :=
  match s with
  | [] => None
  | c :: s' => if Ascii.eqb c "-" then match s' with [] => None | _ => option_map Z.opp (digits_value s' 0) end else digits_value s 0
  end.
Lemma parse_int_ok s n : parse_int64 s = Some n <-> signed_value s = Some n /\ in64 n.
Proof.
  unfold parse_int64. fold (signed_value s). destruct (signed_value s) as [m|]; [|intuition discriminate]. unfold in64.
  destruct ((-9223372036854775808 <=? m)%Z && (m <=? 9223372036854775807)%Z)%bool eqn:E.
  - split; [intros H; injection H as ->; split; [reflexivity|lia]|intros [H _]; exact H].
  - split; [discriminate|]. intros [H K]. injection H as ->. lia.
Qed.
Lemma integer_value n : signed_value (integer n) = Some n.
Proof.
  unfold integer. destruct (Z.ltb_spec n 0) as [L|L].
  - cbn [app b]. change (b "-" ++ decimal (- n)) with ("-"%char :: decimal (- n)). unfold signed_value. change (Ascii.eqb "-" "-") with true. cbn match. rewrite decimal_value by lia.
    destruct (decimal (- n)) eqn:E; [pose proof (decimal_value (- n) ltac:(lia)) as V; rewrite E in V; cbn in V; injection V as V; lia|]. cbn. f_equal. lia.
  - pose proof (decimal_text n L) as T. pose proof (decimal_value n L) as V. unfold signed_value. destruct (decimal n) as [|c x] eqn:E; [destruct T as [T|[[T _] _]]; [discriminate|congruence]|].
    destruct (Ascii.eqb_spec c "-") as [->|]; [exfalso; eapply no_minus; [exact T|reflexivity]|]. exact V.
Qed.
Lemma integer_literal t n : jnumber t -> (parse_int64 t = Some n <-> (t = integer n \/ (t = b "-0" /\ n = 0%Z)) /\ in64 n).
Proof.
  intros (sign & int & frac & exp & -> & S & I & F & X). rewrite parse_int_ok. split.
  - intros [H R]. split; [|exact R]. fold (number_text int) in I.
    assert (V : exists k, digits_value (int ++ frac ++ exp) 0 = Some k /\ n = if match sign with [] => true | _ => false end then k else (- k)%Z).
    { destruct S as [->| ->]; cbn [app] in H.
      - exists n. split; [|reflexivity]. unfold signed_value in H. destruct (int ++ frac ++ exp) as [|c y] eqn:E; [discriminate|]. destruct (Ascii.eqb_spec c "-") as [->|]; [|exact H].
        exfalso. destruct int as [|d int]; [destruct I as [I|[[I _] _]]; [discriminate|congruence]|]. injection E as -> _. eapply no_minus; [exact I|reflexivity].
      - change (b "-" ++ int ++ frac ++ exp) with ("-"%char :: int ++ frac ++ exp) in H. unfold signed_value in H. change (Ascii.eqb "-" "-") with true in H. cbn match in H.
        destruct (int ++ frac ++ exp) as [|c y]; [discriminate|]. destruct (digits_value (c :: y) 0) as [k|]; [|discriminate]. cbn in H. injection H as <-. exists k. auto. }
    destruct V as (k & V & ->). pose proof (digits_isdig _ _ _ V) as G. rewrite !Forall_app in G. destruct G as (_ & G3 & G4).
    destruct F as [->|(d & _ & ->)]; [|inversion_clear G3; cbn in H0; lia]. destruct X as [->|(e & sg & d & Ie & _ & _ & ->)]; [|inversion_clear G4; cbn in Ie; destruct Ie as [<-|[<-|[]]]; cbn in H0; lia].
    cbn [app] in *. rewrite app_nil_r in *. pose proof (value_decimal _ _ I V) as E. pose proof (value_grows _ _ _ V ltac:(lia)) as P. destruct S as [->| ->].
    + left. unfold integer. replace (k <? 0)%Z with false by lia. exact E.
    + destruct (Z.eq_dec k 0) as [->|K]; [right; rewrite E; split; reflexivity|]. left. change (if match b "-" with [] => true | _ => false end then k else (- k)%Z) with (- k)%Z. unfold integer. replace (- k <? 0)%Z with true by lia. rewrite Z.opp_involutive, <- E. reflexivity.
  - intros [[E|[E ->]] R]; (split; [|exact R]); rewrite E; [apply integer_value|reflexivity].
Qed.
Lemma int_implements : implements d_int 0%Z same an_int.
Proof.
  split; [intros [] a a'; cbn [d_int]; try reflexivity; destruct (parse_int64 _); reflexivity|]. intros v x T. unfold an_int, same. destruct v as [| |t| | |]; cbn [d_int fst snd].
  all: try (split; [intros [E <-]; solve [discriminate E|auto]|intros [[E1 E2]|(rs & E1 & E2)]; try discriminate E1; solve [subst; auto]]).
  inversion_clear T as [| |? J| | |]. pose proof (fun n => integer_literal t n J) as L. destruct (parse_int64 t) as [n|] eqn:E; cbn [fst snd].
  - split; [intros [_ <-]; right; exists t; split; [reflexivity|apply L; reflexivity]|]. intros [[E1 _]|(t' & E1 & E2 & E3)]; [discriminate|]. injection E1 as <-. split; [reflexivity|]. assert (K : Some n = Some x) by (apply L; split; assumption). congruence.
  - split; [intros [K _]; discriminate|]. intros [[E1 _]|(t' & E1 & E2 & E3)]; [discriminate|]. injection E1 as <-. assert (K : @None Z = Some x) by (apply L; split; assumption). discriminate.
Qed.

(** Other types of values *)
Fixpoint floats_ok fo v : floats fo v = true <-> forall t, occurs t v -> fo t = true.
Proof.
  destruct v as [|x|t|rs|l|l]; cbn [floats].
  - split; [intros _ t H; inversion H|reflexivity].
  - split; [intros _ t H; inversion H|reflexivity].
  - split; [intros H t' K; inversion K; subst; exact H|intros H; apply H; constructor].
  - split; [intros _ t H; inversion H|reflexivity].
  - enough (E : forallb (floats fo) l = true <-> forall v, In v l -> forall t, occurs t v -> fo t = true).
    { rewrite E. split; [intros H t K; inversion K; subst; eauto|intros H v I t O; apply H; econstructor; eassumption]. }
    induction l as [|v l IH]; cbn [forallb In]; [split; [intros _ v []|reflexivity]|]. rewrite andb_true_iff, (floats_ok fo v), IH.
    split; [intros [H1 H2] v' [->|I]; [exact H1|apply H2, I]|intros H; split; [apply H; left; reflexivity|intros v' I; apply H; right; exact I]].
  - enough (E : forallb (fun m => floats fo (snd m)) l = true <-> forall k v, In (k, v) l -> forall t, occurs t v -> fo t = true).
    { rewrite E. split; [intros H t K; inversion K; subst; eauto|intros H k v I t O; apply H; econstructor; eassumption]. }
    induction l as [|[k v] l IH]; cbn [forallb In snd]; [split; [intros _ k v []|reflexivity]|]. rewrite andb_true_iff, (floats_ok fo v), IH.
    split; [intros [H1 H2] k' v' [E|I]; [injection E as <- <-; exact H1|eapply H2, I]|intros H; split; [apply (H k); left; reflexivity|intros k' v' I; apply (H k'); right; exact I]].
Qed.
Lemma any_implements fo : implements (d_any fo) false same (anything fo).
Proof.
  split; [intros [] a a'; reflexivity|]. intros v x _. unfold same, anything. rewrite <- floats_ok. destruct v; cbn [d_any fst snd]; (split; [intros [E <-]|intros [E1 E2]]).
  1: split; [split; congruence|reflexivity]. 1: destruct x; intuition congruence.
  all: try (split; [split; congruence|exact E]). all: split; [exact E2|]; symmetry; apply E1; discriminate.
Qed.
Lemma map_implements fo : implements (d_map fo) tt same (fun v _ => a_map fo v).
Proof.
  split; [intros [] a a'; reflexivity|]. intros v [] _. unfold same, a_map. rewrite <- floats_ok. destruct v; cbn [d_map fst snd]; (split; [intros [E _]|intros [E1 E2]]).
  all: first [discriminate E | split; [left; reflexivity|reflexivity] | split; [right; eexists; reflexivity|exact E] | split; reflexivity | split; [exact E2|reflexivity] | destruct E1 as [E1|[l' E1]]; discriminate E1].
Qed.
Lemma pointer_implements A (d : dec A) zero R : implements d zero same R -> implements (d_pointer zero d) None same (optional R).
Proof.
  intros [S P]. split.
  - assert (F : forall v a, v <> VNull -> snd (d_pointer zero d v a) = snd (d v zero)).
    { intros v a N. rewrite (S v zero (match a with Some x => x | None => zero end)). destruct v; try congruence; cbn [d_pointer]; destruct (d _ _); reflexivity. }
    intros v a a'. assert (N : v = VNull \/ v <> VNull) by (destruct v; ((left; reflexivity) || (right; discriminate))). destruct N as [->|N]; [reflexivity|]. rewrite !F by exact N. reflexivity.
  - intros v x T. specialize (P v). unfold optional, same in *. assert (N : v = VNull \/ v <> VNull) by (destruct v; ((left; reflexivity) || (right; discriminate))). destruct N as [->|N].
    + cbn [d_pointer fst snd]. split; [intros [_ <-]; left; auto|intros [[_ ->]|[N _]]; [auto|congruence]].
    + assert (E : d_pointer zero d v None = (Some (fst (d v zero)), snd (d v zero))) by (destruct v; try congruence; cbn [d_pointer]; destruct (d _ zero); reflexivity). rewrite E. cbn [fst snd]. split.
      * intros [E1 <-]. right. split; [exact N|]. eexists. split; [reflexivity|]. apply P; auto.
      * intros [[K _]|(_ & y & -> & H)]; [congruence|]. apply P in H; [|exact T]. destruct H as [H <-]. auto.
Qed.
Lemma elements_flag A (d : dec A) zero : steady d -> forall l st, snd (d_elements zero d l st) = forallb (fun v => snd (d v zero)) l.
Proof.
  intros S. induction l as [|v l IH]; intros st; cbn [d_elements forallb]; [reflexivity|]. pose proof (S v (match st with x :: _ => x | [] => zero end) zero) as E. destruct (d v (match st with x :: _ => x | [] => zero end)) as [x ok].
  specialize (IH (match st with _ :: st' => st' | [] => [] end)). destruct (d_elements zero d l (match st with _ :: st' => st' | [] => [] end)). cbn [snd] in *. congruence.
Qed.
Lemma elements_fresh A (d : dec A) zero l : fst (d_elements zero d l []) = map (fun v => fst (d v zero)) l.
Proof. induction l as [|v l IH]; cbn [d_elements map]; [reflexivity|]. destruct (d v zero). destruct (d_elements zero d l []). cbn [fst] in *. congruence. Qed.
Lemma slice_implements A (d : dec A) zero R : implements d zero same R -> implements (d_slice zero d) no_elements elements (a_list R).
Proof.
  intros [S P]. assert (G : forall l a, d_slice zero d (VArr l) a = match l with [] => (no_elements, true) | _ => (mkSlice (fst (d_elements zero d l (store a))) (length l), snd (d_elements zero d l (store a))) end).
  { intros [|v l] a; [reflexivity|]. cbn [d_slice]. destruct (d_elements _ _ _ _). reflexivity. }
  split.
  - intros v a a'. destruct v as [| | | |l|]; try reflexivity. rewrite !G. destruct l; [reflexivity|]. cbn [snd]. rewrite !elements_flag by exact S. reflexivity.
  - intros v x T. unfold a_list. destruct v as [| | | |l|].
    1: cbn [d_slice fst snd]; split; [intros [_ <-]; left; auto|intros [[_ ->]|(vs & E & _)]; [auto|discriminate]].
    1-3,5: cbn [d_slice fst snd]; (split; [intros [E _]; discriminate|intros [[E _]|(vs & E & _)]; discriminate]).
    assert (E : snd (d_slice zero d (VArr l) no_elements) = forallb (fun v => snd (d v zero)) l /\ elements (fst (d_slice zero d (VArr l) no_elements)) = map (fun v => fst (d v zero)) l).
    { rewrite G. destruct l as [|v l]; [split; reflexivity|]. cbn [fst snd]. rewrite elements_flag by exact S. split; [reflexivity|]. unfold elements. cbn [store slen no_elements]. rewrite elements_fresh. rewrite <- (map_length (fun v => fst (d v zero)) (v :: l)). apply firstn_all. }
    destruct E as [-> ->]. clear G. assert (K : forall x, (forallb (fun v => snd (d v zero)) l = true /\ map (fun v => fst (d v zero)) l = x) <-> Forall2 R l x).
    { inversion_clear T. clear x. induction l as [|v l IH]; intros x; cbn [forallb map]; [split; [intros [_ <-]; constructor|intros Q; inversion Q; auto]|]. inversion_clear H. specialize (IH H1). rewrite andb_true_iff. split.
      - intros [[Q1 Q2] <-]. constructor; [apply (P v _ H0); auto|apply IH; auto].
      - intros Q. inversion_clear Q. apply (P v _ H0) in H. apply IH in H2. unfold same in H. destruct H as [-> ->], H2 as [-> ->]. auto. }
    rewrite K. split; [intros Q; right; exists l; auto|]. intros [[Q _]|(vs & Q1 & Q2)]; [discriminate|]. injection Q1 as <-. exact Q2.
Qed.

(** Structures *)
Definition folded (name : str) : list rune := map (fun c => fold_rune (N_of_ascii c)) name.
Definition apart {A} (fields : list (str * dec A)) : Prop := NoDup (map (fun f => folded (fst f)) fields).
Lemma fold_same k : forall name, same_fold k name = true -> map fold_rune k = folded name.
Proof.
  induction k as [|r k IH]; intros [|c name] H; cbn [same_fold] in H; try discriminate H; [reflexivity|]. apply andb_true_iff in H as [H1 H2]. cbn [map folded]. apply N.eqb_eq in H1. rewrite H1. f_equal. apply IH, H2.
Qed.
Lemma find_ok A (fields : list (str * dec A)) : apart fields -> forall k name d, In (name, d) fields -> same_fold k name = true -> find_field fields k = Some d.
Proof.
  induction fields as [|[n d0] fs IH]; intros N k name d I F; [contradiction|]. cbn [find_field]. inversion_clear N. destruct I as [E|I].
  - injection E as -> ->. rewrite F. reflexivity.
  - destruct (same_fold k n) eqn:G; [|eapply IH; eassumption]. exfalso. apply H. cbn [fst]. rewrite <- (fold_same _ _ G), (fold_same _ _ F). apply (in_map (fun f => folded (fst f)) fs (name, d) I).
Qed.
Lemma find_in A (fields : list (str * dec A)) k d : find_field fields k = Some d -> exists name, In (name, d) fields /\ same_fold k name = true.
Proof. induction fields as [|[n d0] fs IH]; cbn [find_field]; [discriminate|]. destruct (same_fold k n) eqn:G; [intros H; injection H as <-; exists n; split; [left; reflexivity|exact G]|intros H; destruct (IH H) as (name & I & F); exists name; split; [right; exact I|exact F]]. Qed.
Definition all_steady {A} (fields : list (str * dec A)) : Prop := Forall (fun f => steady (snd f)) fields.
Definition member_flag {A} (fields : list (str * dec A)) (a : A) (m : list rune * value) : bool := match find_field fields (fst m) with Some d => snd (d (snd m) a) | None => true end.
Lemma fields_flag A (fields : list (str * dec A)) a0 : all_steady fields -> forall l a, snd (d_fields fields l a) = forallb (member_flag fields a0) l.
Proof.
  intros S. induction l as [|[k v] l IH]; intros a; cbn [d_fields forallb]; [reflexivity|]. unfold member_flag at 1. cbn [fst snd]. destruct (find_field fields k) as [d|] eqn:F.
  - destruct (find_in _ _ _ _ F) as (name & I & _). unfold all_steady in S. rewrite Forall_forall in S. pose proof (S _ I v a a0) as E. cbn [snd] in E. destruct (d v a) as [a1 ok]. specialize (IH a1). destruct (d_fields fields l a1). cbn [snd] in *. congruence.
  - specialize (IH a). destruct (d_fields fields l a). exact IH.
Qed.
Lemma struct_steady A (fields : list (str * dec A)) : all_steady fields -> steady (d_struct fields).
Proof. intros S v a a'. destruct v; try reflexivity. cbn [d_struct]. rewrite !(fields_flag _ _ a) by exact S. reflexivity. Qed.
Lemma flags_ok A (fields : list (str * dec A)) a l : all_steady fields -> apart fields -> (snd (d_fields fields l a) = true <-> Forall (fun f => forall v, has l (fst f) v -> snd (snd f v a) = true) fields).
Proof.
  intros S N. rewrite (fields_flag _ _ a) by exact S. rewrite forallb_forall, Forall_forall. split.
  - intros H [name d] I v (k & K & E). specialize (H _ K). unfold member_flag in H. cbn [fst snd] in *. rewrite (find_ok _ _ N k name d I) in H by (apply fold_name, E). exact H.
  - intros H [k v] K. unfold member_flag. cbn [fst snd]. destruct (find_field fields k) as [d|] eqn:F; [|reflexivity]. destruct (find_in _ _ _ _ F) as (name & I & E). apply (H _ I v). exists k. split; [exact K|apply fold_name, E].
Qed.
Lemma has_cons k v l name v' : has ((k, v) :: l) name v' <-> (v = v' /\ same_name k name) \/ has l name v'.
Proof.
  unfold has. split.
  - intros (k' & [E|I] & F); [injection E as -> ->; auto|right; eauto].
  - intros [[-> F]|(k' & I & F)]; [exists k; split; [left; reflexivity|exact F]|exists k'; split; [right; exact I|exact F]].
Qed.
Lemma different_tail m l : different (m :: l) -> different l.
Proof. intros D l1 k1 v1 l2 k2 v2 l3 name E. apply (D (m :: l1) k1 v1 l2 k2 v2 l3 name). rewrite E. reflexivity. Qed.
Lemma different_head k v l name v' : different ((k, v) :: l) -> same_name k name -> ~ has l name v'.
Proof. intros D F (k' & I & F'). apply in_split in I as (l1 & l2 & ->). eapply (D [] k v l1 k' v' l2 name); [reflexivity|exact F|exact F']. Qed.
Lemma has_unique l name v v' : different l -> has l name v -> has l name v' -> v = v'.
Proof.
  induction l as [|[k x] l IH]; intros D H H'; [destruct H as (? & [] & _)|]. apply has_cons in H, H'. destruct H as [[<- F]|H], H' as [[<- F']|H'].
  - reflexivity.
  - exfalso. eapply different_head; eassumption.
  - exfalso. eapply (different_head k x l name v); eassumption.
  - eapply IH; eauto using different_tail.
Qed.
(** The field [name] is decoded by [d], other ones are not related to [get]. *)
Definition governs {A B} (fields : list (str * dec A)) (name : str) (get : A -> B) (d : dec B) : Prop :=
  (exists d', In (name, d') fields) /\ forall name' d', In (name', d') fields -> (name' = name /\ forall v a, get (fst (d' v a)) = fst (d v (get a))) \/ (folded name' <> folded name /\ forall v a, get (fst (d' v a)) = get a).
Lemma fields_get A B (fields : list (str * dec A)) name (get : A -> B) d : apart fields -> governs fields name get d -> forall l a, different l ->
  (forall v, has l name v -> get (fst (d_fields fields l a)) = fst (d v (get a))) /\ ((forall v, ~ has l name v) -> get (fst (d_fields fields l a)) = get a).
Proof.
  intros N [[d0 I0] G]. induction l as [|[k v] l IH]; intros a D.
  - split; [intros v (k & [] & _)|reflexivity].
  - pose (a1 := fst match find_field fields k with Some d' => d' v a | None => (a, true) end).
    assert (E : fst (d_fields fields ((k, v) :: l) a) = fst (d_fields fields l a1)).
    { cbn [d_fields]. unfold a1. destruct (match find_field fields k with Some d' => d' v a | None => (a, true) end) as [a2 ok]. cbn [fst]. destruct (d_fields fields l a2). reflexivity. }
    rewrite E. clear E. destruct (IH a1 (different_tail _ _ D)) as [IH1 IH2]. clear IH.
    assert (C : (same_name k name /\ get a1 = fst (d v (get a))) \/ (~ same_name k name /\ get a1 = get a)).
    { unfold a1. destruct (find_field fields k) as [d'|] eqn:F.
      - destruct (find_in _ _ _ _ F) as (n' & I & S). destruct (G _ _ I) as [[-> P]|[Q P]].
        + left. split; [apply fold_name, S|apply P].
        + right. split; [|apply P]. rewrite <- fold_name. intros S'. apply Q. rewrite <- (fold_same _ _ S), <- (fold_same _ _ S'). reflexivity.
      - right. split; [|reflexivity]. rewrite <- fold_name. intros S. rewrite (find_ok _ _ N k name d0 I0 S) in F. discriminate. }
    split.
    + intros v' H. apply has_cons in H. destruct H as [[<- F]|H].
      * destruct C as [[_ C]|[C _]]; [|contradiction]. rewrite IH2; [exact C|]. intros v'. eapply different_head; eassumption.
      * destruct C as [[C _]|[_ C]]; [exfalso; eapply different_head; eassumption|]. rewrite (IH1 _ H), C. reflexivity.
    + intros H. destruct C as [[C _]|[_ C]]; [exfalso; apply (H v), has_cons; left; auto|]. rewrite IH2; [exact C|]. intros v' H'. apply (H v'), has_cons. right. exact H'.
Qed.
Definition tidy_members (l : list (list rune * value)) : Prop := different l /\ Forall (fun m => tidy (snd m)) l.
Lemma has_tidy l name v : tidy_members l -> has l name v -> tidy v.
Proof. intros [_ T] (k & I & _). rewrite Forall_forall in T. apply (T _ I). Qed.
Lemma has_dec l name : (exists v, has l name v) \/ forall v, ~ has l name v.
Proof.
  induction l as [|[k v] l IH]; [right; intros v (k & [] & _)|]. destruct (same_fold k name) eqn:E.
  - left. exists v. apply has_cons. left. split; [reflexivity|apply fold_name, E].
  - destruct IH as [[v' H]|H]; [left; exists v'; apply has_cons; auto|]. right. intros v' K. apply has_cons in K. destruct K as [[_ K]|K]; [apply fold_name in K; congruence|eapply H, K].
Qed.
Lemma field_ok A B C (fields : list (str * dec A)) name (get : A -> B) d zero (f : B -> C) R l x : apart fields -> governs fields name get d -> implements d (get zero) f R -> tidy_members l ->
  (((forall v, has l name v -> snd (d v (get zero)) = true) /\ f (get (fst (d_fields fields l zero))) = x) <-> field l name R (f (get zero)) x).
Proof.
  intros N G [S P] T. destruct (fields_get _ _ _ _ _ _ N G l zero (proj1 T)) as [H1 H2]. split.
  - intros [H <-]. destruct (has_dec l name) as [[v K]|K].
    + apply fi_given with v; [exact K|]. apply P; [eapply has_tidy; eassumption|]. split; [apply H, K|]. rewrite (H1 v K). reflexivity.
    + rewrite (H2 K). apply fi_absent, K.
  - intros F. destruct F as [v a K E|K].
    + apply P in E; [|eapply has_tidy; eassumption]. destruct E as [E <-]. split; [|rewrite (H1 v K); reflexivity]. intros v' K'. rewrite <- (has_unique l name v v' (proj1 T) K K'). exact E.
    + split; [intros v K'; exfalso; eapply K, K'|]. rewrite (H2 K). reflexivity.
Qed.
Lemma check_ok B C (d : dec B) zero (f : B -> C) R l name : implements d zero f R -> tidy_members l -> ((forall v, has l name v -> snd (d v zero) = true) <-> checked l name R).
Proof.
  intros [S P] T. split.
  - intros H v K. eexists. apply P; [eapply has_tidy; eassumption|]. split; [apply H, K|reflexivity].
  - intros H v K. destruct (H v K) as [x E]. apply P in E; [apply E|eapply has_tidy; eassumption].
Qed.
Lemma struct_implements A B (fields : list (str * dec A)) zero (f : A -> B) R : all_steady fields -> (forall l x, tidy_members l -> ((snd (d_fields fields l zero) = true /\ f (fst (d_fields fields l zero)) = x) <-> R l x)) -> implements (d_struct fields) zero f (object R).
Proof.
  intros S H. split; [apply struct_steady, S|]. intros v x T. unfold object. destruct v as [| | | | |l].
  - cbn [d_struct]. change (zero, true) with (d_fields fields [] zero). rewrite H; [|split; [|constructor]; intros [|] ? ? ? ? ? ? ? E; discriminate E].
    split; [auto|]. intros [[_ K]|(l & K & _)]; [exact K|discriminate].
  - split; [intros [E _]; discriminate E|intros [[E _]|(l & E & _)]; discriminate E].
  - split; [intros [E _]; discriminate E|intros [[E _]|(l & E & _)]; discriminate E].
  - split; [intros [E _]; discriminate E|intros [[E _]|(l & E & _)]; discriminate E].
  - split; [intros [E _]; discriminate E|intros [[E _]|(l' & E & _)]; discriminate E].
  - cbn [d_struct]. inversion_clear T. rewrite H by (split; assumption). split; [intros K; right; eauto|]. intros [[E _]|(l' & E & K)]; [discriminate|]. injection E as <-. exact K.
Qed.
Lemma keep_steady A B (get : A -> B) set d : steady d -> steady (keep get set d).
Proof. intros S v a a'. unfold keep. pose proof (S v (get a) (get a')) as E. destruct (d v (get a)), (d v (get a')). exact E. Qed.
Lemma check_steady A B (zero : B) d : steady (@check A B zero d).
Proof. intros v a a'. reflexivity. Qed.
Lemma keep_flag A B (get : A -> B) set d v a : snd (keep get set d v a) = snd (d v (get a)).
Proof. unfold keep. destruct (d v (get a)). reflexivity. Qed.
Lemma keep_value A B (get : A -> B) set d v a : fst (keep get set d v a) = set (fst (d v (get a))) a.
Proof. unfold keep. destruct (d v (get a)). reflexivity. Qed.
Lemma kept A B C (fields : list (str * dec A)) name (get : A -> B) set d zero (f : B -> C) R l : apart fields -> governs fields name get d -> implements d (get zero) f R -> tidy_members l ->
  (forall v, has l name v -> snd (keep get set d v zero) = true) -> field l name R (f (get zero)) (f (get (fst (d_fields fields l zero)))).
Proof. intros N G P T H. apply (field_ok _ _ _ fields name get d zero f R l _ N G P T). split; [|reflexivity]. intros v K. rewrite <- (keep_flag _ _ get set). apply H, K. Qed.
Lemma given A B C (fields : list (str * dec A)) name (get : A -> B) set d zero (f : B -> C) R l x : apart fields -> governs fields name get d -> implements d (get zero) f R -> tidy_members l ->
  field l name R (f (get zero)) x -> (forall v, has l name v -> snd (keep get set d v zero) = true) /\ f (get (fst (d_fields fields l zero))) = x.
Proof. intros N G P T H. apply (field_ok _ _ _ fields name get d zero f R l x N G P T) in H. destruct H as [H E]. split; [|exact E]. intros v K. rewrite keep_flag. apply H, K. Qed.

Ltac apart := repeat (constructor; [cbn [In map fst]; let K := fresh in intros K; repeat destruct K as [K|K]; try contradiction; vm_compute in K; discriminate K|]); constructor.
Ltac governs := split; [eexists; cbn [In]; auto 10|]; let I := fresh in intros ? ? I; cbn [In] in I; repeat destruct I as [I|I]; try contradiction; injection I as <- <-;
  first [left; split; [reflexivity|intros; rewrite ?keep_value; reflexivity] | right; split; [vm_compute; discriminate|intros; rewrite ?keep_value; reflexivity]].
Ltac all_steady := repeat (constructor; [cbn [snd]; try apply keep_steady; try apply check_steady; auto|]); constructor.
Ltac impl := eauto using string_implements, int_implements, any_implements, map_implements, pointer_implements, slice_implements.

Lemma options_implements : implements mentions_options 0%Z same (object (fun l n => field l (b "countLimit") an_int 0%Z n)).
Proof.
  assert (St : all_steady [(b "countLimit", d_int)]) by (constructor; [apply int_implements|constructor]). assert (Ap : apart [(b "countLimit", d_int)]) by apart.
  apply struct_implements; [exact St|]. intros l x T. rewrite flags_ok by assumption. rewrite Forall_cons_iff. cbn [fst snd].
  pose proof (field_ok _ _ _ [(b "countLimit", d_int)] (b "countLimit") same d_int 0%Z same an_int l x Ap ltac:(governs) int_implements T) as F. unfold same in *. rewrite <- F. 
  split; [intros [[H _] E]; auto|intros [H E]; auto].
Qed.
Lemma visit_implements : implements location (mkLocation [] 0) same asks_visit.
Proof.
  unfold location. set (fs := [_; _]). set (z := mkLocation [] 0).
  assert (St : all_steady fs) by (constructor; [apply keep_steady, string_implements|constructor; [apply keep_steady, int_implements|constructor]]). assert (Ap : apart fs) by apart.
  assert (G1 : governs fs (b "file") locFile d_string) by (unfold fs; governs). assert (G2 : governs fs (b "lineNo") locLine d_int) by (unfold fs; governs).
  apply struct_implements; [exact St|]. intros l x T. rewrite flags_ok by assumption. unfold fs at 1. rewrite !Forall_cons_iff. cbn [fst snd]. split.
  - intros [(H1 & H2 & _) <-]. split; [exact (kept _ _ _ fs _ _ _ _ z _ _ l Ap G1 string_implements T H1)|exact (kept _ _ _ fs _ _ _ _ z _ _ l Ap G2 int_implements T H2)].
  - intros [H1 H2]. destruct (given _ _ _ fs _ _ (fun x a => mkLocation x (locLine a)) _ z _ _ l _ Ap G1 string_implements T H1) as [F1 E1].
    destruct (given _ _ _ fs _ _ (fun x a => mkLocation (locFile a) x) _ z _ _ l _ Ap G2 int_implements T H2) as [F2 E2].
    split; [auto|]. unfold same in *. destruct x, (fst _). cbn in E1, E2. congruence.
Qed.
Lemma search_implements : implements search_query (mkSearch [] None None) same asks_search.
Proof.
  unfold search_query. set (fs := [_; _; _]). set (z := mkSearch [] None None). pose proof (pointer_implements _ _ _ _ int_implements) as Pi.
  assert (St : all_steady fs) by (constructor; [apply keep_steady, string_implements|constructor; [apply keep_steady, Pi|constructor; [apply keep_steady, Pi|constructor]]]). assert (Ap : apart fs) by apart.
  assert (G1 : governs fs (b "q") sqQuery d_string) by (unfold fs; governs). assert (G2 : governs fs (b "limit") sqLimit (d_pointer 0%Z d_int)) by (unfold fs; governs).
  assert (G3 : governs fs (b "tol") sqTolerance (d_pointer 0%Z d_int)) by (unfold fs; governs).
  apply struct_implements; [exact St|]. intros l x T. rewrite flags_ok by assumption. unfold fs at 1. rewrite !Forall_cons_iff. cbn [fst snd]. split.
  - intros [(H1 & H2 & H3 & _) <-]. split; [exact (kept _ _ _ fs _ _ _ _ z _ _ l Ap G1 string_implements T H1)|]. split; [exact (kept _ _ _ fs _ _ _ _ z _ _ l Ap G2 Pi T H2)|exact (kept _ _ _ fs _ _ _ _ z _ _ l Ap G3 Pi T H3)].
  - intros (H1 & H2 & H3). destruct (given _ _ _ fs _ _ (fun x a => mkSearch x (sqLimit a) (sqTolerance a)) _ z _ _ l _ Ap G1 string_implements T H1) as [F1 E1].
    destruct (given _ _ _ fs _ _ (fun x a => mkSearch (sqQuery a) x (sqTolerance a)) _ z _ _ l _ Ap G2 Pi T H2) as [F2 E2].
    destruct (given _ _ _ fs _ _ (fun x a => mkSearch (sqQuery a) (sqLimit a) x) _ z _ _ l _ Ap G3 Pi T H3) as [F3 E3].
    split; [auto|]. unfold same in *. destruct x, (fst _). cbn in E1, E2, E3. congruence.
Qed.
Lemma set_implements : implements set_query no_elements elements asks_set.
Proof.
  unfold set_query. set (fs := [_]). pose proof (slice_implements _ _ _ _ string_implements) as Pi.
  assert (St : all_steady fs) by (constructor; [apply Pi|constructor]). assert (Ap : apart fs) by apart.
  assert (G1 : governs fs (b "prefix") same (d_slice [] d_string)) by (unfold fs; governs).
  apply struct_implements; [exact St|]. intros l x T. rewrite flags_ok by assumption. unfold fs at 1. rewrite !Forall_cons_iff. cbn [fst snd].
  pose proof (field_ok _ _ _ fs _ same _ no_elements _ _ l x Ap G1 Pi T) as F. unfold same in *. split; [intros [[H _] E]; apply F; auto|intros H; apply F in H; destruct H; auto].
Qed.
Lemma mentions_implements : implements mentions_query (no_elements, None) (fun q => mkMentions (elements (fst q)) (snd q)) asks_mentions.
Proof.
  unfold mentions_query. set (fs := [_; _]). set (z := (no_elements, None)). pose proof (slice_implements _ _ _ _ string_implements) as P1. pose proof (pointer_implements _ _ _ _ options_implements) as P2.
  assert (St : all_steady fs) by (constructor; [apply keep_steady, P1|constructor; [apply keep_steady, P2|constructor]]). assert (Ap : apart fs) by apart.
  assert (G1 : governs fs (b "variants") fst (d_slice [] d_string)) by (unfold fs; governs). assert (G2 : governs fs (b "options") snd (d_pointer 0%Z mentions_options)) by (unfold fs; governs).
  apply struct_implements; [exact St|]. intros l x T. rewrite flags_ok by assumption. unfold fs at 1. rewrite !Forall_cons_iff. cbn [fst snd]. split.
  - intros [(H1 & H2 & _) <-]. split; [exact (kept _ _ _ fs _ _ _ _ z _ _ l Ap G1 P1 T H1)|exact (kept _ _ _ fs _ _ _ _ z _ _ l Ap G2 P2 T H2)].
  - intros [H1 H2]. destruct (given _ _ _ fs _ _ (fun x a => (x, snd a)) _ z _ _ l _ Ap G1 P1 T H1) as [F1 E1].
    destruct (given _ _ _ fs _ _ (fun x a => (fst a, x)) _ z _ _ l _ Ap G2 P2 T H2) as [F2 E2].
    split; [auto|]. unfold same in *. destruct x as [xv xl]. cbn [mqVariants mqLimit] in E1, E2. subst xv xl. reflexivity.
Qed.
Lemma format_implements fo : implements (hello_format fo) ([], []) same (a_format fo).
Proof.
  unfold hello_format. set (fs := [_; _; _]). set (z := ([], [])). pose proof (map_implements fo) as P3.
  assert (St : all_steady fs) by (constructor; [apply keep_steady, string_implements|constructor; [apply keep_steady, string_implements|constructor; [apply check_steady|constructor]]]). assert (Ap : apart fs) by apart.
  assert (G1 : governs fs (b "format") fst d_string) by (unfold fs; governs). assert (G2 : governs fs (b "version") snd d_string) by (unfold fs; governs).
  apply struct_implements; [exact St|]. intros l x T. rewrite flags_ok by assumption. unfold fs at 1. rewrite !Forall_cons_iff. cbn [fst snd]. split.
  - intros [(H1 & H2 & H3 & _) <-]. split; [exact (kept _ _ _ fs _ _ _ _ z _ _ l Ap G1 string_implements T H1)|]. split; [exact (kept _ _ _ fs _ _ _ _ z _ _ l Ap G2 string_implements T H2)|]. exact (proj1 (check_ok _ _ _ _ _ _ l _ P3 T) H3).
  - intros (H1 & H2 & H3). destruct (given _ _ _ fs _ _ (fun x a => (x, snd a)) _ z _ _ l _ Ap G1 string_implements T H1) as [F1 E1].
    destruct (given _ _ _ fs _ _ (fun x a => (fst a, x)) _ z _ _ l _ Ap G2 string_implements T H2) as [F2 E2]. pose proof (proj2 (check_ok _ _ _ _ _ _ l _ P3 T) H3) as F3.
    split; [auto|]. unfold same in *. destruct x as [x1 x2]. cbn [fst snd] in E1, E2. subst x1 x2. apply surjective_pairing.
Qed.
Lemma hello_implements fo : implements (hello_query fo) no_elements elements (asks_hello fo).
Proof.
  unfold hello_query. set (fs := [_; _]). pose proof (slice_implements _ _ _ _ (format_implements fo)) as P1.
  assert (St : all_steady fs) by (constructor; [apply P1|constructor; [apply check_steady|constructor]]). assert (Ap : apart fs) by apart.
  assert (G1 : governs fs (b "formats") same (d_slice ([], []) (hello_format fo))) by (unfold fs; governs).
  apply struct_implements; [exact St|]. intros l x T. rewrite flags_ok by assumption. unfold fs at 1. rewrite !Forall_cons_iff. cbn [fst snd].
  pose proof (field_ok _ _ _ fs _ same _ no_elements _ _ l x Ap G1 P1 T) as F. pose proof (check_ok _ _ _ _ _ _ l (b "version") string_implements T) as C. unfold same in *.
  split; [intros [(H1 & H2 & _) E]; split; [apply F; auto|apply C, H2]|intros [H1 H2]; apply F in H1; destruct H1 as [H1 E]; pose proof (proj2 C H2); auto].
Qed.
Lemma page_implements fo : implements (capture_data fo) [] same (a_page fo).
Proof.
  unfold capture_data. set (fs := [_; _; _]). pose proof (any_implements fo) as P3.
  assert (St : all_steady fs) by (constructor; [apply string_implements|constructor; [apply check_steady|constructor; [apply check_steady|constructor]]]). assert (Ap : apart fs) by apart.
  assert (G1 : governs fs (b "url") same d_string) by (unfold fs; governs).
  apply struct_implements; [exact St|]. intros l x T. rewrite flags_ok by assumption. unfold fs at 1. rewrite !Forall_cons_iff. cbn [fst snd].
  pose proof (field_ok _ _ _ fs _ same _ [] _ _ l x Ap G1 string_implements T) as F. pose proof (check_ok _ _ _ _ _ _ l (b "title") string_implements T) as C1. pose proof (check_ok _ _ _ _ _ _ l (b "body") P3 T) as C2. unfold same in *.
  split; [intros [(H1 & H2 & H3 & _) E]; split; [apply F; auto|split; [apply C1, H2|apply C2, H3]]|intros (H1 & H2 & H3); apply F in H1; destruct H1 as [H1 E]; pose proof (proj2 C1 H2); pose proof (proj2 C2 H3); auto].
Qed.
Lemma capture_implements fo : implements (capture_query fo) (mkCapture [] [] false) same (asks_capture fo).
Proof.
  unfold capture_query. set (fs := [_; _; _; _; _]). set (z := mkCapture [] [] false). pose proof (any_implements fo) as Pa. pose proof (page_implements fo) as Pp.
  assert (St : all_steady fs) by (constructor; [apply keep_steady, string_implements|constructor; [apply check_steady|constructor; [apply check_steady|constructor; [apply keep_steady, Pp|constructor; [apply keep_steady, Pa|constructor]]]]]). assert (Ap : apart fs) by apart.
  assert (G1 : governs fs (b "format") cqFormat d_string) by (unfold fs; governs). assert (G2 : governs fs (b "data") cqUrl (capture_data fo)) by (unfold fs; governs).
  assert (G3 : governs fs (b "error") cqError (d_any fo)) by (unfold fs; governs).
  apply struct_implements; [exact St|]. intros l x T. rewrite flags_ok by assumption. unfold fs at 1. rewrite !Forall_cons_iff. cbn [fst snd].
  pose proof (check_ok _ _ _ _ _ _ l (b "version") string_implements T) as C1. pose proof (check_ok _ _ _ _ _ _ l (b "options") Pa T) as C2. split.
  - intros [(H1 & H2 & H3 & H4 & H5 & _) <-]. split; [exact (kept _ _ _ fs _ _ _ _ z _ _ l Ap G1 string_implements T H1)|]. split; [exact (proj1 C1 H2)|]. split; [exact (proj1 C2 H3)|].
    split; [exact (kept _ _ _ fs _ _ _ _ z _ _ l Ap G2 Pp T H4)|exact (kept _ _ _ fs _ _ _ _ z _ _ l Ap G3 Pa T H5)].
  - intros (H1 & H2 & H3 & H4 & H5). destruct (given _ _ _ fs _ _ (fun x a => mkCapture x (cqUrl a) (cqError a)) _ z _ _ l _ Ap G1 string_implements T H1) as [F1 E1].
    destruct (given _ _ _ fs _ _ (fun x a => mkCapture (cqFormat a) x (cqError a)) _ z _ _ l _ Ap G2 Pp T H4) as [F2 E2].
    destruct (given _ _ _ fs _ _ (fun x a => mkCapture (cqFormat a) (cqUrl a) x) _ z _ _ l _ Ap G3 Pa T H5) as [F3 E3]. pose proof (proj2 C1 H2) as F4. pose proof (proj2 C2 H3) as F5.
    split; [auto 10|]. unfold same in *. destruct x, (fst _). cbn in E1, E2, E3. congruence.
Qed.
