(** The parser of JSON texts: every text of RFC 8259 is read as its value, every text that passes the scanner is read. *)
From Coq Require Import ZifyBool ZifyNat ZifyN.
From Verif Require Import GoBase Utf8 Utf8Proofs Utf8Dec JsonSpec JsonProofs CompactProofs Frame Stream StreamSpec Backend Server Unmarshal.

(** ** Characters *)
Lemma decode1_encode r s : valid_rune r = true -> exists b0 p, encode1 r = b0 :: p /\ decode1 b0 (p ++ s) = (r, s).
Proof.
  unfold valid_rune, encode1. intros H. apply orb_true_iff in H. rewrite inr_true, N.ltb_lt in H.
  destruct (N.ltb_spec r 128) as [H1|H1].
  { eexists; eexists; split; [reflexivity|]. cbn [app]. unfold decode1. destruct (N.ltb_spec r 128); [reflexivity|lia]. }
  destruct (N.ltb_spec r 2048) as [H2|H2].
  { eexists; eexists; split; [reflexivity|]. cbn [app]. unfold decode1. destruct (N.ltb_spec (192 + r / 64) 128); [lia|].
    inr_case 194%N 223%N (192 + r / 64)%N. unfold cont. inr_case 128%N 191%N (128 + r mod 64)%N. f_equal. lia. }
  destruct (N.ltb_spec r 65536) as [H3|H3].
  { eexists; eexists; split; [reflexivity|]. cbn [app]. unfold decode1. destruct (N.ltb_spec (224 + r / 4096) 128); [lia|].
    inr_case 194%N 223%N (224 + r / 4096)%N. inr_case 224%N 239%N (224 + r / 4096)%N.
    assert (second3 (224 + r / 4096) (128 + (r / 64) mod 64) = true) as ->.
    { unfold second3, cont. destruct (N.eqb_spec (224 + r / 4096) 224); [apply inr_true; lia|]. destruct (N.eqb_spec (224 + r / 4096) 237); apply inr_true; lia. }
    unfold cont. inr_case 128%N 191%N (128 + r mod 64)%N. cbn [andb]. f_equal. lia. }
  eexists; eexists; split; [reflexivity|]. cbn [app]. unfold decode1. destruct (N.ltb_spec (240 + r / 262144) 128); [lia|].
  inr_case 194%N 223%N (240 + r / 262144)%N. inr_case 224%N 239%N (240 + r / 262144)%N. inr_case 240%N 244%N (240 + r / 262144)%N.
  assert (second4 (240 + r / 262144) (128 + (r / 4096) mod 64) = true) as ->.
  { unfold second4, cont. destruct (N.eqb_spec (240 + r / 262144) 240); [apply inr_true; lia|]. destruct (N.eqb_spec (240 + r / 262144) 244); apply inr_true; lia. }
  unfold cont. inr_case 128%N 191%N (128 + r mod 64)%N. inr_case 128%N 191%N (128 + (r / 64) mod 64)%N. cbn [andb]. f_equal. lia.
Qed.
Lemma hexval_ok c n : hex_digit c n -> hexval c = Some n.
Proof.
  unfold hex_digit, hexval. cbn zeta. intros H.
  repeat match goal with |- context [if ?x then _ else _] => destruct x eqn:? end; try (f_equal; lia).
Qed.
Lemma hex4_ok h n x : hex_code h n -> hex4 (h ++ x) = Some (n, x).
Proof. intros (c1 & c2 & c3 & c4 & n1 & n2 & n3 & n4 & -> & A & B & C & D & ->). cbn [app hex4]. rewrite (hexval_ok _ _ A), (hexval_ok _ _ B), (hexval_ok _ _ C), (hexval_ok _ _ D). reflexivity. Qed.
Lemma hex_code_length h n : hex_code h n -> length h = 4.
Proof. intros (c1 & c2 & c3 & c4 & n1 & n2 & n3 & n4 & -> & _). reflexivity. Qed.
Lemma escaped_ok c r : In (c, r) escapes -> escaped c = Some r /\ Ascii.eqb c "u" = false.
Proof. cbn. intros H. repeat (destruct H as [H|H]; [injection H as <- <-; split; reflexivity|]). destruct H. Qed.

(** ** Strings *)
Definition reads_chars (rs : list rune) (t : str) : Prop := forall fuel x, length t < fuel -> unquote fuel (t ++ quote :: x) = Some (rs, x).
Lemma reads_end : reads_chars [] [].
Proof. intros [|fuel] x L; [cbn in L; lia|]. reflexivity. Qed.
Lemma quote_no c : c <> quote -> Ascii.eqb c quote = false. Proof. apply Ascii.eqb_neq. Qed.
Lemma backslash_no c : c <> backslash -> Ascii.eqb c backslash = false. Proof. apply Ascii.eqb_neq. Qed.
Lemma reads_escape c r rs t : In (c, r) escapes -> reads_chars rs t -> reads_chars (r :: rs) (backslash :: c :: t).
Proof.
  intros I H [|fuel] x L; [cbn in L; lia|]. cbn [length] in L. destruct (escaped_ok _ _ I) as [E U]. cbn [app unquote]. change (Ascii.eqb backslash quote) with false. change (Ascii.eqb backslash backslash) with true. cbn [andb].
  cbn match. rewrite U, E, H by lia. reflexivity.
Qed.
Lemma reads_code h n rs t : hex_code h n -> ~ surrogate n -> reads_chars rs t -> reads_chars (n :: rs) (backslash :: "u"%char :: h ++ t).
Proof.
  intros J S H [|fuel] x L; [cbn in L; lia|]. cbn [length] in L. rewrite app_length in L. cbn [app unquote]. change (Ascii.eqb backslash quote) with false. change (Ascii.eqb backslash backslash) with true. cbn match.
  change (Ascii.eqb "u" "u") with true. cbn match. rewrite <- app_assoc, (hex4_ok _ _ _ J). unfold surrogate in S. replace ((55296 <=? n) && (n <? 57344))%N with false by lia. rewrite H by lia. reflexivity.
Qed.
Lemma reads_pair h1 h2 n1 n2 rs t : hex_code h1 n1 -> hex_code h2 n2 -> (55296 <= n1 < 56320)%N -> (56320 <= n2 < 57344)%N -> reads_chars rs t ->
  reads_chars (65536 + (n1 - 55296) * 1024 + (n2 - 56320) :: rs)%N (backslash :: "u"%char :: h1 ++ backslash :: "u"%char :: h2 ++ t).
Proof.
  intros J1 J2 A B H [|fuel] x L; [cbn in L; lia|]. cbn [length] in L. rewrite app_length in L. cbn [length] in L. rewrite app_length in L. cbn [app unquote]. change (Ascii.eqb backslash quote) with false. change (Ascii.eqb backslash backslash) with true. cbn match.
  change (Ascii.eqb "u" "u") with true. cbn match. rewrite <- app_assoc, (hex4_ok _ _ _ J1). replace ((55296 <=? n1) && (n1 <? 57344))%N with true by lia.
  cbn [app]. unfold getu4. change (Ascii.eqb backslash backslash && Ascii.eqb "u" "u")%bool with true. cbn match. rewrite <- app_assoc, (hex4_ok _ _ _ J2).
  replace ((n1 <? 56320) && (56320 <=? n2) && (n2 <? 57344))%N with true by lia. rewrite H by lia. reflexivity.
Qed.
Lemma reads_plain r rs t : valid_rune r = true -> (32 <= r)%N -> r <> 34%N -> r <> 92%N -> reads_chars rs t -> reads_chars (r :: rs) (utf8 r ++ t).
Proof.
  intros V G Q B H fuel x L. rewrite app_length in L. destruct (decode1_encode r (bytesN (t ++ quote :: x)) V) as (b0 & p & E & D).
  assert (F : Forall (fun x => x < 256)%N (b0 :: p)) by (rewrite <- E; apply encode1_bound, V). inversion_clear F as [|? ? F0 Fp].
  assert (K : (32 <= b0)%N /\ b0 <> 34%N /\ b0 <> 92%N).
  { pose proof (f_equal (hd 0%N) E) as E0. cbn [hd] in E0. clear D E. subst b0. clear F0. unfold encode1. destruct (N.ltb_spec r 128); [cbn [hd]; auto|]. destruct (N.ltb_spec r 2048); [cbn [hd]; clear; generalize (r / 64)%N; lia|]. destruct (N.ltb_spec r 65536); cbn [hd]; clear; [generalize (r / 4096)%N|generalize (r / 262144)%N]; lia. }
  unfold utf8 in *. rewrite E in *. cbn [strN map length] in L. rewrite map_length in L. destruct fuel as [|fuel]; [lia|]. cbn [strN map app unquote].
  rewrite quote_no, backslash_no; [|intros Z; apply (f_equal N_of_ascii) in Z; rewrite N_ascii_embedding in Z by exact F0; cbn in Z; lia..].
  rewrite (N_ascii_embedding b0) by exact F0. replace (b0 <? 32)%N with false by lia. rewrite <- app_assoc, bytesN_app. fold (strN p). rewrite bytesN_strN by exact Fp. rewrite D, strN_bytesN, H by lia. reflexivity.
Qed.
Lemma chars_read rs t : jchars rs t -> reads_chars rs t.
Proof. induction 1; [apply reads_end|apply reads_plain; assumption|apply reads_escape; assumption|apply reads_code; assumption|apply reads_pair; assumption]. Qed.
(** Any bytes *)
Lemma gchars_tail c t : gchars (c :: t) -> (128 <= N_of_ascii c)%N -> gchars t.
Proof. intros G L. inversion G; subst; auto; cbn in L; lia. Qed.
Lemma gchars_drop p : forall t, gchars (p ++ t) -> Forall (fun c => 128 <= N_of_ascii c)%N p -> gchars t.
Proof. induction p as [|c p IH]; intros t G F; [exact G|]. inversion_clear F. eapply IH; [|eassumption]. eapply gchars_tail; eassumption. Qed.
Lemma hex_val c : hex_byte c -> exists n, hexval c = Some n. Proof. intros (n & H). exists n. apply hexval_ok, H. Qed.
Lemma gchars_code s : gchars (backslash :: "u"%char :: s) -> exists h1 h2 h3 h4 t, s = h1 :: h2 :: h3 :: h4 :: t /\ hex_byte h1 /\ hex_byte h2 /\ hex_byte h3 /\ hex_byte h4 /\ gchars t.
Proof.
  intros G. inversion G as [|c t L Q B G' E|c t I G' E|h1 h2 h3 h4 t A1 A2 A3 A4 G' E]; subst.
  - congruence.
  - cbn in I. intuition discriminate.
  - exists h1, h2, h3, h4, t. auto 10.
Qed.
(** Decoding does not go beyond a quote. *)
Lemma decode1_quote b0 s : exists r p s', s = p ++ s' /\ Forall (fun x => 128 <= x)%N p /\ forall y, decode1 b0 (s ++ 34%N :: y) = (r, s' ++ 34%N :: y).
Proof.
  assert (Z : forall x, cont x = true -> (128 <= x)%N) by (unfold cont; intros x H; apply inr_true in H; lia).
  assert (Z3 : forall x y, second3 x y = true -> (128 <= y)%N) by (unfold second3, cont; intros x y H; destruct (x =? 224)%N, (x =? 237)%N; apply inr_true in H; lia).
  assert (Z4 : forall x y, second4 x y = true -> (128 <= y)%N) by (unfold second4, cont; intros x y H; destruct (x =? 240)%N, (x =? 244)%N; apply inr_true in H; lia).
  assert (Q3 : forall x, second3 x 34 = false) by (intros x; destruct (second3 x 34) eqn:E; [apply Z3 in E; lia|reflexivity]).
  assert (Q4 : forall x, second4 x 34 = false) by (intros x; destruct (second4 x 34) eqn:E; [apply Z4 in E; lia|reflexivity]).
  assert (Q : cont 34 = false) by reflexivity.
  unfold decode1. destruct (b0 <? 128)%N; [exists b0, [], s; auto|]. destruct (inr 194 223 b0).
  { destruct s as [|b1 s]; cbn [app]; [rewrite Q; exists rune_error, [], []; auto|]. destruct (cont b1) eqn:E; [|exists rune_error, [], (b1 :: s); auto]. eexists _, [b1], s. split; [reflexivity|]. split; [auto|]. reflexivity. }
  destruct (inr 224 239 b0).
  { destruct s as [|b1 [|b2 s]]; cbn [app].
    - exists rune_error, [], []. split; [reflexivity|]. split; [constructor|]. intros [|y1 y]; [reflexivity|]. rewrite Q3. reflexivity.
    - exists rune_error, [], [b1]. split; [reflexivity|]. split; [constructor|]. intros y. rewrite Q, andb_false_r. reflexivity.
    - destruct (second3 b0 b1 && cont b2)%bool eqn:E; [|exists rune_error, [], (b1 :: b2 :: s); auto]. apply andb_true_iff in E. destruct E as [E1 E2]. eexists _, [b1; b2], s. split; [reflexivity|]. split; [repeat (apply Forall_cons; [eauto|]); apply Forall_nil|]. reflexivity. }
  destruct (inr 240 244 b0); [|exists rune_error, [], s; auto].
  destruct s as [|b1 [|b2 [|b3 s]]]; cbn [app].
  - exists rune_error, [], []. split; [reflexivity|]. split; [constructor|]. intros [|y1 [|y2 y]]; [reflexivity..|]. rewrite Q4. reflexivity.
  - exists rune_error, [], [b1]. split; [reflexivity|]. split; [constructor|]. intros [|y1 y]; [reflexivity|]. rewrite Q, andb_false_r. reflexivity.
  - exists rune_error, [], [b1; b2]. split; [reflexivity|]. split; [constructor|]. intros y. rewrite Q, andb_false_r. reflexivity.
  - destruct (second4 b0 b1 && cont b2 && cont b3)%bool eqn:E; [|exists rune_error, [], (b1 :: b2 :: b3 :: s); auto]. apply andb_true_iff in E. destruct E as [E E3]. apply andb_true_iff in E. destruct E as [E1 E2].
    eexists _, [b1; b2; b3], s. split; [reflexivity|]. split; [repeat (apply Forall_cons; [eauto|]); apply Forall_nil|]. reflexivity.
Qed.
Lemma bytes_high p : Forall (fun x => 128 <= x)%N (bytesN p) -> Forall (fun c => 128 <= N_of_ascii c)%N p.
Proof. unfold bytesN. rewrite Forall_map. auto. Qed.
Lemma bytes_split t p s : bytesN t = p ++ s -> exists t1 t2, t = t1 ++ t2 /\ p = bytesN t1 /\ s = bytesN t2.
Proof. intros E. apply map_eq_app in E. destruct E as (t1 & t2 & -> & <- & <-). exists t1, t2. auto. Qed.
Lemma getu4_end x : getu4 (quote :: x) = None. Proof. destruct x; reflexivity. Qed.
Lemma getu4_one c x : getu4 (c :: quote :: x) = None. Proof. unfold getu4. change (Ascii.eqb quote "u") with false. rewrite andb_false_r. reflexivity. Qed.
Lemma gchars_read t : gchars t -> exists rs, reads_chars rs t.
Proof.
  intros G. remember (length t) as n eqn:En. revert t En G. induction n as [n IH] using lt_wf_ind. intros t -> G. destruct G as [|c t L Q B G|c t I G|h1 h2 h3 h4 t A1 A2 A3 A4 G].
  - exists []. apply reads_end.
  - destruct (decode1_quote (N_of_ascii c) (bytesN t)) as (r & p & s' & E & F & D). apply bytes_split in E. destruct E as (t1 & t2 & -> & -> & ->). apply bytes_high in F.
    pose proof (gchars_drop _ _ G F) as G'. destruct (IH (length t2)) with (t := t2) as (rs & H); [cbn [length]; rewrite app_length; lia|reflexivity|exact G'|].
    exists (r :: rs). intros [|fuel] y Lf; [lia|]. cbn [app unquote]. rewrite (quote_no _ Q), (backslash_no _ B). replace (N_of_ascii c <? 32)%N with false by lia.
    rewrite bytesN_app. change (bytesN (quote :: y)) with (34%N :: bytesN y). rewrite D. rewrite strN_app, strN_bytesN. change (strN (34%N :: bytesN y)) with (quote :: strN (bytesN y)). rewrite strN_bytesN.
    rewrite H; [reflexivity|]. cbn [length] in Lf. rewrite app_length in Lf. lia.
  - apply in_map_iff in I. destruct I as ([c' r] & Ec & I). cbn in Ec. subst c'. destruct (IH (length t)) with (t := t) as (rs & H); [cbn [length]; lia|reflexivity|exact G|].
    exists (r :: rs). apply reads_escape; assumption.
  - destruct (hex_val _ A1) as (n1 & E1). destruct (hex_val _ A2) as (n2 & E2). destruct (hex_val _ A3) as (n3 & E3). destruct (hex_val _ A4) as (n4 & E4).
    destruct (IH (length t)) with (t := t) as (rs & H); [cbn [length]; lia|reflexivity|exact G|].
    assert (U : forall fuel y, unquote (S fuel) (backslash :: "u"%char :: h1 :: h2 :: h3 :: h4 :: t ++ quote :: y) =
      let rr := (4096 * n1 + 256 * n2 + 16 * n3 + n4)%N in let s3 := t ++ quote :: y in
      if (55296 <=? rr)%N && (rr <? 57344)%N then
        match getu4 s3 with
        | Some (rr1, s4) => if (rr <? 56320)%N && (56320 <=? rr1)%N && (rr1 <? 57344)%N then add (65536 + (rr - 55296) * 1024 + (rr1 - 56320))%N (unquote fuel s4) else add rune_error (unquote fuel s3)
        | None => add rune_error (unquote fuel s3)
        end
      else add rr (unquote fuel s3)).
    { intros fuel y. cbn [unquote]. change (Ascii.eqb backslash quote) with false. change (Ascii.eqb backslash backslash) with true. change (Ascii.eqb "u" "u") with true. cbn match. unfold hex4. rewrite E1, E2, E3, E4. reflexivity. }
    remember (4096 * n1 + 256 * n2 + 16 * n3 + n4)%N as rr eqn:Er. cbn zeta in U.
    assert (Lone : (forall y, getu4 (t ++ quote :: y) = None) -> exists rs0, reads_chars rs0 (backslash :: "u"%char :: h1 :: h2 :: h3 :: h4 :: t)).
    { intros K. exists ((if (55296 <=? rr)%N && (rr <? 57344)%N then rune_error else rr) :: rs). intros [|fuel] y Lf; [lia|]. cbn [length] in Lf. cbn [app]. rewrite U, K. destruct ((55296 <=? rr)%N && (rr <? 57344)%N); rewrite H by lia; reflexivity. }
    destruct t as [|c [|u t]]; [apply Lone; apply getu4_end|apply Lone; intros y; apply getu4_one|].
    destruct (Ascii.eqb_spec c backslash) as [->|Nc]; [|apply Lone; intros y; cbn [app getu4]; rewrite (backslash_no _ Nc); reflexivity].
    destruct (Ascii.eqb_spec u "u"%char) as [->|Nu]; [|apply Lone; intros y; cbn [app getu4]; apply Ascii.eqb_neq in Nu; rewrite Nu, andb_false_r; reflexivity]. clear Lone.
    destruct (gchars_code _ G) as (g1 & g2 & g3 & g4 & z & -> & B1 & B2 & B3 & B4 & Gz). destruct (hex_val _ B1) as (m1 & F1). destruct (hex_val _ B2) as (m2 & F2). destruct (hex_val _ B3) as (m3 & F3). destruct (hex_val _ B4) as (m4 & F4).
    remember (4096 * m1 + 256 * m2 + 16 * m3 + m4)%N as rr1 eqn:Er1.
    assert (K : forall y, getu4 ((backslash :: "u"%char :: g1 :: g2 :: g3 :: g4 :: z) ++ quote :: y) = Some (rr1, z ++ quote :: y)).
    { intros y. cbn [app getu4]. change (Ascii.eqb backslash backslash && Ascii.eqb "u" "u")%bool with true. cbn match. unfold hex4. rewrite F1, F2, F3, F4, <- Er1. reflexivity. }
    destruct (IH (length z)) with (t := z) as (rs' & H'); [cbn [length]; lia|reflexivity|exact Gz|].
    destruct ((55296 <=? rr) && (rr <? 57344))%N.
    + destruct ((rr <? 56320) && (56320 <=? rr1) && (rr1 <? 57344))%N eqn:EP.
      * exists ((65536 + (rr - 55296) * 1024 + (rr1 - 56320))%N :: rs'). intros [|fuel] y Lf; [lia|]. cbn [length] in Lf. change ((backslash :: "u"%char :: h1 :: h2 :: h3 :: h4 :: backslash :: "u"%char :: g1 :: g2 :: g3 :: g4 :: z) ++ quote :: y) with (backslash :: "u"%char :: h1 :: h2 :: h3 :: h4 :: (backslash :: "u"%char :: g1 :: g2 :: g3 :: g4 :: z) ++ quote :: y).
        rewrite U, K, EP, H' by lia. reflexivity.
      * exists (rune_error :: rs). intros [|fuel] y Lf; [lia|]. cbn [length] in Lf. change ((backslash :: "u"%char :: h1 :: h2 :: h3 :: h4 :: backslash :: "u"%char :: g1 :: g2 :: g3 :: g4 :: z) ++ quote :: y) with (backslash :: "u"%char :: h1 :: h2 :: h3 :: h4 :: (backslash :: "u"%char :: g1 :: g2 :: g3 :: g4 :: z) ++ quote :: y).
        rewrite U, K, EP, H by (cbn [length]; lia). reflexivity.
    + exists (rr :: rs). intros [|fuel] y Lf; [lia|]. cbn [length] in Lf. change ((backslash :: "u"%char :: h1 :: h2 :: h3 :: h4 :: backslash :: "u"%char :: g1 :: g2 :: g3 :: g4 :: z) ++ quote :: y) with (backslash :: "u"%char :: h1 :: h2 :: h3 :: h4 :: (backslash :: "u"%char :: g1 :: g2 :: g3 :: g4 :: z) ++ quote :: y).
      rewrite U, H by (cbn [length]; lia). reflexivity.
Qed.

(** ** Values *)
Definition reads (v : value) (t : str) : Prop :=
  (exists c x, t = c :: x /\ ~ space_char c /\ ~ In c (b ",:]}")) /\
  forall fuel w x, space w -> stops x -> 2 * length t + 1 <= fuel -> parse_value fuel (w ++ t ++ x) = Some (v, x).
Definition reads_items (l : list value) (t : str) : Prop := forall fuel x, 2 * length t + 2 <= fuel -> parse_items fuel (t ++ "]"%char :: x) = Some (l, x).
Definition reads_members (l : list member) (t : str) : Prop := forall fuel x, 2 * length t + 2 <= fuel -> parse_members fuel (t ++ "}"%char :: x) = Some (l, x).
Lemma space_is c : space_char c <-> isSpace (N_of_ascii c) = true.
Proof. unfold space_char, isSpace. cbn. lia. Qed.
Lemma skip_space w c x : space w -> ~ space_char c -> skip (w ++ c :: x) = c :: x.
Proof.
  intros W N. induction W as [|d w D W IH]; cbn [app skip].
  - destruct (isSpace (N_of_ascii c)) eqn:E; [exfalso; apply N, space_is, E|reflexivity].
  - rewrite (proj1 (space_is d) D). exact IH.
Qed.
Lemma skip_here c x : ~ space_char c -> skip (c :: x) = c :: x.
Proof. apply (skip_space []). constructor. Qed.
Lemma skip_all w : space w -> skip w = [].
Proof. induction 1 as [|d w D W IH]; [reflexivity|]. cbn [skip]. rewrite (proj1 (space_is d) D). exact IH. Qed.
Lemma reads_skip v t w x : reads v t -> space w -> skip (w ++ t ++ x) = t ++ x.
Proof. intros [(c & y & -> & N & _) _] W. cbn [app]. apply skip_space; assumption. Qed.
Lemma number_byte_ok c : number_byte c = true <-> num_char c.
Proof.
  unfold number_byte, num_char, isDigit. rewrite orb_true_iff, existsb_exists. split.
  - intros [H|(x & I & E)]; [left; lia|]. apply Ascii.eqb_eq in E. subst x. right. cbn in *. tauto.
  - intros [H|H]; [left; lia|]. right. exists c. split; [cbn in *; tauto|apply Ascii.eqb_refl].
Qed.
Lemma span_ok t x : Forall num_char t -> stops x -> span number_byte (t ++ x) = (t, x).
Proof.
  intros F P. induction F as [|c t C F IH]; cbn [app span].
  - destruct x as [|d x]; [reflexivity|]. cbn [span]. destruct (number_byte d) eqn:E; [|reflexivity]. apply number_byte_ok in E. exfalso. exact (P d x eq_refl E).
  - rewrite (proj2 (number_byte_ok c) C), IH. reflexivity.
Qed.
Lemma read_step fuel w c y : space w -> ~ space_char c -> parse_value (S fuel) (w ++ c :: y) = parse_value (S fuel) (c :: y).
Proof. intros W N. cbn [parse_value]. rewrite (skip_space w c y W N). rewrite (skip_here c y N). reflexivity. Qed.
Lemma reads_intro v c t : ~ space_char c -> ~ In c (b ",:]}") ->
  (forall fuel x, stops x -> 2 * length (c :: t) <= fuel -> parse_value (S fuel) (c :: t ++ x) = Some (v, x)) -> reads v (c :: t).
Proof.
  intros N M H. split; [eauto|]. intros [|fuel] w x W P L; [lia|]. cbn [app]. rewrite read_step by assumption. apply H; [exact P|]. lia.
Qed.
Ltac plain := solve [cbn; intuition (try discriminate; lia)].
Lemma reads_null : reads VNull (b "null").
Proof. apply reads_intro; [plain..|]. intros fuel x P _. reflexivity. Qed.
Lemma reads_true : reads (VBool true) (b "true").
Proof. apply reads_intro; [plain..|]. intros fuel x P _. reflexivity. Qed.
Lemma reads_false : reads (VBool false) (b "false").
Proof. apply reads_intro; [plain..|]. intros fuel x P _. reflexivity. Qed.
Lemma reads_num t : jnumber t -> reads (VNum t) t.
Proof.
  intros J. destruct (number_chars t J) as (F & c & y & -> & C).
  assert (K : N_of_ascii c = 45%N \/ (48 <= N_of_ascii c <= 57)%N) by (destruct C as [->|C]; [left; reflexivity|right; exact C]).
  assert (Z : forall d, N_of_ascii d <> 45%N -> ~ (48 <= N_of_ascii d <= 57)%N -> Ascii.eqb c d = false /\ Ascii.eqb d c = false).
  { intros d D1 D2. split; apply Ascii.eqb_neq; intros ->; lia. }
  apply reads_intro.
  - unfold space_char. cbn. lia.
  - intros H. cbn in H. repeat (destruct H as [<-|H]; [cbn in K; lia|]). exact H.
  - intros fuel x P _. cbn [parse_value]. rewrite (skip_here c) by (unfold space_char; cbn; lia). cbn [app].
    rewrite (proj1 (Z quote ltac:(cbn; lia) ltac:(cbn; lia))), (proj1 (Z "{"%char ltac:(cbn; lia) ltac:(cbn; lia))), (proj1 (Z "["%char ltac:(cbn; lia) ltac:(cbn; lia))).
    assert (W : forall d w, N_of_ascii d <> 45%N -> ~ (48 <= N_of_ascii d <= 57)%N -> cut (d :: w) (c :: y ++ x) = None) by (intros d w D1 D2; cbn [cut]; rewrite (proj2 (Z d D1 D2)); reflexivity).
    change (b "null") with ("n"%char :: b "ull"). change (b "true") with ("t"%char :: b "rue"). change (b "false") with ("f"%char :: b "alse"). rewrite !W by (cbn; lia).
    change (c :: y ++ x) with ((c :: y) ++ x). rewrite (span_ok _ x F P). reflexivity.
Qed.
Lemma reads_string rs t : reads_chars rs t -> reads (VStr rs) (quote :: t ++ [quote]).
Proof.
  intros H. apply reads_intro; [plain..|]. intros fuel x P _. cbn [parse_value]. rewrite (skip_here quote) by plain. cbn match. change (Ascii.eqb quote quote) with true. cbn match.
  rewrite <- app_assoc. cbn [app]. rewrite H; [reflexivity|]. rewrite app_length. cbn [length]. lia.
Qed.
Lemma reads_arr0 w : space w -> reads (VArr []) (b "[" ++ w ++ b "]").
Proof.
  intros W. apply reads_intro; [plain..|]. intros fuel x P _. cbn [parse_value]. rewrite (skip_here "["%char) by plain. cbn match.
  change (Ascii.eqb "[" quote) with false. change (Ascii.eqb "[" "{") with false. change (Ascii.eqb "[" "[") with true. cbn match. rewrite <- app_assoc. change (b "]" ++ x) with ("]"%char :: x). rewrite (skip_space w) by (exact W || plain). reflexivity.
Qed.
Lemma reads_obj0 w : space w -> reads (VObj []) (b "{" ++ w ++ b "}").
Proof.
  intros W. apply reads_intro; [plain..|]. intros fuel x P _. cbn [parse_value]. rewrite (skip_here "{"%char) by plain. cbn match.
  change (Ascii.eqb "{" quote) with false. change (Ascii.eqb "{" "{") with true. cbn match. rewrite <- app_assoc. change (b "}" ++ x) with ("}"%char :: x). rewrite (skip_space w) by (exact W || plain). reflexivity.
Qed.
(** The first character of items *)
Definition begins (t : str) : Prop := exists w c y, space w /\ t = w ++ c :: y /\ ~ space_char c /\ ~ In c (b ",:]}").
Lemma reads_arr l t : begins t -> reads_items l t -> reads (VArr l) (b "[" ++ t ++ b "]").
Proof.
  intros (w & c & y & W & -> & N & M) H. apply reads_intro; [plain..|]. intros fuel x P L. cbn [parse_value]. rewrite (skip_here "["%char) by plain. cbn match.
  change (Ascii.eqb "[" quote) with false. change (Ascii.eqb "[" "{") with false. change (Ascii.eqb "[" "[") with true. cbn match.
  specialize (H fuel x). cbn [length] in L. rewrite app_length in L. cbn [length] in L. rewrite <- app_assoc. change (b "]" ++ x) with ("]"%char :: x). rewrite H by lia.
  rewrite <- app_assoc. cbn [app]. rewrite (skip_space w c) by assumption.
  destruct c as [[] [] [] [] [] [] [] []]; try reflexivity. exfalso. apply M. cbn. auto.
Qed.
Lemma reads_obj l t : begins t -> reads_members l t -> reads (VObj (map fst l)) (b "{" ++ t ++ b "}").
Proof.
  intros (w & c & y & W & -> & N & M) H. apply reads_intro; [plain..|]. intros fuel x P L. cbn [parse_value]. rewrite (skip_here "{"%char) by plain. cbn match.
  change (Ascii.eqb "{" quote) with false. change (Ascii.eqb "{" "{") with true. cbn match.
  specialize (H fuel x). cbn [length] in L. rewrite app_length in L. cbn [length] in L. rewrite <- app_assoc. change (b "}" ++ x) with ("}"%char :: x). rewrite H by lia.
  rewrite <- app_assoc. cbn [app]. rewrite (skip_space w c) by assumption.
  destruct c as [[] [] [] [] [] [] [] []]; try reflexivity. exfalso. apply M. cbn. auto 6.
Qed.
Lemma items_one w1 w2 v t : space w1 -> space w2 -> reads v t -> reads_items [v] (w1 ++ t ++ w2).
Proof.
  intros W1 W2 R [|fuel] x L; [lia|]. rewrite !app_length in L. cbn [parse_items]. rewrite <- !app_assoc. rewrite (proj2 R) by (assumption || lia || (apply space_stop; [assumption|auto])).
  rewrite (skip_space w2) by (assumption || plain). reflexivity.
Qed.
Lemma items_more w1 w2 v t l x : space w1 -> space w2 -> reads v t -> reads_items l x -> reads_items (v :: l) (w1 ++ t ++ w2 ++ b "," ++ x).
Proof.
  intros W1 W2 R H [|fuel] z L; [lia|]. rewrite !app_length in L. cbn [length b] in L. cbn [parse_items]. rewrite <- !app_assoc. change (b "," ++ x ++ "]"%char :: z) with (","%char :: x ++ "]"%char :: z).
  rewrite (proj2 R) by (assumption || lia || (apply space_stop; [assumption|auto])). rewrite (skip_space w2) by (assumption || plain). rewrite H by (cbn in L; lia). reflexivity.
Qed.
Lemma members_step fuel w1 w2 w3 w4 k kt v t c x : space w1 -> space w2 -> space w3 -> space w4 -> reads_chars k kt -> reads v t -> c = ","%char \/ c = "]"%char \/ c = "}"%char -> 2 * length t + 1 <= fuel ->
  parse_members (S fuel) (w1 ++ (quote :: kt ++ [quote]) ++ w2 ++ b ":" ++ w3 ++ t ++ w4 ++ c :: x) =
  match c with
  | ","%char => add (k, v, t) (parse_members fuel x)
  | "}"%char => Some ([(k, v, t)], x)
  | _ => None
  end.
Proof.
  intros W1 W2 W3 W4 K R C L. cbn [parse_members]. cbn [app]. rewrite (skip_space w1) by (assumption || plain). change (Ascii.eqb quote quote) with true. cbn match.
  rewrite <- app_assoc. cbn [app]. rewrite K by (rewrite app_length; cbn [length]; lia). change (b ":" ++ w3 ++ t ++ w4 ++ c :: x) with (":"%char :: w3 ++ t ++ w4 ++ c :: x).
  rewrite (skip_space w2) by (assumption || plain). rewrite (reads_skip v t w3) by assumption. pose proof (proj2 R fuel [] (w4 ++ c :: x) space_nil (space_stop _ _ _ W4 C) L) as E. cbn [app] in E. rewrite E.
  assert (NC : ~ space_char c) by (destruct C as [->|[->| ->]]; plain). rewrite (skip_space w4) by assumption.
  replace (firstn (length (t ++ w4 ++ c :: x) - length (w4 ++ c :: x)) (t ++ w4 ++ c :: x)) with t; [reflexivity|].
  rewrite app_length. replace (length t + length (w4 ++ c :: x) - length (w4 ++ c :: x)) with (length t) by lia. rewrite firstn_app, Nat.sub_diag, firstn_all, firstn_O, app_nil_r. reflexivity.
Qed.
Lemma members_one w1 w2 w3 w4 k kt v t : space w1 -> space w2 -> space w3 -> space w4 -> reads_chars k kt -> reads v t ->
  reads_members [(k, v, t)] (w1 ++ (quote :: kt ++ [quote]) ++ w2 ++ b ":" ++ w3 ++ t ++ w4).
Proof.
  intros W1 W2 W3 W4 K R [|fuel] x L; [lia|]. rewrite !app_length in L. rewrite <- !app_assoc. rewrite (members_step fuel w1 w2 w3 w4 k kt v t "}"%char x) by (assumption || auto || lia). reflexivity.
Qed.
Lemma members_more w1 w2 w3 w4 k kt v t l y : space w1 -> space w2 -> space w3 -> space w4 -> reads_chars k kt -> reads v t -> reads_members l y ->
  reads_members ((k, v, t) :: l) (w1 ++ (quote :: kt ++ [quote]) ++ w2 ++ b ":" ++ w3 ++ t ++ w4 ++ b "," ++ y).
Proof.
  intros W1 W2 W3 W4 K R H [|fuel] x L; [lia|]. rewrite !app_length in L. rewrite <- !app_assoc. change (b "," ++ y ++ "}"%char :: x) with (","%char :: y ++ "}"%char :: x).
  change (length (b ",")) with 1 in L. rewrite (members_step fuel w1 w2 w3 w4 k kt v t ","%char) by (assumption || auto || lia). rewrite H by lia. reflexivity.
Qed.

Lemma begins_reads w v t y : space w -> reads v t -> begins (w ++ t ++ y).
Proof. intros W [(c & x & -> & N & M) _]. exists w, c, (x ++ y). auto. Qed.
Lemma begins_quote w y : space w -> begins (w ++ quote :: y).
Proof. intros W. exists w, quote, y. split; [exact W|]. split; [reflexivity|]. split; plain. Qed.
Lemma json_read :
  (forall v t, jtext v t -> reads v t) /\ (forall l t, jitems l t -> begins t /\ reads_items l t) /\ (forall l t, jmembers l t -> begins t /\ exists ms, reads_members ms t /\ map fst ms = l).
Proof.
  apply json_mind.
  - apply reads_null.
  - apply reads_true.
  - apply reads_false.
  - intros t J. apply reads_num, J.
  - intros s t (x & J & ->). apply reads_string, chars_read, J.
  - intros w W. apply reads_arr0, W.
  - intros l t _ [B R]. apply reads_arr; assumption.
  - intros w W. apply reads_obj0, W.
  - intros l t _ [B (ms & R & <-)]. apply reads_obj; assumption.
  - intros w1 w2 v t W1 W2 _ R. split; [eapply begins_reads; eassumption|apply items_one; assumption].
  - intros w1 w2 v t l x W1 W2 _ R _ [_ Rl]. split; [eapply begins_reads; eassumption|apply items_more; assumption].
  - intros w1 w2 w3 w4 k kt v t W1 W2 W3 W4 (y & J & ->) _ R. split; [apply begins_quote, W1|]. exists [(k, v, t)]. split; [apply members_one; try assumption; apply chars_read, J|reflexivity].
  - intros w1 w2 w3 w4 k kt v t l x W1 W2 W3 W4 (y & J & ->) _ R _ [_ (ms & Rl & <-)]. split; [apply begins_quote, W1|]. exists ((k, v, t) :: ms). split; [apply members_more; try assumption; apply chars_read, J|reflexivity].
Qed.
Lemma stops_space w : space w -> stops w.
Proof. intros W. destruct W as [|c w C W]; [intros ? ? E; discriminate E|]. apply num_stop. right. right. right. exact C. Qed.
Lemma reads_parse v t w w' : reads v t -> space w -> space w' -> parse (w ++ t ++ w') = Some v.
Proof.
  intros R W W'. unfold parse. rewrite (proj2 R); [|exact W|apply stops_space, W'|unfold budget_of; rewrite !app_length; lia]. rewrite skip_all by exact W'. reflexivity.
Qed.
Lemma document_parsed v t : jdocument v t -> parse t = Some v.
Proof. intros (w1 & x & w2 & W1 & W2 & J & ->). apply reads_parse; [apply json_read, J|assumption..]. Qed.

(** Any texts that pass the scanner *)
Scheme gtext_ind' := Induction for gtext Sort Prop
  with gitems_ind' := Induction for gitems Sort Prop
  with gmembers_ind' := Induction for gmembers Sort Prop.
Combined Scheme gtext_mind' from gtext_ind', gitems_ind', gmembers_ind'.

Lemma loose_read :
  (forall n t, gtext n t -> exists v, reads v t) /\ (forall n t, gitems n t -> begins t /\ exists l, reads_items l t) /\ (forall n t, gmembers n t -> begins t /\ exists ms, reads_members ms t).
Proof.
  apply gtext_mind'.
  - intros n t [<-|[<-|[<-|[]]]]; eexists; [apply reads_null|apply reads_true|apply reads_false].
  - intros n t J. eexists. apply reads_num, J.
  - intros n t (x & J & ->). destruct (gchars_read _ J) as (rs & R). eexists. apply reads_string, R.
  - intros n w W. eexists. apply reads_arr0, W.
  - intros n t _ [B (l & R)]. eexists. apply reads_arr; eassumption.
  - intros n w W. eexists. apply reads_obj0, W.
  - intros n t _ [B (ms & R)]. eexists. apply reads_obj; eassumption.
  - intros n w1 w2 t W1 W2 _ (v & R). split; [eapply begins_reads; eassumption|]. eexists. apply items_one; eassumption.
  - intros n w1 w2 t x W1 W2 _ (v & R) _ [_ (l & Rl)]. split; [eapply begins_reads; eassumption|]. eexists. apply items_more; eassumption.
  - intros n w1 w2 w3 w4 k t W1 W2 W3 W4 (y & J & ->) _ (v & R). destruct (gchars_read _ J) as (rs & Rk). split; [apply begins_quote, W1|]. eexists. apply members_one; eassumption.
  - intros n w1 w2 w3 w4 k t x W1 W2 W3 W4 (y & J & ->) _ (v & R) _ [_ (ms & Rl)]. destruct (gchars_read _ J) as (rs & Rk). split; [apply begins_quote, W1|]. eexists. apply members_more; eassumption.
Qed.
Lemma value_parsed t : value_text t -> exists v, parse t = Some v.
Proof.
  intros (w & n & x & W & _ & G & ->). destruct (proj1 loose_read _ _ G) as (v & R). exists v. rewrite <- (app_nil_r x). apply reads_parse; [exact R|exact W|constructor].
Qed.
