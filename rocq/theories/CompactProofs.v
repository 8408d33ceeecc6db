(** Lemmas about compact: the value is the same. *)
From Coq Require Import ZifyBool ZifyNat ZifyN.
From Verif Require Import GoBase Utf8 Utf8Dec Utf8Proofs JsonStr Emacs Json JsonSpec PiecesExact JsonProofs Compact.

(** Bytes that are copied *)
Definition copied (c : ascii) : Prop := ~ In (N_of_ascii c) [60; 62; 38]%N.
Lemma copy_byte st c s : copied c -> N_of_ascii c <> 226%N -> (st = Outside -> is_space (N_of_ascii c) = false) ->
  compact_loop st (c :: s) = c :: compact_loop (next_state st (N_of_ascii c)) s.
Proof.
  intros C E O. cbn [compact_loop]. cbv zeta. unfold copied in C. cbn [In] in C.
  replace ((N_of_ascii c =? 60)%N || (N_of_ascii c =? 62)%N || (N_of_ascii c =? 38)%N) with false by lia.
  replace (N_of_ascii c =? 226)%N with false by lia. destruct st; [rewrite (O eq_refl)|..]; reflexivity.
Qed.
Lemma copy_inside t s : Forall (fun c => 128 <= N_of_ascii c /\ N_of_ascii c <> 226)%N t -> compact_loop Inside (t ++ s) = t ++ compact_loop Inside s.
Proof.
  induction t as [|c t IH]; intros F; [reflexivity|]. inversion F as [|? ? [H H'] F']; subst. cbn [app].
  rewrite copy_byte; [|unfold copied; cbn [In]; lia|assumption|discriminate].
  unfold next_state. replace (N_of_ascii c =? 34)%N with false by lia. replace (N_of_ascii c =? 92)%N with false by lia. rewrite IH by assumption. reflexivity.
Qed.
Lemma copy_outside t s : Forall (fun c => copied c /\ N_of_ascii c <> 226 /\ N_of_ascii c <> 34 /\ is_space (N_of_ascii c) = false)%N t ->
  compact_loop Outside (t ++ s) = t ++ compact_loop Outside s.
Proof.
  induction t as [|c t IH]; intros F; [reflexivity|]. inversion F as [|? ? (H & H1 & H2 & H3) F']; subst. cbn [app].
  rewrite copy_byte by auto. unfold next_state. replace (N_of_ascii c =? 34)%N with false by lia. rewrite IH by assumption. reflexivity.
Qed.
Lemma drop_space w s : space w -> compact_loop Outside (w ++ s) = compact_loop Outside s.
Proof.
  induction w as [|c w IH]; intros F; [reflexivity|]. inversion F as [|? ? H F']; subst. cbn [app compact_loop]. cbv zeta. cbn [In] in H.
  replace ((N_of_ascii c =? 60)%N || (N_of_ascii c =? 62)%N || (N_of_ascii c =? 38)%N) with false by lia.
  replace (N_of_ascii c =? 226)%N with false by lia. replace (is_space (N_of_ascii c)) with true by (unfold is_space; lia).
  cbn [next_state]. replace (N_of_ascii c =? 34)%N with false by lia. apply IH, F'.
Qed.

Lemma copy_226 c c1 c2 s : N_of_ascii c = 226%N -> ((N_of_ascii c1 =? 128) && ((N_of_ascii c2 =? 168) || (N_of_ascii c2 =? 169)))%N = false ->
  compact_loop Inside (c :: c1 :: c2 :: s) = c :: compact_loop Inside (c1 :: c2 :: s).
Proof.
  intros E T. transitivity (if (N_of_ascii c =? 60)%N || (N_of_ascii c =? 62)%N || (N_of_ascii c =? 38)%N
    then u_escape (N_of_ascii c) ++ compact_loop (next_state Inside (N_of_ascii c)) (c1 :: c2 :: s)
    else if (N_of_ascii c =? 226)%N then
      if ((N_of_ascii c1 =? 128) && ((N_of_ascii c2 =? 168) || (N_of_ascii c2 =? 169)))%N
      then u_escape (8192 + (N_of_ascii c2 - 128))%N ++ compact_loop Inside s
      else c :: compact_loop (next_state Inside (N_of_ascii c)) (c1 :: c2 :: s)
    else c :: compact_loop (next_state Inside (N_of_ascii c)) (c1 :: c2 :: s)); [reflexivity|].
  rewrite T, E. reflexivity.
Qed.

(** ** Strings *)
Lemma utf8_bytes r : valid_rune r = true -> (128 <= r)%N ->
  exists c t, utf8 r = c :: t /\ (128 <= N_of_ascii c)%N /\ Forall (fun c => 128 <= N_of_ascii c <= 191)%N t /\
    (N_of_ascii c = 226%N -> exists c1 c2, t = [c1; c2]).
Proof.
  intros V L. unfold utf8, encode1. unfold valid_rune in V. rewrite orb_true_iff, inr_true in V.
  repeat match goal with |- context [(?x <? ?y)%N] => destruct (N.ltb_spec x y) end; [lia|..].
  all: cbn [strN map]; eexists; eexists; (split; [reflexivity|]).
  - assert (r / 64 < 32)%N by (apply N.div_lt_upper_bound; lia). assert (r mod 64 < 64)%N by (apply N.mod_lt; lia).
    rewrite N_ascii_embedding by lia. split; [lia|]. split; [|lia]. repeat constructor; rewrite N_ascii_embedding by lia; lia.
  - assert (r / 4096 < 16)%N by (apply N.div_lt_upper_bound; lia). assert (r mod 64 < 64)%N by (apply N.mod_lt; lia).
    assert (r / 64 mod 64 < 64)%N by (apply N.mod_lt; lia).
    rewrite N_ascii_embedding by lia. split; [lia|]. split; [|eauto]. repeat constructor; rewrite N_ascii_embedding by lia; lia.
  - assert (r / 262144 < 5)%N by (apply N.div_lt_upper_bound; lia). assert (r mod 64 < 64)%N by (apply N.mod_lt; lia).
    assert (r / 64 mod 64 < 64)%N by (apply N.mod_lt; lia). assert (r / 4096 mod 64 < 64)%N by (apply N.mod_lt; lia).
    rewrite N_ascii_embedding by lia. split; [lia|]. split; [|lia]. repeat constructor; rewrite N_ascii_embedding by lia; lia.
Qed.
Definition kept_inside (rs : list rune) (t : str) : Prop := exists t', jchars rs t' /\ forall x, compact_loop Inside (t ++ x) = t' ++ compact_loop Inside x.
Lemma plain_char r rs t : valid_rune r = true -> (32 <= r)%N -> r <> 34%N -> r <> 92%N -> kept_inside rs t -> kept_inside (r :: rs) (utf8 r ++ t).
Proof.
  intros V L Q B (t' & J & K). destruct (N.lt_ge_cases r 128) as [S|M].
  - destruct (utf8_first r V) as (c & y & E & H & _). destruct (H S) as [Ec ->]. rewrite E.
    destruct (in_dec N.eq_dec r [60; 62; 38]%N) as [I|I].
    + exists (u_escape r ++ t'). split; [apply code_char; [lia|unfold surrogate; lia|exact J]|]. intros x. cbn [app compact_loop]. cbv zeta. rewrite Ec. cbn [In] in I.
      replace ((r =? 60)%N || (r =? 62)%N || (r =? 38)%N) with true by lia. cbn [next_state].
      replace (r =? 34)%N with false by lia. replace (r =? 92)%N with false by lia. rewrite K. apply app_assoc.
    + exists ([c] ++ t'). split; [rewrite <- E; apply jc_plain; assumption|]. intros x. cbn [app]. rewrite copy_byte; [|unfold copied; rewrite Ec; exact I|lia|discriminate].
      rewrite Ec. cbn [next_state]. replace (r =? 34)%N with false by lia. replace (r =? 92)%N with false by lia. rewrite K. reflexivity.
  - destruct (utf8_bytes r V M) as (c & y & E & Hc & Hy & H3).
    assert (KY : forall x, compact_loop Inside (y ++ x) = y ++ compact_loop Inside x).
    { intros x. apply copy_inside. eapply Forall_impl; [|exact Hy]. cbv beta. lia. }
    destruct (N.eq_dec (N_of_ascii c) 226) as [E2|E2].
    + destruct (H3 E2) as (c1 & c2 & ->).
      assert (Hc1 := Forall_inv Hy). assert (Hc2 := Forall_inv (Forall_inv_tail Hy)). cbv beta in Hc1, Hc2.
      destruct (((N_of_ascii c1 =? 128) && ((N_of_ascii c2 =? 168) || (N_of_ascii c2 =? 169)))%N) eqn:T.
      * assert (R : exists r0, In r0 [8232; 8233]%N /\ utf8 r0 = [c; c1; c2] /\ (8192 + (N_of_ascii c2 - 128) = r0)%N).
        { rewrite <- (ascii_N_embedding c), <- (ascii_N_embedding c1), <- (ascii_N_embedding c2), E2. replace (N_of_ascii c1) with 128%N by lia.
          assert (N_of_ascii c2 = 168 \/ N_of_ascii c2 = 169)%N as [-> | ->] by lia; [exists 8232%N|exists 8233%N]; (split; [cbn; auto|split; reflexivity]). }
        destruct R as (r0 & I0 & U0 & N0).
        assert (r = r0) as ->.
        { apply (utf8_split r r0 [] []); [exact V| |rewrite E, U0; reflexivity]. cbn in I0. destruct I0 as [<- | [<- |[]]]; reflexivity. }
        exists (u_escape r0 ++ t'). split; [apply code_char; [|unfold surrogate|exact J]; cbn in I0; lia|].
        intros x. rewrite U0. cbn [app compact_loop]. cbv zeta. rewrite E2. cbn [N.eqb orb]. change (226 =? 226)%N with true. cbn [Pos.eqb orb].
        rewrite T, N0, K. apply app_assoc.
      * exists (utf8 r ++ t'). split; [apply jc_plain; assumption|]. intros x. rewrite E. cbn [app]. rewrite (copy_226 c c1 c2 _ E2 T).
        specialize (KY (t ++ x)). cbn [app] in KY. rewrite KY, K. reflexivity.
    + exists (utf8 r ++ t'). split; [apply jc_plain; assumption|]. intros x. rewrite E. cbn [app]. rewrite copy_byte; [|unfold copied; cbn [In]; lia|exact E2|discriminate].
      cbn [next_state]. replace (N_of_ascii c =? 34)%N with false by lia. replace (N_of_ascii c =? 92)%N with false by lia.
      rewrite <- app_assoc, KY, K, app_assoc. reflexivity.
Qed.
Lemma backslash_step x : compact_loop Inside (backslash :: x) = backslash :: compact_loop Escaped x.
Proof. reflexivity. Qed.
Lemma escaped_step c x : copied c -> N_of_ascii c <> 226%N -> compact_loop Escaped (c :: x) = c :: compact_loop Inside x.
Proof. intros H E. rewrite copy_byte; [reflexivity|assumption|assumption|discriminate]. Qed.
Lemma hex_char c n : hex_digit c n -> copied c /\ N_of_ascii c <> 226%N /\ N_of_ascii c <> 34%N /\ N_of_ascii c <> 92%N.
Proof. unfold hex_digit, copied. cbn [In]. lia. Qed.
Lemma hex_code_step h n x : hex_code h n -> compact_loop Inside (h ++ x) = h ++ compact_loop Inside x.
Proof.
  intros (c1 & c2 & c3 & c4 & n1 & n2 & n3 & n4 & -> & H1 & H2 & H3 & H4 & _). cbn [app].
  apply hex_char in H1, H2, H3, H4. destruct H1 as (A1 & B1 & C1 & D1), H2 as (A2 & B2 & C2 & D2), H3 as (A3 & B3 & C3 & D3), H4 as (A4 & B4 & C4 & D4).
  assert (N : forall c, N_of_ascii c <> 34%N -> N_of_ascii c <> 92%N -> next_state Inside (N_of_ascii c) = Inside).
  { intros c X Y. cbn [next_state]. replace (N_of_ascii c =? 34)%N with false by lia. replace (N_of_ascii c =? 92)%N with false by lia. reflexivity. }
  rewrite copy_byte, N by (assumption || discriminate). rewrite copy_byte, N by (assumption || discriminate).
  rewrite copy_byte, N by (assumption || discriminate). rewrite copy_byte, N by (assumption || discriminate). reflexivity.
Qed.
Lemma u_copied : copied "u"%char /\ N_of_ascii "u" <> 226%N. Proof. split; [unfold copied; cbn; intuition discriminate|discriminate]. Qed.
Lemma inside_ok rs t : jchars rs t -> kept_inside rs t.
Proof.
  induction 1 as [|r rs t V L Q B J IH|c r rs t I J IH|h n rs t C N J IH|h1 h2 n1 n2 rs t C1 C2 N1 N2 J IH].
  - exists []. split; [constructor|reflexivity].
  - apply plain_char; assumption.
  - destruct IH as (t' & J' & K). exists (backslash :: c :: t'). split; [apply jc_escape; assumption|]. intros x. cbn [app].
    rewrite backslash_step, escaped_step, K; [reflexivity|..]; cbn in I; unfold copied;
      repeat (destruct I as [I|I]; [injection I as <- <-; cbn; intuition discriminate|]); contradiction.
  - destruct IH as (t' & J' & K). exists (backslash :: "u"%char :: h ++ t'). split; [eapply jc_code; eassumption|]. intros x. cbn [app].
    rewrite backslash_step, escaped_step, <- app_assoc, (hex_code_step _ _ _ C), K by apply u_copied. rewrite <- app_assoc. reflexivity.
  - destruct IH as (t' & J' & K). exists (backslash :: "u"%char :: h1 ++ backslash :: "u"%char :: h2 ++ t'). split; [apply jc_pair; assumption|]. intros x. cbn [app].
    rewrite backslash_step, escaped_step, <- app_assoc, (hex_code_step _ _ _ C1) by apply u_copied. cbn [app].
    rewrite backslash_step, escaped_step, <- app_assoc, (hex_code_step _ _ _ C2), K by apply u_copied. rewrite <- app_assoc. cbn [app]. rewrite <- app_assoc. reflexivity.
Qed.
Definition kept (P : str -> Prop) (t : str) : Prop := exists t', P t' /\ forall x, compact_loop Outside (t ++ x) = t' ++ compact_loop Outside x.
Lemma string_kept s t : jstring s t -> kept (jstring s) t.
Proof.
  intros (y & J & ->). destruct (inside_ok _ _ J) as (y' & J' & K). exists (quote :: y' ++ [quote]). split; [exists y'; auto|]. intros x. cbn [app].
  change (compact_loop Outside (quote :: (y ++ [quote]) ++ x)) with (quote :: compact_loop Inside ((y ++ [quote]) ++ x)). rewrite <- app_assoc, K, <- app_assoc. reflexivity.
Qed.
Lemma literal_kept (P : str -> Prop) t : P t -> Forall (fun c => copied c /\ N_of_ascii c <> 226 /\ N_of_ascii c <> 34 /\ is_space (N_of_ascii c) = false)%N t -> kept P t.
Proof. intros H F. exists t. split; [exact H|]. intros x. apply copy_outside, F. Qed.
Ltac plain_bytes := repeat constructor; unfold copied; cbn; intuition discriminate.
Lemma out_step c x : In c (b "[]{},:") -> compact_loop Outside (c :: x) = c :: compact_loop Outside x.
Proof. intros I. cbn in I. repeat (destruct I as [<-|I]; [reflexivity|]). contradiction. Qed.
Lemma space_nil : space []. Proof. constructor. Qed.
Ltac step_char := rewrite out_step by (cbn; tauto).
Ltac reassoc := repeat (cbn [app b list_ascii_of_string] || rewrite <- app_assoc || rewrite app_nil_r).
Lemma compact_kept :
  (forall v t, jtext v t -> kept (jtext v) t) /\ (forall l t, jitems l t -> kept (jitems l) t) /\ (forall l t, jmembers l t -> kept (jmembers l) t).
Proof.
  apply json_mind.
  - apply literal_kept; [constructor|plain_bytes].
  - apply literal_kept; [constructor|plain_bytes].
  - apply literal_kept; [constructor|plain_bytes].
  - intros t N. apply literal_kept; [constructor; exact N|]. destruct (number_chars t N) as [F _]. eapply Forall_impl; [|exact F].
    intros c Hc. unfold num_char in Hc. unfold copied, is_space. cbn [In].
    destruct Hc as [Hc|Hc]; [lia|]. cbn in Hc. repeat (destruct Hc as [<-|Hc]; [cbn; intuition discriminate|]). contradiction.
  - intros s t J. destruct (string_kept s t J) as (t' & J' & K). exists t'. split; [constructor; exact J'|exact K].
  - intros w W. exists (b "[]"). split; [apply (jt_arr0 []), space_nil|]. intros x. cbn [b list_ascii_of_string app]. step_char. rewrite <- app_assoc, drop_space by exact W. cbn [app]. step_char. reflexivity.
  - intros l t _ (t' & J & K). exists (b "[" ++ t' ++ b "]"). split; [apply jt_arr; exact J|]. intros x. cbn [b list_ascii_of_string app]. step_char. rewrite <- app_assoc, K. cbn [app]. step_char. rewrite <- app_assoc. reflexivity.
  - intros w W. exists (b "{}"). split; [apply (jt_obj0 []), space_nil|]. intros x. cbn [b list_ascii_of_string app]. step_char. rewrite <- app_assoc, drop_space by exact W. cbn [app]. step_char. reflexivity.
  - intros l t _ (t' & J & K). exists (b "{" ++ t' ++ b "}"). split; [apply jt_obj; exact J|]. intros x. cbn [b list_ascii_of_string app]. step_char. rewrite <- app_assoc, K. cbn [app]. step_char. rewrite <- app_assoc. reflexivity.
  - intros w1 w2 v t W1 W2 _ (t' & J & K). exists t'. split.
    + pose proof (ji_one [] [] v t' space_nil space_nil J) as H. cbn [app] in H. rewrite app_nil_r in H. exact H.
    + intros x. rewrite <- !app_assoc, drop_space, K, drop_space by assumption. reflexivity.
  - intros w1 w2 v t l y W1 W2 _ (t' & J & K) _ (y' & J' & K'). exists (t' ++ b "," ++ y'). split.
    + exact (ji_more [] [] v t' l y' space_nil space_nil J J').
    + intros x. rewrite <- !app_assoc, drop_space, K, drop_space by assumption. cbn [b list_ascii_of_string app]. step_char. rewrite K'. reflexivity.
  - intros w1 w2 w3 w4 k kt v t W1 W2 W3 W4 Jk _ (t' & J & K). destruct (string_kept _ _ Jk) as (kt' & Jk' & Kk). exists (kt' ++ b ":" ++ t'). split.
    + pose proof (jm_one [] [] [] [] k kt' v t' space_nil space_nil space_nil space_nil Jk' J) as H. cbn [app] in H. rewrite app_nil_r in H. exact H.
    + intros x. rewrite <- !app_assoc, drop_space, Kk, drop_space by assumption. cbn [b list_ascii_of_string app]. step_char. rewrite drop_space, K, drop_space by assumption. reflexivity.
  - intros w1 w2 w3 w4 k kt v t l y W1 W2 W3 W4 Jk _ (t' & J & K) _ (y' & J' & K'). destruct (string_kept _ _ Jk) as (kt' & Jk' & Kk). exists (kt' ++ b ":" ++ t' ++ b "," ++ y'). split.
    + exact (jm_more [] [] [] [] k kt' v t' l y' space_nil space_nil space_nil space_nil Jk' J J').
    + intros x. rewrite <- !app_assoc, drop_space, Kk, drop_space by assumption. cbn [b list_ascii_of_string app]. step_char. rewrite drop_space, K, drop_space by assumption.
      step_char. rewrite K'. repeat (cbn [app] || rewrite <- app_assoc). reflexivity.
Qed.
Lemma compact_value v t : jtext v t -> jtext v (compact t).
Proof.
  intros J. destruct (proj1 compact_kept v t J) as (t' & J' & K). unfold compact. specialize (K []). rewrite app_nil_r in K. cbn [compact_loop] in K. rewrite app_nil_r in K. rewrite K. exact J'.
Qed.

(** What is written by the encoder is not changed, so results of MarshalJSON are written as is. *)
Lemma bytes_exact r x : valid_rune r = true -> ~ In r [34; 92; 60; 62; 38; 8232; 8233]%N ->
  compact_loop Inside (utf8 r ++ x) = utf8 r ++ compact_loop Inside x.
Proof.
  intros V I. cbn [In] in I. destruct (N.lt_ge_cases r 128) as [S|M].
  - destruct (utf8_first r V) as (c & y & E & H & _). destruct (H S) as [Ec ->]. rewrite E. cbn [app].
    rewrite copy_byte; [|unfold copied; rewrite Ec; cbn [In]; lia|lia|discriminate]. rewrite Ec. cbn [next_state].
    replace (r =? 34)%N with false by lia. replace (r =? 92)%N with false by lia. reflexivity.
  - destruct (utf8_bytes r V M) as (c & y & E & Hc & Hy & H3).
    assert (KY : forall x, compact_loop Inside (y ++ x) = y ++ compact_loop Inside x).
    { intros z. apply copy_inside. eapply Forall_impl; [|exact Hy]. cbv beta. lia. }
    rewrite E. destruct (N.eq_dec (N_of_ascii c) 226) as [E2|E2].
    + destruct (H3 E2) as (c1 & c2 & ->).
      destruct (((N_of_ascii c1 =? 128) && ((N_of_ascii c2 =? 168) || (N_of_ascii c2 =? 169)))%N) eqn:T.
      * exfalso. assert (R : exists r0, In r0 [8232; 8233]%N /\ utf8 r0 = [c; c1; c2]).
        { rewrite <- (ascii_N_embedding c), <- (ascii_N_embedding c1), <- (ascii_N_embedding c2), E2. replace (N_of_ascii c1) with 128%N by lia.
          assert (N_of_ascii c2 = 168 \/ N_of_ascii c2 = 169)%N as [-> | ->] by lia; [exists 8232%N|exists 8233%N]; (split; [cbn; auto|reflexivity]). }
        destruct R as (r0 & I0 & U0).
        assert (r = r0) as ->.
        { apply (utf8_split r r0 [] []); [exact V| |rewrite E, U0; reflexivity]. cbn in I0. destruct I0 as [<- | [<- |[]]]; reflexivity. }
        cbn in I0. lia.
      * cbn [app]. rewrite (copy_226 c c1 c2 _ E2 T). specialize (KY x). cbn [app] in KY. rewrite KY. reflexivity.
    + cbn [app]. rewrite copy_byte; [|unfold copied; cbn [In]; lia|exact E2|discriminate].
      cbn [next_state]. replace (N_of_ascii c =? 34)%N with false by lia. replace (N_of_ascii c =? 92)%N with false by lia. rewrite KY. reflexivity.
Qed.
Lemma u_escape_exact r x : (r < 65536)%N -> compact_loop Inside (u_escape r ++ x) = u_escape r ++ compact_loop Inside x.
Proof.
  intros L. destruct (u_escape_ok r L) as (h & -> & H). cbn [app]. rewrite backslash_step, escaped_step, (hex_code_step _ _ _ H) by apply u_copied. reflexivity.
Qed.
Lemma char_exact p x : valid_rune (fst p) = true -> (snd p = strN (encode1 (fst p)) \/ (fst p = rune_error /\ length (snd p) = 1)) ->
  compact_loop Inside (json_char p ++ x) = json_char p ++ compact_loop Inside x.
Proof.
  destruct p as [r bytes]. cbn [fst snd]. intros V H. unfold json_char.
  destruct (N.eqb_spec r 34); [reflexivity|]. destruct (N.eqb_spec r 92); [reflexivity|]. destruct (N.eqb_spec r 10); [reflexivity|].
  destruct (N.eqb_spec r 13); [reflexivity|]. destruct (N.eqb_spec r 9); [reflexivity|].
  destruct (((r <? 32) || (r =? 60) || (r =? 62) || (r =? 38))%N) eqn:E1; [apply u_escape_exact; lia|].
  destruct (((r =? 8232) || (r =? 8233))%N) eqn:E2; [apply u_escape_exact; lia|].
  destruct ((r =? rune_error)%N && (length bytes =? 1)) eqn:E3; [apply u_escape_exact; reflexivity|].
  destruct H as [-> |[-> H]]; [apply bytes_exact; [exact V|cbn [In]; lia]|]. rewrite H in E3. discriminate E3.
Qed.
Lemma string_exact s x : compact_loop Outside (json_string s ++ x) = json_string s ++ compact_loop Outside x.
Proof.
  unfold json_string. change dquote with [quote]. cbn [app].
  change (compact_loop Outside (quote :: (flat_map json_char (pieces s) ++ [quote]) ++ x)) with (quote :: compact_loop Inside ((flat_map json_char (pieces s) ++ [quote]) ++ x)).
  f_equal. assert (F : Forall (fun p => valid_rune (fst p) = true /\ (snd p = strN (encode1 (fst p)) \/ (fst p = rune_error /\ length (snd p) = 1))) (pieces s)) by apply pieces_exact.
  induction F as [|p l [V H] F IH]; [reflexivity|]. cbn [flat_map]. rewrite <- !app_assoc, char_exact by assumption. rewrite <- app_assoc in IH. rewrite IH. rewrite <- !app_assoc. reflexivity.
Qed.
Lemma integer_exact n x : compact_loop Outside (integer n ++ x) = integer n ++ compact_loop Outside x.
Proof.
  apply copy_outside. destruct (number_chars _ (integer_ok n)) as [F _]. eapply Forall_impl; [|exact F].
  intros c Hc. unfold num_char in Hc. unfold copied, is_space. cbn [In].
  destruct Hc as [Hc|Hc]; [lia|]. cbn in Hc. repeat (destruct Hc as [<-|Hc]; [cbn; intuition discriminate|]). contradiction.
Qed.
Lemma encode_exact j : forall x, compact_loop Outside (encode j ++ x) = encode j ++ compact_loop Outside x.
Proof.
  induction j as [|v|n|s|l F|l F] using json_ind'; intros x; cbn [encode].
  - reflexivity.
  - destruct v; reflexivity.
  - apply integer_exact.
  - apply string_exact.
  - cbn [b list_ascii_of_string app]. step_char. f_equal. rewrite <- !app_assoc.
    assert (K : compact_loop Outside (commas (map encode l) ++ b "]" ++ x) = commas (map encode l) ++ b "]" ++ compact_loop Outside x).
    { induction F as [|j l H F IH]; [cbn [map commas app b list_ascii_of_string]; step_char; reflexivity|].
      cbn [map commas]. destruct l as [|j' l]; cbn [map] in *.
      - rewrite H. cbn [b list_ascii_of_string app]. step_char. reflexivity.
      - rewrite <- !app_assoc, H. f_equal. change (b "," ++ ?a) with (","%char :: a). cbn [app]. step_char. f_equal. exact IH. }
    exact K.
  - cbn [b list_ascii_of_string app]. step_char. f_equal. rewrite <- !app_assoc.
    set (m := fun m : str * json => json_string (fst m) ++ ":"%char :: encode (snd m)).
    assert (M : Forall (fun p => forall x, compact_loop Outside (m p ++ x) = m p ++ compact_loop Outside x) l).
    { eapply Forall_impl; [|exact F]. intros p H y. unfold m. rewrite <- !app_assoc, string_exact. f_equal. cbn [app]. step_char. rewrite H. reflexivity. }
    assert (K : compact_loop Outside (commas (map m l) ++ b "}" ++ x) = commas (map m l) ++ b "}" ++ compact_loop Outside x).
    { clear F. induction M as [|j l H F IH]; [cbn [map commas app b list_ascii_of_string]; step_char; reflexivity|].
      cbn [map commas]. destruct l as [|j' l]; cbn [map] in *.
      - rewrite H. cbn [b list_ascii_of_string app]. step_char. reflexivity.
      - rewrite <- !app_assoc, H. f_equal. change (b "," ++ ?a) with (","%char :: a). cbn [app]. step_char. f_equal. exact IH. }
    exact K.
Qed.
Lemma compact_encode j : compact (encode j) = encode j.
Proof. unfold compact. pose proof (encode_exact j []) as H. rewrite app_nil_r in H. rewrite H. cbn [compact_loop]. apply app_nil_r. Qed.
