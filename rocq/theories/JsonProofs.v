(** Lemmas about JSON texts. *)
From Coq Require Import ZifyBool ZifyNat ZifyN.
From Verif Require Import GoBase Utf8 Utf8Dec Utf8Proofs JsonStr Emacs BackendSpec BackendMain Json JsonSpec PiecesExact.

(** ** JSON texts are not ambiguous *)

Lemma utf8_split r r' x x' : valid_rune r = true -> valid_rune r' = true -> utf8 r ++ x = utf8 r' ++ x' -> r = r' /\ x = x'.
Proof.
  intros V V' E. assert (R : runes_of (utf8 r ++ x) = runes_of (utf8 r' ++ x')) by (rewrite E; reflexivity).
  unfold runes_of, utf8 in R. rewrite !bytesN_app, !bytesN_strN in R by (apply encode1_bound; assumption).
  rewrite !decode_encode1 in R by assumption. injection R as -> _. split; [reflexivity|]. apply app_inv_head in E. exact E.
Qed.
Lemma utf8_first r : valid_rune r = true -> exists c t, utf8 r = c :: t /\ ((r < 128)%N -> N_of_ascii c = r /\ t = []) /\ ((128 <= r)%N -> (128 <= N_of_ascii c)%N).
Proof.
  intros V. unfold utf8, encode1. unfold valid_rune in V. rewrite orb_true_iff, inr_true in V.
  repeat match goal with |- context [(?x <? ?y)%N] => destruct (N.ltb_spec x y) end.
  all: cbn [strN map]; eexists; eexists; split; [reflexivity|]; (split; intros; [try lia|try lia]).
  - rewrite N_ascii_embedding by lia. auto.
  - rewrite N_ascii_embedding; [lia|]. assert (r / 64 < 32)%N by (apply N.div_lt_upper_bound; lia). lia.
  - rewrite N_ascii_embedding; [lia|]. assert (r / 4096 < 16)%N by (apply N.div_lt_upper_bound; lia). lia.
  - rewrite N_ascii_embedding; [lia|]. assert (r / 262144 < 5)%N by (apply N.div_lt_upper_bound; lia). lia.
Qed.
(** Characters that may be written as they are begin with neither a quote nor a backslash. *)
Lemma utf8_plain r t : valid_rune r = true -> (32 <= r)%N -> r <> 34%N -> r <> 92%N ->
  exists c x, utf8 r ++ t = c :: x /\ c <> quote /\ c <> backslash /\ (32 <= N_of_ascii c)%N.
Proof.
  intros V L Q B. destruct (utf8_first r V) as (c & x & E & S & M). exists c, (x ++ t). rewrite E. split; [reflexivity|].
  assert (N_of_ascii quote = 34%N) by reflexivity. assert (N_of_ascii backslash = 92%N) by reflexivity.
  destruct (N.lt_ge_cases r 128) as [H1|H1]; [destruct (S H1) as [S' _]|specialize (M H1)].
  - split; [congruence|]. split; [congruence|lia].
  - split; [intros ->; lia|]. split; [intros ->; lia|lia].
Qed.
Lemma hex_same c n n' : hex_digit c n -> hex_digit c n' -> n = n'.
Proof. unfold hex_digit. lia. Qed.
Lemma hex_code_same h h' n n' x x' : hex_code h n -> hex_code h' n' -> h ++ x = h' ++ x' -> n = n' /\ h = h' /\ x = x'.
Proof.
  intros (c1 & c2 & c3 & c4 & n1 & n2 & n3 & n4 & -> & H1 & H2 & H3 & H4 & ->) (d1 & d2 & d3 & d4 & m1 & m2 & m3 & m4 & -> & K1 & K2 & K3 & K4 & ->) E.
  injection E as -> -> -> -> ->. rewrite (hex_same _ _ _ H1 K1), (hex_same _ _ _ H2 K2), (hex_same _ _ _ H3 K3), (hex_same _ _ _ H4 K4). auto.
Qed.
Lemma escape_same c r r' : In (c, r) escapes -> In (c, r') escapes -> r = r'.
Proof.
  intros H H'. cbn in H, H'. repeat (destruct H as [H|H]; [injection H as <- <-; repeat (destruct H' as [H'|H']; [congruence|]); contradiction|]). contradiction.
Qed.
Lemma escape_not_u r : ~ In ("u"%char, r) escapes.
Proof. cbn. intuition discriminate. Qed.
Lemma jchars_same rs t : jchars rs t -> forall rs' t' x x', jchars rs' t' -> t ++ quote :: x = t' ++ quote :: x' -> rs = rs' /\ t = t' /\ x = x'.
Proof.
  induction 1 as [|r rs t V L Q B J IH|c r rs t I J IH|h n rs t C N J IH|h1 h2 n1 n2 rs t C1 C2 N1 N2 J IH]; intros rs' t' x x' J' E.
  - destruct J' as [|r' rs' t' V' L' Q' B' J'|c' r' rs' t' I' J'|h' n' rs' t' C' N' J'|h1' h2' n1' n2' rs' t' C1' C2' N1' N2' J'].
    + injection E as ->. auto.
    + exfalso. destruct (utf8_plain r' (t' ++ quote :: x') V' L' Q' B') as (c & y & Ec & K & _). rewrite <- app_assoc, Ec in E. injection E as E _. congruence.
    + discriminate E.
    + discriminate E.
    + discriminate E.
  - destruct (utf8_plain r (t ++ quote :: x) V L Q B) as (c & y & Ec & K1 & K2 & _).
    destruct J' as [|r' rs' t' V' L' Q' B' J'|c' r' rs' t' I' J'|h' n' rs' t' C' N' J'|h1' h2' n1' n2' rs' t' C1' C2' N1' N2' J'].
    1: exfalso; rewrite <- app_assoc, Ec in E; injection E as E _; congruence.
    2-4: exfalso; rewrite <- app_assoc, Ec in E; cbn [app] in E; injection E as E _; congruence.
    rewrite <- !app_assoc in E. apply utf8_split in E; [|assumption..]. destruct E as [<- E]. destruct (IH _ _ _ _ J' E) as (-> & -> & ->). auto.
  - destruct J' as [|r' rs' t' V' L' Q' B' J'|c' r' rs' t' I' J'|h' n' rs' t' C' N' J'|h1' h2' n1' n2' rs' t' C1' C2' N1' N2' J'].
    + discriminate E.
    + exfalso. destruct (utf8_plain r' (t' ++ quote :: x') V' L' Q' B') as (c' & y & Ec & K & K' & _). rewrite <- app_assoc, Ec in E. injection E as E _. congruence.
    + injection E as <- E. rewrite (escape_same _ _ _ I I'). destruct (IH _ _ _ _ J' E) as (-> & -> & ->). auto.
    + exfalso. injection E as -> _. apply (escape_not_u r), I.
    + exfalso. injection E as -> _. apply (escape_not_u r), I.
  - destruct J' as [|r' rs' t' V' L' Q' B' J'|c' r' rs' t' I' J'|h' n' rs' t' C' N' J'|h1' h2' n1' n2' rs' t' C1' C2' N1' N2' J'].
    + discriminate E.
    + exfalso. destruct (utf8_plain r' (t' ++ quote :: x') V' L' Q' B') as (c' & y & Ec & K & K' & _). rewrite <- app_assoc, Ec in E. injection E as E _. congruence.
    + exfalso. injection E as <- _. apply (escape_not_u r'), I'.
    + cbn [app] in E. injection E as E. rewrite <- !app_assoc in E. destruct (hex_code_same _ _ _ _ _ _ C C' E) as (-> & -> & E'). destruct (IH _ _ _ _ J' E') as (-> & -> & ->). auto.
    + exfalso. cbn [app] in E. injection E as E. rewrite <- !app_assoc in E. destruct (hex_code_same _ _ _ _ _ _ C C1' E) as (-> & -> & E'). unfold surrogate in N. lia.
  - destruct J' as [|r' rs' t' V' L' Q' B' J'|c' r' rs' t' I' J'|h' n' rs' t' C' N' J'|h1' h2' n1' n2' rs' t' C1' C2' N1' N2' J'].
    + discriminate E.
    + exfalso. destruct (utf8_plain r' (t' ++ quote :: x') V' L' Q' B') as (c' & y & Ec & K & K' & _). rewrite <- app_assoc, Ec in E. injection E as E _. congruence.
    + exfalso. injection E as <- _. apply (escape_not_u r'), I'.
    + exfalso. cbn [app] in E. injection E as E. rewrite <- !app_assoc in E. destruct (hex_code_same _ _ _ _ _ _ C1 C' E) as (-> & -> & E'). unfold surrogate in N'. lia.
    + cbn [app] in E. injection E as E. rewrite <- !app_assoc in E. destruct (hex_code_same _ _ _ _ _ _ C1 C1' E) as (-> & -> & E'). cbn [app] in E'. injection E' as E'.
      rewrite <- !app_assoc in E'. destruct (hex_code_same _ _ _ _ _ _ C2 C2' E') as (-> & -> & E2). destruct (IH _ _ _ _ J' E2) as (-> & -> & ->). auto.
Qed.
Lemma jstring_same rs t rs' t' x x' : jstring rs t -> jstring rs' t' -> t ++ x = t' ++ x' -> rs = rs' /\ t = t' /\ x = x'.
Proof.
  intros (y & J & ->) (y' & J' & ->) E. cbn [app] in E. injection E as E. rewrite <- !app_assoc in E. cbn [app] in E.
  destruct (jchars_same _ _ J _ _ _ _ J' E) as (-> & -> & ->). auto.
Qed.

Lemma munch (P : ascii -> Prop) s : forall s' t t', Forall P s -> Forall P s' -> (forall c x, t = c :: x -> ~ P c) -> (forall c x, t' = c :: x -> ~ P c) ->
  s ++ t = s' ++ t' -> s = s' /\ t = t'.
Proof.
  induction s as [|c s IH]; intros [|c' s'] t t' H H' N N' E.
  - auto.
  - exfalso. inversion_clear H'. eapply N; [exact E|assumption].
  - exfalso. inversion_clear H. eapply N'; [symmetry; exact E|assumption].
  - injection E as -> E. apply Forall_inv_tail in H, H'. destruct (IH _ _ _ H H' N N' E) as [-> ->]. auto.
Qed.
Definition num_char (c : ascii) : Prop := (48 <= N_of_ascii c <= 57)%N \/ In c (b "+-.eE").
Definition space_char (c : ascii) : Prop := In (N_of_ascii c) [9; 10; 13; 32]%N.
Definition stops (x : str) : Prop := forall c y, x = c :: y -> ~ num_char c.
Lemma number_chars t : jnumber t -> Forall num_char t /\ exists c x, t = c :: x /\ (c = "-"%char \/ (48 <= N_of_ascii c <= 57)%N).
Proof.
  assert (D : forall d, digits d -> Forall num_char d) by (intros d [_ D]; eapply Forall_impl; [|exact D]; intros a H; left; exact H).
  intros (sign & int & frac & exp & -> & S & I & F & X). split.
  - rewrite !Forall_app. split; [|split; [|split]].
    + destruct S as [->| ->]; [constructor|]. constructor; [right; cbn; tauto|constructor].
    + destruct I as [->|[I _]]; [|auto]. constructor; [left; cbn; lia|constructor].
    + destruct F as [->|(d & Dd & ->)]; [constructor|]. constructor; [right; cbn; tauto|auto].
    + destruct X as [->|(e & s & d & E & Ss & Dd & ->)]; [constructor|]. constructor.
      * right. cbn in *. tauto.
      * apply Forall_app. split; [|auto]. destruct Ss as [->|[->| ->]]; [constructor|constructor; [right; cbn; tauto|constructor]..].
  - destruct S as [->| ->]; [|eexists; eexists; split; [reflexivity|auto]]. destruct I as [->|[[N I] _]].
    + eexists; eexists; split; [reflexivity|]. right. cbn. lia.
    + destruct int as [|c int]; [congruence|]. inversion_clear I. eexists; eexists; split; [reflexivity|auto].
Qed.
Definition lead (v : value) (c : ascii) : Prop :=
  match v with
  | VNull => c = "n"%char
  | VBool true => c = "t"%char
  | VBool false => c = "f"%char
  | VNum _ => c = "-"%char \/ (48 <= N_of_ascii c <= 57)%N
  | VStr _ => c = quote
  | VArr _ => c = "["%char
  | VObj _ => c = "{"%char
  end.
Lemma lead_ok v t : jtext v t -> exists c x, t = c :: x /\ lead v c.
Proof.
  intros J. destruct J as [| | |t N|s t (x & _ & ->)| | | |]; cbn [lead]; try (eexists; eexists; split; [reflexivity|reflexivity]).
  destruct (number_chars t N) as (_ & c & x & -> & H). eauto.
Qed.
Lemma lead_chars v c : lead v c -> ~ space_char c /\ ~ In c (b ",:]}").
Proof.
  destruct v as [|[]|l|s|l|l]; cbn [lead]; try (intros ->; split; cbn; intuition (try discriminate; lia)).
  intros [->|H]; [split; cbn; intuition (try discriminate; lia)|]. split; cbn; [intuition lia|]. intros K. repeat (destruct K as [<-|K]; [cbn in H; lia|]). exact K.
Qed.
Definition shape (v v' : value) : Prop :=
  match v, v' with
  | VNull, VNull | VNum _, VNum _ | VStr _, VStr _ | VArr _, VArr _ | VObj _, VObj _ => True
  | VBool x, VBool y => x = y
  | _, _ => False
  end.
Lemma lead_shape v v' c : lead v c -> lead v' c -> shape v v'.
Proof.
  intros H H'. destruct v as [|[]|l|s|l|l], v' as [|[]|l'|s'|l'|l']; cbn [lead shape] in *; try exact I; try reflexivity; subst; try discriminate.
  all: try (destruct H as [H|H]; [discriminate|]; cbn in H; lia). all: destruct H' as [H'|H']; [discriminate|]; cbn in H'; lia.
Qed.
Lemma num_stop c x : (c = ","%char \/ c = "]"%char \/ c = "}"%char \/ space_char c) -> stops (c :: x).
Proof.
  intros H c' y E. injection E as <- _. unfold num_char. destruct H as [->|[->|[->|H]]]; cbn; try (intuition (try discriminate; lia)).
  cbn in H. intros [K|K]; [lia|]. repeat (destruct K as [<-|K]; [cbn in H; lia|]). exact K.
Qed.
Lemma space_stop w c x : space w -> c = ","%char \/ c = "]"%char \/ c = "}"%char -> stops (w ++ c :: x).
Proof.
  intros W C. destruct w as [|d w]; cbn [app]; apply num_stop; [tauto|]. inversion_clear W. right. right. right. assumption.
Qed.
(** Whitespace before something else *)
Lemma space_same w w' c c' x x' : space w -> space w' -> ~ space_char c -> ~ space_char c' -> w ++ c :: x = w' ++ c' :: x' -> w = w' /\ c = c' /\ x = x'.
Proof.
  intros W W' N N' E. destruct (munch space_char w w' (c :: x) (c' :: x')) as [-> E']; auto.
  - intros a y Ea. injection Ea as <- _. exact N.
  - intros a y Ea. injection Ea as <- _. exact N'.
  - injection E' as -> ->. auto.
Qed.
Lemma space_text w w' v v' t t' x x' : space w -> space w' -> jtext v t -> jtext v' t' -> w ++ t ++ x = w' ++ t' ++ x' -> w = w' /\ t ++ x = t' ++ x'.
Proof.
  intros W W' J J' E. destruct (lead_ok _ _ J) as (c & y & -> & L). destruct (lead_ok _ _ J') as (c' & y' & -> & L'). cbn [app] in *.
  destruct (lead_chars _ _ L) as [S _]. destruct (lead_chars _ _ L') as [S' _].
  destruct (space_same _ _ _ _ _ _ W W' S S' E) as (-> & -> & ->). auto.
Qed.
Lemma jstring_text s t : jstring s t -> jtext (VStr s) t.
Proof. constructor. assumption. Qed.
Ltac other_space := let H := fresh in intros H; cbn in H; intuition (try discriminate; lia).
Lemma items_first l t : jitems l t -> exists w v x c y, space w /\ t = w ++ c :: y /\ lead v c /\ l = v :: x.
Proof.
  intros J. destruct J as [w1 w2 v t W1 W2 J|w1 w2 v t l x W1 W2 J J2]; destruct (lead_ok _ _ J) as (c & y & -> & L).
  - exists w1, v, [], c, (y ++ w2). auto.
  - exists w1, v, l, c, (y ++ w2 ++ b "," ++ x). auto.
Qed.
Lemma members_first l t : jmembers l t -> exists w y, space w /\ t = w ++ quote :: y /\ l <> [].
Proof.
  intros J. destruct J as [w1 w2 w3 w4 k kt v t W1 W2 W3 W4 (z & _ & ->) J|w1 w2 w3 w4 k kt v t l x W1 W2 W3 W4 (z & _ & ->) J J2].
  - eexists; eexists; split; [exact W1|]. split; [reflexivity|discriminate].
  - eexists; eexists; split; [exact W1|]. split; [reflexivity|discriminate].
Qed.
Definition text_same v t := forall v' t' x x', jtext v' t' -> t ++ x = t' ++ x' -> stops x -> stops x' -> v = v' /\ t = t' /\ x = x'.
Definition items_same l t := forall l' t' x x', jitems l' t' -> t ++ "]"%char :: x = t' ++ "]"%char :: x' -> l = l' /\ t = t' /\ x = x'.
Definition members_same l t := forall l' t' x x', jmembers l' t' -> t ++ "}"%char :: x = t' ++ "}"%char :: x' -> l = l' /\ t = t' /\ x = x'.
Ltac norm E := repeat (rewrite <- ?app_assoc in E; cbn [app b list_ascii_of_string] in E).
Lemma same_shape v v' t t' x x' : jtext v t -> jtext v' t' -> t ++ x = t' ++ x' -> shape v v'.
Proof.
  intros J J' E. destruct (lead_ok _ _ J) as (c & y & -> & L). destruct (lead_ok _ _ J') as (c' & y' & -> & L'). injection E as <- _. exact (lead_shape _ _ _ L L').
Qed.
Lemma bracket_chars : ~ space_char "]"%char /\ ~ space_char "}"%char /\ ~ space_char ","%char /\ ~ space_char ":"%char /\ ~ space_char quote.
Proof. repeat split; intros H; cbn in H; intuition discriminate. Qed.
Lemma json_same : (forall v t, jtext v t -> text_same v t) /\ (forall l t, jitems l t -> items_same l t) /\ (forall l t, jmembers l t -> members_same l t).
Proof.
  destruct bracket_chars as (SB & SC & SM & SO & SQ).
  apply json_mind.
  - intros v' t' x x' J' E S S'. pose proof (same_shape _ _ _ _ _ _ jt_null J' E) as H. destruct v'; try contradiction. inversion J'; subst. norm E. injection E as ->. auto.
  - intros v' t' x x' J' E S S'. pose proof (same_shape _ _ _ _ _ _ jt_true J' E) as H. destruct v'; try contradiction. cbn in H. subst v. inversion J'; subst. norm E. injection E as ->. auto.
  - intros v' t' x x' J' E S S'. pose proof (same_shape _ _ _ _ _ _ jt_false J' E) as H. destruct v'; try contradiction. cbn in H. subst v. inversion J'; subst. norm E. injection E as ->. auto.
  - intros t N v' t' x x' J' E S S'. pose proof (same_shape _ _ _ _ _ _ (jt_num _ N) J' E) as H. destruct v'; try contradiction. inversion J' as [| | |t1 N'| | | | |]; subst.
    destruct (munch num_char t t' x x' (proj1 (number_chars _ N)) (proj1 (number_chars _ N')) S S' E) as [-> ->]. auto.
  - intros s t N v' t' x x' J' E S S'. pose proof (same_shape _ _ _ _ _ _ (jt_str _ _ N) J' E) as H. destruct v'; try contradiction. inversion J' as [| | | |s1 t1 N'| | | |]; subst.
    destruct (jstring_same _ _ _ _ _ _ N N' E) as (-> & -> & ->). auto.
  - intros w W v' t' x x' J' E S S'. pose proof (same_shape _ _ _ _ _ _ (jt_arr0 _ W) J' E) as H. destruct v'; try contradiction. inversion J' as [| | | | |w' W'|l1 t1 J1| |]; subst; norm E; injection E as E.
    + destruct (space_same _ _ _ _ _ _ W W' SB SB E) as (-> & _ & ->). auto.
    + exfalso. destruct (items_first _ _ J1) as (w' & v & y & c & z & W' & -> & L & _). norm E. destruct (lead_chars _ _ L) as [L1 L2].
      destruct (space_same _ _ _ _ _ _ W W' SB L1 E) as (_ & <- & _). apply L2. cbn. tauto.
  - intros l t J IH v' t' x x' J' E S S'. pose proof (same_shape _ _ _ _ _ _ (jt_arr _ _ J) J' E) as H. destruct v'; try contradiction. inversion J' as [| | | | |w' W'|l1 t1 J1| |]; subst; norm E; injection E as E.
    + exfalso. destruct (items_first _ _ J) as (w & v & y & c & z & W & -> & L & _). norm E. destruct (lead_chars _ _ L) as [L1 L2].
      destruct (space_same _ _ _ _ _ _ W W' L1 SB E) as (_ & -> & _). apply L2. cbn. tauto.
    + destruct (IH _ _ _ _ J1 E) as (-> & -> & ->). auto.
  - intros w W v' t' x x' J' E S S'. pose proof (same_shape _ _ _ _ _ _ (jt_obj0 _ W) J' E) as H. destruct v'; try contradiction. inversion J' as [| | | | | | |w' W'|l1 t1 J1]; subst; norm E; injection E as E.
    + destruct (space_same _ _ _ _ _ _ W W' SC SC E) as (-> & _ & ->). auto.
    + exfalso. destruct (members_first _ _ J1) as (w' & y & W' & -> & _). norm E.
      destruct (space_same _ _ _ _ _ _ W W' SC SQ E) as (_ & X & _). discriminate.
  - intros l t J IH v' t' x x' J' E S S'. pose proof (same_shape _ _ _ _ _ _ (jt_obj _ _ J) J' E) as H. destruct v'; try contradiction. inversion J' as [| | | | | | |w' W'|l1 t1 J1]; subst; norm E; injection E as E.
    + exfalso. destruct (members_first _ _ J) as (w & y & W & -> & _). norm E.
      destruct (space_same _ _ _ _ _ _ W W' SQ SC E) as (_ & X & _). discriminate.
    + destruct (IH _ _ _ _ J1 E) as (-> & -> & ->). auto.
  - intros w1 w2 v t W1 W2 J IH l' t' x x' J' E. destruct J' as [w1' w2' v' t' W1' W2' J'|w1' w2' v' t' l' y' W1' W2' J' J2']; norm E.
    + destruct (space_text _ _ _ _ _ _ _ _ W1 W1' J J' E) as [-> E1]. destruct (IH _ _ _ _ J' E1) as (-> & -> & E2); [apply space_stop; auto..|].
      destruct (space_same _ _ _ _ _ _ W2 W2' SB SB E2) as (-> & _ & ->). auto.
    + exfalso. destruct (space_text _ _ _ _ _ _ _ _ W1 W1' J J' E) as [-> E1]. destruct (IH _ _ _ _ J' E1) as (-> & -> & E2); [apply space_stop; auto..|].
      destruct (space_same _ _ _ _ _ _ W2 W2' SB SM E2) as (_ & X & _). discriminate.
  - intros w1 w2 v t l y W1 W2 J IH J2 IH2 l' t' x x' J' E. destruct J' as [w1' w2' v' t' W1' W2' J'|w1' w2' v' t' l' y' W1' W2' J' J2']; norm E.
    + exfalso. destruct (space_text _ _ _ _ _ _ _ _ W1 W1' J J' E) as [-> E1]. destruct (IH _ _ _ _ J' E1) as (-> & -> & E2); [apply space_stop; auto..|].
      destruct (space_same _ _ _ _ _ _ W2 W2' SM SB E2) as (_ & X & _). discriminate.
    + destruct (space_text _ _ _ _ _ _ _ _ W1 W1' J J' E) as [-> E1]. destruct (IH _ _ _ _ J' E1) as (-> & -> & E2); [apply space_stop; auto..|].
      destruct (space_same _ _ _ _ _ _ W2 W2' SM SM E2) as (-> & _ & E3). destruct (IH2 _ _ _ _ J2' E3) as (-> & -> & ->). auto.
  - intros w1 w2 w3 w4 k kt v t W1 W2 W3 W4 K J IH l' t' x x' J' E.
    destruct J' as [w1' w2' w3' w4' k' kt' v' t' W1' W2' W3' W4' K' J'|w1' w2' w3' w4' k' kt' v' t' l' y' W1' W2' W3' W4' K' J' J2']; norm E;
    destruct (space_text _ _ _ _ _ _ _ _ W1 W1' (jstring_text _ _ K) (jstring_text _ _ K') E) as [-> E1];
    destruct (jstring_same _ _ _ _ _ _ K K' E1) as (-> & -> & E2); destruct (space_same _ _ _ _ _ _ W2 W2' SO SO E2) as (-> & _ & E3);
    destruct (space_text _ _ _ _ _ _ _ _ W3 W3' J J' E3) as [-> E4]; destruct (IH _ _ _ _ J' E4) as (-> & -> & E5); try (apply space_stop; [assumption|auto]).
    + destruct (space_same _ _ _ _ _ _ W4 W4' SC SC E5) as (-> & _ & ->). auto.
    + exfalso. destruct (space_same _ _ _ _ _ _ W4 W4' SC SM E5) as (_ & X & _). discriminate.
  - intros w1 w2 w3 w4 k kt v t l y W1 W2 W3 W4 K J IH J2 IH2 l' t' x x' J' E.
    destruct J' as [w1' w2' w3' w4' k' kt' v' t' W1' W2' W3' W4' K' J'|w1' w2' w3' w4' k' kt' v' t' l' y' W1' W2' W3' W4' K' J' J2']; norm E;
    destruct (space_text _ _ _ _ _ _ _ _ W1 W1' (jstring_text _ _ K) (jstring_text _ _ K') E) as [-> E1];
    destruct (jstring_same _ _ _ _ _ _ K K' E1) as (-> & -> & E2); destruct (space_same _ _ _ _ _ _ W2 W2' SO SO E2) as (-> & _ & E3);
    destruct (space_text _ _ _ _ _ _ _ _ W3 W3' J J' E3) as [-> E4]; destruct (IH _ _ _ _ J' E4) as (-> & -> & E5); try (apply space_stop; [assumption|auto]).
    + exfalso. destruct (space_same _ _ _ _ _ _ W4 W4' SM SC E5) as (_ & X & _). discriminate.
    + destruct (space_same _ _ _ _ _ _ W4 W4' SM SM E5) as (-> & _ & E6). destruct (IH2 _ _ _ _ J2' E6) as (-> & -> & ->). auto.
Qed.
Lemma document_same v v' t : jdocument v t -> jdocument v' t -> v = v'.
Proof.
  intros (w1 & x & w2 & W1 & W2 & J & E) (w1' & x' & w2' & W1' & W2' & J' & E'). subst t. destruct (space_text _ _ _ _ _ _ _ _ W1 W1' J J' E') as [_ E1].
  assert (ST : forall w, space w -> stops w). { intros w W. destruct w as [|c w]; [intros c y Ec; discriminate|]. apply num_stop. inversion_clear W. auto. }
  destruct (proj1 json_same _ _ J _ _ _ _ J' E1) as (-> & _); auto.
Qed.

(** ** What is written by the encoder *)
Fixpoint value_of (j : json) : value :=
  match j with
  | JNull => VNull
  | JBool v => VBool v
  | JInt n => VNum (integer n)
  | JStr s => VStr (runes_of s)
  | JArr l => VArr (map value_of l)
  | JObj l => VObj (map (fun m => (runes_of (fst m), value_of (snd m))) l)
  end.
Lemma hex_ok n : (n < 16)%N -> hex_digit (hex n) n.
Proof.
  intros H. assert (C : In n (map N.of_nat (seq 0 16))). { apply in_map_iff. exists (N.to_nat n). rewrite in_seq. lia. }
  unfold hex_digit. cbn in C. repeat (destruct C as [<-|C]; [vm_compute; intuition congruence|]). contradiction.
Qed.
Lemma u_escape_ok r : (r < 65536)%N -> exists h, u_escape r = backslash :: "u"%char :: h /\ hex_code h r.
Proof.
  intros H. exists [hex (r / 4096 mod 16); hex (r / 256 mod 16); hex (r / 16 mod 16); hex (r mod 16)]. split; [reflexivity|].
  exists (hex (r / 4096 mod 16)), (hex (r / 256 mod 16)), (hex (r / 16 mod 16)), (hex (r mod 16)), (r / 4096 mod 16)%N, (r / 256 mod 16)%N, (r / 16 mod 16)%N, (r mod 16)%N.
  split; [reflexivity|]. repeat (split; [apply hex_ok, N.mod_lt; lia|]). lia.
Qed.
Lemma code_char r rs t : (r < 65536)%N -> ~ surrogate r -> jchars rs t -> jchars (r :: rs) (u_escape r ++ t).
Proof. intros L S J. destruct (u_escape_ok r L) as (h & -> & C). cbn [app]. apply jc_code; assumption. Qed.
Lemma escape_char c r rs t x : In (c, r) escapes -> x = backslash :: c :: t -> jchars rs t -> jchars (r :: rs) x.
Proof. intros I -> J. apply jc_escape; assumption. Qed.
Lemma char_ok p rs t : valid_rune (fst p) = true -> (snd p = strN (encode1 (fst p)) \/ (fst p = rune_error /\ length (snd p) = 1)) -> jchars rs t ->
  jchars (fst p :: rs) (json_char p ++ t).
Proof.
  destruct p as [r bs]. cbn [fst snd]. intros V E J. unfold json_char.
  destruct (N.eqb_spec r 34) as [->|N1]. { eapply escape_char; [|reflexivity|exact J]. cbn. tauto. }
  destruct (N.eqb_spec r 92) as [->|N2]. { eapply escape_char; [|reflexivity|exact J]. cbn. tauto. }
  destruct (N.eqb_spec r 10) as [->|N3]. { eapply escape_char; [|reflexivity|exact J]. cbn. tauto. }
  destruct (N.eqb_spec r 13) as [->|N4]. { eapply escape_char; [|reflexivity|exact J]. cbn. tauto. }
  destruct (N.eqb_spec r 9) as [->|N5]. { eapply escape_char; [|reflexivity|exact J]. cbn. tauto. }
  destruct ((r <? 32) || (r =? 60) || (r =? 62) || (r =? 38))%N eqn:B. { apply code_char; [lia| |exact J]. unfold surrogate. lia. }
  destruct ((r =? 8232) || (r =? 8233))%N eqn:B2. { apply code_char; [lia| |exact J]. unfold surrogate. lia. }
  destruct ((r =? rune_error)%N && (length bs =? 1)) eqn:B3.
  { apply andb_true_iff in B3. destruct B3 as [B3 _]. apply N.eqb_eq in B3. subst r. apply code_char; [reflexivity| |exact J]. unfold surrogate, rune_error. lia. }
  destruct E as [->|[-> L]]; [|rewrite L in B3; discriminate]. apply jc_plain; auto. lia.
Qed.
Lemma chars_ok l : Forall (fun p => valid_rune (fst p) = true /\ (snd p = strN (encode1 (fst p)) \/ (fst p = rune_error /\ length (snd p) = 1))) l ->
  jchars (map fst l) (flat_map json_char l).
Proof. induction 1 as [|p l [V E] F IH]; cbn [map flat_map]; [constructor|]. apply char_ok; assumption. Qed.
Lemma string_ok s : jstring (runes_of s) (json_string s).
Proof. exists (flat_map json_char (pieces s)). split; [|reflexivity]. rewrite <- (proj1 (pieces_ok s)). apply chars_ok, pieces_exact. Qed.
Lemma dec_first fuel : forall n acc, (0 < n)%N -> (n < 10 ^ N.of_nat fuel)%N -> 0 < fuel -> exists c x, dec_loop fuel n acc = c :: x /\ c <> "0"%char.
Proof.
  induction fuel as [|fuel IH]; intros n acc P L F; [lia|]. cbn [dec_loop]. destruct (N.ltb_spec n 10) as [H|H].
  - eexists; eexists; split; [reflexivity|]. unfold digit. intros E. apply (f_equal N_of_ascii) in E. rewrite N_ascii_embedding in E by lia. change (N_of_ascii "0"%char) with 48%N in E. lia.
  - rewrite Nat2N.inj_succ, N.pow_succ_r' in L. destruct fuel; [cbn in L; lia|]. apply IH; [|apply N.div_lt_upper_bound; lia|lia].
    apply N.div_str_pos. lia.
Qed.
Lemma integer_ok n : jnumber (integer n).
Proof.
  assert (P : forall k, (0 < k)%Z -> digits (decimal k) /\ forall x, decimal k <> "0"%char :: x).
  { intros k H. destruct (decimal_ok k H) as (A & B & _). split; [split; assumption|]. intros x E. unfold decimal in E.
    destruct (dec_first (S (N.to_nat (N.log2 (Z.to_N k)))) (Z.to_N k) []) as (c & y & E' & N); [lia| |lia|].
    - rewrite Nat2N.inj_succ, N2Nat.id. eapply N.lt_le_trans; [apply N.log2_spec; lia|]. apply N.pow_le_mono_l. lia.
    - rewrite E in E'. injection E' as <- _. contradiction. }
  unfold integer. destruct (Z.ltb_spec n 0) as [H|H].
  - exists (b "-"), (decimal (- n)), [], []. rewrite !app_nil_r. split; [reflexivity|]. split; [auto|]. split; [right; apply P; lia|auto].
  - exists [], (decimal n), [], []. rewrite !app_nil_r. split; [reflexivity|]. split; [auto|]. split; [|auto].
    destruct (Z.eq_dec n 0) as [->|]; [left; reflexivity|right; apply P; lia].
Qed.
Lemma items_ok l : l <> [] -> Forall (fun j => jtext (value_of j) (encode j)) l -> jitems (map value_of l) (commas (map encode l)).
Proof.
  intros N F. induction F as [|j l J F IH]; [congruence|]. destruct l as [|k l].
  - cbn [map commas]. replace (encode j) with ([] ++ encode j ++ []) by apply app_nil_r. constructor; [constructor..|exact J].
  - change (commas (map encode (j :: k :: l))) with ([] ++ encode j ++ [] ++ b "," ++ commas (map encode (k :: l))). cbn [map] in *.
    constructor; [constructor..|exact J|]. apply IH. discriminate.
Qed.
Lemma members_ok l : l <> [] -> Forall (fun m => jtext (value_of (snd m)) (encode (snd m))) l ->
  jmembers (map (fun m => (runes_of (fst m), value_of (snd m))) l) (commas (map (fun m => json_string (fst m) ++ b ":" ++ encode (snd m)) l)).
Proof.
  intros N F. induction F as [|[k j] l J F IH]; [congruence|]. cbn [fst snd] in J. destruct l as [|m l].
  - cbn [map commas fst snd]. replace (json_string k ++ b ":" ++ encode j) with ([] ++ json_string k ++ [] ++ b ":" ++ [] ++ encode j ++ []) by (cbn [app]; rewrite app_nil_r; reflexivity).
    constructor; [constructor..|apply string_ok|exact J].
  - set (f := fun m : str * json => json_string (fst m) ++ b ":" ++ encode (snd m)) in *.
    assert (E : commas (map f ((k, j) :: m :: l)) = [] ++ json_string k ++ [] ++ b ":" ++ [] ++ encode j ++ [] ++ b "," ++ commas (map f (m :: l))).
    { change (commas (map f ((k, j) :: m :: l))) with (f (k, j) ++ b "," ++ commas (map f (m :: l))). unfold f at 1. cbn [fst snd app]. rewrite <- app_assoc. reflexivity. }
    rewrite E. cbn [map fst snd]. constructor; [constructor..|apply string_ok|exact J|]. apply IH. discriminate.
Qed.
Lemma encode_ok j : jtext (value_of j) (encode j).
Proof.
  induction j as [|v|n|s|l F|l F] using json_ind'; cbn [value_of encode].
  - constructor.
  - destruct v; constructor.
  - constructor. apply integer_ok.
  - constructor. apply string_ok.
  - destruct l as [|j l]; [apply (jt_arr0 []); constructor|]. apply jt_arr. apply items_ok; [discriminate|exact F].
  - destruct l as [|m l]; [apply (jt_obj0 []); constructor|]. apply jt_obj. apply members_ok; [discriminate|exact F].
Qed.
(** A document is decoded to the same value by anybody. *)
Lemma encode_document j v : jdocument v (encode j) <-> v = value_of j.
Proof.
  assert (D : jdocument (value_of j) (encode j)). { exists [], (encode j), []. repeat split; try constructor; [apply encode_ok|symmetry; apply app_nil_r]. }
  split; [intros H; exact (document_same _ _ _ H D)|intros ->; exact D].
Qed.
