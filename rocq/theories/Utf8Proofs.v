(** Lemmas about the UTF-8 model. *)
From Verif Require Import GoBase Utf8.
From Coq Require Import ZifyBool ZifyNat ZifyN.
Ltac Zify.zify_post_hook ::= Z.div_mod_to_equations.
Local Open Scope N_scope.

Lemma bytesN_bound s : Forall (fun x => x < 256) (bytesN s).
Proof.
  unfold bytesN. induction s as [|a s IH]; cbn [map]; constructor; [|exact IH].
  apply N_ascii_bounded.
Qed.

Lemma strN_bytesN s : strN (bytesN s) = s.
Proof.
  unfold strN, bytesN. rewrite map_map. induction s as [|a s IH]; cbn [map]; [reflexivity|].
  rewrite ascii_N_embedding, IH. reflexivity.
Qed.

Lemma bytesN_strN l : Forall (fun x => x < 256) l -> bytesN (strN l) = l.
Proof.
  unfold strN, bytesN. rewrite map_map. induction 1 as [|x l Hx Hl IH]; cbn [map]; [reflexivity|].
  rewrite N_ascii_embedding by exact Hx. rewrite IH. reflexivity.
Qed.

Lemma bytesN_app s t : bytesN (s ++ t) = bytesN s ++ bytesN t.
Proof. apply map_app. Qed.
Lemma strN_app s t : strN (s ++ t) = strN s ++ strN t.
Proof. apply map_app. Qed.

Lemma bytesN_inj s t : bytesN s = bytesN t -> s = t.
Proof. intros H. rewrite <- (strN_bytesN s), H, strN_bytesN. reflexivity. Qed.

Lemma encode1_bound r : valid_rune r = true -> Forall (fun x => x < 256) (encode1 r).
Proof.
  unfold valid_rune, encode1, inr. intros H.
  destruct (N.ltb_spec r 128); [repeat constructor; lia|].
  destruct (N.ltb_spec r 2048); [repeat constructor; lia|].
  destruct (N.ltb_spec r 65536); [repeat constructor; lia|].
  repeat constructor; lia.
Qed.

Lemma encode1_nonempty r : encode1 r <> [].
Proof.
  unfold encode1. destruct (r <? 128), (r <? 2048), (r <? 65536); discriminate.
Qed.

Lemma inr_true lo hi x : inr lo hi x = true <-> lo <= x <= hi.
Proof. unfold inr. lia. Qed.
Lemma inr_false lo hi x : inr lo hi x = false <-> x < lo \/ hi < x.
Proof. unfold inr. lia. Qed.

Ltac inr_case lo hi x := let H := fresh in
  destruct (inr lo hi x) eqn:H; [apply inr_true in H | apply inr_false in H]; try lia.

Ltac cons_inj E :=
  let E0 := fresh in let E1 := fresh in
  pose proof (f_equal (hd 0) E) as E0; pose proof (f_equal (@tl N) E) as E1;
  cbn [hd tl] in E0, E1; clear E; subst.

Lemma decode_encode1 r s :
  valid_rune r = true -> decodeN (encode1 r ++ s) = r :: decodeN s.
Proof.
  unfold valid_rune, encode1. intros H.
  apply orb_true_iff in H. rewrite inr_true, N.ltb_lt in H.
  destruct (N.ltb_spec r 128) as [H1|H1].
  { cbn [app decodeN]. destruct (N.ltb_spec r 128); [reflexivity|lia]. }
  destruct (N.ltb_spec r 2048) as [H2|H2].
  { cbn [app decodeN]. destruct (N.ltb_spec (192 + r / 64) 128); [lia|].
    inr_case 194 223 (192 + r / 64).
    unfold cont. inr_case 128 191 (128 + r mod 64).
    f_equal. lia. }
  destruct (N.ltb_spec r 65536) as [H3|H3].
  { cbn [app decodeN]. destruct (N.ltb_spec (224 + r / 4096) 128); [lia|].
    inr_case 194 223 (224 + r / 4096). inr_case 224 239 (224 + r / 4096).
    assert (second3 (224 + r / 4096) (128 + (r / 64) mod 64) = true) as ->.
    { unfold second3, cont.
      destruct (N.eqb_spec (224 + r / 4096) 224); [apply inr_true; lia|].
      destruct (N.eqb_spec (224 + r / 4096) 237); apply inr_true; lia. }
    unfold cont. inr_case 128 191 (128 + r mod 64). cbn [andb].
    f_equal. lia. }
  cbn [app decodeN]. destruct (N.ltb_spec (240 + r / 262144) 128); [lia|].
  inr_case 194 223 (240 + r / 262144). inr_case 224 239 (240 + r / 262144).
  inr_case 240 244 (240 + r / 262144).
  assert (second4 (240 + r / 262144) (128 + (r / 4096) mod 64) = true) as ->.
  { unfold second4, cont.
    destruct (N.eqb_spec (240 + r / 262144) 240); [apply inr_true; lia|].
    destruct (N.eqb_spec (240 + r / 262144) 244); apply inr_true; lia. }
  unfold cont. inr_case 128 191 (128 + r mod 64). inr_case 128 191 (128 + (r / 64) mod 64).
  cbn [andb]. f_equal. lia.
Qed.

Lemma decode_encode rs :
  Forall (fun r => valid_rune r = true) rs -> decodeN (concat (map encode1 rs)) = rs.
Proof.
  induction 1 as [|r rs Hr Hrs IH]; cbn [map concat]; [reflexivity|].
  rewrite decode_encode1 by exact Hr. rewrite IH. reflexivity.
Qed.

(** Case analysis of one decoding step: either a complete encoding of a valid
    rune is consumed, or one byte is consumed and U+FFFD is produced. *)
Lemma decode_step b0 s :
  Forall (fun x => x < 256) (b0 :: s) ->
  (exists r s', valid_rune r = true /\ b0 :: s = encode1 r ++ s' /\ decodeN (b0 :: s) = r :: decodeN s')
  \/ (128 <= b0 /\ decodeN (b0 :: s) = rune_error :: decodeN s /\
      forall r s', valid_rune r = true -> b0 :: s <> encode1 r ++ s').
Proof.
  intros Hb.
  assert (Hdec : forall r s', valid_rune r = true -> b0 :: s = encode1 r ++ s' ->
                 decodeN (b0 :: s) = r :: decodeN s') by
    (intros r s' Hr ->; apply decode_encode1; exact Hr).
  assert (Hlead : forall r s', valid_rune r = true -> b0 :: s = encode1 r ++ s' ->
     (b0 < 128)
     \/ (194 <= b0 <= 223 /\ exists b1 s2, s = b1 :: s2 /\ cont b1 = true)
     \/ (224 <= b0 <= 239 /\ exists b1 b2 s3, s = b1 :: b2 :: s3 /\ second3 b0 b1 = true /\ cont b2 = true)
     \/ (240 <= b0 <= 244 /\ exists b1 b2 b3 s4, s = b1 :: b2 :: b3 :: s4 /\ second4 b0 b1 = true /\ cont b2 = true /\ cont b3 = true)).
  { clear. intros r s' H E. unfold valid_rune in H. apply orb_true_iff in H.
    rewrite inr_true, N.ltb_lt in H. unfold encode1 in E.
    destruct (N.ltb_spec r 128).
    { left. cbn in E. injection E as -> _. lia. }
    destruct (N.ltb_spec r 2048).
    { right; left. cbn [app] in E. cons_inj E. split; [lia|].
      eexists _, _. split; [reflexivity|]. unfold cont. apply inr_true. lia. }
    destruct (N.ltb_spec r 65536).
    { right; right; left. cbn [app] in E. cons_inj E. split; [lia|].
      eexists _, _, _. split; [reflexivity|]. unfold second3, cont. split; [|apply inr_true; lia].
      destruct (N.eqb_spec (224 + r / 4096) 224); [apply inr_true; lia|].
      destruct (N.eqb_spec (224 + r / 4096) 237); apply inr_true; lia. }
    { right; right; right. cbn [app] in E. cons_inj E. split; [lia|].
      eexists _, _, _, _. split; [reflexivity|]. unfold second4, cont.
      split; [|split; apply inr_true; lia].
      destruct (N.eqb_spec (240 + r / 262144) 240); [apply inr_true; lia|].
      destruct (N.eqb_spec (240 + r / 262144) 244); apply inr_true; lia. } }
  destruct (N.ltb_spec b0 128) as [H0|H0].
  { left. exists b0, s.
    assert (Hv : valid_rune b0 = true) by (unfold valid_rune; lia).
    assert (He : b0 :: s = encode1 b0 ++ s).
    { unfold encode1. destruct (N.ltb_spec b0 128); [reflexivity|lia]. }
    split; [exact Hv|]. split; [exact He|]. apply Hdec; assumption. }
  destruct (inr 194 223 b0) eqn:E2.
  { apply inr_true in E2. destruct s as [|b1 s2].
    - right. split; [lia|]. split.
      + cbn [decodeN]. destruct (N.ltb_spec b0 128); [lia|]. inr_case 194 223 b0. reflexivity.
      + intros r s' Hr E. specialize (Hlead r s' Hr E).
        destruct Hlead as [?|[(_ & ? & ? & ? & _)|[(? & _)|(? & _)]]]; try lia; discriminate.
    - destruct (cont b1) eqn:C1.
      + left. pose proof C1 as C1'. apply inr_true in C1'. exists ((b0 - 192) * 64 + (b1 - 128)), s2.
        assert (Hv : valid_rune ((b0 - 192) * 64 + (b1 - 128)) = true)
          by (unfold valid_rune, inr; lia).
        assert (He : b0 :: b1 :: s2 = encode1 ((b0 - 192) * 64 + (b1 - 128)) ++ s2).
        { unfold encode1. destruct (N.ltb_spec ((b0 - 192) * 64 + (b1 - 128)) 128); [lia|].
          destruct (N.ltb_spec ((b0 - 192) * 64 + (b1 - 128)) 2048); [|lia].
          cbn [app]. f_equal; [lia|]. f_equal. lia. }
        split; [exact Hv|]. split; [exact He|]. apply Hdec; assumption.
      + right. split; [lia|]. split.
        * cbn [decodeN]. destruct (N.ltb_spec b0 128); [lia|]. inr_case 194 223 b0.
          rewrite C1. reflexivity.
        * intros r s' Hr E. specialize (Hlead r s' Hr E).
          destruct Hlead as [?|[(_ & b1' & s2' & E' & C)|[(? & _)|(? & _)]]]; try lia.
          injection E' as -> ->. congruence. }
  apply inr_false in E2.
  destruct (inr 224 239 b0) eqn:E3.
  { apply inr_true in E3.
    assert (Hbad : (forall b1 b2 s3, s = b1 :: b2 :: s3 -> second3 b0 b1 && cont b2 = false) ->
      128 <= b0 /\ decodeN (b0 :: s) = rune_error :: decodeN s /\
      forall r s', valid_rune r = true -> b0 :: s <> encode1 r ++ s').
    { intros Hno. split; [lia|]. split.
      - cbn [decodeN]. destruct (N.ltb_spec b0 128); [lia|]. inr_case 194 223 b0. inr_case 224 239 b0.
        destruct s as [|b1 [|b2 s3]]; try reflexivity.
        rewrite (Hno b1 b2 s3 eq_refl). reflexivity.
      - intros r s' Hr E. specialize (Hlead r s' Hr E).
        destruct Hlead as [?|[(? & _)|[(_ & b1 & b2 & s3 & E' & C & D)|(? & _)]]]; try lia.
        specialize (Hno b1 b2 s3 E'). rewrite C, D in Hno. discriminate. }
    destruct s as [|b1 [|b2 s3]].
    1,2: right; apply Hbad; intros; discriminate.
    destruct (second3 b0 b1 && cont b2) eqn:C.
    2: { right. apply Hbad. intros ? ? ? E'. injection E' as <- <- <-. exact C. }
    left. apply andb_true_iff in C. destruct C as [C D].
    set (r := (b0 - 224) * 4096 + (b1 - 128) * 64 + (b2 - 128)).
    assert (Hr : (b0 = 224 /\ 160 <= b1 <= 191 \/ b0 = 237 /\ 128 <= b1 <= 159 \/
                 b0 <> 224 /\ b0 <> 237 /\ 128 <= b1 <= 191) /\ 128 <= b2 <= 191).
    { unfold second3, cont in C, D. apply inr_true in D.
      destruct (N.eqb_spec b0 224); [apply inr_true in C; lia|].
      destruct (N.eqb_spec b0 237); apply inr_true in C; lia. }
    assert (Hv : valid_rune r = true) by (unfold valid_rune, inr; subst r; lia).
    exists r, s3.
    assert (He : b0 :: b1 :: b2 :: s3 = encode1 r ++ s3).
    { unfold encode1. destruct (N.ltb_spec r 128); [subst r; lia|].
      destruct (N.ltb_spec r 2048); [subst r; lia|].
      destruct (N.ltb_spec r 65536); [|subst r; lia].
      subst r. cbn [app]. f_equal; [lia|]. f_equal; [lia|]. f_equal. lia. }
    split; [exact Hv|]. split; [exact He|]. apply Hdec; assumption. }
  apply inr_false in E3.
  destruct (inr 240 244 b0) eqn:E4.
  { apply inr_true in E4.
    assert (Hbad : (forall b1 b2 b3 s4, s = b1 :: b2 :: b3 :: s4 -> second4 b0 b1 && cont b2 && cont b3 = false) ->
      128 <= b0 /\ decodeN (b0 :: s) = rune_error :: decodeN s /\
      forall r s', valid_rune r = true -> b0 :: s <> encode1 r ++ s').
    { intros Hno. split; [lia|]. split.
      - cbn [decodeN]. destruct (N.ltb_spec b0 128); [lia|]. inr_case 194 223 b0. inr_case 224 239 b0.
        inr_case 240 244 b0.
        destruct s as [|b1 [|b2 [|b3 s4]]]; try reflexivity.
        rewrite (Hno b1 b2 b3 s4 eq_refl). reflexivity.
      - intros r s' Hr E. specialize (Hlead r s' Hr E).
        destruct Hlead as [?|[(? & _)|[(? & _)|(_ & b1 & b2 & b3 & s4 & E' & C & D & F)]]]; try lia.
        specialize (Hno b1 b2 b3 s4 E'). rewrite C, D, F in Hno. discriminate. }
    destruct s as [|b1 [|b2 [|b3 s4]]].
    1,2,3: right; apply Hbad; intros; discriminate.
    destruct (second4 b0 b1 && cont b2 && cont b3) eqn:C.
    2: { right. apply Hbad. intros ? ? ? ? E'. injection E' as <- <- <- <-. exact C. }
    left. apply andb_true_iff in C. destruct C as [C F]. apply andb_true_iff in C. destruct C as [C D].
    set (r := (b0 - 240) * 262144 + (b1 - 128) * 4096 + (b2 - 128) * 64 + (b3 - 128)).
    assert (Hr : (b0 = 240 /\ 144 <= b1 <= 191 \/ b0 = 244 /\ 128 <= b1 <= 143 \/
                 b0 <> 240 /\ b0 <> 244 /\ 128 <= b1 <= 191) /\ 128 <= b2 <= 191 /\ 128 <= b3 <= 191).
    { unfold second4, cont in C, D, F. apply inr_true in D, F.
      destruct (N.eqb_spec b0 240); [apply inr_true in C; lia|].
      destruct (N.eqb_spec b0 244); apply inr_true in C; lia. }
    assert (Hv : valid_rune r = true) by (unfold valid_rune, inr; subst r; lia).
    exists r, s4.
    assert (He : b0 :: b1 :: b2 :: b3 :: s4 = encode1 r ++ s4).
    { unfold encode1. destruct (N.ltb_spec r 128); [subst r; lia|].
      destruct (N.ltb_spec r 2048); [subst r; lia|].
      destruct (N.ltb_spec r 65536); [subst r; lia|].
      subst r. cbn [app]. f_equal; [lia|]. f_equal; [lia|]. f_equal; [lia|]. f_equal. lia. }
    split; [exact Hv|]. split; [exact He|]. apply Hdec; assumption. }
  apply inr_false in E4.
  right. split; [lia|]. split.
  - cbn [decodeN]. destruct (N.ltb_spec b0 128); [lia|]. inr_case 194 223 b0. inr_case 224 239 b0.
    inr_case 240 244 b0. reflexivity.
  - intros r s' Hr E. specialize (Hlead r s' Hr E).
    destruct Hlead as [?|[(? & _)|[(? & _)|(? & _)]]]; lia.
Qed.

Lemma length_encode1_pos r : (0 < length (encode1 r))%nat.
Proof. pose proof (encode1_nonempty r). destruct (encode1 r); [congruence|cbn; lia]. Qed.

(** Induction along decoding. *)
Lemma decode_ind (P : list N -> Prop) :
  P [] ->
  (forall r s', valid_rune r = true -> Forall (fun x => x < 256) s' ->
     decodeN (encode1 r ++ s') = r :: decodeN s' -> P s' -> P (encode1 r ++ s')) ->
  (forall b0 s, 128 <= b0 -> Forall (fun x => x < 256) (b0 :: s) ->
     decodeN (b0 :: s) = rune_error :: decodeN s ->
     (forall r s', valid_rune r = true -> b0 :: s <> encode1 r ++ s') -> P s -> P (b0 :: s)) ->
  forall s, Forall (fun x => x < 256) s -> P s.
Proof.
  intros H0 H1 H2 s. remember (length s) as n eqn:En.
  revert s En. induction n as [n IH] using lt_wf_ind. intros s En Hb.
  destruct s as [|b0 s]; [exact H0|].
  destruct (decode_step b0 s Hb) as [(r & s' & Hr & He & Hd)|(Hlo & Hd & Hno)].
  - rewrite He in Hd, Hb |- *. apply Forall_app in Hb. destruct Hb as [_ Hb].
    apply H1; [exact Hr|exact Hb|exact Hd|].
    apply (IH (length s')); [|reflexivity|exact Hb].
    assert (El : length (b0 :: s) = (length (encode1 r) + length s')%nat) by (rewrite He; apply app_length).
    pose proof (length_encode1_pos r). lia.
  - apply H2; try assumption. apply (IH (length s)); [subst n; cbn; lia|reflexivity|].
    inversion Hb; assumption.
Qed.

Lemma decode_valid s :
  Forall (fun x => x < 256) s -> Forall (fun r => valid_rune r = true) (decodeN s).
Proof.
  intros Hb. pattern s. revert s Hb. apply decode_ind.
  - constructor.
  - intros r s' Hr _ Hd IH. rewrite Hd. constructor; assumption.
  - intros b0 s _ _ Hd _ IH. rewrite Hd. constructor; [reflexivity|exact IH].
Qed.

Lemma runes_of_valid s : Forall (fun r => valid_rune r = true) (runes_of s).
Proof. apply decode_valid, bytesN_bound. Qed.

Lemma encode_bound rs :
  Forall (fun r => valid_rune r = true) rs -> Forall (fun x => x < 256) (concat (map encode1 rs)).
Proof.
  induction 1 as [|r rs Hr Hrs IH]; cbn [map concat]; [constructor|].
  apply Forall_app. split; [apply encode1_bound; exact Hr|exact IH].
Qed.

Lemma encode_rune_valid rs :
  Forall (fun r => valid_rune r = true) rs -> map encode_rune rs = map encode1 rs.
Proof.
  induction 1 as [|r rs Hr Hrs IH]; cbn [map]; [reflexivity|].
  unfold encode_rune at 1. rewrite Hr, IH. reflexivity.
Qed.

Lemma encode_rune_always r : exists r', valid_rune r' = true /\ encode_rune r = encode1 r'.
Proof.
  unfold encode_rune. destruct (valid_rune r) eqn:E.
  - exists r; auto.
  - exists rune_error; auto.
Qed.

Lemma string_of_valid rs : valid_utf8 (string_of rs).
Proof.
  unfold string_of, valid_utf8.
  exists (map (fun r => if valid_rune r then r else rune_error) rs). split.
  - apply Forall_forall. intros x Hx. apply in_map_iff in Hx. destruct Hx as (r & <- & _).
    destruct (valid_rune r) eqn:E; [exact E|reflexivity].
  - f_equal. f_equal. rewrite map_map. apply map_ext. intros r. unfold encode_rune.
    destruct (valid_rune r); reflexivity.
Qed.

Lemma runes_string rs :
  Forall (fun r => valid_rune r = true) rs -> runes_of (string_of rs) = rs.
Proof.
  intros H. unfold runes_of, string_of. rewrite encode_rune_valid by exact H.
  rewrite bytesN_strN by (apply encode_bound; exact H). apply decode_encode; exact H.
Qed.

Lemma string_runes s : valid_utf8 s -> string_of (runes_of s) = s.
Proof.
  intros (rs & Hrs & ->). unfold string_of, runes_of.
  rewrite bytesN_strN by (apply encode_bound; exact Hrs).
  rewrite decode_encode by exact Hrs. rewrite encode_rune_valid by exact Hrs. reflexivity.
Qed.

Lemma string_runes_iff s : string_of (runes_of s) = s <-> valid_utf8 s.
Proof.
  split; [|apply string_runes]. intros <-. apply string_of_valid.
Qed.

Lemma string_of_app r1 r2 : string_of (r1 ++ r2) = string_of r1 ++ string_of r2.
Proof. unfold string_of. rewrite map_app, concat_app. apply strN_app. Qed.

Lemma string_of_inj r1 r2 :
  Forall (fun r => valid_rune r = true) r1 -> Forall (fun r => valid_rune r = true) r2 ->
  string_of r1 = string_of r2 -> r1 = r2.
Proof.
  intros H1 H2 E. rewrite <- (runes_string r1 H1), <- (runes_string r2 H2), E. reflexivity.
Qed.

(** ASCII text is never part of a multi-byte sequence, valid or broken. *)
Lemma decode_app_ascii s t :
  Forall (fun x => x < 256) s ->
  match t with [] => True | t0 :: _ => t0 < 128 end ->
  decodeN (s ++ t) = decodeN s ++ decodeN t.
Proof.
  intros Hs Ht. pattern s. revert s Hs. apply decode_ind.
  - reflexivity.
  - intros r s' Hr _ Hd IH. rewrite <- app_assoc, decode_encode1 by exact Hr.
    rewrite Hd, IH. reflexivity.
  - intros b0 s Hlo Hb Hd Hno IH. rewrite Hd. cbn [app]. rewrite <- IH.
    assert (C : forall x, x < 128 -> cont x = false) by (intros; unfold cont; apply inr_false; lia).
    destruct t as [|t0 t].
    { rewrite app_nil_r. exact Hd. }
    (* the appended byte is not a continuation byte, so nothing new becomes valid *)
    assert (C3 : second3 b0 t0 = false).
    { unfold second3, cont. destruct (b0 =? 224), (b0 =? 237); apply inr_false; lia. }
    assert (C4 : second4 b0 t0 = false).
    { unfold second4, cont. destruct (b0 =? 240), (b0 =? 244); apply inr_false; lia. }
    specialize (C t0 Ht).
    cbn [decodeN] in Hd |- *.
    destruct (N.ltb_spec b0 128); [lia|].
    destruct (inr 194 223 b0).
    { destruct s as [|b1 s2]; cbn [app] in *.
      - rewrite C. reflexivity.
      - destruct (cont b1) eqn:D; [|reflexivity].
        exfalso. injection Hd as Hr _.
        assert (inr 128 191 b1 = true) as D' by exact D. apply inr_true in D'.
        destruct (decode_step b0 (b1 :: s2) Hb) as [(r & s' & X & Y & _)|(_ & Y & _)].
        + eapply Hno; eassumption.
        + apply (f_equal (@length rune)) in Y. unfold rune_error in Hr.
          inversion Hb; subst. lia. }
    destruct (inr 224 239 b0).
    { destruct s as [|b1 [|b2 s3]]; cbn [app] in *.
      - destruct t as [|t1 t]; [reflexivity|]. rewrite C3. reflexivity.
      - rewrite C. rewrite andb_false_r. reflexivity.
      - destruct (second3 b0 b1 && cont b2) eqn:D; [|reflexivity].
        exfalso. destruct (decode_step b0 (b1 :: b2 :: s3) Hb) as [(r & s' & X & Y & _)|(_ & Y & Z)].
        + eapply Hno; eassumption.
        + cbn [decodeN] in Y. destruct (N.ltb_spec b0 128); [lia|].
          clear Y. apply andb_true_iff in D. destruct D as [D1 D2].
          set (r := (b0 - 224) * 4096 + (b1 - 128) * 64 + (b2 - 128)) in *.
          injection Hd as Hr Hlen. apply (f_equal (@length rune)) in Hlen.
          pose proof (fun Hv => Hno r s3 Hv) as Hno'. 
          assert (Q : valid_rune r = true) by (rewrite Hr; reflexivity).
          specialize (Hno' Q). apply Hno'. rewrite Hr.
          assert (R : 128 <= b1 <= 191 /\ 128 <= b2 <= 191).
          { unfold second3, cont in D1, D2. apply inr_true in D2.
            destruct (b0 =? 224), (b0 =? 237); apply inr_true in D1; lia. }
          unfold rune_error in *. cbn. unfold r in Hr.
          inversion Hb as [|? ? Hb0 Hb']; subst.
          assert (b0 = 239 /\ b1 = 191 /\ b2 = 189) as (-> & -> & ->) by lia. reflexivity. }
    destruct (inr 240 244 b0) eqn:E4; [|reflexivity].
    apply inr_true in E4.
    destruct s as [|b1 [|b2 [|b3 s4]]]; cbn [app] in *.
    + destruct t as [|t1 [|t2 t]]; try reflexivity. rewrite C4. reflexivity.
    + destruct t as [|t1 t]; try reflexivity. rewrite C, andb_false_r. reflexivity.
    + rewrite C, andb_false_r. reflexivity.
    + destruct (second4 b0 b1 && cont b2 && cont b3) eqn:D; [|reflexivity].
      exfalso. apply andb_true_iff in D. destruct D as [D D3]. apply andb_true_iff in D. destruct D as [D1 D2].
      injection Hd as Hr _. unfold rune_error in Hr.
      assert (R : (b0 = 240 /\ 144 <= b1 <= 191 \/ b0 <> 240 /\ 128 <= b1 <= 191) /\ 128 <= b2 <= 191 /\ 128 <= b3 <= 191).
      { unfold second4, cont in D1, D2, D3. apply inr_true in D2, D3.
        destruct (N.eqb_spec b0 240), (N.eqb_spec b0 244); apply inr_true in D1; lia. }
      lia.
Qed.

Lemma runes_of_app_ascii s t :
  match t with [] => True | t0 :: _ => N_of_ascii t0 < 128 end ->
  runes_of (s ++ t) = runes_of s ++ runes_of t.
Proof.
  intros H. unfold runes_of. rewrite bytesN_app. apply decode_app_ascii.
  - apply bytesN_bound.
  - destruct t; [exact I|exact H].
Qed.

Lemma decode_ascii s : Forall (fun x => x < 128) s -> decodeN s = s.
Proof.
  induction 1 as [|x s Hx Hs IH]; [reflexivity|].
  cbn [decodeN]. destruct (N.ltb_spec x 128); [|lia]. rewrite IH. reflexivity.
Qed.

Lemma runes_ascii s : Forall (fun a => N_of_ascii a < 128) s -> runes_of s = bytesN s.
Proof.
  intros H. apply decode_ascii. unfold bytesN. apply Forall_map. exact H.
Qed.

Lemma encode_ascii rs : Forall (fun x => x < 128) rs -> concat (map encode_rune rs) = rs.
Proof.
  induction 1 as [|x s Hx Hs IH]; [reflexivity|].
  cbn [map concat]. rewrite IH. unfold encode_rune, valid_rune, encode1.
  destruct (N.ltb_spec x 55296); [|lia]. cbn [orb].
  destruct (N.ltb_spec x 128); [reflexivity|lia].
Qed.

Lemma string_of_ascii rs : Forall (fun x => x < 128) rs -> string_of rs = strN rs.
Proof. intros H. unfold string_of. rewrite encode_ascii by exact H. reflexivity. Qed.

Lemma valid_utf8_ascii s : Forall (fun a => N_of_ascii a < 128) s -> valid_utf8 s.
Proof.
  intros H. apply string_runes_iff. rewrite runes_ascii by exact H.
  rewrite string_of_ascii; [apply strN_bytesN|]. unfold bytesN. apply Forall_map. exact H.
Qed.

(** The number of runes does not exceed the number of bytes
    (url.go:41 allocates [len(url)] runes). *)
Lemma length_runes s : (length (runes_of s) <= length s)%nat.
Proof.
  unfold runes_of. replace (length s) with (length (bytesN s)) by apply map_length.
  assert (H : Forall (fun x => x < 256) (bytesN s)) by apply bytesN_bound.
  revert H. generalize (bytesN s). clear s. apply decode_ind.
  - cbn; lia.
  - intros r s' _ _ Hd IH. rewrite Hd, app_length. cbn [length]. pose proof (length_encode1_pos r). lia.
  - intros b0 s _ _ Hd _ IH. rewrite Hd. cbn [length]. lia.
Qed.
