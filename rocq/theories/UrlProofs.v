From Verif Require Import GoBase Utf8 Utf8Proofs Url UrlSpec.
From Coq Require Import Sorting.Permutation Sorting.Sorted.
Local Open Scope N_scope.

(** Tails as lists of runes. *)
Definition rtail (t : list rune) : Prop :=
  exists sl am q h, t = repeat r_slash sl ++ q ++ repeat r_amp am ++ h
    /\ (q = [] \/ q = [r_question]) /\ (h = [] \/ h = [r_hash]).

Lemma nth_repeat_lt (c d : N) k i : (i < k)%nat -> nth i (repeat c k) d = c.
Proof. revert i; induction k as [|k IH]; intros [|i] H; cbn; try lia. apply IH; lia. Qed.

Lemma skipn_skipn {A} x y (l : list A) : skipn x (skipn y l) = skipn (x + y) l.
Proof.
  revert l; induction y as [|y IH]; intros l; [rewrite Nat.add_0_r; reflexivity|].
  rewrite Nat.add_succ_r. destruct l as [|a l]; [cbn; apply skipn_nil|]. cbn [skipn]. apply IH.
Qed.

Definition stem (slice : list rune) : nat :=
  strip_while r_slash slice (strip_once r_question slice (strip_while r_amp slice
    (strip_once r_hash slice (length slice)))).

Lemma strip_once_spec c l i : (i <= length l)%nat ->
  (strip_once c l i <= i)%nat /\
  ((strip_once c l i = i /\ (forall p, firstn i l <> p ++ [c])) \/
   (i = S (strip_once c l i) /\ firstn i l = firstn (strip_once c l i) l ++ [c])).
Proof.
  intros Hi. destruct i as [|j]; cbn [strip_once].
  - split; [lia|]. left. split; [reflexivity|]. intros p H. destruct p; discriminate.
  - assert (Hf : firstn (S j) l = firstn j l ++ [nth j l 0]).
    { clear -Hi. revert l Hi. induction j as [|j IH]; intros [|x l] Hi; cbn in *; try lia; [reflexivity|].
      f_equal. apply IH. lia. }
    destruct (N.eqb_spec (nth j l 0) c) as [E|E].
    + split; [lia|]. right. rewrite E in Hf. auto.
    + split; [lia|]. left. split; [reflexivity|]. intros p H. rewrite H in Hf.
      apply app_inj_tail in Hf. destruct Hf as [_ Hf]. congruence.
Qed.

Lemma strip_while_spec c l i : (i <= length l)%nat ->
  (strip_while c l i <= i)%nat /\
  firstn i l = firstn (strip_while c l i) l ++ repeat c (i - strip_while c l i) /\
  (forall p, firstn (strip_while c l i) l <> p ++ [c]).
Proof.
  induction i as [|j IH]; cbn [strip_while]; intros Hi.
  - split; [lia|]. split; [reflexivity|]. intros p H. destruct p; discriminate.
  - assert (Hf : firstn (S j) l = firstn j l ++ [nth j l 0]).
    { clear -Hi. revert l Hi. induction j as [|j IH]; intros [|x l] Hi; cbn in *; try lia; [reflexivity|].
      f_equal. apply IH. lia. }
    destruct (N.eqb_spec (nth j l 0) c) as [E|E].
    + destruct IH as (I1 & I2 & I3); [lia|]. split; [lia|]. split; [|exact I3].
      rewrite Hf, I2, E, <- app_assoc. f_equal.
      replace (S j - strip_while c l j)%nat with (S (j - strip_while c l j)) by lia.
      symmetry. apply repeat_cons.
    + split; [lia|]. split.
      * replace (S j - S j)%nat with 0%nat by lia. cbn [repeat]. rewrite app_nil_r. reflexivity.
      * intros p H. rewrite H in Hf. apply app_inj_tail in Hf. destruct Hf; congruence.
Qed.

Lemma stem_le l : (stem l <= length l)%nat.
Proof.
  unfold stem.
  destruct (strip_once_spec r_hash l (length l) ltac:(lia)) as [H1 _].
  destruct (strip_while_spec r_amp l (strip_once r_hash l (length l)) ltac:(lia)) as [H2 _].
  destruct (strip_once_spec r_question l (strip_while r_amp l (strip_once r_hash l (length l))) ltac:(lia)) as [H3 _].
  match goal with |- (strip_while r_slash l ?i <= _)%nat =>
    destruct (strip_while_spec r_slash l i ltac:(lia)) as [H4 _] end.
  lia.
Qed.

(** The whole stripped part is a tail. *)
Lemma stem_tail l : rtail (skipn (stem l) l).
Proof.
  unfold stem.
  set (i1 := strip_once r_hash l (length l)).
  destruct (strip_once_spec r_hash l (length l) ltac:(lia)) as [H1 C1]. fold i1 in H1, C1.
  set (i2 := strip_while r_amp l i1).
  destruct (strip_while_spec r_amp l i1 ltac:(lia)) as (H2 & C2 & _). fold i2 in H2, C2.
  set (i3 := strip_once r_question l i2).
  destruct (strip_once_spec r_question l i2 ltac:(lia)) as [H3 C3]. fold i3 in H3, C3.
  set (i4 := strip_while r_slash l i3).
  destruct (strip_while_spec r_slash l i3 ltac:(lia)) as (H4 & C4 & _). fold i4 in H4, C4.
  assert (E : exists q h, firstn (length l) l = firstn i4 l ++ repeat r_slash (i3 - i4) ++ q ++ repeat r_amp (i1 - i2) ++ h
     /\ (q = [] \/ q = [r_question]) /\ (h = [] \/ h = [r_hash])).
  { assert (Eh : exists h, firstn (length l) l = firstn i1 l ++ h /\ (h = [] \/ h = [r_hash])).
    { destruct C1 as [[E1 _]|[_ E1]].
      - exists []. rewrite E1, app_nil_r. auto.
      - exists [r_hash]. auto. }
    assert (Eq : exists q, firstn i2 l = firstn i3 l ++ q /\ (q = [] \/ q = [r_question])).
    { destruct C3 as [[E3 _]|[_ E3]].
      - exists []. rewrite E3, app_nil_r. auto.
      - exists [r_question]. auto. }
    destruct Eh as (h & Eh & Hh). destruct Eq as (q & Eq & Hq). exists q, h.
    split; [|auto]. rewrite Eh, C2, Eq, C4, <- !app_assoc. reflexivity. }
  destruct E as (q & h & E & Hq & Hh). rewrite firstn_all in E.
  exists (i3 - i4)%nat, (i1 - i2)%nat, q, h. split; [|auto].
  rewrite <- (firstn_skipn i4 l) in E at 1. apply app_inv_head in E. exact E.
Qed.

Lemma rtail_suffix t1 t2 : rtail (t1 ++ t2) -> rtail t2.
Proof.
  revert t2. induction t1 as [|x t1 IH]; intros t2 H; [exact H|].
  apply IH. clear IH. destruct H as (sl & am & q & h & E & Hq & Hh).
  destruct sl as [|sl]; cbn [repeat app] in E.
  - destruct Hq as [->| ->]; cbn [app] in E.
    + destruct am as [|am]; cbn [repeat app] in E.
      * destruct Hh as [->| ->]; cbn in E; [discriminate|].
        injection E as _ E. rewrite E. exists 0%nat, 0%nat, [], []. auto.
      * injection E as _ E. rewrite E. exists 0%nat, am, [], h. auto.
    + injection E as _ E. rewrite E. exists 0%nat, am, [], h. auto.
  - injection E as _ E. rewrite E. exists sl, am, q, h. auto.
Qed.

(** Any tail is at most as long as the stripped part. *)
Lemma tail_le_stem l p t : l = p ++ t -> rtail t -> (stem l <= length p)%nat.
Proof.
  intros -> (sl & am & q & h & -> & Hq & Hh).
  set (l := p ++ repeat r_slash sl ++ q ++ repeat r_amp am ++ h).
  (* positions of the parts *)
  set (n1 := length (p ++ repeat r_slash sl ++ q ++ repeat r_amp am)).
  set (n2 := length (p ++ repeat r_slash sl ++ q)).
  set (n3 := length (p ++ repeat r_slash sl)).
  assert (L1 : length l = (n1 + length h)%nat) by (unfold l, n1; rewrite !app_length; lia).
  assert (L2 : n1 = (n2 + am)%nat) by (unfold n1, n2; rewrite !app_length, !repeat_length; lia).
  assert (L3 : n2 = (n3 + length q)%nat) by (unfold n2, n3; rewrite !app_length; lia).
  assert (L4 : n3 = (length p + sl)%nat) by (unfold n3; rewrite !app_length, !repeat_length; lia).
  (* generic facts about stripping below a known position *)
  assert (W : forall c i k, (k <= length l)%nat -> (i <= k)%nat -> (forall j, (i <= j < k)%nat -> nth j l 0 = c) ->
            (strip_while c l k <= i)%nat).
  { intros c i k. induction k as [|k IH]; cbn [strip_while]; intros Hk Hi Hc; [lia|].
    destruct (Nat.eq_dec i (S k)) as [->|Ne].
    - destruct (nth k l 0 =? c); [|lia].
      assert (forall m, (strip_while c l m <= m)%nat) as Hm.
      { clear. induction m as [|m IH]; cbn [strip_while]; [lia|]. destruct (nth m l 0 =? c); lia. }
      specialize (Hm k). lia.
    - rewrite (Hc k) by lia. rewrite N.eqb_refl. apply IH; [lia|lia|]. intros j Hj. apply Hc. lia. }
  assert (Wle : forall c m, (strip_while c l m <= m)%nat).
  { clear. intros c. induction m as [|m IH]; cbn [strip_while]; [lia|]. destruct (nth m l 0 =? c); lia. }
  assert (Ole : forall c m, (strip_once c l m <= m)%nat).
  { clear. intros c [|m]; cbn [strip_once]; [lia|]. destruct (nth m l 0 =? c); lia. }
  assert (N3 : forall j, (length p <= j < n3)%nat -> nth j l 0 = r_slash).
  { intros j Hj. unfold l. rewrite app_nth2 by lia. rewrite app_nth1 by (rewrite repeat_length; lia).
    apply nth_repeat_lt; lia. }
  unfold stem.
  (* step 1 *)
  assert (S1 : (strip_once r_hash l (length l) <= n1)%nat).
  { destruct Hh as [->| ->]; cbn [length] in L1.
    - rewrite Nat.add_0_r in L1. rewrite <- L1. apply Ole.
    - rewrite L1, Nat.add_1_r. cbn [strip_once].
      assert (E : nth n1 l 0 = r_hash).
      { unfold l. rewrite !app_assoc. rewrite <- !app_assoc.
        replace (p ++ repeat r_slash sl ++ q ++ repeat r_amp am ++ [r_hash])
          with ((p ++ repeat r_slash sl ++ q ++ repeat r_amp am) ++ [r_hash]) by (rewrite <- !app_assoc; reflexivity).
        unfold n1. rewrite nth_middle. reflexivity. }
      rewrite E, N.eqb_refl. lia. }
  set (i1 := strip_once r_hash l (length l)) in *.
  assert (N1 : forall j, (n2 <= j < n1)%nat -> nth j l 0 = r_amp).
  { intros j Hj.
    replace l with ((p ++ repeat r_slash sl ++ q) ++ repeat r_amp am ++ h) by (unfold l; rewrite <- !app_assoc; reflexivity).
    fold n2 in Hj. rewrite app_nth2 by (fold n2; lia). fold n2. rewrite app_nth1 by (rewrite repeat_length; lia).
    apply nth_repeat_lt; lia. }
  assert (S2 : (strip_while r_amp l i1 <= n2)%nat).
  { destruct (le_lt_dec i1 n2) as [Hle|Hlt].
    - specialize (Wle r_amp i1). lia.
    - apply W; [lia|lia|]. intros j Hj. apply N1. lia. }
  set (i2 := strip_while r_amp l i1) in *.
  assert (S3 : (strip_once r_question l i2 <= n3)%nat).
  { destruct Hq as [->| ->]; cbn [length] in L3.
    - specialize (Ole r_question i2). lia.
    - destruct (Nat.eq_dec i2 n2) as [E2|E2].
      + rewrite E2, L3, Nat.add_1_r. cbn [strip_once].
        assert (E : nth n3 l 0 = r_question).
        { replace l with ((p ++ repeat r_slash sl) ++ r_question :: repeat r_amp am ++ h)
            by (unfold l; cbn [app]; rewrite <- !app_assoc; reflexivity).
          unfold n3. apply nth_middle. }
        rewrite E, N.eqb_refl. lia.
      + specialize (Ole r_question i2). lia. }
  set (i3 := strip_once r_question l i2) in *.
  destruct (le_lt_dec i3 (length p)) as [Hle|Hlt].
  - specialize (Wle r_slash i3). lia.
  - apply W; [lia|lia|]. intros j Hj. apply N3. lia.
Qed.

Lemma variant_runes_iff l i : (i <= length l)%nat ->
  rtail (skipn i l) <-> (stem l <= i)%nat.
Proof.
  intros Hi. split.
  - intros H. pose proof (tail_le_stem l (firstn i l) (skipn i l)) as T.
    rewrite firstn_length_le in T by exact Hi. apply T; [symmetry; apply firstn_skipn|exact H].
  - intros H. apply (rtail_suffix (firstn (i - stem l) (skipn (stem l) l))).
    replace (skipn i l) with (skipn (i - stem l) (skipn (stem l) l)).
    + rewrite firstn_skipn. apply stem_tail.
    + rewrite skipn_skipn. f_equal. lia.
Qed.

(** Correspondence of tails of runes and tails of bytes. *)
Lemma rtail_ascii t : rtail t -> Forall (fun x => x < 128) t.
Proof.
  intros (sl & am & q & h & -> & Hq & Hh).
  assert (R : forall c k, c < 128 -> Forall (fun x => x < 128) (repeat c k)).
  { intros c k Hc. apply Forall_forall. intros x Hx. apply repeat_spec in Hx. subst; exact Hc. }
  apply Forall_app; split; [apply R; reflexivity|].
  apply Forall_app; split; [destruct Hq as [->| ->]; repeat constructor|].
  apply Forall_app; split; [apply R; reflexivity|].
  destruct Hh as [->| ->]; repeat constructor.
Qed.

Lemma strN_repeat c k : strN (repeat c k) = repeat (ascii_of_N c) k.
Proof. unfold strN. induction k as [|k IH]; cbn; [reflexivity|]. rewrite IH. reflexivity. Qed.

Lemma bytesN_repeat c k : bytesN (repeat c k) = repeat (N_of_ascii c) k.
Proof. unfold bytesN. induction k as [|k IH]; cbn [repeat map]; [reflexivity|]. rewrite IH. reflexivity. Qed.

Lemma rtail_to_bytes t : rtail t -> redundant_tail (strN t).
Proof.
  intros (sl & am & q & h & -> & Hq & Hh).
  exists sl, am, (strN q), (strN h). split.
  - rewrite !strN_app, !strN_repeat. reflexivity.
  - split; [destruct Hq as [->| ->] | destruct Hh as [->| ->]]; auto.
Qed.

Lemma bytes_to_rtail t : redundant_tail t -> rtail (bytesN t).
Proof.
  intros (sl & am & q & h & -> & Hq & Hh).
  exists sl, am, (bytesN q), (bytesN h). split.
  - rewrite !bytesN_app, !bytesN_repeat. reflexivity.
  - split; [destruct Hq as [->| ->] | destruct Hh as [->| ->]]; auto.
Qed.

Lemma redundant_tail_ascii t : redundant_tail t -> Forall (fun a => N_of_ascii a < 128) t.
Proof.
  intros H. apply bytes_to_rtail, rtail_ascii in H. unfold bytesN in H. apply Forall_map in H. exact H.
Qed.

Lemma in_prefixes_from v l i : (i <= length l)%nat ->
  In v (prefixes_from l i (length l)) <->
  exists k, (i <= k <= length l)%nat /\ v = string_of (firstn k l).
Proof.
  intros Hi. unfold prefixes_from. rewrite in_map_iff. split.
  - intros (k & <- & Hk). apply in_seq in Hk. exists k. split; [lia|reflexivity].
  - intros (k & Hk & ->). exists k. split; [reflexivity|]. apply in_seq. lia.
Qed.

Lemma RTV_unfold url : url <> [] ->
  RedundantTailVariants url = prefixes_from (runes_of url) (stem (runes_of url)) (length (runes_of url)).
Proof. destruct url; [congruence|]. reflexivity. Qed.

Lemma valid_firstn k l :
  Forall (fun r => valid_rune r = true) l -> Forall (fun r => valid_rune r = true) (firstn k l).
Proof.
  intros H. rewrite <- (firstn_skipn k l) in H. apply Forall_app in H. apply H.
Qed.

Lemma runes_nonempty url : url <> [] -> runes_of url <> [].
Proof.
  destruct url as [|c url]; [congruence|]. intros _ E.
  unfold runes_of, bytesN in E. cbn [map] in E.
  destruct (decode_step (N_of_ascii c) (map N_of_ascii url)) as [(r & s' & _ & _ & D)|(_ & D & _)].
  - apply (bytesN_bound (c :: url)).
  - rewrite D in E. discriminate.
  - rewrite D in E. discriminate.
Qed.

Theorem tail_variants_iff url v :
  valid_utf8 url -> url <> [] ->
  (In v (RedundantTailVariants url) <-> tail_variant url v).
Proof.
  intros Hv Hne. rewrite RTV_unfold by exact Hne.
  rewrite in_prefixes_from by apply stem_le. set (l := runes_of url).
  assert (Hval : Forall (fun r => valid_rune r = true) l) by apply runes_of_valid.
  split.
  - intros (k & Hk & ->). exists (string_of (skipn k l)). split.
    + rewrite <- string_of_app, firstn_skipn. symmetry. apply string_runes. exact Hv.
    + assert (R : rtail (skipn k l)) by (apply variant_runes_iff; lia).
      rewrite string_of_ascii by (apply rtail_ascii; exact R). apply rtail_to_bytes, R.
  - intros (t & E & Ht).
    assert (Hta : Forall (fun a => N_of_ascii a < 128) t) by (apply redundant_tail_ascii; exact Ht).
    assert (El : l = runes_of v ++ bytesN t).
    { unfold l. rewrite E. rewrite runes_of_app_ascii.
      - rewrite (runes_ascii t) by exact Hta. reflexivity.
      - destruct t; [exact I|]. inversion Hta; assumption. }
    assert (Ev : string_of (runes_of v) = v).
    { assert (E2 : string_of l = url) by (apply string_runes; exact Hv).
      rewrite El, string_of_app, (string_of_ascii (bytesN t)), strN_bytesN, E in E2
        by (unfold bytesN; apply Forall_map; exact Hta).
      apply app_inv_tail in E2. exact E2. }
    exists (length (runes_of v)).
    assert (Hlen : (length (runes_of v) <= length l)%nat) by (rewrite El, app_length; lia).
    split.
    + split; [|exact Hlen]. apply variant_runes_iff; [exact Hlen|].
      rewrite El, skipn_app, skipn_all, Nat.sub_diag. cbn [skipn app]. apply bytes_to_rtail, Ht.
    + rewrite El, firstn_app, firstn_all, Nat.sub_diag. cbn [firstn]. rewrite app_nil_r. symmetry. exact Ev.
Qed.

Lemma strictly_shorter l k1 k2 :
  Forall (fun r => valid_rune r = true) l -> (k1 < k2 <= length l)%nat ->
  (length (string_of (firstn k1 l)) < length (string_of (firstn k2 l)))%nat.
Proof.
  intros Hv Hk.
  assert (E : firstn k2 l = firstn k1 l ++ skipn k1 (firstn k2 l)).
  { rewrite <- (firstn_skipn k1 (firstn k2 l)) at 1. rewrite firstn_firstn.
    rewrite Nat.min_l by lia. reflexivity. }
  rewrite E, string_of_app, app_length.
  assert (Hn : length (skipn k1 (firstn k2 l)) = (k2 - k1)%nat).
  { rewrite skipn_length, firstn_length. lia. }
  destruct (skipn k1 (firstn k2 l)) as [|r rs]; cbn [length] in Hn; [lia|].
  unfold string_of at 3. cbn [map concat]. unfold strN. rewrite map_app, app_length, map_length.
  assert (0 < length (encode_rune r))%nat.
  { unfold encode_rune. destruct (valid_rune r); apply length_encode1_pos. }
  lia.
Qed.

(** Variants are listed from the shortest to the longest without repetitions,
    the last one is the (sanitized) URL. *)
Theorem tail_variants_sorted url :
  StronglySorted (fun x y : str => (length x < length y)%nat) (RedundantTailVariants url).
Proof.
  destruct url as [|c url]; [constructor|].
  rewrite RTV_unfold by discriminate. set (l := runes_of (c :: url)).
  assert (Hval : Forall (fun r => valid_rune r = true) l) by apply runes_of_valid.
  unfold prefixes_from.
  assert (G : forall m i, (i + m <= S (length l))%nat ->
     StronglySorted (fun x y : str => (length x < length y)%nat)
       (map (fun k => string_of (firstn k l)) (seq i m))).
  { induction m as [|m IH]; intros i Hi; cbn [seq map]; constructor.
    - apply IH. lia.
    - apply Forall_forall. intros x Hx. apply in_map_iff in Hx. destruct Hx as (k & <- & Hk).
      apply in_seq in Hk. apply strictly_shorter; [exact Hval|lia]. }
  apply G. pose proof (stem_le l). lia.
Qed.

Theorem tail_variants_last url :
  valid_utf8 url -> url <> [] -> exists init, RedundantTailVariants url = init ++ [url].
Proof.
  intros Hv Hne. rewrite RTV_unfold by exact Hne. set (l := runes_of url).
  unfold prefixes_from. pose proof (stem_le l).
  replace (S (length l) - stem l)%nat with ((length l - stem l) + 1)%nat by lia.
  rewrite seq_app, map_app. cbn [seq map].
  replace (stem l + (length l - stem l))%nat with (length l) by lia.
  rewrite firstn_all. unfold l. rewrite string_runes by exact Hv. eexists. reflexivity.
Qed.

(** UTF-8 *)
Theorem variants_sanitize url :
  RedundantTailVariants url = RedundantTailVariants (string_of (runes_of url)).
Proof.
  destruct (list_eq_dec ascii_dec url []) as [->|Hne]; [reflexivity|].
  assert (Hne' : string_of (runes_of url) <> []).
  { intros E. apply (f_equal runes_of) in E. rewrite runes_string in E by apply runes_of_valid.
    cbn in E. revert E. apply runes_nonempty; exact Hne. }
  rewrite !RTV_unfold by assumption.
  rewrite runes_string by apply runes_of_valid. reflexivity.
Qed.

Lemma sanitized_runes s : sanitized s (string_of (runes_of s)).
Proof.
  assert (G : forall l, Forall (fun x => x < 256) l -> sanitized (strN l) (string_of (decodeN l))).
  { apply decode_ind.
    - constructor.
    - intros r s' Hr Hb Hd IH. rewrite Hd, strN_app.
      unfold string_of. cbn [map concat]. rewrite strN_app.
      unfold encode_rune at 1. rewrite Hr. constructor; [exact Hr|exact IH].
    - intros b0 s1 Hlo Hb Hd Hno IH. rewrite Hd.
      unfold string_of. cbn [map concat]. rewrite strN_app.
      unfold strN at 1. cbn [map].
      change (strN (encode_rune rune_error)) with (strN [239; 191; 189]).
      apply san_byte; [|exact IH].
      intros r u Hr E. apply (Hno r (bytesN u) Hr).
      apply (f_equal bytesN) in E. unfold bytesN at 1 in E. cbn [map] in E.
      inversion Hb as [|? ? Hb0 Hb1]; subst.
      rewrite N_ascii_embedding in E by exact Hb0.
      change (map N_of_ascii (map ascii_of_N s1)) with (bytesN (strN s1)) in E.
      rewrite bytesN_strN in E by exact Hb1.
      rewrite bytesN_app, bytesN_strN in E by (apply encode1_bound; exact Hr). exact E. }
  specialize (G (bytesN s) (bytesN_bound s)). rewrite strN_bytesN in G. exact G.
Qed.

Lemma variants_valid url v : In v (RedundantTailVariants url) -> valid_utf8 v.
Proof.
  destruct url as [|c url]; [intros []|].
  rewrite RTV_unfold by discriminate. rewrite in_prefixes_from by apply stem_le.
  intros (k & _ & ->). apply string_of_valid.
Qed.

(** Scheme replacement *)
Definition swap_variants (url : str) : list str :=
  if has_prefix url (b "http:") then RedundantTailVariants (b "https:" ++ skipn 5 url)
  else if has_prefix url (b "https:") then RedundantTailVariants (b "http:" ++ skipn 6 url)
  else [].

Lemma replacements_exclusive url :
  has_prefix url (b "http:") = true -> has_prefix url (b "https:") = true -> False.
Proof.
  rewrite !has_prefix_iff. intros [t1 ->] [t2 H]. discriminate.
Qed.

Theorem url_variants_order entries url :
  Permutation entries replacements ->
  UrlVariants entries url = RedundantTailVariants url ++ swap_variants url.
Proof.
  intros HP.
  assert (HE : entries = replacements \/ entries = rev replacements).
  { unfold replacements in *. cbn [rev app].
    apply Permutation_sym in HP. apply Permutation_length_2_inv in HP. destruct HP; auto. }
  unfold UrlVariants, swap_variants.
  destruct HE as [-> | ->]; cbn [replacements rev app fold_left replacement_variants];
  destruct (has_prefix url (b "http:")) eqn:E1; destruct (has_prefix url (b "https:")) eqn:E2;
    try (exfalso; eapply replacements_exclusive; eassumption);
    rewrite ?app_nil_r; reflexivity.
Qed.

Lemma valid_utf8_change_prefix p q rest :
  Forall (fun a => N_of_ascii a < 128) p -> Forall (fun a => N_of_ascii a < 128) q ->
  valid_utf8 (p ++ rest) -> valid_utf8 (q ++ rest).
Proof.
  intros Hp Hq H.
  assert (G : forall u, Forall (fun a => N_of_ascii a < 128) u -> runes_of (u ++ rest) = bytesN u ++ runes_of rest).
  { induction u as [|a u IH]; intros Hu; [reflexivity|]. inversion Hu; subst.
    unfold runes_of, bytesN. cbn [app map decodeN].
    destruct (N.ltb_spec (N_of_ascii a) 128); [|lia]. f_equal. apply IH. assumption. }
  apply string_runes_iff. apply string_runes_iff in H. rewrite G in H |- * by assumption.
  rewrite string_of_app in H |- *.
  assert (A : forall u, Forall (fun a => N_of_ascii a < 128) u -> string_of (bytesN u) = u).
  { intros u Hu. rewrite string_of_ascii by (unfold bytesN; apply Forall_map; exact Hu). apply strN_bytesN. }
  rewrite A in H |- * by assumption. apply app_inv_head in H. rewrite H. reflexivity.
Qed.

Theorem url_variants_iff entries url v :
  Permutation entries replacements -> valid_utf8 url -> url <> [] ->
  (In v (UrlVariants entries url) <->
   tail_variant url v \/ exists url', other_scheme url url' /\ tail_variant url' v).
Proof.
  intros HP Hv Hne. rewrite (url_variants_order entries url HP), in_app_iff.
  rewrite tail_variants_iff by assumption.
  assert (S : In v (swap_variants url) <-> exists url', other_scheme url url' /\ tail_variant url' v).
  { unfold swap_variants. split.
    - destruct (has_prefix url (b "http:")) eqn:E1.
      + apply has_prefix_iff in E1. destruct E1 as [rest ->].
        change (skipn 5 (b "http:" ++ rest)) with rest.
        rewrite tail_variants_iff.
        * intros T. exists (b "https:" ++ rest). split; [exists rest; auto|exact T].
        * eapply (valid_utf8_change_prefix (b "http:")); [repeat constructor..|exact Hv].
        * discriminate.
      + destruct (has_prefix url (b "https:")) eqn:E2; [|intros []].
        apply has_prefix_iff in E2. destruct E2 as [rest ->].
        change (skipn 6 (b "https:" ++ rest)) with rest.
        rewrite tail_variants_iff.
        * intros T. exists (b "http:" ++ rest). split; [exists rest; auto|exact T].
        * eapply (valid_utf8_change_prefix (b "https:")); [repeat constructor..|exact Hv].
        * discriminate.
    - intros (url' & (rest & [[-> ->]|[-> ->]]) & T).
      + assert (E1 : has_prefix (b "http:" ++ rest) (b "http:") = true)
          by (apply has_prefix_iff; exists rest; reflexivity).
        rewrite E1. change (skipn 5 (b "http:" ++ rest)) with rest.
        apply tail_variants_iff; [|discriminate|exact T].
        eapply (valid_utf8_change_prefix (b "http:")); [repeat constructor..|exact Hv].
      + assert (E2 : has_prefix (b "https:" ++ rest) (b "https:") = true)
          by (apply has_prefix_iff; exists rest; reflexivity).
        destruct (has_prefix (b "https:" ++ rest) (b "http:")) eqn:E1;
          [exfalso; eapply replacements_exclusive; eassumption|].
        rewrite E2. change (skipn 6 (b "https:" ++ rest)) with rest.
        apply tail_variants_iff; [|discriminate|exact T].
        eapply (valid_utf8_change_prefix (b "https:")); [repeat constructor..|exact Hv]. }
  rewrite S. reflexivity.
Qed.

Theorem url_variants_all_valid entries url v :
  Permutation entries replacements -> In v (UrlVariants entries url) -> valid_utf8 v.
Proof.
  intros HP. rewrite (url_variants_order entries url HP), in_app_iff.
  intros [H|H]; [eapply variants_valid; exact H|].
  unfold swap_variants in H.
  destruct (has_prefix url (b "http:")); [eapply variants_valid; exact H|].
  destruct (has_prefix url (b "https:")); [eapply variants_valid; exact H|destruct H].
Qed.
