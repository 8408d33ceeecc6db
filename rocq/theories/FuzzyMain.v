(** Acceptance of links by approximate search. *)
From Verif Require Import GoBase GoSlice Utf8 Utf8Proofs Fuzzy FuzzySpec FuzzyDist.
From Coq Require Import Lia ZifyBool ZifyNat ZifyN.
Local Open Scope Z_scope.

Lemma distance_unique p w d d' : distance p w d -> distance p w d' -> d = d'.
Proof.
  intros [(s & F & C) L] [(s' & F' & C') L']. specialize (L s' F'). specialize (L' s F). lia.
Qed.
Lemma distance_nonneg p w d : distance p w d -> 0 <= d.
Proof. intros [(s & F & C) L]. subst. apply cost_nonneg. Qed.

Lemma remove_all p : exists s, script_source s = p /\ script_target s = [] /\ script_cost s = Z.of_nat (length p).
Proof.
  exists (map Remove p). induction p as [|a p (A & B & C)]; [auto|].
  cbn [map script_source script_target flat_map op_source op_target app length].
  unfold script_source, script_target, script_cost in *. cbn [fold_right op_cost]. rewrite A, B, C. repeat split; lia.
Qed.
Lemma distance_le p w d : distance p w d -> d <= Z.of_nat (length p).
Proof.
  intros [_ L]. destruct (remove_all p) as (s & A & B & C). rewrite <- C. apply L. split; [exact A|].
  exists w, []. rewrite B. rewrite !app_nil_r. reflexivity.
Qed.
Lemma script_len s : Z.of_nat (length (script_source s)) - Z.of_nat (length (script_target s)) <= script_cost s.
Proof.
  unfold script_source, script_target, script_cost.
  induction s as [|o s IH]; cbn [flat_map fold_right]; [cbn; lia|]. rewrite !app_length.
  destruct o; cbn [op_source op_target op_cost length]; lia.
Qed.
Lemma distance_len p w d : distance p w d -> Z.of_nat (length p) - Z.of_nat (length w) <= d.
Proof.
  intros [(s & (A & bf & af & B) & C) _]. subst p w d. pose proof (script_len s). rewrite !app_length. lia.
Qed.
Lemma zero_script s : script_cost s = 0 -> script_source s = script_target s.
Proof.
  unfold script_source, script_target, script_cost.
  induction s as [|o s IH]; cbn [flat_map fold_right]; [reflexivity|]. intros H.
  pose proof (cost_nonneg s) as N. unfold script_cost in N.
  destruct o; cbn [op_cost] in H; try lia. cbn [op_source op_target]. rewrite IH by lia. reflexivity.
Qed.
Lemma distance_0 p w : distance p w 0 <-> exists x y, w = x ++ p ++ y.
Proof.
  split.
  - intros [(s & (A & bf & af & B) & C) _]. exists bf, af. rewrite <- A, (zero_script s C). exact B.
  - intros (x & y & ->). split.
    + exists (map Keep p). assert (H : script_source (map Keep p) = p /\ script_target (map Keep p) = p /\ script_cost (map Keep p) = 0).
      { unfold script_source, script_target, script_cost. induction p as [|a p (A & B & C)]; [auto|].
        cbn [map flat_map fold_right op_source op_target op_cost app]. rewrite A, B, C. auto. }
      destruct H as (A & B & C). split; [|exact C]. split; [exact A|]. exists x, y. rewrite B. reflexivity.
    + intros s _. apply cost_nonneg.
Qed.

(** ** Lower case *)
Lemma bytesN_length s : length (bytesN s) = length s.
Proof. apply map_length. Qed.
Lemma lower_ascii u r : (r < 128)%N -> (lower_rune u r < 128)%N.
Proof.
  intros H. unfold lower_rune. replace (r <? 128)%N with true by lia. destruct (inr 65 90 r) eqn:E; [|exact H].
  apply inr_true in E. lia.
Qed.
Lemma runes_lower_ascii u s : is_ascii s -> runes_of (ToLower u s) = map (lower_rune u) (bytesN s).
Proof.
  intros H. unfold ToLower. rewrite (runes_ascii s) by exact H.
  assert (A : Forall (fun x => (x < 128)%N) (map (lower_rune u) (bytesN s))).
  { unfold bytesN. rewrite map_map. apply Forall_map. eapply Forall_impl; [|exact H]. intros a Ha. apply lower_ascii. exact Ha. }
  rewrite string_of_ascii by exact A. unfold runes_of. rewrite bytesN_strN.
  - apply decode_ascii. exact A.
  - eapply Forall_impl; [|exact A]. cbn. lia.
Qed.
Lemma plain_ascii s : plain s -> is_ascii s.
Proof. intros H. eapply Forall_impl; [|exact H]. cbn. tauto. Qed.
Lemma runes_lower_plain u s : plain s -> runes_of (ToLower u s) = bytesN s.
Proof.
  intros H. rewrite runes_lower_ascii by (apply plain_ascii; exact H). unfold bytesN. rewrite map_map.
  apply map_ext_Forall. eapply Forall_impl; [|exact H]. intros a [H1 H2]. unfold lower_rune.
  replace (N_of_ascii a <? 128)%N with true by lia. destruct (inr 65 90 (N_of_ascii a)) eqn:E; [|reflexivity].
  apply inr_true in E. lia.
Qed.
Lemma lower_length_ascii u s : is_ascii s -> length (runes_of (ToLower u s)) = length s.
Proof. intros H. rewrite runes_lower_ascii by exact H. rewrite map_length. apply bytesN_length. Qed.
Lemma bytesN_nil s : bytesN s = [] <-> s = [].
Proof. unfold bytesN. destruct s; cbn; split; congruence. Qed.

Lemma decode_nonempty s : Forall (fun x => (x < 256)%N) s -> s <> [] -> decodeN s <> [].
Proof.
  intros HB H. destruct s as [|x s]; [congruence|].
  destruct (decode_step x s HB) as [(r & s' & _ & _ & E)|(_ & E & _)]; rewrite E; discriminate.
Qed.
Lemma runes_nonempty s : s <> [] -> runes_of s <> [].
Proof.
  intros H. unfold runes_of. apply decode_nonempty; [apply bytesN_bound|]. rewrite bytesN_nil. exact H.
Qed.
Lemma string_of_nonempty rs : rs <> [] -> string_of rs <> [].
Proof.
  intros H. destruct rs as [|r rs]; [congruence|]. unfold string_of, strN. cbn [map concat]. intros E.
  apply map_eq_nil in E. apply app_eq_nil in E. destruct E as [E _]. revert E.
  destruct (encode_rune_always r) as (r' & _ & ->). apply encode1_nonempty.
Qed.
Lemma lower_nonempty u s : s <> [] -> runes_of (ToLower u s) <> [].
Proof.
  intros H. apply runes_nonempty, string_of_nonempty. intros E. apply map_eq_nil in E. revert E. apply runes_nonempty. exact H.
Qed.

Lemma search_distance u q w : q <> [] -> w <> [] ->
  exists d, distance (runes_of (ToLower u q)) (runes_of (ToLower u w)) d /\ SearchDistanceDL u q w = Done (Z.min d 32767).
Proof. intros Hq Hw. apply editor_distance; apply lower_nonempty; assumption. Qed.

(** ** Acceptance *)
Definition sum_z (l : list Z) : Z := fold_right Z.add 0 l.

Lemma subquery_ok u q w limit : q <> [] -> w <> [] -> 0 <= limit ->
  exists d, GetSubqueryDistance u q w limit = Done d /\ 0 <= d /\
    (d <= limit -> word_distance u w q d).
Proof.
  intros Hq Hw HL. unfold GetSubqueryDistance. replace (limit <? 0) with false by lia.
  assert (Lw : 0 < Z.of_nat (length w)) by (destruct w; [congruence|cbn [length]; lia]).
  destruct (Z.eqb_spec limit 0) as [->|Hn].
  - destruct (contains w q) eqn:E.
    + exists 0. repeat split; [lia|]. intros _. constructor. apply contains_iff in E. exact E.
    + eexists. split; [reflexivity|]. split; lia.
  - destruct (Z.ltb_spec limit (Z.of_nat (length q) - Z.of_nat (length w))).
    + eexists. split; [reflexivity|]. split; lia.
    + destruct (search_distance u q w Hq Hw) as (d & Hd & E). rewrite E.
      pose proof (distance_nonneg _ _ _ Hd). eexists. split; [reflexivity|]. split; [lia|].
      intros _. apply wd_edit. exact Hd.
Qed.

Lemma query_loop_ok u w limit : w <> [] -> forall qs acc, Forall (fun q => sq_query q <> []) qs -> 0 <= acc <= limit ->
  exists ok d, query_loop u qs w limit acc = Done (ok, d) /\
    (ok = true -> d <= limit /\ exists ds, Forall2 (fun q d => word_distance u w (sq_query q) d) qs ds /\ d = acc + sum_z ds) /\
    (ok = false -> limit < d).
Proof.
  intros Hw. induction qs as [|q qs IH]; intros acc HF HA; cbn [query_loop].
  - exists true, acc. repeat split; try lia; try discriminate. exists []. split; [constructor|cbn; lia].
  - inversion HF as [|? ? Hq HF']; subst.
    destruct (subquery_ok u (sq_query q) w (limit - acc) Hq Hw ltac:(lia)) as (d & E & N & W). rewrite E. cbn [obind].
    destruct (Z.ltb_spec limit (acc + d)).
    + exists false, (acc + d). repeat split; auto; discriminate.
    + destruct (IH (acc + d) HF' ltac:(lia)) as (ok & r & Er & A & B). exists ok, r. split; [exact Er|]. split; [|exact B].
      intros Hok. destruct (A Hok) as (A1 & ds & A2 & A3). split; [exact A1|]. exists (d :: ds). split; [constructor; auto; apply W; lia|].
      cbn [sum_z fold_right]. fold (sum_z ds). lia.
Qed.

Lemma make_query qs limit : map sq_query (MakeSubqueryLimit qs limit) = qs.
Proof. unfold MakeSubqueryLimit. rewrite map_map. apply map_id. Qed.

Lemma accepted_within u qs w limit : w <> [] -> Forall (fun q => q <> []) qs -> 0 <= limit ->
  exists ok d, QueryDistance u (MakeSubqueryLimit qs limit) w limit = Done (ok, d) /\
    (ok = true -> d <= limit /\ exists ds, Forall2 (word_distance u w) qs ds /\ d = fold_right Z.add 0 ds).
Proof.
  intros Hw HF HL. unfold QueryDistance.
  destruct (query_loop_ok u w limit Hw (MakeSubqueryLimit qs limit) 0) as (ok & d & E & A & B); [|lia|].
  - unfold MakeSubqueryLimit. apply Forall_map. cbn. exact HF.
  - exists ok, d. split; [exact E|]. intros Hok. destruct (A Hok) as (A1 & ds & A2 & A3). split; [exact A1|].
    exists ds. split; [|rewrite A3; unfold sum_z; lia]. rewrite <- (make_query qs limit).
    clear - A2. induction A2; constructor; auto.
Qed.

(** ASCII lower case text *)
Lemma plain_word u q w d : plain q -> plain w -> Z.of_nat (length q) <= 32767 -> word_distance u w q d ->
  distance (bytesN q) (bytesN w) d.
Proof.
  intros Pq Pw Lq [(x & y & ->)|d0 Hd].
  - apply distance_0. exists (bytesN x), (bytesN y). rewrite !bytesN_app. reflexivity.
  - rewrite !runes_lower_plain in Hd by assumption. pose proof (distance_le _ _ _ Hd) as L. rewrite bytesN_length in L.
    replace (Z.min d0 32767) with d0 by lia. exact Hd.
Qed.

Lemma plain_subquery u q w limit d : plain q -> plain w -> q <> [] -> w <> [] -> Z.of_nat (length q) <= 32767 -> 0 <= limit ->
  distance (bytesN q) (bytesN w) d ->
  exists r, GetSubqueryDistance u q w limit = Done r /\ (d <= limit -> r = d) /\ (limit < d -> limit < r).
Proof.
  intros Pq Pw Hq Hw Lq HL Hd. pose proof (distance_nonneg _ _ _ Hd) as N.
  unfold GetSubqueryDistance. replace (limit <? 0) with false by lia.
  assert (Lw : 0 < Z.of_nat (length w)) by (destruct w; [congruence|cbn [length]; lia]).
  destruct (Z.eqb_spec limit 0) as [->|Hn].
  - destruct (contains w q) eqn:E.
    + exists 0. split; [reflexivity|]. apply contains_iff in E. destruct E as (x & y & ->).
      assert (d = 0); [|lia]. eapply distance_unique; [exact Hd|]. apply distance_0.
      exists (bytesN x), (bytesN y). rewrite !bytesN_app. reflexivity.
    + eexists. split; [reflexivity|]. split; [|lia]. intros Hd0. exfalso. assert (d = 0) by lia. subst d.
      apply distance_0 in Hd. destruct Hd as (x & y & E').
      assert (C : contains w q = true); [|congruence]. apply contains_iff. exists (strN x), (strN y).
      rewrite <- (strN_bytesN w), E', !strN_app, strN_bytesN. reflexivity.
  - destruct (Z.ltb_spec limit (Z.of_nat (length q) - Z.of_nat (length w))).
    + eexists. split; [reflexivity|]. pose proof (distance_len _ _ _ Hd) as L. rewrite !bytesN_length in L. lia.
    + destruct (search_distance u q w Hq Hw) as (d' & Hd' & E). rewrite E.
      rewrite !runes_lower_plain in Hd' by assumption. rewrite (distance_unique _ _ _ _ Hd' Hd) in *.
      pose proof (distance_le _ _ _ Hd) as L. rewrite bytesN_length in L. eexists. split; [reflexivity|]. lia.
Qed.

Lemma plain_query u w limit : plain w -> w <> [] -> forall qs acc,
  Forall (fun q => sq_query q <> [] /\ plain (sq_query q) /\ Z.of_nat (length (sq_query q)) <= 32767) qs -> 0 <= acc <= limit ->
  exists total ok d, distances (bytesN w) (map (fun q => bytesN (sq_query q)) qs) total /\
    query_loop u qs w limit acc = Done (ok, d) /\
    (acc + total <= limit -> ok = true /\ d = acc + total) /\ (limit < acc + total -> ok = false).
Proof.
  intros Pw Hw. induction qs as [|q qs IH]; intros acc HF HA; cbn [query_loop map].
  - exists 0, true, acc. split; [constructor|]. split; [reflexivity|]. split; lia.
  - inversion HF as [|? ? (Hq & Pq & Lq) HF']; subst.
    assert (DD : exists d, distance (bytesN (sq_query q)) (bytesN w) d).
    { destruct (editor_distance (bytesN (sq_query q)) (bytesN w)) as (d & Hd & _); [rewrite bytesN_nil; assumption..|]. eauto. }
    destruct DD as (d & Hd). pose proof (distance_nonneg _ _ _ Hd) as N.
    destruct (plain_subquery u (sq_query q) w (limit - acc) d Pq Pw Hq Hw Lq ltac:(lia) Hd) as (r & E & A & B).
    rewrite E. cbn [obind].
    assert (TN : forall ps t, distances (bytesN w) ps t -> 0 <= t).
    { clear. induction 1; [lia|]. pose proof (distance_nonneg _ _ _ H). lia. }
    destruct (Z.le_gt_cases d (limit - acc)) as [Hle|Hgt].
    + rewrite (A Hle). replace (limit <? acc + d) with false by lia.
      destruct (IH (acc + d) HF' ltac:(lia)) as (t & ok & rd & T & Er & A' & B').
      exists (d + t), ok, rd. split; [constructor; assumption|]. split; [exact Er|].
      split; intros Ht; [destruct (A' ltac:(lia)) as [-> ->]; split; [reflexivity|lia]|apply B'; lia].
    + specialize (B ltac:(lia)). replace (limit <? acc + r) with true by lia.
      assert (TT : exists t, distances (bytesN w) (map (fun q => bytesN (sq_query q)) qs) t).
      { clear - HF' Hw. induction HF' as [|q' qs' (Hq' & _) _ IH']; cbn [map].
        - exists 0. constructor.
        - destruct IH' as (t & T).
          destruct (editor_distance (bytesN (sq_query q')) (bytesN w)) as (d & Hd & _); [rewrite bytesN_nil; assumption..|].
          exists (d + t). constructor; assumption. }
      destruct TT as (t & T). specialize (TN _ _ T). exists (d + t), false, (acc + r).
      split; [constructor; assumption|]. split; [reflexivity|]. split; [lia|reflexivity].
Qed.

Lemma plain_accept u qs w limit : plain w -> w <> [] -> 0 <= limit ->
  Forall (fun q => q <> [] /\ plain q /\ Z.of_nat (length q) <= 32767) qs ->
  exists total ok d, distances (bytesN w) (map bytesN qs) total /\
    QueryDistance u (MakeSubqueryLimit qs limit) w limit = Done (ok, d) /\
    (ok = true <-> total <= limit) /\ (ok = true -> d = total).
Proof.
  intros Pw Hw HL HF.
  destruct (plain_query u w limit Pw Hw (MakeSubqueryLimit qs limit) 0) as (t & ok & d & T & E & A & B); [|lia|].
  - unfold MakeSubqueryLimit. apply Forall_map. exact HF.
  - exists t, ok, d. split; [|split; [exact E|]].
    + rewrite <- (make_query qs limit), map_map. exact T.
    + destruct (Z.le_gt_cases t limit) as [Hl|Hl].
      * destruct (A ltac:(lia)) as [-> ->]. split; [tauto|lia].
      * rewrite (B ltac:(lia)). split; [|discriminate]. split; [discriminate|lia].
Qed.

(** ** Pruning by length *)
Lemma prune_safe u q w limit d : is_ascii q -> is_ascii w -> q <> [] -> w <> [] -> 0 < limit -> d <= 32767 ->
  distance (runes_of (ToLower u q)) (runes_of (ToLower u w)) d -> d <= limit ->
  GetSubqueryDistance u q w limit = Done d.
Proof.
  intros Aq Aw Hq Hw HL Hd Hdist Hle. unfold GetSubqueryDistance.
  replace (limit <? 0) with false by lia. replace (limit =? 0) with false by lia.
  pose proof (distance_len _ _ _ Hdist) as L. rewrite !lower_length_ascii in L by assumption.
  replace (limit <? Z.of_nat (length q) - Z.of_nat (length w)) with false by lia.
  destruct (search_distance u q w Hq Hw) as (d' & Hd' & E). rewrite E. rewrite (distance_unique _ _ _ _ Hd' Hdist).
  f_equal. lia.
Qed.

Lemma prune_unsafe : exists u q w limit d, q <> [] /\ w <> [] /\ 0 < limit /\
  distance (runes_of (ToLower u q)) (runes_of (ToLower u w)) d /\ d <= limit /\
  QueryDistance u (MakeSubqueryLimit [q] limit) w limit = Done (false, 4).
Proof.
  set (u := fun r : rune => r).
  set (q := b "abcd" ++ map ascii_of_N [209; 143; 209; 143]%N). set (w := b "abcd").
  destruct (search_distance u q w) as (d & Hd & E); [discriminate..|].
  exists u, q, w, 3, d. split; [discriminate|]. split; [discriminate|]. split; [lia|]. split; [exact Hd|].
  assert (E2 : SearchDistanceDL u q w = Done 2) by (vm_compute; reflexivity). rewrite E2 in E. inversion E. split; [lia|].
  vm_compute. reflexivity.
Qed.

(** ** Letter case *)
Lemma zero_exact u q w : q <> [] -> w <> [] ->
  (QueryDistance u (MakeSubqueryLimit [q] 0) w 0 = Done (true, 0) <-> substring q w).
Proof.
  intros Hq Hw. unfold QueryDistance. cbn [MakeSubqueryLimit map query_loop sq_query].
  unfold GetSubqueryDistance. change (0 - 0) with 0. change (0 <? 0) with false. change (0 =? 0) with true. cbv iota.
  assert (Lw : 0 < Z.of_nat (length w)) by (destruct w; [congruence|cbn [length]; lia]).
  destruct (contains w q) eqn:E; cbn [obind].
  - apply contains_iff in E. split; [intros _; exact E|reflexivity].
  - split.
    + intros H. exfalso. destruct (Z.ltb_spec 0 (0 + Z.of_nat (length w))); [discriminate H|lia].
    + intros H. apply contains_iff in H. congruence.
Qed.

Lemma lower_lower u r : (r < 128)%N -> lower_rune u (lower_rune u r) = lower_rune u r.
Proof.
  intros H. unfold lower_rune. replace (r <? 128)%N with true by lia. destruct (inr 65 90 r) eqn:E.
  - apply inr_true in E. replace (r + 32 <? 128)%N with true by lia. replace (inr 65 90 (r + 32)) with false; [reflexivity|].
    symmetry. apply inr_false. lia.
  - replace (r <? 128)%N with true by lia. rewrite E. reflexivity.
Qed.
Lemma ToLower_ascii u s : is_ascii s -> is_ascii (ToLower u s) /\ length (ToLower u s) = length s /\
  runes_of (ToLower u (ToLower u s)) = runes_of (ToLower u s).
Proof.
  intros H.
  assert (A : Forall (fun x => (x < 128)%N) (map (lower_rune u) (bytesN s))).
  { unfold bytesN. rewrite map_map. apply Forall_map. eapply Forall_impl; [|exact H]. intros a Ha. apply lower_ascii. exact Ha. }
  assert (E : ToLower u s = strN (map (lower_rune u) (bytesN s))).
  { unfold ToLower. rewrite runes_ascii by exact H. apply string_of_ascii. exact A. }
  assert (B : is_ascii (ToLower u s)).
  { rewrite E. unfold is_ascii, strN. apply Forall_map. eapply Forall_impl; [|exact A]. intros x Hx.
    cbn beta in Hx. rewrite N_ascii_embedding; [exact Hx|]. change (x < 256)%N. lia. }
  split; [exact B|]. split; [rewrite E; unfold strN, bytesN; rewrite !map_length; reflexivity|].
  rewrite (runes_lower_ascii u (ToLower u s)) by exact B. rewrite (runes_lower_ascii u s) by exact H.
  rewrite E at 1. rewrite bytesN_strN by (eapply Forall_impl; [|exact A]; cbn; lia).
  rewrite map_map. unfold bytesN. rewrite !map_map. apply map_ext_Forall. eapply Forall_impl; [|exact H].
  intros a Ha. apply lower_lower. exact Ha.
Qed.
Lemma case_ignored u q w limit : is_ascii q -> is_ascii w -> 0 < limit ->
  GetSubqueryDistance u q w limit = GetSubqueryDistance u (ToLower u q) (ToLower u w) limit.
Proof.
  intros Aq Aw HL. unfold GetSubqueryDistance.
  replace (limit <? 0) with false by lia. replace (limit =? 0) with false by lia.
  destruct (ToLower_ascii u q Aq) as (_ & -> & Eq). destruct (ToLower_ascii u w Aw) as (_ & -> & Ew).
  unfold SearchDistanceDL. rewrite Eq, Ew. reflexivity.
Qed.
