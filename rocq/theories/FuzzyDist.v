(** EditorDistanceRunes computes the least cost of an edit script. *)
From Verif Require Import GoBase GoSlice Utf8 Fuzzy FuzzySpec.
From Coq Require Import Lia ZifyBool ZifyNat ZifyN.
Local Open Scope Z_scope.

Lemma same_01 a c : 0 <= SameRuneDistance a c <= 1.
Proof. unfold SameRuneDistance. destruct (a =? c)%N; lia. Qed.

(** ** Table of distances *)
Definition next_row (p w : list rune) (i : nat) (prev2 prev : nat -> Z) : nat -> Z :=
  fix go (j : nat) : Z :=
    match j with
    | O => Z.of_nat (S i)
    | S j' =>
        let base := Z.min (prev j' + SameRuneDistance (nth i p 0%N) (nth j' w 0%N))
                      (Z.min (go j' + 1) (prev (S j') + 1)) in
        match i, j' with
        | S i1, S j1 =>
            if ((nth i1 p 0 =? nth j' w 0) && (nth i p 0 =? nth j1 w 0))%N%bool
            then Z.min base (prev2 j1 + 1) else base
        | _, _ => base
        end
    end.

Fixpoint table (p w : list rune) (i : nat) : (nat -> Z) * (nat -> Z) :=
  match i with
  | O => (fun _ => 0, fun _ => 0)
  | S i' => let r := table p w i' in (next_row p w i' (snd r) (fst r), fst r)
  end.
Definition D p w i := fst (table p w i).

Lemma D_0 p w j : D p w 0 j = 0.
Proof. reflexivity. Qed.
Lemma D_S0 p w i : D p w i 0 = Z.of_nat i.
Proof. destruct i; reflexivity. Qed.

Definition swap_case (p w : list rune) (i j : nat) : bool :=
  match i, j with
  | S i1, S j1 => ((nth i1 p 0 =? nth j w 0) && (nth i p 0 =? nth j1 w 0))%N%bool
  | _, _ => false
  end.

Lemma D_SS p w i j :
  D p w (S i) (S j) =
  let base := Z.min (D p w i j + SameRuneDistance (nth i p 0%N) (nth j w 0%N))
                (Z.min (D p w (S i) j + 1) (D p w i (S j) + 1)) in
  if swap_case p w i j then Z.min base (D p w (i - 1) (j - 1) + 1) else base.
Proof.
  unfold D at 1. cbn [table fst]. cbn [next_row]. fold (next_row p w i (snd (table p w i)) (fst (table p w i)) j).
  destruct i as [|i].
  - reflexivity.
  - destruct j as [|j]; [reflexivity|]. cbn [swap_case]. replace (S i - 1)%nat with i by lia. replace (S j - 1)%nat with j by lia.
    reflexivity.
Qed.

Lemma D_nonneg p w : forall i j, 0 <= D p w i j.
Proof.
  assert (H : forall i, (forall j, 0 <= D p w i j) /\ (forall j, 0 <= D p w (S i) j)).
  { induction i as [|i [IH1 IH2]].
    - split; [intros; rewrite D_0; lia|]. induction j as [|j IH]; [rewrite D_S0; lia|].
      rewrite D_SS. cbn [swap_case]. rewrite !D_0. unfold SameRuneDistance. destruct (_ =? _)%N; cbv zeta; lia.
    - split; [assumption|]. induction j as [|j IH]; [rewrite D_S0; lia|].
      rewrite D_SS. cbv zeta. specialize (IH2 j) as A. specialize (IH2 (S j)) as B. specialize (IH1 (j - 1)%nat) as C.
      replace (S i - 1)%nat with i by lia. unfold SameRuneDistance. destruct (_ =? _)%N, (swap_case _ _ _ _); lia. }
  intros i j. apply H.
Qed.

(** ** Scripts *)
Lemma source_app a c : script_source (a ++ c) = script_source a ++ script_source c.
Proof. apply flat_map_app. Qed.
Lemma target_app a c : script_target (a ++ c) = script_target a ++ script_target c.
Proof. apply flat_map_app. Qed.
Lemma cost_app a c : script_cost (a ++ c) = script_cost a + script_cost c.
Proof. unfold script_cost. induction a; cbn; [reflexivity|]. lia. Qed.
Lemma cost_nonneg s : 0 <= script_cost s.
Proof. unfold script_cost. induction s as [|o s IH]; cbn [fold_right]; [lia|]. destruct o; cbn [op_cost]; lia. Qed.

Lemma firstn_S_nth (l : list rune) i : (i < length l)%nat -> firstn (S i) l = firstn i l ++ [nth i l 0%N].
Proof.
  revert i; induction l as [|x l IH]; intros [|i] H; cbn in *; try lia; try reflexivity.
  rewrite IH by lia. reflexivity.
Qed.
Lemma snoc_firstn (l p : list rune) a i : (i <= length p)%nat -> l ++ [a] = firstn i p ->
  exists i', i = S i' /\ (i' < length p)%nat /\ l = firstn i' p /\ a = nth i' p 0%N.
Proof.
  destruct i as [|i]; intros Hi H; [cbn in H; destruct l; discriminate|].
  exists i. rewrite firstn_S_nth in H by lia. apply app_inj_tail in H. destruct H. repeat split; auto; lia.
Qed.

Lemma upper p w : forall i, (i <= length p)%nat -> forall j, (j <= length w)%nat ->
  exists s before, script_source s = firstn i p /\ firstn j w = before ++ script_target s /\ script_cost s = D p w i j.
Proof.
  set (G := fun i => (i <= length p)%nat -> forall j, (j <= length w)%nat ->
     exists s before, script_source s = firstn i p /\ firstn j w = before ++ script_target s /\ script_cost s = D p w i j).
  assert (H : forall i, G i /\ G (S i)).
  { assert (G0 : G 0%nat).
    { intros _ j Hj. exists [], (firstn j w). rewrite D_0, app_nil_r. auto. }
    assert (Step : forall i, (match i with O => True | S i1 => G i1 end) -> G i -> G (S i)).
    { intros i H2 H1 Hi. induction j as [|j IH]; intros Hj.
      - destruct (H1 ltac:(lia) 0%nat ltac:(lia)) as (s & bf & A & B & C).
        exists (s ++ [Remove (nth i p 0%N)]), bf. rewrite source_app, target_app, cost_app, A, C, !D_S0, firstn_S_nth by lia.
        repeat split; [cbn; rewrite app_nil_r; exact B|cbn; lia].
      - rewrite D_SS. cbv zeta.
        destruct (H1 ltac:(lia) j ltac:(lia)) as (s1 & bf1 & A1 & B1 & C1).
        destruct (IH ltac:(lia)) as (s2 & bf2 & A2 & B2 & C2).
        destruct (H1 ltac:(lia) (S j) ltac:(lia)) as (s3 & bf3 & A3 & B3 & C3).
        set (pi := nth i p 0%N) in *. set (wj := nth j w 0%N) in *.
        assert (K1 : exists s before, script_source s = firstn (S i) p /\ firstn (S j) w = before ++ script_target s /\
            script_cost s = D p w i j + SameRuneDistance pi wj).
        { unfold SameRuneDistance. destruct (N.eqb_spec pi wj) as [E|E].
          - exists (s1 ++ [Keep wj]), bf1. rewrite source_app, target_app, cost_app, A1, C1, !firstn_S_nth, B1, app_assoc by lia.
            fold pi wj. rewrite E. repeat split; cbn; try lia; reflexivity.
          - exists (s1 ++ [Change pi wj]), bf1. rewrite source_app, target_app, cost_app, A1, C1, !firstn_S_nth, B1, app_assoc by lia.
            repeat split; cbn; try lia; reflexivity. }
        assert (K2 : exists s before, script_source s = firstn (S i) p /\ firstn (S j) w = before ++ script_target s /\
            script_cost s = D p w (S i) j + 1).
        { exists (s2 ++ [Add wj]), bf2. rewrite source_app, target_app, cost_app, A2, C2, (firstn_S_nth w), B2, app_assoc by lia.
          repeat split; cbn; try lia; try reflexivity. apply app_nil_r. }
        assert (K3 : exists s before, script_source s = firstn (S i) p /\ firstn (S j) w = before ++ script_target s /\
            script_cost s = D p w i (S j) + 1).
        { exists (s3 ++ [Remove pi]), bf3. rewrite source_app, target_app, cost_app, A3, C3, (firstn_S_nth p), B3 by lia.
          repeat split; cbn; try lia; try reflexivity. rewrite app_nil_r. reflexivity. }
        assert (K4 : swap_case p w i j = true -> exists s before, script_source s = firstn (S i) p /\ firstn (S j) w = before ++ script_target s /\
            script_cost s = D p w (i - 1) (j - 1) + 1).
        { destruct i as [|i]; [discriminate|]. destruct j as [|j]; [discriminate|]. cbn [swap_case]. intros E.
          apply andb_prop in E. destruct E as [E1 E2]. apply N.eqb_eq in E1, E2.
          replace (S i - 1)%nat with i by lia. replace (S j - 1)%nat with j by lia.
          destruct (H2 ltac:(lia) j ltac:(lia)) as (s & bf & A & B & C).
          exists (s ++ [Swap (nth i p 0%N) pi]), bf. rewrite source_app, target_app, cost_app, A, C.
          rewrite (firstn_S_nth p (S i)), (firstn_S_nth w (S j)), (firstn_S_nth p i), (firstn_S_nth w j), B by lia.
          rewrite <- E2, <- E1. fold pi. repeat split; cbn; try lia; rewrite <- ?app_assoc; reflexivity. }
        destruct (swap_case p w i j).
        + specialize (K4 eq_refl).
          destruct (Z.min_dec (Z.min (D p w i j + SameRuneDistance pi wj) (Z.min (D p w (S i) j + 1) (D p w i (S j) + 1)))
             (D p w (i - 1) (j - 1) + 1)) as [->| ->]; [|exact K4].
          destruct (Z.min_dec (D p w i j + SameRuneDistance pi wj) (Z.min (D p w (S i) j + 1) (D p w i (S j) + 1))) as [->| ->]; [exact K1|].
          destruct (Z.min_dec (D p w (S i) j + 1) (D p w i (S j) + 1)) as [->| ->]; assumption.
        + destruct (Z.min_dec (D p w i j + SameRuneDistance pi wj) (Z.min (D p w (S i) j + 1) (D p w i (S j) + 1))) as [->| ->]; [exact K1|].
          destruct (Z.min_dec (D p w (S i) j + 1) (D p w i (S j) + 1)) as [->| ->]; assumption. }
    induction i as [|i [IH1 IH2]].
    - split; [exact G0|]. apply Step; [exact I|exact G0].
    - split; [exact IH2|]. apply Step; assumption. }
  intros i. apply H.
Qed.

Lemma lower p w s : forall i j before, (i <= length p)%nat -> (j <= length w)%nat ->
  script_source s = firstn i p -> firstn j w = before ++ script_target s -> D p w i j <= script_cost s.
Proof.
  induction s as [|o s IH] using rev_ind; intros i j before Hi Hj HS HT.
  - cbn in HS. destruct i as [|i]; [rewrite D_0; cbn; lia|]. destruct p; [cbn in Hi; lia|discriminate].
  - rewrite source_app in HS. rewrite target_app in HT. rewrite cost_app. rewrite app_assoc in HT.
    destruct o as [a|a c|a|c|a c]; cbn [script_source script_target flat_map op_source op_target] in HS, HT;
      cbn [script_cost fold_right op_cost]; fold (script_source s) in HS; fold (script_target s) in HT; rewrite ?app_nil_r in *.
    + symmetry in HT. apply snoc_firstn in HS, HT; auto.
      destruct HS as (i' & -> & Li & Ei & Ea). destruct HT as (j' & -> & Lj & Ej & Eb).
      specialize (IH i' j' before ltac:(lia) ltac:(lia) Ei (eq_sym Ej)).
      rewrite D_SS. cbv zeta. rewrite <- Ea, <- Eb. unfold SameRuneDistance. rewrite N.eqb_refl.
      destruct (swap_case _ _ _ _); lia.
    + symmetry in HT. apply snoc_firstn in HS, HT; auto.
      destruct HS as (i' & -> & Li & Ei & Ea). destruct HT as (j' & -> & Lj & Ej & Eb).
      specialize (IH i' j' before ltac:(lia) ltac:(lia) Ei (eq_sym Ej)).
      rewrite D_SS. cbv zeta. unfold SameRuneDistance. destruct (_ =? _)%N, (swap_case _ _ _ _); lia.
    + apply snoc_firstn in HS; auto. destruct HS as (i' & -> & Li & Ei & Ea).
      specialize (IH i' j before ltac:(lia) ltac:(lia) Ei HT).
      destruct j as [|j]; [rewrite !D_S0 in *; lia|].
      rewrite D_SS. cbv zeta. destruct (swap_case _ _ _ _); lia.
    + symmetry in HT. apply snoc_firstn in HT; auto. destruct HT as (j' & -> & Lj & Ej & Eb).
      specialize (IH i j' before ltac:(lia) ltac:(lia) HS (eq_sym Ej)).
      destruct i as [|i]; [rewrite D_0; pose proof (cost_nonneg s); lia|].
      rewrite D_SS. cbv zeta. destruct (swap_case _ _ _ _); lia.
    + replace (script_source s ++ [a; c]) with ((script_source s ++ [a]) ++ [c]) in HS by (rewrite <- app_assoc; reflexivity).
      replace ((before ++ script_target s) ++ [c; a]) with (((before ++ script_target s) ++ [c]) ++ [a]) in HT
        by (rewrite <- !app_assoc; reflexivity).
      symmetry in HT. apply snoc_firstn in HS, HT; auto.
      destruct HS as (i' & -> & Li & Ei & Ea). destruct HT as (j' & -> & Lj & Ej & Eb).
      apply snoc_firstn in Ei, Ej; try lia.
      destruct Ei as (i2 & -> & Li2 & Ei & Ea2). destruct Ej as (j2 & -> & Lj2 & Ej & Eb2).
      specialize (IH i2 j2 before ltac:(lia) ltac:(lia) Ei (eq_sym Ej)).
      rewrite D_SS. cbv zeta. cbn [swap_case]. rewrite <- Ea2, <- Eb, <- Ea, <- Eb2, !N.eqb_refl. cbn [andb].
      replace (S i2 - 1)%nat with i2 by lia. replace (S j2 - 1)%nat with j2 by lia. lia.
Qed.

(** ** Distance is the minimum of the last row *)
Fixpoint row_min (f : nat -> Z) (n : nat) : Z :=     (* min of f 1 .. f (S n) *)
  match n with O => f 1%nat | S n' => Z.min (row_min f n') (f (S n)) end.
Lemma row_min_le f n : forall j, (1 <= j <= S n)%nat -> row_min f n <= f j.
Proof.
  induction n as [|n IH]; intros j Hj; cbn [row_min].
  - replace j with 1%nat by lia. lia.
  - destruct (Nat.eq_dec j (S (S n))) as [->|]; [lia|]. specialize (IH j ltac:(lia)). lia.
Qed.
Lemma row_min_ex f n : exists j, (1 <= j <= S n)%nat /\ row_min f n = f j.
Proof.
  induction n as [|n (j & Hj & E)]; cbn [row_min].
  - exists 1%nat. split; [lia|reflexivity].
  - destruct (Z.min_dec (row_min f n) (f (S (S n)))) as [->| ->]; [exists j; split; [lia|exact E]|].
    exists (S (S n)). split; [lia|reflexivity].
Qed.

Lemma firstn_suffix (w : list rune) j : exists after, w = firstn j w ++ after.
Proof. exists (skipn j w). symmetry. apply firstn_skipn. Qed.

Lemma D_distance p w n : p <> [] -> length w = S n -> distance p w (row_min (D p w (length p)) n).
Proof.
  intros Hp Hw. split.
  - destruct (row_min_ex (D p w (length p)) n) as (j & Hj & ->).
    destruct (upper p w (length p) (le_n _) j ltac:(lia)) as (s & bf & A & B & C).
    exists s. split; [|exact C]. split; [rewrite A; apply firstn_all|].
    destruct (firstn_suffix w j) as (af & E). exists bf, af. rewrite E at 1. rewrite B, app_assoc. reflexivity.
  - intros s (HS & bf & af & HT).
    set (j := length (bf ++ script_target s)).
    assert (Lj : (j <= length w)%nat) by (unfold j; rewrite HT, !app_length; lia).
    assert (Fj : firstn j w = bf ++ script_target s).
    { rewrite HT. replace (bf ++ script_target s ++ af) with ((bf ++ script_target s) ++ af) by (rewrite <- app_assoc; reflexivity).
      unfold j. rewrite firstn_app, Nat.sub_diag, firstn_all, app_nil_r. reflexivity. }
    assert (L : D p w (length p) j <= script_cost s).
    { apply (lower p w s (length p) j bf); auto. rewrite HS. symmetry. apply firstn_all. }
    destruct j as [|j0] eqn:Ej; [|pose proof (row_min_le (D p w (length p)) n (S j0) ltac:(lia)); lia].
    rewrite D_S0 in L.
    pose proof (row_min_le (D p w (length p)) n 1 ltac:(lia)) as R.
    destruct p as [|p0 p']; [congruence|]. cbn [length] in *. rewrite D_SS in R. cbv zeta in R. rewrite D_S0 in R.
    unfold SameRuneDistance in R. destruct (_ =? _)%N, (swap_case _ _ _ _) in R; lia.
Qed.

(** ** The program computes the table *)
Definition cap (x : Z) : Z := Z.min CutCost x.

Lemma MinDistance_min l : MinDistance l = fold_right Z.min CutCost l.
Proof.
  unfold MinDistance. rewrite <- fold_left_rev_right.
  assert (E : forall l, fold_right (fun y x => if y <? x then y else x) CutCost l = fold_right Z.min CutCost l).
  { clear. induction l as [|a l IH]; cbn; [reflexivity|]. rewrite IH. destruct (Z.ltb_spec a (fold_right Z.min CutCost l)); lia. }
  rewrite E. induction l as [|a l IH]; [reflexivity|]. cbn [rev fold_right]. rewrite fold_right_app. cbn [fold_right].
  rewrite <- IH. clear. generalize (rev l). intros r.
  assert (forall c, fold_right Z.min (Z.min a c) r = Z.min a (fold_right Z.min c r)).
  { induction r as [|y r IH]; intros c; cbn [fold_right]; [reflexivity|]. rewrite IH. lia. }
  apply H.
Qed.

Lemma cap_add x s : 0 <= s -> cap (cap x + s) = cap (x + s).
Proof. unfold cap. lia. Qed.
Lemma cap_min x y : cap (Z.min x y) = Z.min (cap x) (cap y).
Proof. unfold cap. lia. Qed.
Lemma min_cap x r : Z.min x (cap r) = cap (Z.min x r).
Proof. unfold cap. lia. Qed.
Lemma Min4 a c d t s : 0 <= s ->
  MinDistance [cap a + s; cap c + 1; cap d + 1; t] = cap (Z.min (Z.min (a + s) (Z.min (c + 1) (d + 1))) t).
Proof.
  intros Hs. rewrite MinDistance_min. cbn [fold_right]. change CutCost with (cap CutCost). rewrite !min_cap.
  rewrite !cap_min. rewrite !(cap_add _ s), !(cap_add _ 1) by lia.
  replace (cap CutCost) with CutCost by reflexivity.
  replace (Z.min (cap t) CutCost) with (cap t) by (unfold cap; lia). rewrite <- !Z.min_assoc. reflexivity.
Qed.

Definition row_ok (p w : list rune) (l : list Z) (k : nat) : Prop :=
  length l = length w /\ forall t, (t < length w)%nat -> nth_error l t = Some (cap (D p w k (S t))).

Lemma nth_error_nth0 (l : list rune) i : (i < length l)%nat -> nth_error l i = Some (nth i l 0%N).
Proof. intros H. apply nth_error_nth'. exact H. Qed.

Lemma get_ok (l : list rune) i : (i < length l)%nat -> get l i = Done (nth i l 0%N).
Proof. intros H. unfold get. rewrite nth_error_nth0 by exact H. reflexivity. Qed.

Lemma D_1 p w t : D p w 1 (S t) = SameRuneDistance (nth 0 p 0%N) (nth t w 0%N).
Proof.
  rewrite D_SS. cbn [swap_case]. cbv zeta. rewrite !D_0. pose proof (D_nonneg p w 1 t).
  unfold SameRuneDistance. destruct (_ =? _)%N; lia.
Qed.

Lemma first_row_ok p w : p <> [] -> exists l, first_row p w = Done l /\ row_ok p w l 1.
Proof.
  intros Hp. unfold row_ok.
  assert (H : forall w0, exists l, first_row p w0 = Done l /\ length l = length w0 /\
     forall t, (t < length w0)%nat -> nth_error l t = Some (SameRuneDistance (nth 0 p 0%N) (nth t w0 0%N))).
  { induction w0 as [|x w0 (l & E & L & N)]; cbn [first_row].
    - exists []. repeat split. cbn. lia.
    - rewrite get_ok by (destruct p; [congruence|cbn; lia]). cbn [obind]. rewrite E. cbn [obind].
      eexists. split; [reflexivity|]. split; [cbn; congruence|]. intros [|t] Ht; cbn [nth nth_error].
      + change (MinDistance [1; 1]) with 1. f_equal. lia.
      + apply N. cbn in Ht. lia. }
  destruct (H w) as (l & E & L & N). exists l. split; [exact E|]. split; [exact L|].
  intros t Ht. rewrite N by exact Ht. rewrite D_1. f_equal. unfold cap, CutCost, SameRuneDistance. destruct (_ =? _)%N; lia.
Qed.

Definition sel (m : nat) (prev : Z * Z) : Z := if Nat.odd m then snd prev else fst prev.

Lemma odd_S m : Nat.odd (S m) = negb (Nat.odd m).
Proof. rewrite Nat.odd_succ, <- Nat.negb_odd. reflexivity. Qed.

Definition inner_inv p w (k : nat) (m : nat) (s : list Z * (Z * Z)) : Prop :=
  length (fst s) = length w /\
  (forall t, (t < length w)%nat -> nth_error (fst s) t =
      Some (if (t <? m)%nat then cap (D p w (S k) (S t)) else cap (D p w (k - 1) (S t)))) /\
  cap (sel m (snd s)) = cap (D p w (k - 1) (m - 1)) /\ cap (sel (S m) (snd s)) = cap (D p w (k - 1) m).

Lemma get_row (l : list Z) i v : nth_error l i = Some v -> get l i = Done v.
Proof. intros H. apply get_done. exact H. Qed.

Lemma inner_step_ok p w alt k m s :
  (1 <= k < length p)%nat -> (1 <= m < length w)%nat -> row_ok p w alt k -> inner_inv p w k m s ->
  exists s', inner_step p w alt k m s = Done s' /\ inner_inv p w k (S m) s'.
Proof.
  intros Hk Hm (La & Na) (L & N & P0 & P1). destruct s as [cost [prev0 prev1]]. cbn [fst snd] in *.
  unfold inner_step. rewrite !get_ok by lia. cbn [obind].
  rewrite (get_row cost m _ (N m ltac:(lia))). cbn [obind].
  rewrite (get_row alt (m - 1) _ (Na (m - 1)%nat ltac:(lia))). cbn [obind].
  rewrite (get_row cost (m - 1) _ (N (m - 1)%nat ltac:(lia))). cbn [obind].
  rewrite (get_row alt m _ (Na m ltac:(lia))). cbn [obind].
  rewrite set_done by lia. cbn [obind].
  replace (S (m - 1)) with m by lia.
  replace (m - 1 <? m)%nat with true by lia. rewrite Nat.ltb_irrefl.
  eexists. split; [reflexivity|]. unfold inner_inv. cbn [fst snd].
  rewrite replace_at_length. split; [exact L|].
  assert (HV : cap (D p w (S k) (S m)) =
     MinDistance [cap (D p w k m) + SameRuneDistance (nth k p 0%N) (nth m w 0%N); cap (D p w (S k) m) + 1;
       cap (D p w k (S m)) + 1;
       if ((nth (k - 1) p 0 =? nth m w 0) && (nth k p 0 =? nth (m - 1) w 0))%N%bool
       then (if Nat.odd m then prev1 else prev0) + 1 else CutCost]).
  { rewrite D_SS. cbv zeta.
    assert (SC : swap_case p w k m = ((nth (k - 1) p 0 =? nth m w 0) && (nth k p 0 =? nth (m - 1) w 0))%N%bool).
    { destruct k as [|k']; [lia|]. destruct m as [|m']; [lia|]. cbn [swap_case]. rewrite !Nat.sub_succ, !Nat.sub_0_r. reflexivity. }
    rewrite SC.
    assert (S01 : 0 <= SameRuneDistance (nth k p 0%N) (nth m w 0%N) <= 1) by apply same_01.
    rewrite Min4 by lia. unfold sel in P0. cbn [fst snd] in P0.
    set (base := Z.min _ (Z.min _ _)). clearbody base.
    destruct (_ && _)%bool.
    - rewrite !cap_min. f_equal. rewrite <- (cap_add (if Nat.odd m then prev1 else prev0)), P0 by lia.
      symmetry. apply cap_add. lia.
    - unfold cap. clear. lia. }
  split; [|split].
  - intros t Ht. destruct (Nat.eq_dec t m) as [->|Hne].
    + rewrite replace_at_same by lia. replace (m <? S m)%nat with true by lia. rewrite HV. reflexivity.
    + rewrite replace_at_other by lia. rewrite N by lia. replace (t <? S m)%nat with (t <? m)%nat by lia. reflexivity.
  - unfold sel in *. rewrite odd_S in P1. rewrite odd_S. cbn [fst snd] in *.
    replace (S m - 1)%nat with m by lia. destruct (Nat.odd m); cbn [negb fst snd] in *; exact P1.
  - unfold sel in *. rewrite !odd_S, negb_involutive. destruct (Nat.odd m); cbn [fst snd]; unfold cap; lia.
Qed.

Definition outer_inv p w (k : nat) (s : list Z * list Z) : Prop := row_ok p w (fst s) k /\ row_ok p w (snd s) (k - 1).

Lemma outer_step_ok p w k s : (1 <= k < length p)%nat -> (1 <= length w)%nat -> outer_inv p w k s ->
  exists s', outer_step p w k s = Done s' /\ outer_inv p w (S k) s'.
Proof.
  intros Hk Hw [RA RC]. destruct s as [alt cost]. cbn [fst snd] in *.
  destruct RA as (LA & NA). destruct RC as (LC & NC).
  unfold outer_step. rewrite (get_row cost 0 _ (NC 0%nat ltac:(lia))). cbn [obind].
  rewrite !get_ok by lia. cbn [obind]. rewrite (get_row alt 0 _ (NA 0%nat ltac:(lia))). cbn [obind].
  rewrite set_done by lia. cbn [obind].
  set (v := MinDistance _). set (cost1 := replace_at cost 0 v).
  assert (HV : v = cap (D p w (S k) 1)).
  { unfold v. rewrite MinDistance_min. cbn [fold_right]. rewrite D_SS. cbv zeta. rewrite !D_S0.
    assert (SC : swap_case p w k 0 = false) by (destruct k; reflexivity). rewrite SC.
    assert (S01 : 0 <= SameRuneDistance (nth k p 0%N) (nth 0 w 0%N) <= 1) by apply same_01.
    unfold cap. pose proof (D_nonneg p w k 1). unfold CutCost. lia. }
  destruct (for_range_inv (inner_inv p w k) (length w - 1) (inner_step p w alt k) 1%nat
     (cost1, (cap (D p w (k - 1) 1), Z.of_nat k - 1))) as (s' & E & I).
  - unfold inner_inv. cbn [fst snd]. unfold cost1. rewrite replace_at_length. split; [exact LC|]. split; [|split].
    + intros [|t] Ht.
      * rewrite replace_at_same by lia. rewrite HV. reflexivity.
      * rewrite replace_at_other by lia. rewrite NC by lia. replace (S t <? 1)%nat with false by lia. reflexivity.
    + unfold sel. cbn [Nat.odd snd]. replace (Nat.odd 1) with true by reflexivity. cbn [snd]. rewrite D_S0. f_equal. lia.
    + unfold sel. replace (Nat.odd 2) with false by reflexivity. cbn [fst]. unfold cap. lia.
  - intros m s Hm HI. apply inner_step_ok; auto; [lia|]. split; assumption.
  - rewrite E. cbn [obind]. eexists. split; [reflexivity|].
    replace (1 + (length w - 1))%nat with (length w) in I by lia. destruct I as (L & N & _ & _).
    split; cbn [fst snd].
    + split; [exact L|]. intros t Ht. rewrite N by exact Ht. replace (t <? length w)%nat with true by lia. reflexivity.
    + replace (S k - 1)%nat with k by lia. split; assumption.
Qed.

Lemma min_of_row p w l k n : row_ok p w l k -> length w = S n -> MinDistance l = cap (row_min (D p w k) n).
Proof.
  intros (L & N) Hw. rewrite MinDistance_min.
  assert (G : forall m l, (m <= S n)%nat -> length l = m -> (forall t, (t < m)%nat -> nth_error l t = Some (cap (D p w k (S t)))) ->
     fold_right Z.min CutCost l = match m with O => CutCost | S m' => cap (row_min (D p w k) m') end).
  { clear. induction m as [|m IH]; intros l Hm Hl HN.
    - destruct l; [reflexivity|discriminate].
    - destruct (exists_last (l := l)) as (l' & x & ->); [intros ->; discriminate|].
      rewrite app_length in Hl. cbn in Hl. rewrite fold_right_app. cbn [fold_right].
      assert (Hx : x = cap (D p w k (S m))).
      { specialize (HN m ltac:(lia)). rewrite nth_error_app2 in HN by lia. replace (m - length l')%nat with 0%nat in HN by lia.
        cbn in HN. congruence. }
      assert (Q : forall c, fold_right Z.min (Z.min x c) l' = Z.min x (fold_right Z.min c l')).
      { clear. induction l' as [|y r IH]; intros c; cbn [fold_right]; [reflexivity|]. rewrite IH. lia. }
      rewrite Q, (IH l' ltac:(lia) ltac:(lia)).
      + destruct m as [|m']; cbn [row_min]; subst x; unfold cap; lia.
      + intros t Ht. specialize (HN t ltac:(lia)). rewrite nth_error_app1 in HN by lia. exact HN. }
  rewrite (G (S n) l (le_n _)); [reflexivity|lia|]. intros t Ht. apply N. lia.
Qed.

Lemma editor_distance p w : p <> [] -> w <> [] ->
  exists d, distance p w d /\ EditorDistanceRunes p w = Done (Z.min d 32767).
Proof.
  intros Hp Hw. assert (exists n, length w = S n) as (n & Hn) by (destruct w; [congruence|cbn; eauto]).
  assert (Lp : (1 <= length p)%nat) by (destruct p; [congruence|cbn; lia]).
  exists (row_min (D p w (length p)) n). split; [apply D_distance; assumption|].
  unfold EditorDistanceRunes. destruct (first_row_ok p w Hp) as (c & E & R). rewrite E. cbn [obind].
  destruct (for_range_inv (outer_inv p w) (length p - 1) (outer_step p w) 1%nat (c, repeat 0 (length w))) as (s & Es & I).
  - split; cbn [fst snd]; [exact R|]. cbn [Nat.sub]. split; [apply repeat_length|].
    intros t Ht. rewrite nth_error_repeat by exact Ht. reflexivity.
  - intros k s Hk HI. apply outer_step_ok; auto; lia.
  - rewrite Es. cbn [obind]. replace (1 + (length p - 1))%nat with (length p) in I by lia.
    destruct I as [I _]. rewrite (min_of_row p w _ _ n I Hn). unfold cap, CutCost. f_equal. lia.
Qed.

Lemma editor_panic p w : EditorDistanceRunes p w = Panic <->
  (p = [] /\ w <> []) \/ (w = [] /\ (2 <= length p)%nat).
Proof.
  destruct p as [|p0 p].
  - destruct w as [|w0 w]; cbn; split; intros H; try discriminate; try reflexivity.
    + destruct H as [[_ H]|[_ H]]; [congruence|lia].
    + left. split; [reflexivity|discriminate].
  - destruct w as [|w0 w].
    + unfold EditorDistanceRunes. cbn [first_row obind length]. destruct p as [|p1 p]; cbn.
      * split; [discriminate|]. intros [[H _]|[_ H]]; [discriminate|lia].
      * split; [intros _; right; split; [reflexivity|lia]|reflexivity].
    + destruct (editor_distance (p0 :: p) (w0 :: w)) as (d & _ & E); try discriminate. rewrite E.
      split; [discriminate|]. intros [[H _]|[H _]]; discriminate.
Qed.
