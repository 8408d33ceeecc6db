(** Lemmas about characters of a string together with their bytes. *)
From Coq Require Import ZifyBool ZifyNat ZifyN.
From Verif Require Import GoBase Utf8 Utf8Proofs Utf8Dec Regex.
Local Open Scope N_scope.

(** ** Recursive equation *)
Lemma decode1_short b0 s1 : (length (snd (decode1 b0 s1)) <= length s1)%nat.
Proof. destruct (decode1_rest b0 s1) as (p & E). rewrite E at 2. rewrite app_length. lia. Qed.
Lemma pieces_loop_fuel fuel : forall s fuel', (length s <= fuel)%nat -> (length s <= fuel')%nat -> pieces_loop fuel s = pieces_loop fuel' s.
Proof.
  induction fuel as [|fuel IH]; intros [|b0 s1] fuel' A B; cbn [length] in *; try lia.
  - destruct fuel'; reflexivity.
  - destruct fuel'; reflexivity.
  - destruct fuel' as [|fuel']; [lia|]. cbn [pieces_loop]. pose proof (decode1_short b0 s1). destruct (decode1 b0 s1) as [r rest]. cbn [snd] in *.
    f_equal. apply IH; lia.
Qed.
Definition pl (s : list N) : list (rune * list N) := pieces_loop (length s) s.
Lemma pl_cons b0 s1 : pl (b0 :: s1) =
  (fst (decode1 b0 s1), firstn (S (length s1) - length (snd (decode1 b0 s1))) (b0 :: s1)) :: pl (snd (decode1 b0 s1)).
Proof.
  unfold pl. cbn [length pieces_loop]. pose proof (decode1_short b0 s1). destruct (decode1 b0 s1) as [r rest]. cbn [fst snd] in *.
  f_equal. apply pieces_loop_fuel; lia.
Qed.
Lemma pieces_pl s : pieces s = map (fun p => (fst p, strN (snd p))) (pl (bytesN s)).
Proof. unfold pieces, pl. unfold bytesN at 2. rewrite map_length. reflexivity. Qed.

Lemma pieces_nil : pieces [] = [].
Proof. reflexivity. Qed.
Lemma pieces_ascii c s : N_of_ascii c < 128 -> pieces (c :: s) = (N_of_ascii c, [c]) :: pieces s.
Proof.
  intros H. rewrite !pieces_pl. cbn [bytesN map]. fold (bytesN s). rewrite pl_cons. unfold decode1.
  replace (N_of_ascii c <? 128) with true by lia. cbn [fst snd map]. f_equal. f_equal.
  replace (S (length (bytesN s)) - length (bytesN s))%nat with 1%nat by lia. cbn. rewrite ascii_N_embedding. reflexivity.
Qed.
Lemma text_pieces s : text_of (pieces s) = s.
Proof. apply pieces_ok. Qed.
Lemma fst_pieces s : map fst (pieces s) = runes_of s.
Proof. apply pieces_ok. Qed.

(** ** Shape of pieces *)
Definition piece_ok (p : piece) : Prop :=
  (fst p < 128 /\ snd p = [ascii_of_N (fst p)]) \/
  (128 <= fst p /\ snd p <> [] /\ Forall (fun c => 128 <= N_of_ascii c) (snd p)).
Lemma cont_ge x : cont x = true -> 128 <= x < 256.
Proof. unfold cont. rewrite inr_true. lia. Qed.
Lemma second3_ge b0 x : second3 b0 x = true -> 128 <= x < 256.
Proof. unfold second3, cont. destruct (b0 =? 224), (b0 =? 237); rewrite inr_true; lia. Qed.
Lemma second4_ge b0 x : second4 b0 x = true -> 128 <= x < 256.
Proof. unfold second4, cont. destruct (b0 =? 240), (b0 =? 244); rewrite inr_true; lia. Qed.
Lemma second3_224 x : second3 224 x = true -> 160 <= x.
Proof. unfold second3. cbn. rewrite inr_true. lia. Qed.
Lemma second4_240 x : second4 240 x = true -> 144 <= x.
Proof. unfold second4. cbn. rewrite inr_true. lia. Qed.

Ltac sizes := repeat match goal with |- context [(S ?a - ?c)%nat] => 
   let x := fresh in let E := fresh in remember (S a - c)%nat as x eqn:E; cbn [length] in E;
   match type of E with x = ?r => first [assert (x = 1)%nat by lia | assert (x = 2)%nat by lia | assert (x = 3)%nat by lia | assert (x = 4)%nat by lia] end; subst x; clear E end.

Lemma pl_shape s : Forall (fun x => x < 256) s ->
  Forall (fun p => (fst p < 128 /\ snd p = [fst p]) \/ (128 <= fst p /\ snd p <> [] /\ Forall (fun c => 128 <= c < 256) (snd p))) (pl s).
Proof.
  remember (length s) as n eqn:E. revert s E. induction n as [n IH] using lt_wf_ind. intros [|b0 s1] -> F; [constructor|].
  rewrite pl_cons. constructor.
  2:{ pose proof (decode1_short b0 s1). eapply IH; [|reflexivity|]; [cbn [length]; lia|].
      inversion F as [|? ? F0 F1]. destruct (decode1_rest b0 s1) as (p & E). rewrite E in F1. apply Forall_app in F1. apply F1. }
  cbn [fst snd]. inversion F as [|? ? F0 F1]. subst. clear IH F.
  assert (ONE : forall r : N, firstn (S (length s1) - length s1) (b0 :: s1) = [b0] /\ (r = r)).
  { intros r. replace (S (length s1) - length s1)%nat with 1%nat by lia. auto. }
  unfold decode1. destruct (N.ltb_spec b0 128) as [A|A]; cbn [fst snd].
  { left. destruct (ONE 0) as [-> _]. auto. }
  right.
  assert (BAD : 128 <= rune_error /\ firstn (S (length s1) - length s1) (b0 :: s1) <> [] /\ Forall (fun c => 128 <= c < 256) (firstn (S (length s1) - length s1) (b0 :: s1))).
  { destruct (ONE 0) as [-> _]. split; [unfold rune_error; lia|]. split; [discriminate|]. repeat constructor; lia. }
  destruct (inr 194 223 b0) eqn:B.
  { destruct s1 as [|b1 s2]; [exact BAD|]. destruct (cont b1) eqn:C; [|exact BAD]. cbn [fst snd length].
    replace (S (S (length s2)) - length s2)%nat with 2%nat by lia. cbn [firstn]. apply cont_ge in C. apply inr_true in B.
    split; [lia|]. split; [discriminate|]. repeat constructor; lia. }
  destruct (inr 224 239 b0) eqn:B3.
  { destruct s1 as [|b1 [|b2 s3]]; try exact BAD. destruct (second3 b0 b1 && cont b2) eqn:C; [|exact BAD]. cbn [fst snd length].
    replace (S (S (S (length s3))) - length s3)%nat with 3%nat by lia. cbn [firstn]. apply andb_true_iff in C. destruct C as [C1 C2].
    pose proof (second3_ge _ _ C1). apply cont_ge in C2. apply inr_true in B3.
    split. { destruct (N.eq_dec b0 224) as [->|]; [apply second3_224 in C1|]; lia. }
    split; [discriminate|]. repeat constructor; lia. }
  destruct (inr 240 244 b0) eqn:B4; [|exact BAD].
  destruct s1 as [|b1 [|b2 [|b3 s4]]]; try exact BAD. destruct (second4 b0 b1 && cont b2 && cont b3) eqn:C; [|exact BAD]. cbn [fst snd length].
  replace (S (S (S (S (length s4)))) - length s4)%nat with 4%nat by lia. cbn [firstn]. apply andb_true_iff in C. destruct C as [C C3].
  apply andb_true_iff in C. destruct C as [C1 C2]. pose proof (second4_ge _ _ C1). apply cont_ge in C2. apply cont_ge in C3. apply inr_true in B4.
  split. { destruct (N.eq_dec b0 240) as [->|]; [apply second4_240 in C1|]; lia. }
  split; [discriminate|]. repeat constructor; lia.
Qed.
Lemma pieces_shape s : Forall piece_ok (pieces s).
Proof.
  rewrite pieces_pl. apply Forall_map. eapply Forall_impl; [|apply pl_shape, bytesN_bound].
  intros [r bs] [[A B]|(A & B & C)]; cbn [fst snd] in *; subst.
  - left. cbn. auto.
  - right. cbn. split; [exact A|]. split; [intros E; apply map_eq_nil in E; contradiction|]. unfold strN. apply Forall_map.
    eapply Forall_impl; [|exact C]. intros x Hx. cbn beta in *. rewrite N_ascii_embedding by lia. lia.
Qed.

(** ** Parts of a string *)
Lemma decode1_prefix b0 s1 y r rest : decode1 b0 (s1 ++ y) = (r, rest ++ y) -> decode1 b0 s1 = (r, rest).
Proof.
  unfold decode1. intros H.
  assert (ERR : forall z, (r = rune_error -> rest = s1 -> z = (r, rest)) -> (rune_error, s1 ++ y) = (r, rest ++ y) -> z = (r, rest)).
  { intros z Z E. injection E as E1 E2. apply app_inv_tail in E2. auto. }
  destruct (b0 <? 128).
  { injection H as -> H. apply app_inv_tail in H. subst. reflexivity. }
  destruct (inr 194 223 b0).
  { destruct s1 as [|b1 s2]; cbn [app] in *.
    - destruct y as [|c y]; [|destruct (cont c)]; revert H; try (intros H; refine (ERR _ _ H); intros -> ->; reflexivity).
      intros H. injection H as _ H. exfalso. apply (f_equal (@length N)) in H. rewrite app_length in H. cbn in H. lia.
    - destruct (cont b1); [|refine (ERR _ _ H); intros -> ->; reflexivity]. injection H as -> H. apply app_inv_tail in H. subst. reflexivity. }
  destruct (inr 224 239 b0).
  { destruct s1 as [|b1 [|b2 s3]]; cbn [app] in *.
    - destruct y as [|c [|d y]]; [| |destruct (second3 b0 c && cont d)]; revert H; try (intros H; refine (ERR _ _ H); intros -> ->; reflexivity).
      intros H. injection H as _ H. exfalso. apply (f_equal (@length N)) in H. rewrite app_length in H. cbn in H. lia.
    - destruct y as [|c y]; [|destruct (second3 b0 b1 && cont c)]; revert H; try (intros H; refine (ERR _ _ H); intros -> ->; reflexivity).
      intros H. injection H as _ H. exfalso. apply (f_equal (@length N)) in H. rewrite app_length in H. cbn in H. lia.
    - destruct (second3 b0 b1 && cont b2); [|refine (ERR _ _ H); intros -> ->; reflexivity].
      injection H as -> H. apply app_inv_tail in H. subst. reflexivity. }
  destruct (inr 240 244 b0); [|refine (ERR _ _ H); intros -> ->; reflexivity].
  destruct s1 as [|b1 [|b2 [|b3 s4]]]; cbn [app] in *.
  - destruct y as [|c [|d [|e y]]]; [| | |destruct (second4 b0 c && cont d && cont e)]; revert H; try (intros H; refine (ERR _ _ H); intros -> ->; reflexivity).
    intros H. injection H as _ H. exfalso. apply (f_equal (@length N)) in H. rewrite app_length in H. cbn in H. lia.
  - destruct y as [|c [|d y]]; [| |destruct (second4 b0 b1 && cont c && cont d)]; revert H; try (intros H; refine (ERR _ _ H); intros -> ->; reflexivity).
    intros H. injection H as _ H. exfalso. apply (f_equal (@length N)) in H. rewrite app_length in H. cbn in H. lia.
  - destruct y as [|c y]; [|destruct (second4 b0 b1 && cont b2 && cont c)]; revert H; try (intros H; refine (ERR _ _ H); intros -> ->; reflexivity).
    intros H. injection H as _ H. exfalso. apply (f_equal (@length N)) in H. rewrite app_length in H. cbn in H. lia.
  - destruct (second4 b0 b1 && cont b2 && cont b3); [|refine (ERR _ _ H); intros -> ->; reflexivity].
    injection H as -> H. apply app_inv_tail in H. subst. reflexivity.
Qed.

Definition textN (l : list (rune * list N)) : list N := concat (map snd l).
Lemma pl_ok s : textN (pl s) = s /\ Forall (fun p => snd p <> []) (pl s).
Proof. unfold pl. destruct (pieces_loop_ok (length s) s ltac:(lia)) as (_ & A & B). auto. Qed.
Lemma pl_suffix x : forall s y, pl s = x ++ y -> pl (textN y) = y.
Proof.
  induction x as [|p x IH]; intros s y E.
  - cbn in E. subst y. destruct (pl_ok s) as [-> _]. reflexivity.
  - destruct s as [|b0 s1]; [discriminate|]. rewrite pl_cons in E. injection E as _ E. eapply IH. exact E.
Qed.
Lemma pl_prefix x : forall s y, pl s = x ++ y -> pl (textN x) = x.
Proof.
  induction x as [|p x IH]; intros s y E; [reflexivity|].
  destruct s as [|b0 s1]; [discriminate|]. pose proof (pl_ok (b0 :: s1)) as [T NE]. rewrite E in T, NE.
  rewrite pl_cons in E. injection E as E1 E. pose proof (IH _ _ E) as IHx.
  pose proof (pl_ok (snd (decode1 b0 s1))) as [T2 _]. rewrite E in T2.
  unfold textN in *. cbn [app map concat] in *. rewrite map_app, concat_app in *. fold (textN x) in *. fold (textN y) in *.
  destruct p as [r bs]. cbn [fst snd] in *. injection E1 as Er Eb.
  destruct bs as [|c bs]; [inversion NE; cbn in *; congruence|].
  cbn [app] in *. injection T as -> T.
  assert (D : decode1 b0 (bs ++ textN x) = (r, textN x)).
  { apply (decode1_prefix _ _ (textN y)). rewrite <- app_assoc, T, T2, <- Er. destruct (decode1 b0 s1); reflexivity. }
  change (pl (b0 :: bs ++ textN x) = (r, b0 :: bs) :: x). rewrite pl_cons, D. cbn [fst snd]. rewrite IHx. do 2 f_equal.
  rewrite app_length. replace (S (length bs + length (textN x)) - length (textN x))%nat with (S (length bs)) by lia.
  cbn [firstn]. rewrite firstn_app, Nat.sub_diag, firstn_all, firstn_O, app_nil_r. reflexivity.
Qed.
Lemma pl_part s x y z : pl s = x ++ y ++ z -> pl (textN y) = y.
Proof. intros E. apply pl_suffix in E. eapply pl_prefix. exact E. Qed.

Lemma map_app_inv {A B} (f : A -> B) l x y : map f l = x ++ y -> exists l1 l2, l = l1 ++ l2 /\ map f l1 = x /\ map f l2 = y.
Proof.
  revert l. induction x as [|a x IH]; intros l E; cbn in E. { exists [], l. auto. }
  destruct l as [|c l]; [discriminate|]. injection E as <- E. destruct (IH _ E) as (l1 & l2 & -> & <- & <-). exists (c :: l1), l2. auto.
Qed.
(** Characters of a part of a string are the same. *)
Lemma pieces_part s x y z : pieces s = x ++ y ++ z -> pieces (text_of y) = y.
Proof.
  rewrite pieces_pl. intros E. apply map_app_inv in E. destruct E as (x' & l & E & _ & E2). apply map_app_inv in E2.
  destruct E2 as (y' & z' & -> & <- & _).
  assert (T : text_of (map (fun p => (fst p, strN (snd p))) y') = strN (textN y')).
  { unfold text_of, textN. rewrite map_map. cbn [snd]. unfold strN. rewrite concat_map, map_map. reflexivity. }
  rewrite T, pieces_pl. rewrite bytesN_strN. { rewrite (pl_part _ _ _ _ E). reflexivity. }
  pose proof (bytesN_bound s) as Bs. destruct (pl_ok (bytesN s)) as [T2 _]. rewrite <- T2, E in Bs. unfold textN in Bs.
  rewrite !map_app, !concat_app in Bs. apply Forall_app in Bs. destruct Bs as [_ Bs]. apply Forall_app in Bs. apply Bs.
Qed.
Lemma pieces_part_text s x y z : pieces s = x ++ y ++ z -> s = text_of x ++ text_of y ++ text_of z.
Proof. intros E. rewrite <- (text_pieces s), E. unfold text_of. rewrite !map_app, !concat_app. reflexivity. Qed.

(** Concatenation *)
Lemma pieces_ascii_app x y : Forall (fun c => N_of_ascii c < 128) x -> pieces (x ++ y) = map (fun c => (N_of_ascii c, [c])) x ++ pieces y.
Proof. intros H. induction H as [|c x Hc H IH]; [reflexivity|]. cbn [app map]. rewrite pieces_ascii by exact Hc. rewrite IH. reflexivity. Qed.
Lemma pieces_ascii_all x : Forall (fun c => N_of_ascii c < 128) x -> pieces x = map (fun c => (N_of_ascii c, [c])) x.
Proof. intros H. rewrite <- (app_nil_r x) at 1. rewrite pieces_ascii_app by exact H. apply app_nil_r. Qed.
Lemma piece_ascii p : piece_ok p -> fst p < 128 -> p = (fst p, [ascii_of_N (fst p)]).
Proof. intros [[A B]|(A & _)] H; [destruct p as [r s]; cbn [fst snd] in *; rewrite B; reflexivity|lia]. Qed.
