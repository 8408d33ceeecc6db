(** Characters of a text with their bytes are unique. *)
From Coq Require Import ZifyBool ZifyNat ZifyN.
From Verif Require Import GoBase Utf8 Utf8Proofs Utf8Dec Regex Pieces FuzzySpec FuzzyRank UrlsProofs.
Local Open Scope N_scope.

(** Bytes of a single character *)
Definition single_char (c : list N) : Prop := match c with [] => False | b0 :: s1 => snd (decode1 b0 s1) = [] end.
Lemma second3_is b0 x : second3 b0 x = true -> cont x = true.
Proof. unfold second3, cont. destruct (b0 =? 224), (b0 =? 237); rewrite ?inr_true; lia. Qed.
Lemma second4_is b0 x : second4 b0 x = true -> cont x = true.
Proof. unfold second4, cont. destruct (b0 =? 240), (b0 =? 244); rewrite ?inr_true; lia. Qed.
Lemma decode1_ext b0 s1 z r : decode1 b0 s1 = (r, []) ->
  decode1 b0 (s1 ++ z) = (r, z) \/
  (s1 = [] /\ exists conts rest, z = conts ++ rest /\ conts <> [] /\ Forall (fun x => cont x = true) conts /\ snd (decode1 b0 z) = rest).
Proof.
  unfold decode1. intros H. destruct (b0 <? 128). { injection H as <- ->. auto. }
  destruct (inr 194 223 b0).
  { destruct s1 as [|b1 s2]; cbn [app].
    - injection H as <-. destruct z as [|b1 z]; [auto|]. destruct (cont b1) eqn:C; [|auto]. right. split; [reflexivity|]. exists [b1], z. split; [reflexivity|]. split; [discriminate|]. split; [repeat (constructor; [assumption|]); constructor|reflexivity].
    - left. destruct (cont b1); [|discriminate]. injection H as <- ->. reflexivity. }
  destruct (inr 224 239 b0).
  { destruct s1 as [|b1 [|b2 s3]]; cbn [app].
    - injection H as <-. destruct z as [|b1 [|b2 z]]; [auto|auto|]. destruct (second3 b0 b1 && cont b2)%bool eqn:C; [|auto]. right. split; [reflexivity|].
      apply andb_true_iff in C. destruct C as [C1 C2]. apply second3_is in C1. exists [b1; b2], z. split; [reflexivity|]. split; [discriminate|]. split; [repeat (constructor; [assumption|]); constructor|reflexivity].
    - discriminate.
    - left. destruct (_ && _)%bool; [|discriminate]. injection H as <- ->. reflexivity. }
  destruct (inr 240 244 b0); [|left; injection H as <- ->; reflexivity].
  destruct s1 as [|b1 [|b2 [|b3 s4]]]; cbn [app]; try discriminate.
  - injection H as <-. destruct z as [|b1 [|b2 [|b3 z]]]; [auto|auto|auto|]. destruct (second4 b0 b1 && cont b2 && cont b3)%bool eqn:C; [|auto]. right. split; [reflexivity|].
    apply andb_true_iff in C. destruct C as [C C3]. apply andb_true_iff in C. destruct C as [C1 C2]. apply second4_is in C1. exists [b1; b2; b3], z. split; [reflexivity|]. split; [discriminate|]. split; [repeat (constructor; [assumption|]); constructor|reflexivity].
  - left. destruct (_ && _)%bool; [|discriminate]. injection H as <- ->. reflexivity.
Qed.
Lemma cont_single b0 s1 : cont b0 = true -> single_char (b0 :: s1) -> s1 = [].
Proof.
  unfold cont, single_char, decode1. rewrite inr_true. intros C. replace (b0 <? 128) with false by lia. replace (inr 194 223 b0) with false by (unfold inr; lia).
  replace (inr 224 239 b0) with false by (unfold inr; lia). replace (inr 240 244 b0) with false by (unfold inr; lia). auto.
Qed.
Lemma cont_chunks conts : Forall (fun x => cont x = true) conts -> forall l rest, Forall single_char l -> concat l = conts ++ rest ->
  exists l', l = map (fun c => [c]) conts ++ l' /\ concat l' = rest.
Proof.
  intros F. induction F as [|c conts C F IH]; intros l rest S E; [exists l; auto|]. destruct l as [|[|c' s1] l]; [discriminate|inversion S; contradiction|].
  inversion S as [|? ? S1 S2]. subst. cbn [concat app] in E. injection E as -> E. apply cont_single in S1; [|exact C]. subst s1. cbn [app] in E.
  destruct (IH l rest S2 E) as (l' & -> & E'). exists l'. auto.
Qed.
Lemma chunks_min n : forall l s, (length s <= n)%nat -> Forall single_char l -> concat l = s ->
  (length (pl s) <= length l)%nat /\ (length (pl s) = length l -> map snd (pl s) = l).
Proof.
  induction n as [|n IH]; intros l s Ls S E; (destruct l as [|[|b0 s1] l]; [subst s; split; [cbn; lia|reflexivity]|inversion S; contradiction|]).
  - subst s. cbn in Ls. lia.
  - inversion S as [|? ? S1 S2]. subst. cbn [concat app] in *. cbn [single_char] in S1. destruct (decode1 b0 s1) as [r q] eqn:D. cbn [snd] in S1. subst q.
    set (z := concat l) in *. destruct (decode1_ext b0 s1 z r D) as [X|(-> & conts & rest & Z & NC & FC & X)].
    + rewrite (pl_step b0 s1 z r [] D X). cbn [app length map snd]. destruct (IH l z) as [A B]; [cbn [length] in Ls; rewrite app_length in Ls; lia|exact S2|reflexivity|].
      split; [lia|]. intros Y. rewrite B by lia. f_equal. rewrite Nat.sub_0_r. apply (firstn_all (b0 :: s1)).
    + cbn [app] in *. destruct (cont_chunks conts FC l rest S2 Z) as (l' & -> & E'). rewrite pl_cons, X. cbn [length map snd].
      destruct (IH l' rest) as [A _]; [rewrite Z in Ls; cbn [length] in Ls; rewrite app_length in Ls; lia|apply Forall_app in S2; apply S2|exact E'|].
      rewrite app_length, map_length. destruct conts as [|c0 conts]; [congruence|]. cbn [length]. split; lia.
Qed.
Lemma concat_bytes (l : list str) : concat (map bytesN l) = bytesN (concat l).
Proof. induction l as [|x l IH]; [reflexivity|]. cbn [map concat]. rewrite bytesN_app, IH. reflexivity. Qed.
Lemma characters_unique s l : characters s l -> l = pieces s.
Proof.
  intros (A & B & C). 
  assert (S : Forall single_char (map (fun p => bytesN (snd p)) l)).
  { apply Forall_map. eapply Forall_impl; [|exact C]. intros p H. cbn beta. unfold runes_of in H. destruct (bytesN (snd p)) as [|b0 s1]; [discriminate|]. cbn [single_char].
    rewrite decodeN_step in H. injection H as _ H. destruct (snd (decode1 b0 s1)) as [|c q]; [reflexivity|]. rewrite decodeN_step in H. discriminate. }
  assert (E : concat (map (fun p => bytesN (snd p)) l) = bytesN s) by (rewrite <- B, <- concat_bytes, map_map; reflexivity).
  destruct (chunks_min (length (bytesN s)) _ _ (Nat.le_refl _) S E) as [_ M].
  pose proof (fst_pieces s) as FP. rewrite <- A in FP.
  assert (EL : length (pl (bytesN s)) = length (map (fun p => bytesN (snd p)) l)).
  { rewrite map_length. apply (f_equal (@length _)) in FP. rewrite !map_length, pieces_pl, map_length in FP. exact FP. }
  specialize (M EL). clear EL S E B C A.
  assert (SP : map snd (pieces s) = map snd l).
  { rewrite pieces_pl, map_map. cbn [snd]. rewrite <- (map_map snd strN), M, map_map. apply map_ext. intros p. apply strN_bytesN. }
  revert FP SP. generalize (pieces s). clear. induction l as [|[r x] l IH]; intros [|[r' x'] q]; cbn [map fst snd]; intros F S; try discriminate; [reflexivity|].
  injection F as <- F. injection S as <- S. f_equal. apply IH; assumption.
Qed.
