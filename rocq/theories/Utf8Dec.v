(** utf8.DecodeRune: the first character of a string and its size.
    Go standard library, not code of /repo; used by strings.Fields and regexp. *)
From Verif Require Import GoBase Utf8 Utf8Proofs.
Local Open Scope N_scope.

(** The first rune of [b0 :: s1] and the rest of the string; an invalid or
    truncated sequence yields U+FFFD and its first byte is skipped. *)
Definition decode1 (b0 : N) (s1 : list N) : rune * list N :=
  if b0 <? 128 then (b0, s1)
  else if inr 194 223 b0 then
    match s1 with
    | b1 :: s2 => if cont b1 then ((b0 - 192) * 64 + (b1 - 128), s2) else (rune_error, s1)
    | [] => (rune_error, s1)
    end
  else if inr 224 239 b0 then
    match s1 with
    | b1 :: ((b2 :: s3) as s2) =>
        if second3 b0 b1 && cont b2
        then ((b0 - 224) * 4096 + (b1 - 128) * 64 + (b2 - 128), s3)
        else (rune_error, s1)
    | _ => (rune_error, s1)
    end
  else if inr 240 244 b0 then
    match s1 with
    | b1 :: b2 :: b3 :: s4 =>
        if second4 b0 b1 && cont b2 && cont b3
        then ((b0 - 240) * 262144 + (b1 - 128) * 4096 + (b2 - 128) * 64 + (b3 - 128), s4)
        else (rune_error, s1)
    | _ => (rune_error, s1)
    end
  else (rune_error, s1).

(** agrees with [range] *)
Lemma decodeN_step b0 s1 : decodeN (b0 :: s1) = fst (decode1 b0 s1) :: decodeN (snd (decode1 b0 s1)).
Proof.
  unfold decode1. cbn [decodeN]. destruct (b0 <? 128); [reflexivity|].
  destruct (inr 194 223 b0). { destruct s1 as [|b1 s2]; [reflexivity|]. destruct (cont b1); reflexivity. }
  destruct (inr 224 239 b0).
  { destruct s1 as [|b1 [|b2 s3]]; try reflexivity. destruct (second3 b0 b1 && cont b2); reflexivity. }
  destruct (inr 240 244 b0); [|reflexivity].
  destruct s1 as [|b1 [|b2 [|b3 s4]]]; try reflexivity. destruct (second4 b0 b1 && cont b2 && cont b3); reflexivity.
Qed.
Lemma decode1_rest b0 s1 : exists p, s1 = p ++ snd (decode1 b0 s1).
Proof.
  unfold decode1. destruct (b0 <? 128); [exists []; reflexivity|].
  destruct (inr 194 223 b0).
  { destruct s1 as [|b1 s2]; [exists []; reflexivity|]. destruct (cont b1); [exists [b1]|exists []]; reflexivity. }
  destruct (inr 224 239 b0).
  { destruct s1 as [|b1 [|b2 s3]]; try (exists []; reflexivity).
    destruct (second3 b0 b1 && cont b2); [exists [b1; b2]|exists []]; reflexivity. }
  destruct (inr 240 244 b0); [|exists []; reflexivity].
  destruct s1 as [|b1 [|b2 [|b3 s4]]]; try (exists []; reflexivity).
  destruct (second4 b0 b1 && cont b2 && cont b3); [exists [b1; b2; b3]|exists []]; reflexivity.
Qed.

(** Characters of a string together with their bytes.  The fuel is the length of the string. *)
Fixpoint pieces_loop (fuel : nat) (s : list N) : list (rune * list N) :=
  match fuel, s with
  | S fuel, b0 :: s1 =>
      let '(r, rest) := decode1 b0 s1 in
      (r, firstn (length s - length rest) s) :: pieces_loop fuel rest
  | _, _ => []
  end.
Definition pieces (s : str) : list (rune * str) :=
  map (fun p => (fst p, strN (snd p))) (pieces_loop (length s) (bytesN s)).

Lemma pieces_loop_ok fuel : forall s, (length s <= fuel)%nat ->
  map fst (pieces_loop fuel s) = decodeN s /\ concat (map snd (pieces_loop fuel s)) = s /\
  Forall (fun p => snd p <> []) (pieces_loop fuel s).
Proof.
  induction fuel as [|fuel IH]; intros [|b0 s1] H; cbn [length] in H; cbn [pieces_loop map]; try (cbn; auto; fail); [lia|].
  pose proof (decodeN_step b0 s1) as D. destruct (decode1_rest b0 s1) as (p & Ep).
  destruct (decode1 b0 s1) as [r rest]. cbn [fst snd] in *. subst s1. rewrite app_length in H.
  destruct (IH rest ltac:(lia)) as (A & B & C).
  assert (F : firstn (length (b0 :: p ++ rest) - length rest) (b0 :: p ++ rest) = b0 :: p).
  { cbn [length]. rewrite app_length. replace (S (length p + length rest) - length rest)%nat with (S (length p)) by lia.
    cbn [firstn]. rewrite firstn_app, Nat.sub_diag, firstn_all, firstn_O, app_nil_r. reflexivity. }
  rewrite F. cbn [map fst snd concat]. rewrite A, B, D. repeat split. constructor; [discriminate|exact C].
Qed.
Lemma pieces_ok s : map fst (pieces s) = runes_of s /\ concat (map snd (pieces s)) = s /\
  Forall (fun p => snd p <> []) (pieces s).
Proof.
  unfold pieces. destruct (pieces_loop_ok (length s) (bytesN s)) as (A & B & C).
  { unfold bytesN. rewrite map_length. lia. }
  split; [|split].
  - rewrite map_map. exact A.
  - rewrite map_map. cbn [snd]. transitivity (strN (bytesN s)); [|apply strN_bytesN].
    transitivity (strN (concat (map snd (pieces_loop (length s) (bytesN s))))); [|f_equal; exact B]. unfold strN.
    rewrite concat_map, map_map. reflexivity.
  - apply Forall_map. cbn [snd]. eapply Forall_impl; [|exact C]. intros p Hp E. apply Hp.
    unfold strN in E. apply map_eq_nil in E. exact E.
Qed.
