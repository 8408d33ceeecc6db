(** Means for examples of decoding of requests. *)
From Coq Require Import ZifyBool ZifyNat ZifyN.
From Verif Require Import GoBase Utf8 JsonSpec Json JsonProofs Unmarshal UnmarshalSpec UnmarshalProofs.

Lemma different_keys l : NoDup (map (fun m => map fold_rune (fst m)) l) -> different l.
Proof.
  intros N l1 k1 v1 l2 k2 v2 l3 nm -> F1 F2. apply fold_name, fold_same in F1. apply fold_name, fold_same in F2. rewrite map_app in N. cbn [map fst] in N. apply NoDup_remove_2 in N. apply N.
  rewrite in_app_iff. right. rewrite map_app. cbn [map fst]. rewrite in_app_iff. right. left. congruence.
Qed.
Fixpoint nodupb (l : list (list rune)) : bool := match l with [] => true | x :: l' => negb (existsb (fun y => if list_eq_dec N.eq_dec x y then true else false) l') && nodupb l' end.
Lemma nodupb_ok l : nodupb l = true -> NoDup l.
Proof.
  induction l as [|x l IH]; intros H; [constructor|]. cbn [nodupb] in H. apply andb_true_iff in H as [H1 H2]. constructor; [|apply IH, H2]. intros I. apply negb_true_iff in H1.
  assert (K : existsb (fun y => if list_eq_dec N.eq_dec x y then true else false) l = true) by (apply existsb_exists; exists x; split; [exact I|destruct (list_eq_dec N.eq_dec x x); congruence]). congruence.
Qed.
(** Values with different names *)
Fixpoint neat (j : json) : bool :=
  match j with
  | JArr l => forallb neat l
  | JObj l => nodupb (map (fun m => map fold_rune (runes_of (fst m))) l) && forallb (fun m => neat (snd m)) l
  | _ => true
  end.
Fixpoint neat_tidy j : neat j = true -> tidy (value_of j).
Proof.
  destruct j as [|v|n|s|l|l]; cbn [neat value_of]; intros H; try solve [constructor].
  - constructor. apply integer_ok.
  - constructor. induction l as [|j l IH]; [constructor|]. cbn [forallb] in H. apply andb_true_iff in H as [H1 H2]. constructor; [apply neat_tidy, H1|apply IH, H2].
  - apply andb_true_iff in H as [H1 H2]. constructor.
    + apply different_keys. rewrite map_map. cbn [fst]. apply nodupb_ok, H1.
    + clear H1. induction l as [|[k j] l IH]; [constructor|]. cbn [forallb snd] in H2. apply andb_true_iff in H2 as [H2 H3]. constructor; [apply neat_tidy, H2|apply IH, H3].
Qed.
