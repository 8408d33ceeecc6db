(** Slices of fixed length with run-time bounds checks and counting loops.
    Go language features, not code of /repo. *)
From Verif Require Import GoBase.

Notation "'let!' x := e 'in' k" := (obind e (fun x => k))
  (at level 200, x name, e at level 100, k at level 200, right associativity).

(** s[i] *)
Definition get {A} (l : list A) (i : nat) : outcome A :=
  match nth_error l i with Some x => Done x | None => Panic end.

Fixpoint replace_at {A} (l : list A) (i : nat) (x : A) : list A :=
  match l, i with
  | [], _ => []
  | _ :: l', O => x :: l'
  | y :: l', S i' => y :: replace_at l' i' x
  end.

(** s[i] = x *)
Definition set {A} (l : list A) (i : nat) (x : A) : outcome (list A) :=
  if i <? length l then Done (replace_at l i x) else Panic.

(** for k := i; k < i + n; k++ *)
Fixpoint for_range {S} (i n : nat) (body : nat -> S -> outcome S) (s : S) : outcome S :=
  match n with
  | O => Done s
  | Datatypes.S n' => obind (body i s) (fun s' => for_range (Datatypes.S i) n' body s')
  end.

Lemma for_range_inv {S} (I : nat -> S -> Prop) n body : forall i s,
  I i s -> (forall k s, i <= k < i + n -> I k s -> exists s', body k s = Done s' /\ I (Datatypes.S k) s') ->
  exists s', for_range i n body s = Done s' /\ I (i + n) s'.
Proof.
  induction n as [|n IH]; intros i s H0 HS; cbn [for_range].
  - exists s. rewrite Nat.add_0_r. auto.
  - destruct (HS i s ltac:(lia) H0) as (s1 & E1 & H1). rewrite E1. cbn [obind].
    destruct (IH (Datatypes.S i) s1 H1) as (s2 & E2 & H2).
    { intros k s' Hk. apply HS. lia. }
    exists s2. rewrite E2. split; [reflexivity|]. replace (i + Datatypes.S n) with (Datatypes.S i + n) by lia. exact H2.
Qed.

Lemma replace_at_length {A} (l : list A) i x : length (replace_at l i x) = length l.
Proof. revert i; induction l as [|y l IH]; intros [|i]; cbn; auto. Qed.
Lemma replace_at_same {A} (l : list A) i x : i < length l -> nth_error (replace_at l i x) i = Some x.
Proof. revert i; induction l as [|y l IH]; intros [|i]; cbn; intros; try lia; auto. apply IH. lia. Qed.
Lemma replace_at_other {A} (l : list A) i j x : i <> j -> nth_error (replace_at l i x) j = nth_error l j.
Proof. revert i j; induction l as [|y l IH]; intros [|i] [|j] H; cbn; try reflexivity; try congruence. apply IH. lia. Qed.

Lemma get_done {A} (l : list A) i x : get l i = Done x <-> nth_error l i = Some x.
Proof. unfold get. destruct (nth_error l i); split; congruence. Qed.
Lemma set_done {A} (l : list A) i x : i < length l -> set l i x = Done (replace_at l i x).
Proof. intros H. unfold set. destruct (Nat.ltb_spec i (length l)); [reflexivity|lia]. Qed.
