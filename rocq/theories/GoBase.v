(** Basic vocabulary shared by the model: Go strings and byte slices, panics,
    64-bit integers.  Nothing here models a particular function of /repo;
    it fixes the representation of Go values (see DESIGN.md). *)
From Coq Require Export Ascii String.
From Coq Require Export List Arith ZArith NArith Lia Bool.
Export ListNotations.

(** A Go [byte] is an [ascii] (8 bits), a Go [string] or [[]byte] is a list of bytes. *)
Definition str := list ascii.

(** String literals: [b "abc"]. *)
Definition b (s : string) : str := list_ascii_of_string s.
Arguments b s%string.

(** Result of code that may panic (Go run-time panic terminates the process,
    net/rpc does not recover from panics of handlers). *)
Inductive outcome (A : Type) : Type :=
| Done (a : A)
| Panic.
Arguments Done {A} a.
Arguments Panic {A}.

Definition obind {A B} (x : outcome A) (f : A -> outcome B) : outcome B :=
  match x with Done a => f a | Panic => Panic end.

(** Go [error] results: value or error. *)
Inductive result (E A : Type) : Type :=
| Ok (a : A)
| Err (e : E).
Arguments Ok {E A} a.
Arguments Err {E A} e.

(** Go [==] on strings. *)
Fixpoint str_eqb (x y : str) : bool :=
  match x, y with
  | [], [] => true
  | a :: x', c :: y' => Ascii.eqb a c && str_eqb x' y'
  | _, _ => false
  end.

Lemma str_eqb_spec x y : reflect (x = y) (str_eqb x y).
Proof.
  revert y; induction x as [|a x IH]; intros [|c y]; cbn [str_eqb];
    try (constructor; congruence).
  destruct (Ascii.eqb_spec a c) as [->|Hn]; cbn [andb].
  - destruct (IH y) as [->|Hn]; constructor; congruence.
  - constructor; congruence.
Qed.

Lemma str_eqb_eq x y : str_eqb x y = true <-> x = y.
Proof. destruct (str_eqb_spec x y); split; congruence. Qed.

Lemma str_eqb_refl x : str_eqb x x = true.
Proof. apply str_eqb_eq; reflexivity. Qed.

Definition str_dec (x y : str) : {x = y} + {x <> y} := list_eq_dec ascii_dec x y.

(** strings.HasPrefix(s, p) *)
Fixpoint has_prefix (s p : str) {struct p} : bool :=
  match p, s with
  | [], _ => true
  | c :: p', a :: s' => Ascii.eqb a c && has_prefix s' p'
  | _ :: _, [] => false
  end.

Lemma has_prefix_iff s p : has_prefix s p = true <-> exists t, s = p ++ t.
Proof.
  revert s; induction p as [|c p IH]; intros s; cbn [has_prefix].
  - split; [intros _; exists s; reflexivity | reflexivity].
  - destruct s as [|a s].
    + split; [discriminate | intros [t Ht]; discriminate].
    + rewrite andb_true_iff, IH, Ascii.eqb_eq. split.
      * intros [-> [t ->]]. exists t; reflexivity.
      * intros [t Ht]. injection Ht as -> ->. split; [reflexivity | exists t; reflexivity].
Qed.

(** strings.HasSuffix(s, p) *)
Definition has_suffix (s p : str) : bool := has_prefix (rev s) (rev p).

Lemma has_suffix_iff s p : has_suffix s p = true <-> exists t, s = t ++ p.
Proof.
  unfold has_suffix. rewrite has_prefix_iff. split; intros [t Ht].
  - exists (rev t). rewrite <- (rev_involutive s), Ht, rev_app_distr, rev_involutive. reflexivity.
  - exists (rev t). rewrite Ht, rev_app_distr. reflexivity.
Qed.

(** strings.Contains(s, p) *)
Fixpoint contains (s p : str) : bool :=
  has_prefix s p || match s with [] => false | _ :: s' => contains s' p end.

Lemma contains_iff s p : contains s p = true <-> exists u v, s = u ++ p ++ v.
Proof.
  induction s as [|a s IH]; cbn [contains]; rewrite orb_true_iff, has_prefix_iff.
  - split.
    + intros [[t Ht]|H]; [|discriminate]. exists [], t. exact Ht.
    + intros (u & v & H). left. exists v. destruct u; [exact H | discriminate].
  - rewrite IH. split.
    + intros [[t Ht]|(u & v & ->)].
      * exists [], t; exact Ht.
      * exists (a :: u), v; reflexivity.
    + intros (u & v & H). destruct u as [|x u].
      * left; exists v; exact H.
      * right. injection H as -> ->. exists u, v; reflexivity.
Qed.

(** Substring relation used in specifications. *)
Definition substring (p s : str) : Prop := exists u v, s = u ++ p ++ v.

(** Two's complement 64-bit wrap-around of Go [int] on amd64. *)
Definition wrap64 (z : Z) : Z := ((z + 2 ^ 63) mod 2 ^ 64 - 2 ^ 63)%Z.

Lemma wrap64_id z : (- 2 ^ 63 <= z < 2 ^ 63)%Z -> wrap64 z = z.
Proof. intros H. unfold wrap64. rewrite Z.mod_small; lia. Qed.

Lemma wrap64_range z : (- 2 ^ 63 <= wrap64 z < 2 ^ 63)%Z.
Proof.
  unfold wrap64. pose proof (Z.mod_pos_bound (z + 2 ^ 63) (2 ^ 64) ltac:(lia)). lia.
Qed.
