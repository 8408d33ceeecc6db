(** Specification of decoding of responses that have several members with the same name. *)
From Verif Require Import GoBase Utf8 JsonSpec Json UnmarshalSpec RepeatSpec Client ClientSpec.

(** null does not change the number of a call, an error is replaced. *)
Definition put_call (v : value) (x y : N) : Prop := (v = VNull /\ y = x) \/ (v = VNum (integer (Z.of_N y)) /\ (y <= 18446744073709551615)%N).
Definition put_value (v _ y : value) : Prop := y = v.
(** [t]: a text of an object with members [l] *)
Definition merged_response (t : str) (l : list (list rune * value)) (h : N * result str str) : Prop :=
  gathered put_call (b "id") l 0%N (fst h) /\
  exists err res, gathered put_value (b "error") l VNull err /\ gathered (put_text t) (b "result") l None res /\
    ((exists rs, err = VStr rs /\ snd h = Err (error_text rs)) \/ (err = VNull /\ exists x, res = Some x /\ snd h = Ok x)).
(** Members of any types that are suitable *)
Definition suitable (float_ok : str -> bool) (l : list (list rune * value)) : Prop :=
  checked l (b "id") a_call /\ checked l (b "error") (anything float_ok).
