(** Specification of a client and a server that are connected to each other. *)
From Verif Require Import GoBase Utf8 JsonSpec Json Frame FrameSpec StreamSpec LinkTypes Emacs Backend BackendSpec ReplySpec Server ServerSpec UnmarshalSpec Client ClientSpec.

(** [t] is a message with the query [q] and the number [n], there may be white space after it. *)
Definition asks_for (float_ok : str -> bool) (q : request) (n : N) (t : str) : Prop :=
  exists x w l rs m v vs, t = x ++ w /\ space w /\ a_message x l /\ has l (b "method") (VStr rs) /\ serves (string_of rs) m /\
    has l (b "params") (VArr (v :: vs)) /\ tidy v /\ wants float_ok m v q /\ has l (b "id") (VNum (integer (Z.of_N n))) /\ (n <= 18446744073709551615)%N.
(** Responses that have been read by the client *)
Fixpoint heard (tr : list clabel) : list (N * result str str) :=
  match tr with
  | [] => []
  | XHeader q r :: tr' => (q, r) :: heard tr'
  | _ :: tr' => heard tr'
  end.

(** The answer to the request number [k] *)
Inductive answer_to (c : config) (tr : list slabel) (k : nat) (p : packet) : answer -> Prop :=
| at_bad e : meaning (c_dec c) p (Err e) -> answer_to c tr k p (AError e)
| at_reply q i o r : meaning (c_dec c) p (Ok q) -> nth_error (started 0 tr) i = Some (k, o) -> replied (of_thread i (inner tr)) r -> answer_to c tr k p (answer_of (c_text c) r).
(** The size of a response may be represented in its frame. *)
Definition fit (c : config) (tr : list slabel) : Prop :=
  forall k p a t, nth_error (received tr) k = Some p -> answer_to c tr k p a -> response (pid p) a = Done t -> (N.of_nat (length t) < 2 ^ 32)%N.
(** Results are not nested deeper than readers of JSON accept: at most 10000 arrays and objects, two for a heading or a file, three for links, one for a response. *)
Fixpoint levels (c : cnode) : nat :=
  match c with
  | CLeaf _ _ _ => 0
  | CInner _ _ _ ch => S (fold_right (fun x n => Nat.max (levels x) n) 0 ch)
  end.
Definition shallow (tr : list slabel) : Prop := forall i c, In (VBack i (LReply (PMentions c))) tr -> (N.of_nat (levels c) <= 4998)%N.

(** How a reply of a method is seen by the client *)
Inductive expressed (error : berr -> str) : Backend.reply -> result str str -> Prop :=
| ed_error e : expressed error (PError e) (Err (error_text (runes_of (error e))))
| ed_result r v x : (forall e, r <> PError e) -> result_shown r v -> jtext v x -> expressed error r (Ok x).
(** The method has been executed for the query [q] of the request number [k] with the result [x]. *)
Inductive handled (c : config) (g : glob) (tr : list slabel) (k : nat) (q : request) (x : result str str) : Prop :=
| hd_reply qs g' ts i o r : called (c_dec c) tr qs -> steps (c_emacs c) (initializer (c_back c)) (g, serving (c_back c) qs) (inner tr) (g', ts) ->
    nth_error (started 0 tr) i = Some (k, o) -> nth_error qs i = Some (o, q) -> replied (of_thread i (inner tr)) r -> expressed (c_text c) r x -> handled c g tr k q x.
(** The call is completed because of a response. *)
Definition responded (x : completion) : Prop := match x with OWrite _ | OEnd _ => False | _ => True end.
