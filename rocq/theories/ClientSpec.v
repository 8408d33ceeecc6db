(** Specification of a client: what is observed in an execution. *)
From Verif Require Import GoBase Utf8 JsonSpec Json Frame StreamSpec Backend BackendSpec ReplySpec Server ServerSpec UnmarshalSpec Client.

(** Number of calls, requests with their numbers, completions of a call *)
Fixpoint begun (tr : list clabel) : nat := match tr with [] => 0 | XGo :: tr' => S (begun tr') | _ :: tr' => begun tr' end.
Fixpoint sends (tr : list clabel) : list (nat * N) := match tr with [] => [] | XSend i q :: tr' => (i, q) :: sends tr' | _ :: tr' => sends tr' end.
Fixpoint dones (i : nat) (tr : list clabel) : list completion :=
  match tr with
  | [] => []
  | XDone j c :: tr' => if Nat.eqb i j then c :: dones i tr' else dones i tr'
  | _ :: tr' => dones i tr'
  end.
(** Steps that are not requested by users of the client *)
Definition own (l : clabel) : Prop := l <> XGo /\ forall first, l <> XClose first.

(** and are not responses *)
Definition quick (l : clabel) : Prop := own l /\ forall q r, l <> XHeader q r.

(** The call got the response. *)
Inductive settled (body : nat -> str -> result str value) (i : nat) : result str str -> completion -> Prop :=
| se_error e : settled body i (Err e) (OServer e)
| se_result t v : body i t = Ok v -> settled body i (Ok t) (OResult v)
| se_body t e : body i t = Err e -> settled body i (Ok t) (OBody (b "reading body " ++ e)).
(** Why the call is completed so, [tr]: what has happened before *)
Inductive justified (body : nat -> str -> result str value) (tr : list clabel) (i : nat) : completion -> Prop :=
| ju_response q r c : In (XSend i q) tr -> In (XHeader q r) tr -> settled body i r c -> justified body tr i c
| ju_write e : In (XSent i (Some e)) tr -> justified body tr i (OWrite e)
| ju_refused : (forall q, ~ In (XSend i q) tr) -> (In (XClose true) tr \/ exists f, In (XStop f) tr) \/ (exists j e, In (XDone j (OBody e)) tr) -> justified body tr i (OEnd EndShutdown)
| ju_closed q : In (XSend i q) tr -> In (XClose true) tr -> In (XStop FEof) tr -> justified body tr i (OEnd EndShutdown)
| ju_eof q : In (XSend i q) tr -> In (XStop FEof) tr -> ~ In (XClose true) tr -> justified body tr i (OEnd EndEof)
| ju_failure q e : In (XSend i q) tr -> In (XStop (FOther e)) tr \/ (exists j, In (XDone j (OBody e)) tr) -> justified body tr i (OEnd (EndOther e)).
(** Number of headers and of calls of Close *)
Fixpoint headers (tr : list clabel) : nat := match tr with [] => 0 | XHeader _ _ :: tr' => S (headers tr') | _ :: tr' => headers tr' end.
Fixpoint closes (tr : list clabel) : nat := match tr with [] => 0 | XClose _ :: tr' => S (closes tr') | _ :: tr' => closes tr' end.

(** ** Responses.  Numbers of calls: null and absence of a number mean the first call. *)
Definition a_call (v : value) (n : N) : Prop := (v = VNull /\ n = 0%N) \/ (v = VNum (integer (Z.of_N n)) /\ (n <= 18446744073709551615)%N).
(** A text of an error is never empty. *)
Definition error_text (rs : list rune) : str := match rs with [] => b "unspecified error" | _ => string_of rs end.
(** [t]: a text of an object with members [l] *)
Inductive answers (t : str) (l : list (list rune * value)) : result str str -> Prop :=
| an_error rs : has l (b "error") (VStr rs) -> answers t l (Err (error_text rs))
| an_result v x : (forall v', has l (b "error") v' -> v' = VNull) -> has l (b "result") v -> v <> VNull -> text_in t v (Some x) -> answers t l (Ok x).
Definition a_response (t : str) (l : list (list rune * value)) (h : N * result str str) : Prop := field l (b "id") a_call 0%N (fst h) /\ answers t l (snd h).
(** A message with a response *)
Definition response_message (t : str) (l : list (list rune * value)) : Prop :=
  exists w x, space w /\ jtext (VObj l) x /\ t = w ++ x /\ (N.of_nat (nesting (VObj l)) <= 10000)%N /\ different l /\ exists h, a_response t l h.

(** What the client gets for the request number [k] of a server *)
Inductive obtained (c : config) (tr : list slabel) (k : nat) : result str str -> Prop :=
| ob_bad p e : nth_error (received tr) k = Some p -> meaning (c_dec c) p (Err e) -> obtained c tr k (Err (error_text (runes_of e)))
| ob_error p q i o e : nth_error (received tr) k = Some p -> meaning (c_dec c) p (Ok q) -> nth_error (started 0 tr) i = Some (k, o) ->
    replied (of_thread i (inner tr)) (PError e) -> obtained c tr k (Err (error_text (runes_of (c_text c e))))
| ob_result p q i o r v x : nth_error (received tr) k = Some p -> meaning (c_dec c) p (Ok q) -> nth_error (started 0 tr) i = Some (k, o) ->
    replied (of_thread i (inner tr)) r -> (forall e, r <> PError e) -> result_shown r v -> jtext v x -> obtained c tr k (Ok x).
