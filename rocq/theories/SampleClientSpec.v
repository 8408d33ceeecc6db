(** Specification of the sample client. *)
From Verif Require Import GoBase Utf8 JsonSpec ReplySpec Backend Server ServerSpec Client Print.

(** Everything that is necessary to start a program *)
Definition startable (w : world) : Prop := w_stdin w = None /\ w_stdout w = None /\ w_start w = None.
(** What is told about a call *)
Inductive told (show : str -> str) : completion -> str -> str -> Prop :=
| td_result x : told show (OResult (VNum x)) (b "result") (show x)
| td_server e : told show (OServer e) (b "error") e
| td_body e : told show (OBody e) (b "error") e
| td_write e : told show (OWrite e) (b "error") e
| td_closed : told show (OEnd EndShutdown) (b "error") (b "connection is shut down")
| td_eof : told show (OEnd EndEof) (b "error") (b "unexpected EOF")
| td_read e : told show (OEnd (EndOther e)) (b "error") e.
(** The variable for a reply is a number. *)
Definition numeric (w : world) : Prop := forall t v, w_call w t = OResult v -> exists x, v = VNum x.
(** The request to calculate the square root *)
Definition sqrt_object (x id : str) : value := VObj [(name (b "method"), text (b "example.Sqrt")); (name (b "params"), VArr [VNum x]); (name (b "id"), VNum id)].
(** How a call is completed by a response with the same number *)
Inductive completes (f : str -> bool) (id : N) (t : str) : completion -> Prop :=
| cm_error e : response_header f t = Some (id, Err e) -> completes f id t (OServer e)
| cm_result x v : response_header f t = Some (id, Ok x) -> jdocument (VNum v) x -> f v = true -> completes f id t (OResult (VNum v)).
(** A reply for a variable with a floating point number: [f] tells whether a number fits, [oops] is a text of an error *)
Inductive float_result (f : str -> bool) (oops : str) : value -> result str value -> Prop :=
| fr_number x : f x = true -> float_result f oops (VNum x) (Ok (VNum x))
| fr_large x : f x = false -> float_result f oops (VNum x) (Err oops)
| fr_null : float_result f oops VNull (Ok (VNum (b "0")))
| fr_other v : (forall x, v <> VNum x) -> v <> VNull -> float_result f oops v (Err oops).
