(** Property C122: the response to a null (pkg/webextensions/server.go:44-49, 75-88). *)
From Verif Require Import GoBase GoSlice Frame FrameSpec Flags LinkTypes LinkSpec JsonSpec JsonStr Json Emacs Backend BackendSpec BackendWitness
  Real ReplyJson ReplySpec Server ServerSpec ServerProofs ServerMain ServerLive ServerWitness P_Reply P_Server NullAnswer.

(** C122.  No method is called for a request that is read from null, and its response is an error with null instead of an identifier. *)
Theorem C122_answer : forall c g input tr s k, srun c (start g input) tr s -> nth_error (received tr) k = Some (mkPacket None [] None) ->
  (forall o, ~ In (k, o) (started 0 tr)) /\
  forall t, responds c tr k t -> jdocument (VObj [(name (b "id"), VNull); (name (b "result"), VNull); (name (b "error"), text (b "rpc: can't find service unknown."))]) t.
Proof. exact null_answer. Qed.
Print Assumptions C122_answer.
Example C122_example_answer : exists tr s, srun ex_config (start ex_glob [mkPacket None [] None]) tr s /\
  packets_eqb (received tr) [mkPacket None [] None] && str_eqb (sent tr) (ex_frame 69 (b "{""id"":null,""result"":null,""error"":""rpc: can't find service unknown.""}")) = true.
Proof. apply (moves_test _ _ (ex_reader 16)). vm_compute. reflexivity. Qed.
