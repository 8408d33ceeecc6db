(** A lemma about responses to messages that are not requests. *)
From Verif Require Import GoBase Utf8 JsonSpec Json GoBase GoSlice Frame FrameSpec Flags LinkTypes JsonSpec Emacs Backend BackendSpec ReplyJson ReplySpec Server ServerSpec ServerLive.

Lemma null_answer c g input tr s k : srun c (start g input) tr s -> nth_error (received tr) k = Some (mkPacket None [] None) ->
  (forall o, ~ In (k, o) (started 0 tr)) /\
  forall t, responds c tr k t -> jdocument (VObj [(name (b "id"), VNull); (name (b "result"), VNull); (name (b "error"), text (b "rpc: can't find service unknown."))]) t.
Proof.
  intros R H. destruct (server_unknown c g input tr s k _ R H) as [A B].
  - intros m (names & P & I). cbn in P. repeat destruct P as [P|P]; try contradiction; injection P as <- _; cbn in I; repeat destruct I as [I|I]; try discriminate; contradiction.
  - split; [exact A|]. intros t T. exact (B t T VNull eq_refl).
Qed.
