(** Which requests the server has to remember. *)
From Verif Require Import GoBase Emacs Backend Server.

(** A response is not encoded yet. *)
Definition unsent (x : sender) : Prop := match x with SLock _ | SEncode _ => True | _ => False end.
(** The [k]-th request is executed or its response is not encoded yet. *)
Definition waiting (s : server) (k : nat) : Prop :=
  (exists c, In c (scalls s) /\ cseq c = k /\ match cjob c with JRun _ => True | JSend x => unsent x end) \/
  (exists x, sreader s = RSend k x /\ unsent x).
(** Everything that has been read is answered. *)
Definition answered (s : server) : Prop := Forall (fun c => cjob c = JSend SOver) (scalls s) /\ forall k x, sreader s <> RSend k x.
