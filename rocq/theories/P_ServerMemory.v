(** Property C109: the server does not accumulate requests. *)
From Verif Require Import GoBase Emacs Backend Server ServerMemorySpec ServerMemory BackendWitness ServerWitness P_Reply P_Server.

(** C109.  At every moment the server remembers exactly requests that are executed or have responses that are not encoded yet, each one once ... *)
Theorem C109_remembered : forall c g input tr s, srun c (start g input) tr s ->
  NoDup (map fst (pend (sconn s))) /\ forall k, In k (map fst (pend (sconn s))) <-> waiting s k.
Proof. exact remembered. Qed.
Print Assumptions C109_remembered.

(** ... so nothing is kept when all requests are answered. *)
Theorem C109_forgotten : forall c g input tr s, srun c (start g input) tr s -> answered s -> pend (sconn s) = [].
Proof. exact forgotten. Qed.
Print Assumptions C109_forgotten.

(** Four requests are read, responses to two of them are sent, the third one is sent partially, the first request is still executed. *)
Example C109_example : exists tr s, srun ex_config (start ex_glob ex_input) tr s /\ map fst (pend (sconn s)) = [1] /\ sseq s = 4 /\ waiting s 1 /\ ~ waiting s 4.
Proof.
  destruct (moves_state ex_config (start ex_glob ex_input) ex_part (fun s => match map fst (pend (sconn s)), sseq s with [1], 4 => true | _, _ => false end)) as (tr & s & R & T); [vm_compute; reflexivity|].
  exists tr, s. split; [exact R|]. destruct (remembered _ _ _ _ _ R) as [_ M].
  assert (P : map fst (pend (sconn s)) = [1] /\ sseq s = 4) by (destruct (map fst (pend (sconn s))) as [|[|[|]] []], (sseq s) as [|[|[|[|[|]]]]]; try discriminate T; auto).
  destruct P as [P1 P2]. rewrite P1 in M. split; [exact P1|]. split; [exact P2|]. split; [apply M; left; reflexivity|]. intros W. apply M in W. destruct W as [W|[]]. discriminate.
Qed.
Example C109_answered : exists tr s, srun ex_config (start ex_glob ex_input) tr s /\ answered s /\ length (scalls s) = 2.
Proof.
  destruct (moves_state ex_config (start ex_glob ex_input) ex_full (fun s => forallb (fun c => match cjob c with JSend SOver => true | _ => false end) (scalls s) &&
    match sreader s with RSend _ _ => false | _ => true end && (length (scalls s) =? 2))) as (tr & s & R & T); [vm_compute; reflexivity|].
  exists tr, s. split; [exact R|]. apply andb_true_iff in T. destruct T as [T T2]. apply andb_true_iff in T. destruct T as [T1 T3]. apply Nat.eqb_eq in T2. split; [|exact T2]. split.
  - apply Forall_forall. intros c I. rewrite forallb_forall in T1. specialize (T1 _ I). destruct (cjob c) as [|[]]; try discriminate. reflexivity.
  - intros k x E. rewrite E in T3. discriminate.
Qed.
