(** Specification of serving of requests. *)
From Verif Require Import GoBase GoSlice Frame FrameSpec Flags LinkTypes JsonSpec Emacs Backend BackendSpec ReplyJson ReplySpec Server.
From Coq Require Import Permutation.

(** Published methods *)
Definition published : list (list str * meth) :=
  [([b "hello"; b "burl.hello"; b "linkremark.hello"], MHello);
   ([b "capture"; b "burl.capture"; b "linkremark.capture"], MCapture);
   ([b "burl.visit"; b "linkremark.visit"], MVisit);
   ([b "burl.urlMentions"; b "linkremark.urlMentions"], MUrlMentions);
   ([b "burl.linkSet"; b "linkremark.linkSet"], MLinkSet)].
Definition serves (name : str) (m : meth) : Prop := exists names, In (names, m) published /\ In name names.

(** Queries of published methods; [Err]: text of an error *)
Inductive asks (d : decoders) (t : str) : meth -> result str request -> Prop :=
| as_hello q : d_hello d t = Ok q -> asks d t MHello (Ok (QHello q))
| as_hello_bad e : d_hello d t = Err e -> asks d t MHello (Err e)
| as_capture q : d_capture d t = Ok q -> asks d t MCapture (Ok (QCapture q))
| as_capture_bad e : d_capture d t = Err e -> asks d t MCapture (Err e)
| as_mentions q : d_mentions d t = Ok q -> asks d t MUrlMentions (Ok (QMentions q))
| as_mentions_bad e : d_mentions d t = Err e -> asks d t MUrlMentions (Err e)
| as_visit q : d_visit d t = Ok q -> asks d t MVisit (Ok (QVisit q))
| as_visit_bad e : d_visit d t = Err e -> asks d t MVisit (Err e)
| as_set q : d_set d t = Ok q -> asks d t MLinkSet (Ok (QLinkSet q))
| as_set_bad e : d_set d t = Err e -> asks d t MLinkSet (Err e).
(** What is asked by a packet *)
Inductive meaning (d : decoders) (p : packet) : result str request -> Prop :=
| me_unknown : (forall m, ~ serves (pmethod p) m) -> meaning d p (Err (b "rpc: can't find service unknown." ++ pmethod p))
| me_missing m : serves (pmethod p) m -> pparams p = None -> meaning d p (Err (b "jsonrpc: request body missing params"))
| me_asks m t q : serves (pmethod p) m -> pparams p = Some t -> asks d t m q -> meaning d p q.

(** ** Observation of an execution *)

(** Requests that were read *)
Fixpoint received (tr : list slabel) : list packet :=
  match tr with
  | [] => []
  | VAccept p _ :: tr' => p :: received tr'
  | _ :: tr' => received tr'
  end.
(** Numbers (from [k]) of those passed to methods *)
Fixpoint started (k : nat) (tr : list slabel) : list (nat * orders) :=
  match tr with
  | [] => []
  | VAccept _ (Some o) :: tr' => (k, o) :: started (S k) tr'
  | VAccept _ None :: tr' => started (S k) tr'
  | _ :: tr' => started k tr'
  end.
(** Execution of methods *)
Fixpoint inner (tr : list slabel) : list (nat * label reply) :=
  match tr with
  | [] => []
  | VBack i l :: tr' => (i, l) :: inner tr'
  | _ :: tr' => inner tr'
  end.
(** Bytes that are sent *)
Fixpoint sent (tr : list slabel) : str :=
  match tr with
  | [] => []
  | VOut d :: tr' => d ++ sent tr'
  | _ :: tr' => sent tr'
  end.

(** Queries [qs] of methods that were started *)
Definition called (d : decoders) (tr : list slabel) (qs : list (orders * request)) : Prop :=
  Forall2 (fun ko oq => snd ko = fst oq /\ exists p, nth_error (received tr) (fst ko) = Some p /\ meaning d p (Ok (snd oq))) (started 0 tr) qs.

(** JSON value of a response *)
Definition id_shown (id : option str) (v : value) : Prop := match id with None => v = VNull | Some t => jtext v t end.
Definition response_shown (id : option str) (result error : value) (t : str) : Prop :=
  forall i, id_shown id i -> jdocument (VObj [(name (b "id"), i); (name (b "result"), result); (name (b "error"), error)]) t.

(** [t] is a response to the request number [k]. *)
Inductive responds (c : config) (tr : list slabel) (k : nat) (t : str) : Prop :=
| re_bad p e : nth_error (received tr) k = Some p -> meaning (c_dec c) p (Err e) -> response_shown (pid p) VNull (text e) t -> responds c tr k t
| re_error p q i o e : nth_error (received tr) k = Some p -> meaning (c_dec c) p (Ok q) ->
    nth_error (started 0 tr) i = Some (k, o) -> replied (of_thread i (inner tr)) (PError e) -> response_shown (pid p) VNull (text (c_text c e)) t ->
    responds c tr k t
| re_result p q i o r v : nth_error (received tr) k = Some p -> meaning (c_dec c) p (Ok q) ->
    nth_error (started 0 tr) i = Some (k, o) -> replied (of_thread i (inner tr)) r -> (forall e, r <> PError e) -> result_shown r v ->
    response_shown (pid p) v VNull t -> responds c tr k t.

(** A frame; the size is correct if it can be represented *)
Definition framed (t f : str) : Prop := exists h, length h = 4 /\ f = h ++ t /\ ((N.of_nat (length t) < 2 ^ 32)%N -> is_frame f t).

(** The server stops: the connection is closed or there is a panic. *)
Definition fatal (l : slabel) : Prop := l = VClose \/ l = VCrash \/ exists i, l = VBack i LPanic.
Definition finished (tr : list slabel) : Prop := exists tr' l, tr = tr' ++ [l] /\ fatal l.
