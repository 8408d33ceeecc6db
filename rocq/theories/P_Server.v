(** Properties of serving of concurrent requests. *)
From Coq Require Import Permutation.
From Verif Require Import GoBase GoSlice Frame FrameSpec Flags LinkTypes LinkSpec JsonSpec JsonStr Json Emacs Backend BackendSpec BackendWitness
  Real ReplyJson ReplySpec Server ServerSpec ServerProofs ServerMain ServerLive ServerWitness P_Reply.

(** C09: only requests with published names reach methods, each one reaches the method that is listed for its name. *)
Theorem C09_calls : forall c g input tr s, srun c (start g input) tr s ->
  beginning (received tr) input /\
  exists qs ts, called (c_dec c) tr qs /\ steps (c_emacs c) (initializer (c_back c)) (g, serving (c_back c) qs) (inner tr) (sglob s, ts).
Proof. exact server_calls. Qed.
Print Assumptions C09_calls.

Theorem C09_unknown : forall c g input tr s k p, srun c (start g input) tr s -> nth_error (received tr) k = Some p -> (forall m, ~ serves (pmethod p) m) ->
  (forall o, ~ In (k, o) (started 0 tr)) /\
  forall t, responds c tr k t -> response_shown (pid p) VNull (text (b "rpc: can't find service unknown." ++ pmethod p)) t.
Proof. exact server_unknown. Qed.
Print Assumptions C09_unknown.

Theorem C09_meaning : forall d p r r', meaning d p r -> meaning d p r' -> r = r'.
Proof. exact meaning_same. Qed.
Print Assumptions C09_meaning.

Theorem C09_search : forall d tr qs, called d tr qs -> forall o q, ~ In (o, QSearch q) qs.
Proof. exact no_search. Qed.
Print Assumptions C09_search.

(** C10: bytes that are sent are responses, each one in its own frame, at most one response for each request; the last frame may be incomplete. *)
Theorem C10_frames : forall c g input tr s, srun c (start g input) tr s -> ~ In VFail tr ->
  exists done fs rest, sent tr = concat fs ++ rest /\ Forall2 framed (map snd done) fs /\ NoDup (map fst done) /\
    Forall (fun kt => responds c tr (fst kt) (snd kt)) done /\
    (rest = [] \/ exists k t f, ~ In k (map fst done) /\ responds c tr k t /\ framed t f /\ beginning rest f).
Proof. exact server_output. Qed.
Print Assumptions C10_frames.

(** C11: the connection is closed when every request is answered exactly once. *)
Theorem C11_answered : forall c g input tr s, srun c (start g input) tr s -> In VClose tr -> ~ In VFail tr ->
  received tr = input /\
  exists done fs, sent tr = concat fs /\ Forall2 framed (map snd done) fs /\ Permutation (map fst done) (seq 0 (length input)) /\
    Forall (fun kt => responds c tr (fst kt) (snd kt)) done.
Proof. exact server_end. Qed.
Print Assumptions C11_answered.

(** C72: the server always stops. *)
Theorem C72_terminates : forall c f ls, ~ forall n, sstep c (f n) (ls n) (f (S n)).
Proof. exact no_infinite. Qed.
Print Assumptions C72_terminates.

Theorem C72_stuck : forall c g input tr s, gonce g <> OBusy -> srun c (start g input) tr s -> ((forall l s', ~ sstep c s l s') <-> finished tr).
Proof. exact server_stuck. Qed.
Print Assumptions C72_stuck.

Theorem C72_finish : forall c g input tr s, gonce g <> OBusy -> srun c (start g input) tr s ->
  exists tr' s', srun c (start g input) (tr ++ tr') s' /\ finished (tr ++ tr') /\ ~ In VFail tr'.
Proof. exact server_finish. Qed.
Print Assumptions C72_finish.

(** C73: a response can not be encoded only in the case of a link under a heading of an omitted level ... *)
Theorem C73_cause : forall c g input tr s, srun c (start g input) (tr ++ [VCrash]) s ->
  exists i r p, In (VBack i (LReply (PMentions r))) tr /\ In p (inner_props r) /\ missing p.
Proof. exact crash_cause. Qed.
Print Assumptions C73_cause.

(** ** Examples *)
Definition ex_bad {A} : str -> result str A := fun _ => Err (b "bad").
Definition ex_decoders : decoders :=
  mkDecoders (fun t => if str_eqb t (b "[{}]") then Ok [(b "org-protocol", b "0.2")] else Err (b "bad")) ex_bad
    (fun t => if str_eqb t (b "[{""variants"":[""http://a.org/x""]}]") then Ok ex_query else Err (b "bad")) ex_bad ex_bad ex_bad.
Definition ex_config : config := mkConfig ex_cfg ex_backend ex_decoders (fun _ => b "error").
Definition ex_input : list packet :=
  [mkPacket (Some (b "1")) (b "burl.hello") (Some (b "[{}]"));
   mkPacket (Some (b " ""<"" ")) (b "Burl.Search") (Some (b "[{}]"));
   mkPacket None (b "hello") None;
   mkPacket (Some (b "[ 4 ]")) (b "linkremark.urlMentions") (Some (b "[{""variants"":[""http://a.org/x""]}]"))].
Definition ex_reader (n : nat) : list pick := repeat (PReader ex_orders 7) n.
Definition ex_call (i n : nat) : list pick := repeat (PCall i succ 100) n.
Definition ex_file (t : str) : list pick := [PCall 1 (IRead (RData t false)) 0].
(** The second request is answered before the first one. *)
Definition ex_picks (org : str) : list pick :=
  ex_reader 1 ++ ex_call 0 1 ++ ex_reader 4 ++ ex_call 0 1 ++ ex_reader 16 ++ ex_reader 16 ++ ex_reader 1 ++ ex_call 1 1 ++ ex_file org ++ ex_file ex_txt ++ ex_call 1 4.
Definition ex_frame (size : N) (t : str) : str := ascii_of_N (size mod 256) :: ascii_of_N (size / 256) :: ascii_of_N 0 :: ascii_of_N 0 :: t ++ eol.
Definition ex_first : str :=
  ex_frame 84 (b "{""id"":""\" ++ b "u003c"",""result"":null,""error"":""rpc: can't find service unknown.Burl.Search""}") ++
  ex_frame 73 (b "{""id"":null,""result"":null,""error"":""jsonrpc: request body missing params""}").
Definition ex_second : str :=
  ex_frame 723 (b "{""id"":[4],""result"":" ++ ex_json ++ b ",""error"":null}") ++
  ex_frame 159 (b "{""id"":1,""result"":{""format"":""org-protocol"",""version"":""0.2"",""capabilities"":[""visit"",""urlMentions"",""linkSet""],""options"":{""clipboardForBody"":false}},""error"":null}").
Definition ex_part := ex_picks ex_org ++ ex_call 1 2 ++ [PCall 1 succ 20].
Definition ex_full := ex_picks ex_org ++ ex_call 1 12 ++ ex_call 0 7 ++ ex_reader 1.

Example C09_names : serves (b "burl.urlMentions") MUrlMentions /\ forall m, ~ serves (b "Burl.Search") m.
Proof.
  split.
  - exists [b "burl.urlMentions"; b "linkremark.urlMentions"]. split; [right; right; right; left; reflexivity|left; reflexivity].
  - intros m H. apply route_exact in H. vm_compute in H. discriminate H.
Qed.
Example C09_example : exists tr s, srun ex_config (start ex_glob ex_input) tr s /\ packets_eqb (received tr) ex_input && match map fst (started 0 tr) with [0; 3] => true | _ => false end = true.
Proof. apply (moves_test _ _ ex_full). vm_compute. reflexivity. Qed.

(** A part of the third response *)
Example C10_example : exists tr s, srun ex_config (start ex_glob ex_input) tr s /\
  negb (existsb is_fail tr) && str_eqb (sent tr) (ex_first ++ firstn 21 ex_second) = true.
Proof. apply (moves_test _ _ ex_part). vm_compute. reflexivity. Qed.

Example C11_example : exists tr s, srun ex_config (start ex_glob ex_input) tr s /\
  existsb is_close tr && negb (existsb is_fail tr) && str_eqb (sent tr) (ex_first ++ ex_second) = true.
Proof. apply (moves_test _ _ ex_full). vm_compute. reflexivity. Qed.
Example C72_example : exists tr s, srun ex_config (start ex_glob ex_input) tr s /\ ends_with is_close tr = true.
Proof. apply (moves_test _ _ ex_full). vm_compute. reflexivity. Qed.

(** ... and then other requests are not answered. *)
Definition ex_two : list packet :=
  [mkPacket (Some (b "1")) (b "burl.hello") (Some (b "[{}]")); mkPacket (Some (b "2")) (b "burl.urlMentions") (Some (b "[{""variants"":[""http://a.org/x""]}]"))].
Definition ex_crash := ex_reader 2 ++ ex_call 0 1 ++ ex_call 1 1 ++ ex_file ex_skipped ++ ex_file ex_txt ++ ex_call 1 5.
Example C73_example : exists tr s, srun ex_config (start ex_glob ex_two) tr s /\
  ends_with is_crash tr && negb (existsb is_fail tr) && packets_eqb (received tr) ex_two && str_eqb (sent tr) [] = true.
Proof. apply (moves_test _ _ ex_crash). vm_compute. reflexivity. Qed.
Theorem C73_refuted : ~ forall c g input tr s, gonce g = ONew -> srun c (start g input) tr s -> finished tr -> ~ In VFail tr -> received tr = input ->
  forall k p q, nth_error input k = Some p -> meaning (c_dec c) p (Ok q) -> sent tr <> [].
Proof.
  intros H. destruct C73_example as (tr & s & R & T). apply andb_true_iff in T. destruct T as [T T4]. apply andb_true_iff in T. destruct T as [T T3].
  apply andb_true_iff in T. destruct T as [T1 T2]. apply packets_eqb_ok in T3. apply str_eqb_ok in T4. apply negb_true_iff in T2.
  refine (H ex_config ex_glob ex_two tr s eq_refl R _ (no_fail _ T2) T3 0 _ (QHello [(b "org-protocol", b "0.2")]) eq_refl _ T4).
  - apply ends_with_ok in T1. destruct T1 as (tr' & l & E & L). exists tr', l. split; [exact E|]. destruct l; try discriminate L. right. left. reflexivity.
  - exact (readRequest_meaning ex_decoders (mkPacket (Some (b "1")) (b "burl.hello") (Some (b "[{}]")))).
Qed.
Print Assumptions C73_refuted.
