(** Properties C87-C92: the client, pkg/webextensions/client.go with net/rpc. *)
From Verif Require Import GoBase Utf8 JsonSpec Json JsonProofs Frame FrameSpec Stream StreamSpec StreamWitness Emacs Backend BackendSpec ReplySpec Server ServerSpec Tools ToolsSpec ToolsProofs Unmarshal UnmarshalSpec UnmarshalProofs PacketProofs Client ClientSpec ClientProofs ClientMain ResponseProofs.

(** C87.  A call is completed at most once and only after it has been started. *)
Theorem C87_once : forall body tr s i, crun body new_client tr s -> length (dones i tr) <= (if i <? begun tr then 1 else 0).
Proof. exact once. Qed.
Print Assumptions C87_once.
(** Requests have numbers 0, 1, 2..., there is at most one request for a call. *)
Theorem C87_numbers : forall body tr s, crun body new_client tr s -> map snd (sends tr) = map N.of_nat (seq 0 (length (sends tr))) /\ NoDup (map fst (sends tr)).
Proof. exact numbers. Qed.
Print Assumptions C87_numbers.
(** The reason of each completion *)
Theorem C87_reason : forall body tr i c s, crun body new_client (tr ++ [XDone i c]) s -> justified body tr i c.
Proof. exact reasons. Qed.
Print Assumptions C87_reason.
(** The first response with the number of a call completes that call, unless sending of its request has failed. *)
Theorem C87_answered : forall body tr1 i q tr2 r tr3 s, crun body new_client (tr1 ++ XSend i q :: tr2 ++ XHeader q r :: tr3) s -> dones i (tr1 ++ XSend i q :: tr2) = [] ->
  Forall (fun c => settled body i r c \/ exists e, c = OWrite e) (dones i (tr1 ++ XSend i q :: tr2 ++ XHeader q r :: tr3)).
Proof. exact answered. Qed.
Print Assumptions C87_answered.

Definition ex_call_body (i : nat) (t : str) : result str value := match parse t with Some v => Ok v | None => Err (b "bad") end.
(** Responses in the other order, a response with an unknown number, a call after Close, the end of the stream *)
Definition ex_calls : list clabel :=
  [XGo; XGo; XSend 0 0; XSent 0 None; XSend 1 1; XHeader 1 (Ok (b "[]")); XTau; XSent 1 None; XDone 1 (OResult (VArr [])); XHeader 7 (Err (b "x")); XTau; XTau; XGo; XSend 2 2; XSent 2 (Some (b "pipe"));
   XHeader 0 (Err (b "no")); XTau; XDone 0 (OServer (b "no")); XDone 2 (OWrite (b "pipe")); XGo; XSend 3 3; XSent 3 None; XClose true; XClose false; XGo; XDone 4 (OEnd EndShutdown); XStop FEof; XTau; XDone 3 (OEnd EndShutdown); XTau].
Example C87_example : exists s, crun ex_call_body new_client ex_calls s /\ map (fun i => dones i ex_calls) (seq 0 6) =
  [[OServer (b "no")]; [OResult (VArr [])]; [OWrite (b "pipe")]; [OEnd EndShutdown]; [OEnd EndShutdown]; []].
Proof.
  eexists. split; [|reflexivity]. unfold ex_calls, new_client.
  repeat (eapply cr_step; [first [eapply x_go|eapply x_send; reflexivity|eapply x_sent; reflexivity|eapply x_failed; reflexivity|eapply x_header|eapply x_stop|eapply x_match|eapply x_skip|eapply x_error|eapply x_result; reflexivity
    |eapply x_refuse; reflexivity|eapply (x_failed_done _ _ _ _ _ _ _ _ 2); reflexivity|eapply x_close; reflexivity|eapply x_close_again; reflexivity|eapply x_end|eapply (x_fail _ _ _ _ _ _ _ _ [])|eapply x_over]|];
    cbn [put firstn skipn app N.add Pos.add Pos.succ found find fst snd N.eqb Pos.eqb without filter negb ended]).
  apply cr_nil.
Qed.

(** C88.  A request is sent as a whole before the next one. *)
Theorem C88_whole : forall body tr1 i q tr2 j q' s, crun body new_client (tr1 ++ XSend i q :: tr2 ++ [XSend j q']) s -> exists e, In (XSent i e) tr2.
Proof. exact writes. Qed.
Print Assumptions C88_whole.
(** Nothing is sent after Close and after a call has failed since there is no connection. *)
Theorem C88_closed : forall body tr1 tr2 s, crun body new_client (tr1 ++ XClose true :: tr2) s -> forall i q, ~ In (XSend i q) tr2.
Proof. exact after_close. Qed.
Print Assumptions C88_closed.
Theorem C88_ended : forall body tr1 j e tr2 s, crun body new_client (tr1 ++ XDone j (OEnd e) :: tr2) s -> forall i q, ~ In (XSend i q) tr2.
Proof. exact after_end. Qed.
Print Assumptions C88_ended.
(** Close succeeds once, then it is an error. *)
Theorem C88_close : forall body tr first s, crun body new_client (tr ++ [XClose first]) s -> (first = true <-> forall f, ~ In (XClose f) tr).
Proof. exact close_result. Qed.
Print Assumptions C88_close.
Example C88_example : ex_calls = firstn 22 ex_calls ++ XClose true :: skipn 23 ex_calls /\ In (XClose false) (skipn 23 ex_calls) /\ ex_calls = firstn 2 ex_calls ++ XSend 0 0 :: [XSent 0 None] ++ [XSend 1 1] ++ skipn 5 ex_calls.
Proof. split; [reflexivity|]. split; [left|]; reflexivity. Qed.

(** C89.  Unless all calls are completed, the client itself (or the connection) makes a step. *)
Theorem C89_progress : forall body tr s i, crun body new_client tr s -> i < begun tr -> dones i tr = [] -> exists l s', cstep body s l s' /\ quick l.
Proof. exact progress_step. Qed.
Print Assumptions C89_progress.
(** The number of steps is limited by numbers of calls, responses and Close. *)
Theorem C89_bounded : forall body tr s, crun body new_client tr s -> length tr <= 4 + 5 * begun tr + 3 * headers tr + closes tr.
Proof. exact bounded. Qed.
Print Assumptions C89_bounded.
(** All calls may be completed without any new calls and Close. *)
Theorem C89_finish : forall body tr s, crun body new_client tr s -> exists tr' s', crun body s tr' s' /\ Forall own tr' /\ forall i, i < begun tr -> dones i (tr ++ tr') <> [].
Proof. exact finishes. Qed.
Print Assumptions C89_finish.
Example C89_example : begun ex_calls = 5 /\ headers ex_calls = 3 /\ closes ex_calls = 2 /\ length ex_calls = 30.
Proof. repeat split. Qed.

(** C90.  Responses are understood as they are meant: the number of a call, then either an error or a result. *)
Theorem C90_response : forall f t l, jdocument (VObj l) t -> different l ->
  (forall h, response_header f t = Some h -> a_response t l h) /\ ((exists h, response_header f t = Some h) <-> exists h, a_response t l h).
Proof. exact response_exact. Qed.
Print Assumptions C90_response.
Theorem C90_other : forall f t v, jdocument v t -> (forall l, v <> VObj l) -> response_header f t = None.
Proof. exact response_other. Qed.
Print Assumptions C90_other.
(** Responses of a stream with newlines after objects: either all of them are read or some and reading fails, see C08. *)
Theorem C90_stream : forall f stream msgs sch fuel, is_stream stream (map (fun m => fst m ++ newline) msgs) -> Forall (fun m => response_message (fst m) (snd m)) msgs ->
  Forall (fun m => N.of_nat (length (fst m)) < 1073741824)%N msgs -> length msgs < fuel ->
  exists k hs e, responses f fuel (mkSrc stream EOF sch 0) = Some (hs, e) /\ Forall2 (fun m h => exists w, space w /\ a_response (w ++ fst m) (snd m) h) (firstn k msgs) hs /\
    ((k = length msgs /\ e = EHeader (Io EOF)) \/ (0 < k <= length msgs /\ e = EHeader ErrReadBody)).
Proof. exact responses_exact. Qed.
Print Assumptions C90_stream.
Definition ex_reals (t : str) : bool := true.
Example C90_example : map (response_header ex_reals) [b "{""id"":3,""result"":[1, 2],""error"":null}"; b " {""ID"":18446744073709551615,""error"":""no"",""result"":null}"; b "{""id"":0,""result"":7,""error"":""""}";
    b "{""id"":-1,""result"":7}"; b "{""id"":1,""result"":null,""error"":null}"; b "{""id"":1,""result"":true,""error"":{}}"] =
  [Some (3%N, Ok (b "[1, 2]")); Some (18446744073709551615%N, Err (b "no")); Some (0%N, Err (b "unspecified error")); None; None; None].
Proof. vm_compute. reflexivity. Qed.
Example C90_example_stream : responses ex_reals 5 (mkSrc (ex_frame (b "{""id"":1,""result"":7,""error"":null}" ++ newline) ++ ex_frame (b "{""id"":0,""result"":null,""error"":""e""}" ++ newline)) EOF (fun _ => 100) 0) =
  Some ([(1%N, Ok (b "7")); (0%N, Err (b "e"))], EHeader (Io EOF)).
Proof. vm_compute. reflexivity. Qed.
(** Finding.  A message without a number is a response to the first call. *)
Theorem C90_refuted : ~ forall f t l h, jdocument (VObj l) t -> different l -> (forall v, ~ has l (b "id") v) -> response_header f t <> Some h.
Proof.
  intros H. apply (H ex_reals (encode (JObj [(b "error", JStr (b "x"))])) [(runes_of (b "error"), VStr (runes_of (b "x")))] (0%N, Err (b "x"))); [apply text_document; exact (encode_ok (JObj [(b "error", JStr (b "x"))]))| | |vm_compute; reflexivity].
  - intros l1 k1 v1 l2 k2 v2 l3 nm E _ _. destruct l1 as [|? [|]]; cbn [app] in E; try discriminate E; destruct l2; discriminate E.
  - intros v (k & [I|[]] & S). injection I as <- _. apply fold_name in S. vm_compute in S. discriminate S.
Qed.
Print Assumptions C90_refuted.
(** So the first call gets the message of the wrapper. *)
Theorem C90_wrapper : forall f rs, Forall (fun r => valid_rune r = true /\ (32 <= r)%N) rs ->
  response_header f (wrapper_error (flat_map utf8 rs)) = Some (0%N, Err (error_text (map shown_char rs ++ name (b ": file not found or not executable")))).
Proof. exact (fun f rs H => single_response f _ _ (wrapper_json rs H)). Qed.
Print Assumptions C90_wrapper.
Example C90_example_wrapper : response_header ex_reals (wrapper_error (b "/opt/burl")) = Some (0%N, Err (b "/opt/burl: file not found or not executable")).
Proof. vm_compute. reflexivity. Qed.

(** C91.  A response of the server is a response to the call: its number is that of the request, an error is an error, a result is a result. *)
Theorem C91_reply : forall f c tr k p n t, nth_error (received tr) k = Some p -> id_shown (pid p) (VNum (integer (Z.of_N n))) -> (n <= 18446744073709551615)%N -> responds c tr k t ->
  exists r, response_header f t = Some (n, r) /\ obtained c tr k r.
Proof. exact server_reply. Qed.
Print Assumptions C91_reply.
(** So each query of the command line is understood by the server and the reply is that to the query. *)
Theorem C91_round : forall parse_int queries q float_ok message, client_query parse_int queries q -> exists method query, subcommand parse_int queries = CCall method query /\
  forall n, (n <= 18446744073709551615)%N -> exists p, request_packet (client_request method query (Z.of_N n)) = Some p /\ meaning (go_decoders float_ok message) p (Ok q) /\
  forall f c tr k t, nth_error (received tr) k = Some p -> responds c tr k t -> exists r, response_header f t = Some (n, r) /\ obtained c tr k r.
Proof. exact client_server. Qed.
Print Assumptions C91_round.
(** The value of the reply *)
Theorem C91_value : forall f oops v x, jtext v x -> (forall t, occurs t v -> f t = true) -> any_body f oops x = Ok v.
Proof. exact body_value. Qed.
Print Assumptions C91_value.
Definition ex_packet : packet := mkPacket (Some (b "5")) (b "nothing") None.
Example C91_example : id_shown (pid ex_packet) (VNum (integer (Z.of_N 5))) /\ response_shown (pid ex_packet) VNull (text (b "rpc: can't find service unknown.nothing")) (b "{""id"":5,""result"":null,""error"":""rpc: can't find service unknown.nothing""}") /\
  response_header ex_reals (b "{""id"":5,""result"":null,""error"":""rpc: can't find service unknown.nothing""}") = Some (5%N, Err (b "rpc: can't find service unknown.nothing")).
Proof.
  assert (N : jtext (VNum (b "5")) (b "5")) by exact (encode_ok (JInt 5)).
  split; [exact N|]. split; [|vm_compute; reflexivity]. intros i I. apply text_document in I. apply ParseProofs.document_parsed in I. vm_compute in I. injection I as <-. apply text_document.
  exact (encode_ok (JObj [(b "id", JInt 5); (b "result", JNull); (b "error", JStr (b "rpc: can't find service unknown.nothing"))])).
Qed.

(** C92.  The command is started only with both its streams connected; it is always waited for. *)
Theorem C92_start : forall args stdin stdout start name rest, In (AStart name rest) (snd (NewClientCommand args stdin stdout start)) <-> args = name :: rest /\ stdin = None /\ stdout = None.
Proof. exact command_started. Qed.
Print Assumptions C92_start.
Theorem C92_ok : forall args stdin stdout start, (exists name rest, In (AStart name rest) (snd (NewClientCommand args stdin stdout start)) /\ start = None) <-> fst (NewClientCommand args stdin stdout start) = Ok tt.
Proof. exact command_ok. Qed.
Print Assumptions C92_ok.
Theorem C92_usage : forall args stdin stdout start, fst (NewClientCommand args stdin stdout start) = Err ErrNoCommand <-> args = [].
Proof. exact command_usage. Qed.
Print Assumptions C92_usage.
Theorem C92_close : forall close wait, snd (ClientCommand_Close close wait) = [AClose; AWait] /\ (fst (ClientCommand_Close close wait) = None <-> close = None /\ wait = None) /\
  (forall e, close = Some e -> fst (ClientCommand_Close close wait) = Some e).
Proof. exact command_close. Qed.
Print Assumptions C92_close.
Example C92_example : NewClientCommand [b "burl"; b "-x"] None None None = (Ok tt, [AStdin; AStdout; AStart (b "burl") [b "-x"]]) /\ NewClientCommand [b "burl"] None (Some (b "pipe")) None = (Err (ErrExec (b "pipe")), [AStdin; AStdout]) /\
  fst (ClientCommand_Close (Some (b "shut down")) (Some (b "exit status 1"))) = Some (b "shut down").
Proof. repeat split. Qed.
