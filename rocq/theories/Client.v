(** Model of pkg/webextensions/client.go together with net/rpc/client.go and net/rpc/jsonrpc/client.go of Go standard library. *)
From Verif Require Import GoBase Utf8 JsonSpec Frame Stream Backend Server Unmarshal.

(** ** Responses: clientResponse of net/rpc/jsonrpc, {Id uint64; Result *json.RawMessage; Error interface{}} *)
Record rep := mkRep { rid : N; rresult : option str; rerror : value }.
(** strconv.ParseUint(s, 10, 64) for a text of a JSON number *)
Definition parse_uint64 (s : str) : option N :=
  match s with
  | [] => None
  | _ => match digits_value s 0 with Some n => if (n <=? 18446744073709551615)%Z then Some (Z.to_N n) else None | None => None end
  end.
Definition d_uint : dec N :=
  fun v a => match v with
             | VNum t => match parse_uint64 t with Some n => (n, true) | None => (a, false) end
             | VNull => (a, true)
             | _ => (a, false)
             end.
(** [float_ok]: numbers are in the range of float64 *)
Definition rep_member (float_ok : str -> bool) (r : rep) (m : member) : rep * bool :=
  let '(k, v, t) := m in
  if same_fold k (b "id") then let '(n, ok) := d_uint v (rid r) in (mkRep n (rresult r) (rerror r), ok)
  else if same_fold k (b "result") then (mkRep (rid r) (raw v t) (rerror r), true)
  else if same_fold k (b "error") then (mkRep (rid r) (rresult r) v, floats float_ok v)
  else (r, true).
Definition response_rep (float_ok : str -> bool) (t : str) : option rep := read_object (rep_member float_ok) (mkRep 0 None VNull) t.
(** clientCodec.ReadResponseHeader after decoding: number of the call and either a text of the error or a text of the result,
    [None]: "invalid error" *)
Definition rep_header (r : rep) : option (N * result str str) :=
  match rerror r, rresult r with
  | VNull, Some t => Some (rid r, Ok t)
  | VStr rs, _ => Some (rid r, Err (match string_of rs with [] => b "unspecified error" | e => e end))
  | _, _ => None
  end.
Definition response_header (float_ok : str -> bool) (t : str) : option (N * result str str) :=
  match response_rep float_ok t with Some r => rep_header r | None => None end.
(** client.go:41-46.  Any failure ends reading, see below. *)
Definition is_response (float_ok : str -> bool) (t : str) : bool := match response_header float_ok t with Some _ => true | None => false end.
Definition responses (float_ok : str -> bool) (fuel : nat) (s : src) : option (list (N * result str str) * rerr) :=
  match session fuel (is_response float_ok) NewDecoder (NewFrameLimitedReader s) with
  | Some (ts, e) => Some (flat_map (fun t => match response_header float_ok t with Some h => [h] | None => [] end) ts, e)
  | None => None
  end.
(** clientCodec.ReadResponseBody for a variable of type interface{} (burl_client.go:145), [oops]: text of an error *)
Definition any_body (float_ok : str -> bool) (oops t : str) : result str value :=
  match parse t with Some v => if floats float_ok v then Ok v else Err oops | None => Err oops end.

(** ** Client of net/rpc (net/rpc/client.go: Go, send, input, Close) over the codec of pkg/webextensions/client.go:34-48.
    The whole of WriteRequest (34-39: encoding to the buffer, then WriteFrame) is between [XSend] and [XSent]; the whole of ReadResponseHeader (41-46) is [XHeader] or [XStop].
    Errors of reading and writing are opaque texts except io.EOF.  The channel of a call is long enough for its completion (Call uses a channel with a buffer). *)
Inductive failure := FEof | FOther (e : str).
Inductive ending := EndShutdown | EndEof | EndOther (e : str).
(** How a call is completed *)
Inductive completion :=
| OResult (v : value)      (* the reply is decoded *)
| OServer (e : str)        (* ServerError *)
| OBody (e : str)          (* the result does not fit the variable *)
| OWrite (e : str)         (* the request is not sent *)
| OEnd (e : ending).       (* reading has ended *)
(** Client.send: a call waits for reqMutex, writes its request, removes it after a failure *)
Inductive caller := KIdle | KWrite (q : N) | KFailed (q : N) (e : str) | KOver.
(** Client.input *)
Inductive reader :=
| RRead
| RGot (q : N) (r : result str str)
| RBody (i : option nat) (r : result str str)
| REnd (e : failure)
| RFail (e : ending) (todo : list (N * nat))     (* reqMutex and mutex are locked *)
| ROver.
(** Wrap of the sequence number (uint64) is not modelled. *)
Record cstate := mkClient {
  nseq : N; pending : list (N * nat); shutdown : bool; closing : bool;
  busy : bool;                 (* reqMutex *)
  calls : list caller; rd : reader }.
Definition new_client : cstate := mkClient 0 [] false false false [] RRead.

Inductive clabel :=
| XGo                                             (* Client.Go, a new call *)
| XSend (i : nat) (q : N)                         (* the call gets its number, writing is started *)
| XSent (i : nat) (e : option str)                (* result of WriteRequest *)
| XHeader (q : N) (r : result str str)            (* a header is read *)
| XStop (e : failure)                             (* reading fails *)
| XDone (i : nat) (c : completion)                (* Call.done *)
| XClose (first : bool)                           (* Close, ErrShutdown unless it is the first one *)
| XTau.

Definition found (q : N) (m : list (N * nat)) : option nat := match find (fun x => N.eqb (fst x) q) m with Some x => Some (snd x) | None => None end.
Definition without (q : N) (m : list (N * nat)) : list (N * nat) := filter (fun x => negb (N.eqb (fst x) q)) m.
Definition put (i : nat) (k : caller) (l : list caller) : list caller := firstn i l ++ k :: skipn (S i) l.
Definition failing (r : reader) : bool := match r with RFail _ _ => true | _ => false end.
Definition ended (closing : bool) (e : failure) : ending := match e with FEof => if closing then EndShutdown else EndEof | FOther t => EndOther t end.

(** [body]: decoding of the result for the call *)
Definition reading : str := b "reading body ".
Inductive cstep (body : nat -> str -> result str value) : cstate -> clabel -> cstate -> Prop :=
| x_go n p sh cl bz cs r : cstep body (mkClient n p sh cl bz cs r) XGo (mkClient n p sh cl bz (cs ++ [KIdle]) r)
| x_refuse n p sh cl cs r i : nth_error cs i = Some KIdle -> sh || cl = true ->
    cstep body (mkClient n p sh cl false cs r) (XDone i (OEnd EndShutdown)) (mkClient n p sh cl false (put i KOver cs) r)
| x_send n p cs r i : nth_error cs i = Some KIdle ->
    cstep body (mkClient n p false false false cs r) (XSend i n) (mkClient (n + 1) (p ++ [(n, i)]) false false true (put i (KWrite n) cs) r)
| x_sent n p sh cl bz cs r i q : nth_error cs i = Some (KWrite q) ->
    cstep body (mkClient n p sh cl bz cs r) (XSent i None) (mkClient n p sh cl false (put i KOver cs) r)
| x_failed n p sh cl bz cs r i q e : nth_error cs i = Some (KWrite q) ->
    cstep body (mkClient n p sh cl bz cs r) (XSent i (Some e)) (mkClient n p sh cl bz (put i (KFailed q e) cs) r)
| x_failed_done n p sh cl bz cs r i q e j : nth_error cs i = Some (KFailed q e) -> failing r = false -> found q p = Some j ->
    cstep body (mkClient n p sh cl bz cs r) (XDone j (OWrite e)) (mkClient n (without q p) sh cl false (put i KOver cs) r)
| x_failed_late n p sh cl bz cs r i q e : nth_error cs i = Some (KFailed q e) -> failing r = false -> found q p = None ->
    cstep body (mkClient n p sh cl bz cs r) XTau (mkClient n p sh cl false (put i KOver cs) r)
| x_header n p sh cl bz cs q r : cstep body (mkClient n p sh cl bz cs RRead) (XHeader q r) (mkClient n p sh cl bz cs (RGot q r))
| x_stop n p sh cl bz cs e : cstep body (mkClient n p sh cl bz cs RRead) (XStop e) (mkClient n p sh cl bz cs (REnd e))
| x_match n p sh cl bz cs q r : cstep body (mkClient n p sh cl bz cs (RGot q r)) XTau (mkClient n (without q p) sh cl bz cs (RBody (found q p) r))
| x_skip n p sh cl bz cs r : cstep body (mkClient n p sh cl bz cs (RBody None r)) XTau (mkClient n p sh cl bz cs RRead)
| x_error n p sh cl bz cs i e : cstep body (mkClient n p sh cl bz cs (RBody (Some i) (Err e))) (XDone i (OServer e)) (mkClient n p sh cl bz cs RRead)
| x_result n p sh cl bz cs i t v : body i t = Ok v ->
    cstep body (mkClient n p sh cl bz cs (RBody (Some i) (Ok t))) (XDone i (OResult v)) (mkClient n p sh cl bz cs RRead)
| x_body n p sh cl bz cs i t e : body i t = Err e ->
    cstep body (mkClient n p sh cl bz cs (RBody (Some i) (Ok t))) (XDone i (OBody (reading ++ e))) (mkClient n p sh cl bz cs (REnd (FOther (reading ++ e))))
| x_end n p sh cl cs e : cstep body (mkClient n p sh cl false cs (REnd e)) XTau (mkClient n p true cl true cs (RFail (ended cl e) p))
| x_fail n p sh cl bz cs e m1 q i m2 : cstep body (mkClient n p sh cl bz cs (RFail e (m1 ++ (q, i) :: m2))) (XDone i (OEnd e)) (mkClient n p sh cl bz cs (RFail e (m1 ++ m2)))
| x_over n p sh cl bz cs e : cstep body (mkClient n p sh cl bz cs (RFail e [])) XTau (mkClient n p sh cl false cs ROver)
| x_close n p sh bz cs r : failing r = false -> cstep body (mkClient n p sh false bz cs r) (XClose true) (mkClient n p sh true bz cs r)
| x_close_again n p sh bz cs r : failing r = false -> cstep body (mkClient n p sh true bz cs r) (XClose false) (mkClient n p sh true bz cs r).
Inductive crun (body : nat -> str -> result str value) : cstate -> list clabel -> cstate -> Prop :=
| cr_nil s : crun body s [] s
| cr_step s1 l s2 tr s3 : cstep body s1 l s2 -> crun body s2 tr s3 -> crun body s1 (l :: tr) s3.

(** ** pkg/webextensions/client.go:64-71, 75-97: NewClientCommand and ClientCommand.Close.  Arguments: failures of exec.Cmd and of Client.Close *)
Inductive exec_error := ErrNoCommand | ErrExec (e : str).
Inductive exec_action := AStdin | AStdout | AStart (name : str) (args : list str) | AClose | AWait.
Definition NewClientCommand (args : list str) (stdin stdout start : option str) : result exec_error unit * list exec_action :=
  match args with
  | [] => (Err ErrNoCommand, [])                               (* 76-79 *)
  | name :: rest =>
      match stdin with
      | Some e => (Err (ErrExec e), [AStdin])                  (* 82-85 *)
      | None =>
          match stdout with
          | Some e => (Err (ErrExec e), [AStdin; AStdout])     (* 86-89 *)
          | None =>
              match start with
              | Some e => (Err (ErrExec e), [AStdin; AStdout; AStart name rest])
              | None => (Ok tt, [AStdin; AStdout; AStart name rest])
              end
          end
      end
  end.
Definition ClientCommand_Close (close wait : option str) : option str * list exec_action :=
  (match close with Some e => Some e | None => wait end, [AClose; AWait]).
