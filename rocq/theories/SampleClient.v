(** Model of the sample client: examples/webextensions_client/webextensions_example_client.go. *)
From Verif Require Import GoBase Utf8 JsonSpec Json Emacs Stream Backend Server Unmarshal Tools Client Print.

(** Texts of errors of calls.  jsonrpc and net/rpc: rpc.ErrShutdown, io.ErrUnexpectedEOF *)
Definition ending_text (e : ending) : str :=
  match e with
  | EndShutdown => b "connection is shut down"
  | EndEof => b "unexpected EOF"
  | EndOther t => t
  end.
(** clientCodec.ReadResponseBody for a variable of type float64 (line 39), [oops]: text of an error.
    Numbers with floating point are not modelled: the text of a JSON number is kept. *)
Definition float_body (float_ok : str -> bool) (oops t : str) : result str value :=
  match parse t with
  | Some (VNum x) => if float_ok x then Ok (VNum x) else Err oops
  | Some VNull => Ok (VNum (b "0"))                 (* the variable is left as it is *)
  | _ => Err oops
  end.
(** Line 40: the request, see [client_request] (Tools.v).  [query]: the number is an integer, so is its text *)
Definition sqrt_request (query : Z) (id : Z) : str := client_request (b "example.Sqrt") (JInt query) id.
(** 41-45, fmt.Println.  [show]: text of a number by strconv.FormatFloat(x, 'g', -1, 64) with the shortest exponents of fmt;
    values of other types are not possible, see [float_body]. *)
Definition sqrt_line (show : str -> str) (query : Z) (c : completion) : str :=
  let text (kind value : str) := b "sqrt: query " ++ integer query ++ b " " ++ kind ++ b " " ++ value ++ eol in
  match c with
  | OResult v => text (b "result") (match v with VNum x => show x | _ => [] end)
  | OServer e => text (b "error") e
  | OBody e => text (b "error") e
  | OWrite e => text (b "error") e
  | OEnd e => text (b "error") (ending_text e)
  end.
(** 38-46 *)
Definition sqrt_call (show : str -> str) (w : world) (query id : Z) : list act :=
  let t := sqrt_request query id in [GRequest t; GPrint (sqrt_line show query (w_call w t))].
(** 27-52: mainWithGracefulShutdown after flag.Parse.  The variable err is the result, so the deferred function (34-36) sets it. *)
Definition sample_session (show : str -> str) (w : world) (args : list str) : result exec_error unit * list act :=
  match args, NewClientCommand args (w_stdin w) (w_stdout w) (w_start w) with
  | name :: rest, (Ok _, _) =>
      let '(err, _) := ClientCommand_Close (w_close w) (w_wait w) in
      (match err with Some e => Err (ErrExec e) | None => Ok tt end,
       GStart name rest :: sqrt_call show w 2 0 ++ sqrt_call show w (-2) 1 ++ [GClose; GWait])
  | _, (Err e, _) => (Err e, [])
  | [], (Ok _, _) => (Ok tt, [])                     (* not possible *)
  end.
(** 54-66: main.  [NExit1]: the text is printed to stderr; [NExit2] and [NExit0] of a request of help: package flag *)
Inductive sample_end := NExit0 | NExit1 (message : str) | NExit2.
Definition sample_client (show : str -> str) (w : world) (name : str) (args : list str) : list act * sample_end :=
  match ParseFlags (C := unit) [] args tt with
  | PHelp => ([], NExit0)
  | PBad => ([], NExit2)
  | PArgs _ rest =>
      let '(r, acts) := sample_session show w rest in
      (acts, match r with
             | Ok _ => NExit0
             | Err ErrNoCommand => NExit1 (b "Usage: " ++ name ++ b " BACKEND_COMMAND ARG..." ++ eol)
             | Err (ErrExec e) => NExit1 (name ++ b ": backend error: " ++ e ++ eol)
             end)
  end.
