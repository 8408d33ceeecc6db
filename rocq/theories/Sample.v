(** Model of the sample backend: examples/webextensions_backend/webextensions_example_backend.go. *)
From Verif Require Import GoBase JsonStr Json Compact Emacs.
Local Open Scope Z_scope.

(** ExampleBackend.Sleep, lines 42-48: the result and the duration of the sleep in nanoseconds, if any.
    The product in line 45 is of type time.Duration (int64); time.Sleep returns immediately when it is not positive. *)
Definition Sleep (t : Z) : Z * option Z := (t, if 0 <? t then let d := wrap64 (t * 1000000) in if 0 <? d then Some d else None else None).
(** ExampleBackend.Sqrt, lines 30-40.  Numbers with floating point are not modelled: the argument is a text of a JSON number that is
    negative ([negative]) or not; [root]: text of the square root, result of math.Sqrt and of json.Marshal. *)
Definition Sqrt (negative : str -> bool) (root : str -> str) (x : str) : result str str :=
  if negative x then Err (b "square root of negative number") else Ok (root x).
(** Texts of responses, see [Server.response] (jsonrpc.serverCodec.WriteResponse), line 52 *)
Definition sample_response (id : str) (r : result str str) : str :=
  let body (result error : str) := b "{""id"":" ++ compact id ++ b ",""result"":" ++ result ++ b ",""error"":" ++ error ++ b "}" ++ eol in
  match r with
  | Ok v => body v (b "null")
  | Err e => body (b "null") (json_string e)
  end.
Definition sleep_response (id : str) (t : Z) : str := sample_response id (Ok (integer (fst (Sleep t)))).
Definition sqrt_response (negative : str -> bool) (root : str -> str) (id x : str) : str := sample_response id (Sqrt negative root x).
