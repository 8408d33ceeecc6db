(** Model of what cmd/burl_tool/burl_tool.go prints to stdout and of its exit code (76-85, 103-135).
    Messages in stderr are not considered.  Errors of writing are ignored by the code. *)
From Verif Require Import GoBase Utf8 Flags LinkTypes Emacs Backend Extract Json Compact ReplyJson Tools Print.

(** main: 125-135 *)
Definition tool_exit (err : option berr) : finish := match err with Some _ => Exit1 false | None => Exit0 end.
(** fmt.Println: 81-83; json.Encoder with SetIndent: 107-112.  The encoder calls MarshalJSON before anything is written. *)
Definition tool_print (r : tool_result) : str * finish :=
  match r with
  | OUsage => ([], Exit1 true)                                                                (* 59-61, 128-130 *)
  | OSet keys err => (concat (map (fun key => key ++ eol) keys), tool_exit err)
  | OTree None err => ([], tool_exit err)
  | OTree (Some t) err =>
      match MarshalJSON t with
      | Done j => (indent_loop Outside false 0 (encode j) ++ eol, tool_exit err)
      | Panic => ([], Crash)
      end
  end.
(** 51-135; flag.CommandLine: ExitOnError *)
Definition tool_program u c chunk entries order (args : list str) : hprog (str * finish) :=
  match burl_tool u c chunk entries order args with
  | PHelp => HRet ([], Exit0)
  | PBad => HRet ([], Exit2)
  | PArgs p _ => hbind p (fun r => HRet (tool_print r))
  end.
