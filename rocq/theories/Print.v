(** Model of tools/burl_client/burl_client.go:81-108, 112-189: queries of the subcommand hello, printing of replies and the sequence of actions; of values of the
    type interface{} and of json.Unmarshal, json.Encoder with SetIndent (encoding/json: scanner.go, decode.go, encode.go, indent.go, stream.go of Go standard library). *)
From Verif Require Import GoBase Utf8 Utf8Dec JsonStr JsonSpec Emacs Json Compact ReplyJson Stream Unmarshal Flags Tools Client.

(** ** scanner.go: checkValid and scanner.eof.  The field endTop is true if the state is [stateEndTop]. *)
Definition is_top (f : sfun) : bool := match f with stateEndTop => true | _ => false end.
Definition scan_eof (s : scanner) : bool :=
  match step s with
  | stateError => false
  | stateEndTop => true
  | _ => is_top (step (snd (sstep s 32)))
  end.
Fixpoint check_bytes (s : scanner) (l : str) : bool :=
  match l with
  | [] => scan_eof s
  | c :: l' => match sstep s (N_of_ascii c) with (scanError, _) => false | (_, s') => check_bytes s' l' end
  end.
Definition checkValid (t : str) : bool := check_bytes reset t.

(** ** Values of the type interface{}: nil, bool, float64, string, []interface{}, map[string]interface{}
    [AFloat t]: [t] is the text of the number in JSON; [show]: strconv.ParseFloat, then encoding of the result (floatEncoder).
    A map is a list with sorted keys. *)
Inductive any :=
| ANull
| ABool (v : bool)
| AFloat (t : str)
| AString (s : str)
| ASlice (l : list any)
| AMap (l : list (str * any)).
(** decode.go: valueInterface, arrayInterface, objectInterface; the last of members with the same name replaces previous ones. *)
Definition map_of {A} (l : list (str * A)) : list (str * A) := fold_left (fun m x => set_key (fst x) (snd x) m) l [].
Fixpoint as_any (show : str -> str) (v : value) : any :=
  match v with
  | VNull => ANull
  | VBool v => ABool v
  | VNum t => AFloat (show t)
  | VStr rs => AString (string_of rs)
  | VArr l => ASlice (map (as_any show) l)
  | VObj l => AMap (map_of (map (fun m => (string_of (fst m), as_any show (snd m))) l))
  end.
(** json.Unmarshal to a variable of the type interface{}, [None]: an error; [float_ok]: the number is in the range of float64 *)
Definition unmarshal_any (float_ok : str -> bool) (show : str -> str) (t : str) : option any :=
  if checkValid t then match parse t with Some v => if floats float_ok v then Some (as_any show v) else None | None => None end else None.
(** encode.go *)
Fixpoint encode_any (a : any) : str :=
  match a with
  | ANull => b "null"
  | ABool v => if v then b "true" else b "false"
  | AFloat t => t
  | AString s => json_string s
  | ASlice l => b "[" ++ commas (map encode_any l) ++ b "]"
  | AMap l => b "{" ++ commas (map (fun m => json_string (fst m) ++ b ":" ++ encode_any (snd m)) l) ++ b "}"
  end.

(** ** indent.go: Indent with an empty prefix and two spaces.  As in Compact.v, only texts that are written by the encoder are considered,
    so the scanner is reduced to a flag whether a byte is inside of a string. *)
Definition fresh_line (depth : nat) : str := eol ++ concat (repeat (b "  ") depth).
Definition one_of (c : ascii) (s : str) : bool := existsb (Ascii.eqb c) s.
Fixpoint indent_loop (st : Compact.cstate) (need : bool) (depth : nat) (s : str) : str :=
  match s with
  | [] => []
  | c :: s' =>
      let n := N_of_ascii c in
      match st with
      | Outside =>
          if is_space n then indent_loop Outside need depth s'
          else if one_of c (b "}]") then
            if need then c :: indent_loop Outside false depth s'
            else fresh_line (depth - 1) ++ c :: indent_loop Outside false (depth - 1) s'
          else
            let depth' := if need then S depth else depth in
            (if need then fresh_line depth' else []) ++
            (if one_of c (b "{[") then c :: indent_loop Outside true depth' s'
             else if one_of c (b ",") then c :: fresh_line depth' ++ indent_loop Outside false depth' s'
             else if one_of c (b ":") then c :: b " " ++ indent_loop Outside false depth' s'
             else c :: indent_loop (next_state Outside n) false depth' s')
      | _ => c :: indent_loop (next_state st n) need depth s'
      end
  end.
(** json.Encoder.Encode after SetIndent("", "  "): 165-167 *)
Definition print (a : any) : str := indent_loop Outside false 0 (encode_any a) ++ eol.

(** ** burl_client.go *)

(** 90-101: the built-in query, numbers of tabs and lines *)
Definition hello_lines : list (nat * str) :=
  [(0, b "{");
   (1, b """version"": ""0.2"",");
   (1, b """formats"": [");
   (2, b "{ ""format"": ""org"", ""version"": ""0.2"" },");
   (2, b "{ ""format"": ""object"", ""version"": ""0.2"" },");
   (2, b "{");
   (3, b """format"": ""org-protocol"",");
   (3, b """version"": ""0.2"",");
   (3, b """options"": { ""format"": ""org"", ""version"": ""0.2"", ""clipboardForBody"": false }");
   (2, b "}");
   (1, b "]");
   (0, b "}")].
Definition tab : str := [ascii_of_nat 9].
Fixpoint lines_text (l : list (nat * str)) : str :=
  match l with
  | [] => []
  | [(n, x)] => concat (repeat tab n) ++ x
  | (n, x) :: l' => concat (repeat tab n) ++ x ++ eol ++ lines_text l'
  end.
Definition default_hello : str := lines_text hello_lines.
(** 85-107 *)
Definition callHello (float_ok : str -> bool) (show : str -> str) (text : option str) : option any :=
  unmarshal_any float_ok show (match text with Some t => t | None => default_hello end).
(** The request, see [client_request] (Tools.v) *)
Definition hello_request (query : any) (id : Z) : str :=
  encode_any (AMap [(b "method", AString (b "linkremark.hello")); (b "params", ASlice [query]); (b "id", AFloat (integer id))]) ++ eol.

(** 112-189.  Outcomes of calls of other packages are arguments: failures of pipes, of Start, of Close and of Wait, completion of the call.
    Errors of writing to stdout are ignored by the code (167). *)
Inductive act := GStart (name : str) (args : list str) | GRequest (t : str) | GPrint (t : str) | GClose | GWait.
(** [Exit1]: [usage] is also printed (184-186), [Exit2]: by package flag, [Crash]: panic *)
Inductive finish := Exit0 | Exit1 (usage : bool) | Exit2 | Crash.
Record world := mkWorld { w_stdin : option str; w_stdout : option str; w_start : option str; w_call : str -> completion; w_close : option str; w_wait : option str }.
Definition query_text (parse_int : str -> option Z) (float_ok : str -> bool) (show : str -> str) (queries : list str) : option str :=
  match subcommand parse_int queries with
  | CCall method query => Some (client_request method query 0)
  | CHello text => match callHello float_ok show text with Some q => Some (hello_request q 0) | None => None end
  | CBad => None
  end.
Definition client_session (parse_int : str -> option Z) (float_ok : str -> bool) (show : str -> str) (w : world) (name : str) (args queries : list str) : list act * finish :=
  match w_stdin w, w_stdout w, w_start w with                                                (* 133-143 *)
  | None, None, None =>
      let '(acts, e) :=
        match query_text parse_int float_ok show queries with
        | None => ([], Exit1 false)                                                          (* 156-163 *)
        | Some t =>
            let '(acts, e) :=
              match w_call w t with
              | OResult v =>
                  let '(acts, e) :=
                    match w_close w with
                    | Some _ => ([GClose], Exit1 false)                                      (* 171-173 *)
                    | None => ([GClose; GWait], match w_wait w with Some _ => Exit1 false | None => Exit0 end)   (* 174-177 *)
                    end in
                  (GPrint (print (as_any show v)) :: acts, e)                                (* 164-167 *)
              | _ => ([], Exit1 false)                                                       (* 169 *)
              end in
            (GRequest t :: acts, e)
        end in
      (GStart name args :: acts, e)
  | _, _, _ => ([], Exit1 false)
  end.
Definition client_tool (parse_int : str -> option Z) (float_ok : str -> bool) (show : str -> str) (w : world) (args : list str) : list act * finish :=
  match ParseFlags (C := unit) [] args tt with
  | PHelp => ([], Exit0)                    (* flag.CommandLine: ExitOnError *)
  | PBad => ([], Exit2)
  | PArgs _ rest =>
      match client_split rest with
      | LStart name args queries => client_session parse_int float_ok show w name args queries
      | LPanic => ([], Crash)
      | LUsage | LHelp => ([], Exit1 true)
      end
  end.
