(** Model of cmd/burl_tool/burl_tool.go, of the command line and requests of tools/burl_client/burl_client.go and of the wrapper script
    that is created by cmd/burl_backend/install.go:127-137 in the case of a missing executable. *)
From Verif Require Import GoBase GoSlice Utf8 Url Flags LinkTypes LinkTree LinkMain Emacs Backend Extract Json.

(** ** flag.FlagSet.Parse for options with values; [set]: None is an error.  "-h" and "-help" are requests of help. *)
Definition gflag (C : Type) := (str * (C -> str -> option C))%type.
Inductive parsed (C : Type) := PArgs (c : C) (rest : list str) | PHelp | PBad.
Arguments PArgs {C}. Arguments PHelp {C}. Arguments PBad {C}.
Fixpoint find_flag {C} (name : str) (l : list (gflag C)) : option (C -> str -> option C) :=
  match l with
  | [] => None
  | (n, set) :: l' => if str_eqb n name then Some set else find_flag name l'
  end.
Fixpoint ParseFlags {C} (flags : list (gflag C)) (args : list str) (c : C) : parsed C :=
  match args with
  | [] => PArgs c []
  | s :: rest =>
      match s with
      | "-"%char :: ((a :: s') as s1) =>
          let flag (name : str) :=
            match name with
            | [] => PBad
            | "-"%char :: _ | "="%char :: _ => PBad
            | _ =>
                let '(name, value) := split_value name in
                match find_flag name flags with
                | None => if str_eqb name (b "help") || str_eqb name (b "h") then PHelp else PBad
                | Some set =>
                    match value, rest with
                    | Some v, _ => match set c v with Some c' => ParseFlags flags rest c' | None => PBad end
                    | None, v :: rest' => match set c v with Some c' => ParseFlags flags rest' c' | None => PBad end
                    | None, [] => PBad
                    end
                end
            end in
          if Ascii.eqb a "-" then
            match s' with
            | [] => PArgs c rest
            | _ => flag s'
            end
          else flag s1
      | _ => PArgs c (s :: rest)
      end
  end.

(** ** burl_tool.go *)
Record tool_options := mkTool { linkSources : list source; set : list str }.
(** 53-56, flag.go:57-64 *)
Definition tool_flags : list (gflag tool_options) :=
  [(b "txt", fun o v => Some (mkTool (linkSources o ++ [(Txt, v)]) (set o)));
   (b "org", fun o v => Some (mkTool (linkSources o ++ [(Org, v)]) (set o)));
   (b "set", fun o v => Some (mkTool (linkSources o) (set o ++ [v])))].

(** Extraction with a filter *)
Definition real_filtered (u : rune -> bool) (c : schemeRe) (chunk : nat -> N) (filter : link -> bool) : extractors := mkX
  (fun k content broken =>
     match k with
     | Org => OrgExtract u c chunk (Some filter) content broken
     | Txt => TxtExtract u chunk (Some filter) content broken
     end)
  (fun k content broken filters set => ExtractSet k chunk content broken filters set).

(** What is printed: lines (in some order), a tree in JSON; errors *)
Inductive tool_result :=
| OUsage
| OSet (keys : list str) (err : option berr)
| OTree (t : option cnode) (err : option berr).

(** burl_tool.go:59-119 after parsing of options; [entries]: order of a map in UrlVariants, [order]: order of keys of a map *)
Definition tool_main (u : rune -> bool) (c : schemeRe) (chunk : nat -> N) (entries : list (str * str)) (order : list str -> list str) (o : tool_options) (args : list str)
  : hprog tool_result :=
  match args with
  | [] => HRet OUsage                                                              (* 59 *)
  | url :: files =>
      let variants : list str := [] in                                             (* 64 *)
      let _ := UrlVariants entries url in                                          (* 66: the result is not used *)
      let rest := match set o with [] => files | _ => args end in                  (* 65-68 *)
      let queryIsEmpty := match variants with [] => true | _ => false end in       (* 69 *)
      let sources := match rest, linkSources o with [], [] => [(Txt, b "-")] | _, l => l end in   (* 71-73 *)
      let sources := AddSourceArgs sources rest in                                 (* 74 *)
      let filterExact (l : link) := queryIsEmpty || existsb (fun v => str_eqb v (URL l)) variants in   (* 87-97 *)
      match set o with
      | _ :: _ =>                                                                  (* 76-85 *)
          hbind (ExtractLinkSetFromFileGroup (real_filtered u c chunk filterExact) sources (set o) []) (fun '(keys, err) =>
            match err with
            | Some e => HRet (OSet [] (Some e))
            | None => HRet (OSet (order keys) None)
            end)
      | [] =>                                                                      (* 103-118 *)
          hbind (ExtractLinksFromFileGroup (real_filtered u c chunk filterExact) sources) (fun '(group, err) =>
            match group with
            | None => HRet (OTree None err)
            | Some t =>
                match limited filterExact t 8 with
                | Some (Done r) => HRet (OTree (Some r) err)
                | _ => HPanic
                end
            end)
      end
  end.
(** 51-119 *)
Definition burl_tool u c chunk entries order (args : list str) : parsed (hprog tool_result) :=
  match ParseFlags tool_flags args (mkTool [] []) with
  | PArgs o rest => PArgs (tool_main u c chunk entries order o rest) []
  | PHelp => PHelp
  | PBad => PBad
  end.

(** ** burl_client.go *)

(** 113-130: what is started and the query; a slice [1:0] is a panic *)
Inductive client := LUsage | LHelp | LPanic | LStart (command : str) (args queries : list str).
Fixpoint index (x : str) (l : list str) : nat :=
  match l with
  | [] => 0
  | y :: l' => if str_eqb y x then 0 else S (index x l')
  end.
Definition client_split (args : list str) : client :=
  let separator := index (b "--") args in                       (* 115-121 *)
  match args with
  | [] => LUsage                                                (* 122 *)
  | backendCmd :: more =>
      if (separator <? 1)%nat then LPanic                       (* 126 *)
      else
        let backendArgs := firstn (separator - 1) more in
        if (length args - 1 <=? separator)%nat then LUsage      (* 127 *)
        else LStart backendCmd backendArgs (skipn (separator + 1) args)   (* 130 *)
  end.
Definition client_main (args : list str) : client :=
  match ParseFlags (C := unit) [] args tt with
  | PArgs _ rest => client_split rest
  | PHelp => LHelp
  | PBad => LUsage
  end.

(** 45-108, 148-163: method and JSON of the query.  [parse_int]: strconv.ParseInt(s, 0, 64) of package flag.
    [CHello]: the text is decoded and encoded again, [None]: the built-in text (90-101). *)
Inductive command := CCall (method : str) (query : json) | CHello (text : option str) | CBad.
Definition visit_flags (parse_int : str -> option Z) : list (gflag (str * Z)) :=
  [(b "line", fun o v => match parse_int v with Some n => Some (fst o, n) | None => None end); (b "file", fun o v => Some (v, snd o))].
Definition subcommand (parse_int : str -> option Z) (queries : list str) : command :=
  match queries with
  | [] => CBad
  | name :: args =>
      if str_eqb name (b "visit") then                                                         (* 51-60 *)
        match ParseFlags (visit_flags parse_int) args ([], 0%Z) with
        | PArgs (path, line) _ => CCall (b "linkremark.visit") (JObj [(b "file", JStr path); (b "lineNo", JInt line)])
        | _ => CBad
        end
      else if str_eqb name (b "mentions") then                                                 (* 45-49 *)
        CCall (b "linkremark.urlMentions") (JObj [(b "variants", JArr (map JStr args))])
      else if str_eqb name (b "capture") then                                                  (* 62-72 *)
        match args with
        | [uri] => CCall (b "linkremark.capture")
            (JObj [(b "format", JStr (b "org-protocol")); (b "version", JStr (b "0.2"));
                   (b "data", JObj [(b "url", JStr uri); (b "title", JStr []); (b "body", JNull)]); (b "error", JNull)])
        | _ => CBad
        end
      else if str_eqb name (b "hello") then                                                    (* 81-108 *)
        match args with
        | [] => CHello None
        | [t] => CHello (Some t)
        | _ => CBad
        end
      else if str_eqb name (b "set") then CCall (b "linkremark.linkSet") (JObj [(b "prefix", JArr (map JStr args))])   (* 74-79 *)
      else CBad
  end.
(** clientRequest of net/rpc/jsonrpc, json.Encoder adds a newline; the first request has number 0. *)
Definition client_request (method : str) (query : json) (id : Z) : str :=
  encode (JObj [(b "method", JStr method); (b "params", JArr [query]); (b "id", JInt id)]) ++ eol.

(** ** The wrapper script, install.go:127-137 *)

(** 133: command tr, a backslash becomes a slash, a quote becomes an apostrophe *)
Definition tr (s : str) : str := map (fun c => if Ascii.eqb c (ascii_of_N 92) then "/"%char else if Ascii.eqb c (ascii_of_N 34) then "'"%char else c) s.
(** Newlines at the end of output are removed by command substitution. *)
Fixpoint chomp (s : str) : str :=
  match s with
  | [] => []
  | c :: s' => match chomp s' with [] => if Ascii.eqb c (ascii_of_N 10) then [] else [c] | t => c :: t end
  end.
(** 133: value of err *)
Definition wrapper_error (exe : str) : str :=
  b "{""error"": """ ++ chomp (tr exe) ++ b ": file not found or not executable""}".
(** printf '%x' *)
Definition hexdigit (n : N) : ascii := if (n <? 10)%N then ascii_of_N (48 + n) else ascii_of_N (87 + n).
Fixpoint hex_loop (fuel : nat) (n : N) (acc : list N) : list N :=
  match fuel with
  | O => acc
  | S fuel => if (n <? 16)%N then n :: acc else hex_loop fuel (n / 16)%N ((n mod 16)%N :: acc)
  end.
Definition hex_of (n : N) : list N := hex_loop (S (N.to_nat (N.log2 n))) n [].
(** 135: /usr/bin/printf; at most 2 hexadecimal digits after the escape x belong to it *)
Definition wrapper_header (n : N) : str :=
  match hex_of n with
  | d1 :: d2 :: more => ascii_of_N (16 * d1 + d2) :: map hexdigit more
  | l => map ascii_of_N l
  end ++ repeat (ascii_of_N 0) 3.
(** 135-136; [size] is ${#err}: number of bytes or of characters, it depends on the shell *)
Definition wrapper_output (size : str -> N) (exe : str) : str := let err := wrapper_error exe in wrapper_header (size err) ++ err.
