(** Model of command line options: pkg/burl_util/multistring_flag.go,
    cmd/burl_backend/args.go, pkg/burl_links/flag.go, options declared in
    cmd/burl_backend/burl_backend.go:58-70 and install.go:41-68, and of the parser
    from the Go standard library (package flag). *)
From Verif Require Import GoBase.

(** ** multistring_flag.go *)

(** 20-24 *)
Inductive mstate := Initial | Appended | Reset.

(** 26-30.  The slice is a list: its storage is not shared with another slice that is modified. *)
Record mflag := mkFlag { slice : list str; mst : mstate; defaultLen : nat }.

(** 32-34 *)
Definition NewMultiStringFlag (defaults : list str) : mflag := mkFlag defaults Initial (length defaults).

(** 40-55; None: an error, the flag is not changed *)
Definition mSet (f : mflag) (value : str) : option mflag :=
  match value with
  | [] =>
      match mst f with
      | Appended => None
      | _ => Some (mkFlag [] Reset 0)
      end
  | _ => Some (mkFlag (slice f ++ [value]) (match mst f with Initial => Appended | s => s end) (defaultLen f))
  end.

(** 57-59 *)
Definition IsModified (f : mflag) : bool := match mst f with Initial => false | _ => true end.

(** 65-78; slicing panics if its lower bound exceeds the length *)
Definition ModifiedValues (f : mflag) : outcome (list str) :=
  match mst f with
  | Initial => Done []
  | Reset => Done ([] :: slice f)
  | Appended => if defaultLen f <=? length (slice f) then Done (skipn (defaultLen f) (slice f)) else Panic
  end.

(** ** Configuration *)

(** link sources: extract_org.go:84-99, extract_txt.go:29-44; kind and name of file *)
Inductive kind := Org | Txt.
Definition source := (kind * str)%type.

(** extract_org.go, extract_txt.go: method Flag *)
Definition Flag (k : kind) : str := match k with Org => b "org" | Txt => b "txt" end.

(** BurlBackendArgs (args.go:29-36) and burl_emacs.Command; installFlagValues (install.go:31-39);
    generalFlagValues (burl_backend.go:52-56) *)
Record config := mkConfig {
  LogFile : str; DisableLinkSet : bool; LinkSources : list source;
  Scheme : mflag; EmacsArgs : mflag; Command : str;
  Name : str; WrapperPath : str; FirefoxManifest : str; ChromeManifest : str; Force : bool;
  MozillaExtensionID : mflag; ChromeExtensionID : mflag;
  Help : bool; Version : bool }.

(** Defaults: args.go:38-50, emacs.go:27,48, extract_org.go:33 (SchemeVariants), install.go:43-44.
    Defaults of lists are arguments. *)
Definition defaults (schemes users mozilla chrome : list str) : config :=
  mkConfig (b "-") false [] (NewMultiStringFlag schemes) (NewMultiStringFlag users) (b "emacsclient")
    [] [] [] [] false (NewMultiStringFlag mozilla) (NewMultiStringFlag chrome) false false.

Definition with_log (c : config) v := mkConfig v (DisableLinkSet c) (LinkSources c) (Scheme c) (EmacsArgs c) (Command c)
  (Name c) (WrapperPath c) (FirefoxManifest c) (ChromeManifest c) (Force c) (MozillaExtensionID c) (ChromeExtensionID c) (Help c) (Version c).
Definition with_disable (c : config) v := mkConfig (LogFile c) v (LinkSources c) (Scheme c) (EmacsArgs c) (Command c)
  (Name c) (WrapperPath c) (FirefoxManifest c) (ChromeManifest c) (Force c) (MozillaExtensionID c) (ChromeExtensionID c) (Help c) (Version c).
Definition with_sources (c : config) v := mkConfig (LogFile c) (DisableLinkSet c) v (Scheme c) (EmacsArgs c) (Command c)
  (Name c) (WrapperPath c) (FirefoxManifest c) (ChromeManifest c) (Force c) (MozillaExtensionID c) (ChromeExtensionID c) (Help c) (Version c).
Definition with_scheme (c : config) v := mkConfig (LogFile c) (DisableLinkSet c) (LinkSources c) v (EmacsArgs c) (Command c)
  (Name c) (WrapperPath c) (FirefoxManifest c) (ChromeManifest c) (Force c) (MozillaExtensionID c) (ChromeExtensionID c) (Help c) (Version c).
Definition with_emacsargs (c : config) v := mkConfig (LogFile c) (DisableLinkSet c) (LinkSources c) (Scheme c) v (Command c)
  (Name c) (WrapperPath c) (FirefoxManifest c) (ChromeManifest c) (Force c) (MozillaExtensionID c) (ChromeExtensionID c) (Help c) (Version c).
Definition with_command (c : config) v := mkConfig (LogFile c) (DisableLinkSet c) (LinkSources c) (Scheme c) (EmacsArgs c) v
  (Name c) (WrapperPath c) (FirefoxManifest c) (ChromeManifest c) (Force c) (MozillaExtensionID c) (ChromeExtensionID c) (Help c) (Version c).
Definition with_name (c : config) v := mkConfig (LogFile c) (DisableLinkSet c) (LinkSources c) (Scheme c) (EmacsArgs c) (Command c)
  v (WrapperPath c) (FirefoxManifest c) (ChromeManifest c) (Force c) (MozillaExtensionID c) (ChromeExtensionID c) (Help c) (Version c).
Definition with_wrapper (c : config) v := mkConfig (LogFile c) (DisableLinkSet c) (LinkSources c) (Scheme c) (EmacsArgs c) (Command c)
  (Name c) v (FirefoxManifest c) (ChromeManifest c) (Force c) (MozillaExtensionID c) (ChromeExtensionID c) (Help c) (Version c).
Definition with_firefox (c : config) v := mkConfig (LogFile c) (DisableLinkSet c) (LinkSources c) (Scheme c) (EmacsArgs c) (Command c)
  (Name c) (WrapperPath c) v (ChromeManifest c) (Force c) (MozillaExtensionID c) (ChromeExtensionID c) (Help c) (Version c).
Definition with_chrome (c : config) v := mkConfig (LogFile c) (DisableLinkSet c) (LinkSources c) (Scheme c) (EmacsArgs c) (Command c)
  (Name c) (WrapperPath c) (FirefoxManifest c) v (Force c) (MozillaExtensionID c) (ChromeExtensionID c) (Help c) (Version c).
Definition with_force (c : config) v := mkConfig (LogFile c) (DisableLinkSet c) (LinkSources c) (Scheme c) (EmacsArgs c) (Command c)
  (Name c) (WrapperPath c) (FirefoxManifest c) (ChromeManifest c) v (MozillaExtensionID c) (ChromeExtensionID c) (Help c) (Version c).
Definition with_mozilla_ids (c : config) v := mkConfig (LogFile c) (DisableLinkSet c) (LinkSources c) (Scheme c) (EmacsArgs c) (Command c)
  (Name c) (WrapperPath c) (FirefoxManifest c) (ChromeManifest c) (Force c) v (ChromeExtensionID c) (Help c) (Version c).
Definition with_chrome_ids (c : config) v := mkConfig (LogFile c) (DisableLinkSet c) (LinkSources c) (Scheme c) (EmacsArgs c) (Command c)
  (Name c) (WrapperPath c) (FirefoxManifest c) (ChromeManifest c) (Force c) (MozillaExtensionID c) v (Help c) (Version c).
Definition with_help (c : config) v := mkConfig (LogFile c) (DisableLinkSet c) (LinkSources c) (Scheme c) (EmacsArgs c) (Command c)
  (Name c) (WrapperPath c) (FirefoxManifest c) (ChromeManifest c) (Force c) (MozillaExtensionID c) (ChromeExtensionID c) v (Version c).
Definition with_version (c : config) v := mkConfig (LogFile c) (DisableLinkSet c) (LinkSources c) (Scheme c) (EmacsArgs c) (Command c)
  (Name c) (WrapperPath c) (FirefoxManifest c) (ChromeManifest c) (Force c) (MozillaExtensionID c) (ChromeExtensionID c) (Help c) v.

(** ** Declared options *)
Inductive opt :=
| OStr (set : config -> str -> config)
| OMulti (get : config -> mflag) (set : config -> mflag -> config)
| OBool (set : config -> bool -> config).

Definition add_source (k : kind) (c : config) (v : str) : config := with_sources c (LinkSources c ++ [(k, v)]).

(** burl_backend.go:64-68; args.go:51-60; flag.go:57-64; install.go:48-66 *)
Definition options : list (str * opt) :=
  [ (b "h", OBool with_help); (b "help", OBool with_help);
    (b "version", OBool with_version); (b "v", OBool with_version); (b "V", OBool with_version);
    (b "log", OStr with_log);
    (b "scheme", OMulti Scheme with_scheme);
    (b "disable-link-set", OBool with_disable);
    (b "emacsclient", OStr with_command);
    (b "emacsarg", OMulti EmacsArgs with_emacsargs);
    (b "txt", OStr (add_source Txt)); (b "org", OStr (add_source Org));
    (b "backend", OStr with_name);
    (b "manifest-firefox", OStr with_firefox);
    (b "mozilla-extension", OMulti MozillaExtensionID with_mozilla_ids);
    (b "manifest-chrome", OStr with_chrome);
    (b "chrome-extension", OMulti ChromeExtensionID with_chrome_ids);
    (b "wrapper", OStr with_wrapper);
    (b "force", OBool with_force) ].

Fixpoint find_option (name : str) (l : list (str * opt)) : option opt :=
  match l with
  | [] => None
  | (n, o) :: l' => if str_eqb name n then Some o else find_option name l'
  end.

(** strconv.ParseBool *)
Definition ParseBool (s : str) : option bool :=
  if existsb (str_eqb s) (map b ["1"; "t"; "T"; "true"; "TRUE"; "True"]%string) then Some true
  else if existsb (str_eqb s) (map b ["0"; "f"; "F"; "false"; "FALSE"; "False"]%string) then Some false
  else None.

(** Value.Set of an option *)
Definition set_option (o : opt) (c : config) (v : str) : option config :=
  match o with
  | OStr set => Some (set c v)
  | OMulti get set => option_map (set c) (mSet (get c) v)
  | OBool set => option_map (set c) (ParseBool v)
  end.

(** Split NAME=VALUE; the sign may not be the first character *)
Fixpoint cut_value (s : str) : str * option str :=
  match s with
  | [] => ([], None)
  | "="%char :: s' => ([], Some s')
  | a :: s' => let '(n, v) := cut_value s' in (a :: n, v)
  end.
Definition split_value (s : str) : str * option str :=
  match s with
  | [] => ([], None)
  | a :: s' => let '(n, v) := cut_value s' in (a :: n, v)
  end.

(** flag.FlagSet.Parse and parseOne; None: error (flag.CommandLine exits with code 2),
    otherwise the remaining arguments are returned as well. *)
Fixpoint Parse (args : list str) (c : config) : option (config * list str) :=
  match args with
  | [] => Some (c, [])
  | s :: rest =>
      match s with
      | "-"%char :: ((a :: s') as s1) =>
          let flag (name : str) :=
            match name with
            | [] => None
            | "-"%char :: _ | "="%char :: _ => None
            | _ =>
                let '(name, value) := split_value name in
                match find_option name options with
                | None => None
                | Some (OBool _ as o) =>
                    match set_option o c (match value with Some v => v | None => b "true" end) with
                    | Some c' => Parse rest c'
                    | None => None
                    end
                | Some o =>
                    match value with
                    | Some v =>
                        match set_option o c v with
                        | Some c' => Parse rest c'
                        | None => None
                        end
                    | None =>
                        match rest with
                        | [] => None
                        | v :: rest' =>
                            match set_option o c v with
                            | Some c' => Parse rest' c'
                            | None => None
                            end
                        end
                    end
                end
            end in
          if Ascii.eqb a "-" then
            match s' with
            | [] => Some (c, rest)
            | _ => flag s'
            end
          else flag s1
      | _ => Some (c, s :: rest)
      end
  end.

(** flag.go:67-78 *)
Definition AddSourceArgs (sources : list source) (args : list str) : list source :=
  sources ++ map (fun a => (if has_suffix a (b ".org") then Org else Txt, a)) args.

(** burl_backend.go:279-286: parse of the whole command line *)
Definition parse_args (c : config) (args : list str) : option config :=
  match Parse args c with
  | None => None
  | Some (c', rest) => Some (with_sources c' (AddSourceArgs (LinkSources c') rest))
  end.

(** args.go:64-71 *)
Definition Customized (c : config) : bool :=
  negb (str_eqb (LogFile c) (b "-")) || negb (length (LinkSources c) =? 0) || DisableLinkSet c ||
  IsModified (Scheme c) || IsModified (EmacsArgs c) || negb (str_eqb (Command c) (b "emacsclient")).

(** args.go:99-143.  [q]: EscapeShellArg (escape_printf.go:23-26), None is its failure. *)
Fixpoint quote_all (q : str -> option str) (prefix : str) (vs : list str) : option (list str) :=
  match vs with
  | [] => Some []
  | v :: vs' =>
      match q v, quote_all q prefix vs' with
      | Some e, Some r => Some ((prefix ++ e) :: r)
      | _, _ => None
      end
  end.
Definition quote_modified (q : str -> option str) (prefix : str) (f : mflag) : outcome (option (list str)) :=
  if IsModified f then
    match ModifiedValues f with
    | Done vs => Done (quote_all q prefix vs)
    | Panic => Panic
    end
  else Done (Some []).
Fixpoint quote_sources (q : str -> option str) (l : list source) : option (list str) :=
  match l with
  | [] => Some []
  | (k, name) :: l' =>
      match q name, quote_sources q l' with
      | Some e, Some r => Some ((b "--" ++ Flag k ++ b "=" ++ e) :: r)
      | _, _ => None
      end
  end.
Definition AsShellCommand (q : str -> option str) (c : config) : outcome (option (list str)) :=
  match q (LogFile c) with
  | None => Done None
  | Some logfile =>
      let disable := if DisableLinkSet c then [b "--disable-link-set=true"] else [] in
      let command := if negb (str_eqb (Command c) (b "emacsclient")) then quote_all q (b "--emacsclient=") [Command c] else Some [] in
      match command with
      | None => Done None
      | Some command =>
          match quote_modified q (b "--emacsarg=") (EmacsArgs c) with
          | Panic => Panic
          | Done None => Done None
          | Done (Some users) =>
              match quote_modified q (b "--scheme=") (Scheme c) with
              | Panic => Panic
              | Done None => Done None
              | Done (Some schemes) =>
                  match quote_sources q (LinkSources c) with
                  | None => Done None
                  | Some sources => Done (Some ([b "--log"; logfile] ++ disable ++ command ++ users ++ schemes ++ sources))
                  end
              end
          end
      end
  end.
