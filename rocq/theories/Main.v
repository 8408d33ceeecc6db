(** Model of functions main, mainWithGracefulShutdown, processGeneralFlags and NewBurlBackendPtr
    of cmd/burl_backend/burl_backend.go (72-90, 102-121, 277-350): what is done in accordance with the command line. *)
From Verif Require Import GoBase GoSlice Utf8 Path FileSys FileUtil Flags Manifest Install LinkTypes LinkTree Emacs Backend Extract Real.

(** Parameters of service: 102-121, package variables of burl_emacs that are set by options
    (args.go:57-59, emacs.go:27,48) and of burl_links (UpdateRe) *)
Record service := mkService { v_backend : backend; v_users : list str; v_command : str }.

(** How a run of the program ends or becomes service of requests.  Texts of errors are not modelled. *)
Inductive ending :=
| EUsage                  (* package flag: wrong command line *)
| EInfo                   (* 283-285: help or version *)
| EDone                   (* 287-292: files are created *)
| EInstall (e : ierr)     (* 289 *)
| ELog                    (* 303 *)
| ESchemes                (* 311-313 *)
| EServe (v : service).   (* 338-340 *)

(** Exit code: flag.ExitOnError, 284, 289, 291, 303, 312, 344-350.  None: the program serves requests. *)
Definition exit_code (e : ending) : option N :=
  match e with
  | EUsage => Some 2%N
  | EInfo | EDone => Some 0%N
  | EInstall _ | ELog | ESchemes => Some 1%N
  | EServe _ => None
  end.

(** 79-86; [version]: version.GetVersion() depends on build *)
Definition version_text (version : str) : str :=
  b "burl_backend " ++ version ++ nl ++
  b "Copyright (C) 2021 Max Nikulin" ++ nl ++
  b "License GPLv3+: GNU GPL version 3 or later <https://gnu.org/licenses/gpl.html>." ++ nl ++
  b "This is free software: you are free to change and redistribute it." ++ nl ++
  b "There is NO WARRANTY, to the extent permitted by law." ++ nl.

(** 294-308; 384 is 0600.  Messages that are written to the log file are not modelled. *)
Definition open_log (name : str) (k : prog ending) : prog ending :=
  if is_empty name || is_dash name then k
  else Do (CAppend name 384) (fun a => match a with AUnit => k | _ => Ret ELog end).

(** 310-316; [schemes]: SchemeVariants, initial values of package variables are obtained by regexp.MustCompile.
    rpc.RegisterName (317-323) can not fail for this type. *)
Definition serve (letters : rune -> bool) (u : rune -> rune) (chunk : nat -> N) (schemes : list str) (c : config) : prog ending :=
  let served re := Ret (EServe (mkService (mkBackend (LinkSources c) (DisableLinkSet c) (real letters re chunk) u) (Flags.slice (EmacsArgs c)) (Command c))) in
  if IsModified (Scheme c) then
    match UpdateRe (Flags.slice (Scheme c)) with
    | None => Ret ESchemes
    | Some re => served re
    end
  else
    match UpdateRe schemes with
    | None => Abort
    | Some re => served re
    end.

(** 277-342; [usage]: text of help, [q]: EscapeShellArg, [u]: unicode.ToLower, [letters], [chunk]: see Real.v,
    defaults of lists: see Flags.v.  Errors of printing are ignored. *)
Definition backend_main (usage version : str) (q : str -> option str) (letters : rune -> bool) (u : rune -> rune) (chunk : nat -> N)
    (schemes users mozilla chrome : list str) (args : list str) : prog ending :=
  match Parse args (defaults schemes users mozilla chrome) with
  | None => Ret EUsage
  | Some (c, rest) =>
      if Help c then Do (CStdout usage) (fun _ => Ret EInfo)
      else if Version c then Do (CStdout (version_text version)) (fun _ => Ret EInfo)
      else
        let c := with_sources c (AddSourceArgs (LinkSources c) rest) in
        bind (processInstallFlags q u c) (fun r =>
          match r with
          | (_, Some e) => Ret (EInstall e)
          | (true, None) => Ret EDone
          | (false, None) => open_log (LogFile c) (serve letters u chunk schemes c)
          end)
  end.
