(** Model of cmd/burl_backend/install.go and FixPaths from args.go *)
From Verif Require Import GoBase Utf8 Fuzzy Path FileSys FileUtil Flags Manifest.

(** pkg/version/version.go *)
Definition Description : str := b "Burl - LinkRemark interface to Emacs".
Definition AppName : str := b "io.github.maxnikulin.burl".

Inductive ierr := ITooManyStdout | IStdoutWrapper | INeedWrapper | IFixPaths | IWrapperPath | IEscape | IWrapper (e : ferr)
  | ISameWrapper | IManifestPath | IManifestInit | IManifest (e : ferr).

(** args.go:89-95; link sources with real paths *)
Fixpoint fix_sources (l : list source) : prog (option (list source)) :=
  match l with
  | [] => Ret (Some [])
  | (k, name) :: l' =>
      bind (RealPath name) (fun p =>
        match p with
        | None => Ret None
        | Some p => bind (fix_sources l') (fun r => match r with Some r => Ret (Some ((k, p) :: r)) | None => Ret None end)
        end)
  end.

Definition no_options : AbsFileNameOptions := mkOpts [] [] [].

(** args.go:74-97; Exe and updated options.  Arguments are updated in place, that is not visible
    after an error since the program exits. *)
Definition FixPaths (u : rune -> rune) (c : config) : prog (option (str * config)) :=
  Do CExecutable (fun a =>
    match a with
    | AStr exe =>
        bind (RealPath exe) (fun p =>
          match p with
          | None => Ret None
          | Some exe =>
              let sources c := bind (fix_sources (LinkSources c)) (fun r =>
                match r with Some l => Ret (Some (exe, with_sources c l)) | None => Ret None end) in
              if negb (str_eqb (LogFile c) []) && negb (str_eqb (LogFile c) (b "-")) then
                bind (AsAbsFileName u (LogFile c) no_options) (fun r =>
                  match r with Some (p, _) => sources (with_log c p) | None => Ret None end)
              else sources c
          end)
    | _ => Ret None
    end).

Fixpoint join_space (l : list str) : str :=
  match l with
  | [] => []
  | [x] => x
  | x :: l' => x ++ b " " ++ join_space l'
  end.

(** install.go:127-138 *)
Definition wrapper_content (exe : str) (args : list str) : str :=
  b "#!/bin/sh -eu" ++ nl ++
  b "BURL_BACKEND=" ++ exe ++ nl ++
  b "# Execution aborted on not found file even without ""-e"" option." ++ nl ++
  b "# ""trap HANDLER EXIT"" is ignored as well. So a test is required." ++ nl ++
  b "[ -x ""$BURL_BACKEND"" ] && \" ++ nl ++
  [ascii_of_N 9] ++ b "exec ""$BURL_BACKEND"" " ++ join_space args ++ nl ++
  b "err=""{\""error\"": \""$(printf '%s' ""$BURL_BACKEND"" | tr '\\""' ""/'""): file not found or not executable\""}""" ++ nl ++
  b "# platform endian-dependent hack" ++ nl ++
  b "/usr/bin/printf ""\\x$(printf '%x' ""${#err}"")\\x00\\x00\\x00""" ++ nl ++
  b "printf '%s' ""$err""" ++ nl.

(** 201-216.  MarshalIndent can not fail for this structure. *)
Definition writeManifest (u : rune -> rune) (m : manifest) (force : bool) : prog (option ierr) :=
  match Init u (mkManifest (mName m) Description (mPath m) (mType m) (mOrigins m) (mExtensions m) (mFile m)) with
  | None => Ret (Some IManifestInit)
  | Some m =>
      bind (WriteFile (mFile m) (MarshalIndent m ++ nl) 420 force) (fun r =>
        match r with Ok _ => Ret None | Err e => Ret (Some (IManifest e)) end)
  end.

(** 181-187 *)
Definition origin (id : str) : str :=
  if has_prefix id (b "chrome-extension://") then id else b "chrome-extension://" ++ id ++ b "/".

(** 151-155, 171-175 *)
Definition manifest_options (c : config) : AbsFileNameOptions := mkOpts (Name c) AppName (b ".json").

(** 150-169 and 170-198: name and path of the file; [lists] selects one of allow-lists *)
Definition one_manifest (u : rune -> rune) (c : config) (exe file : str) (origins extensions : list str) : prog (option ierr) :=
  if str_eqb file [] then Ret None
  else bind (AsAbsFileName u file (manifest_options c)) (fun r =>
    match r with
    | None => Ret (Some IManifestPath)
    | Some (path, name) => writeManifest u (mkManifest name [] exe [] origins extensions path) (Force c)
    end).
Definition manifests (u : rune -> rune) (c : config) (exe : str) : prog (option ierr) :=
  bind (one_manifest u c exe (FirefoxManifest c) [] (slice (MozillaExtensionID c))) (fun e =>
    match e with
    | Some e => Ret (Some e)
    | None => one_manifest u c exe (ChromeManifest c) (map origin (slice (ChromeExtensionID c))) []
    end).

Definition is_dash (s : str) : bool := str_eqb s (b "-").
Definition is_empty (s : str) : bool := str_eqb s [].
Definition count (f : str -> bool) (l : list str) : nat := length (filter f l).

(** 115-146; wrapper *)
Definition write_wrapper (q : str -> option str) (c : config) (custom : bool) (exe wrapper : str) : prog (option ierr) :=
  if negb (is_empty wrapper) || custom then
    if negb (str_eqb wrapper exe) then
      match q exe with
      | None => Ret (Some IEscape)
      | Some qexe =>
          match AsShellCommand q c with
          | Panic => Abort
          | Done None => Ret (Some IEscape)
          | Done (Some args) =>
              bind (WriteFile wrapper (wrapper_content qexe args) 493 (Force c)) (fun r =>
                match r with Ok _ => Ret None | Err e => Ret (Some (IWrapper e)) end)
          end
      end
    else if custom then Ret (Some ISameWrapper)
    else Ret None
  else Ret None.

(** 71-199: true if something is requested and an error *)
Definition processInstallFlags (q : str -> option str) (u : rune -> rune) (c : config) : prog (bool * option ierr) :=
  let files := [WrapperPath c; FirefoxManifest c; ChromeManifest c] in
  if (count (fun f => negb (is_empty f)) files =? 0)%nat then Ret (false, None)
  else if (1 <? count is_dash files)%nat then Ret (true, Some ITooManyStdout)
  else if is_dash (WrapperPath c) && (negb (is_empty (FirefoxManifest c)) || negb (is_empty (ChromeManifest c)))
  then Ret (true, Some IStdoutWrapper)
  else
    let custom := Customized c in
    if is_empty (WrapperPath c) && custom then Ret (true, Some INeedWrapper)
    else bind (FixPaths u c) (fun r =>
      match r with
      | None => Ret (true, Some IFixPaths)
      | Some (exe, c) =>
          let rest (manifestExe wrapper : str) :=
            bind (write_wrapper q c custom exe wrapper) (fun e =>
              match e with
              | Some e => Ret (true, Some e)
              | None =>
                  bind (manifests u c (if is_empty manifestExe then exe else manifestExe)) (fun e => Ret (true, e))
              end) in
          if negb (is_empty (WrapperPath c)) && negb (is_dash (WrapperPath c)) then
            bind (AsAbsFileName u (WrapperPath c) no_options) (fun r =>
              match r with
              | None => Ret (true, Some IWrapperPath)
              | Some (path, _) => rest path path
              end)
          else rest [] (WrapperPath c)
      end).
