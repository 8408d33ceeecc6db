(** Model of pkg/burl_fileutil/fileutil.go *)
From Verif Require Import GoBase Utf8 Fuzzy Path FileSys.
Local Open Scope N_scope.

(** Errors are distinguished by the place where they are created, texts are not modelled. *)
Inductive ferr := EStdout | EOpen | ERead | ETooLarge | EShebang | EChmod | EExist | ETemp | EFchmod | EWrite | ERename.

Definition zero : ascii := Ascii.zero.
Definition nlen (s : str) : N := N.of_nat (length s).

(** 99-100, 103-104, 108-109: remove the temporary file ignoring failure and report an error *)
Definition cleanup (tmp : str) (e : ferr) : prog (result ferr unit) := Do (CRemove tmp) (fun _ => Ret (Err e)).

(** 93-111.  An open file is identified by its name: nobody else renames it. *)
Definition replace_file (path content : str) (mode : N) : prog (result ferr unit) :=
  Do (CTemp (Dir path) (Base path)) (fun a =>
    match a with
    | AStr tmp =>
        Do (CChmod tmp mode) (fun a =>
          match a with
          | AUnit =>
              Do (CWrite tmp content) (fun a =>
                match a with
                | AUnit =>
                    Do (CRename tmp path) (fun a =>
                      match a with
                      | AUnit => Ret (Ok tt)
                      | _ => cleanup tmp ERename
                      end)
                | _ => cleanup tmp EWrite
                end)
          | _ => cleanup tmp EFchmod
          end)
    | _ => Ret (Err ETemp)
    end).

(** 57-60 *)
Definition bufLen (content : str) : N := if nlen content <=? 4096 then 4096 else 4096 + nlen content.

(** 81-87: the file has requested content.  [stat] is nil if os.Stat has failed. *)
Definition fix_mode (path : str) (mode : N) (stat : answer) : prog (result ferr unit) :=
  match stat with
  | AStat _ perm =>
      if negb (N.land mode 320 =? 0) && (N.land perm 320 =? 0)
      then Do (CChmod path (N.lor perm 320)) (fun a =>
             match a with AUnit => Ret (Ok tt) | _ => Ret (Err EChmod) end)
      else Ret (Ok tt)
  | _ => Abort
  end.

(** 50-112.  320 is 0500.  bytes.Buffer [data] is longer than the part that has been read. *)
Definition WriteFile (path content : str) (mode : N) (force : bool) : prog (result ferr unit) :=
  if str_eqb path (b "-") then
    Do (CStdout content) (fun a => match a with AUnit => Ret (Ok tt) | _ => Ret (Err EStdout) end)
  else
    Do (CStat path) (fun stat =>
      match stat with
      | ANotExist => replace_file path content mode
      | _ =>
          Do (COpen path) (fun a =>
            match a with
            | AUnit =>
                Do (CRead path (bufLen content)) (fun a =>
                  match a with
                  | AStr got =>
                      let data := got ++ repeat zero (N.to_nat (bufLen content) - length got) in
                      if negb force && (nlen got =? bufLen content) then Ret (Err ETooLarge)
                      else if negb force && has_prefix content (b "#!/") && negb (has_prefix data (b "#!/")) then Ret (Err EShebang)
                      else if str_eqb got content then fix_mode path mode stat
                      else if negb force then Ret (Err EExist)
                      else replace_file path content mode
                  | _ => Ret (Err ERead)
                  end)
            | _ => Ret (Err EOpen)
            end)
      end).

(** 29-33 *)
Record AbsFileNameOptions := mkOpts { oName : str; oDefault : str; oExt : str }.

(** 140-155; None is an error.  [u]: Unicode tables *)
Definition nameFromPath (u : rune -> rune) (o : AbsFileNameOptions) (file : str) : option str :=
  let base := Base file in
  if negb (str_eqb (oName o) []) && negb (str_eqb base (oName o ++ oExt o)) then None
  else if str_eqb (oExt o) [] then Some base
  else
    let ext := Ext base in
    if negb (str_eqb (ToLower u ext) (oExt o)) then None
    else Some (firstn (length base - length ext) base).

(** filepath.Abs as a call *)
Definition abs_call {A} (path : str) (k : option str -> prog A) : prog A :=
  if IsAbs path then k (Some (Clean path))
  else Do CGetwd (fun a => match a with AStr d => k (Some (Join d path)) | _ => k None end).

(** 126-182; None is an error, otherwise path and name.  Values that accompany an error are not modelled. *)
Definition AsAbsFileName (u : rune -> rune) (filePath : str) (o : AbsFileNameOptions) : prog (option (str * str)) :=
  let name := if negb (str_eqb (oName o) []) then oName o else oDefault o in
  if str_eqb filePath (b "-") then Ret (Some (filePath, name))
  else abs_call filePath (fun p =>
    match p with
    | None => Ret None
    | Some path =>
        let with_name := match nameFromPath u o path with Some n => Ret (Some (path, n)) | None => Ret None end in
        Do (CStat path) (fun a =>
          match a with
          | AStat true _ => if negb (str_eqb name []) then Ret (Some (Join path (name ++ oExt o), name)) else Ret None
          | AStat false _ => with_name
          | ANotExist =>
              Do (CStat (Dir path)) (fun a =>
                match a with
                | AStat true _ => with_name
                | _ => Ret None
                end)
          | _ => Ret None
          end)
    end).

(** 35-45; None is an error *)
Definition RealPath (path : str) : prog (option str) :=
  abs_call path (fun p =>
    match p with
    | None => Ret None
    | Some abspath => Do (CEvalSymlinks abspath) (fun a => match a with AStr r => Ret (Some r) | _ => Ret None end)
    end).
