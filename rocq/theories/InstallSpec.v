(** Specification of file names, manifests and files created by the installer *)
From Verif Require Import GoBase Utf8 Fuzzy Path FileSys FileUtil FileSpec Flags Manifest Install.

(** ** Names of files *)

(** absolute form of a path *)
Definition absolute (s : state) (p : str) : str := if IsAbs p then Clean p else Join (cwd (env s)) p.

(** an environment where paths are normalised absolute ones *)
Definition sane (s : state) : Prop :=
  fs s (b "/") = Some Folder /\ IsAbs (cwd (env s)) = true /\
  forall p, IsAbs p = true -> Clean p = p -> IsAbs (real (env s) p) = true /\ Clean (real (env s) p) = real (env s) p.

(** name of a file that is not a directory *)
Definition named_file (u : rune -> rune) (o : AbsFileNameOptions) (path name : str) : Prop :=
  (oName o <> [] -> Base path = oName o ++ oExt o) /\
  (oExt o = [] -> name = Base path) /\
  (oExt o <> [] -> Base path = name ++ Ext (Base path) /\ ToLower u (Ext (Base path)) = oExt o).

Definition resolves (u : rune -> rune) (s : state) (filePath : str) (o : AbsFileNameOptions) (path name : str) : Prop :=
  let requested := match oName o with [] => oDefault o | n => n end in
  (filePath = b "-" /\ path = b "-" /\ name = requested) \/
  (filePath <> b "-" /\ let a := absolute s filePath in
    ((fs s a = Some Folder /\ name = requested /\ name <> [] /\ path = Join a (name ++ oExt o)) \/
     ((fs s a = None /\ fs s (Dir a) = Some Folder \/ exists c m, fs s a = Some (File c m)) /\ path = a /\ named_file u o path name))).

(** ** Manifests *)
Definition valid_manifest (u : rune -> rune) (m : manifest) : Prop :=
  (mOrigins m = [] /\ mExtensions m <> [] \/ mOrigins m <> [] /\ mExtensions m = []) /\
  mName m <> [] /\ IsAbs (mPath m) = true /\ mFile m <> [] /\
  (mFile m = b "-" \/ Base (mFile m) = mName m ++ Ext (Base (mFile m)) /\ ToLower u (Ext (Base (mFile m))) = b ".json").

(** ** Results of the installer *)

(** absolute path with expanded symbolic links *)
Definition real_path (s : state) (p : str) : str := real (env s) (absolute s p).

(** options where paths are replaced with absolute ones *)
Definition with_paths (u : rune -> rune) (s : state) (c c' : config) : Prop :=
  exists log, c' = with_sources (with_log c log) (map (fun x => (fst x, real_path s (snd x))) (LinkSources c)) /\
    (LogFile c = [] /\ log = [] \/ LogFile c <> [] /\ exists n, resolves u s (LogFile c) no_options log n).

Definition same_folders (s0 s : state) : Prop := forall x, fs s x = Some Folder <-> fs s0 x = Some Folder.

(** executable mentioned in a manifest: the wrapper if it is a file, otherwise the backend *)
Definition manifest_target (u : rune -> rune) (s0 : state) (c : config) (target : str) : Prop :=
  if str_eqb (WrapperPath c) [] || str_eqb (WrapperPath c) (b "-") then target = real_path s0 (self (env s0))
  else exists n, resolves u s0 (WrapperPath c) no_options target n.

Definition chrome_origin (id o : str) : Prop :=
  (exists t, id = b "chrome-extension://" ++ t) /\ o = id \/
  (forall t, id <> b "chrome-extension://" ++ t) /\ o = b "chrome-extension://" ++ id ++ b "/".

(** [generated q u s0 c dest content mode]: a file requested by options [c], [s0] is the initial state *)
Inductive generated (q : str -> option str) (u : rune -> rune) (s0 : state) (c : config) : str -> str -> N -> Prop :=
| g_wrapper dest c' qexe args : let exe := real_path s0 (self (env s0)) in
    with_paths u s0 c c' -> q exe = Some qexe -> AsShellCommand q c' = Done (Some args) ->
    WrapperPath c <> [] -> dest <> exe -> (exists n, resolves u s0 (WrapperPath c) no_options dest n) ->
    generated q u s0 c dest (wrapper_content qexe args) 493
| g_manifest m file s : valid_manifest u m -> mType m = b "stdio" -> mDescription m = b "Burl - LinkRemark interface to Emacs" ->
    manifest_target u s0 c (mPath m) ->
    same_folders s0 s -> env s = env s0 -> resolves u s file (mkOpts (Name c) (b "io.github.maxnikulin.burl") (b ".json")) (mFile m) (mName m) -> file <> [] ->
    (mOrigins m = [] /\ mExtensions m = slice (MozillaExtensionID c) /\ file = FirefoxManifest c \/
     mExtensions m = [] /\ Forall2 chrome_origin (slice (ChromeExtensionID c)) (mOrigins m) /\ file = ChromeManifest c) ->
    generated q u s0 c (mFile m) (MarshalIndent m ++ nl) 420.

(** State of a file [x] during installation: it is untouched, complete, has additional permissions,
    or it is a temporary one *)
Definition accounted (g : str -> str -> N -> Prop) (s0 s : state) (x : str) : Prop :=
  fs s x = fs s0 x \/
  (exists content mode, g x content mode /\ (fs s x = Some (File content mode) \/ bits_added s0 s x content mode)) \/
  (exists dest content mode c1 c2 m, g dest content mode /\ fs s0 x = None /\ Dir x = Dir dest /\
     content = c1 ++ c2 /\ fs s x = Some (File c1 m)).

(** At most one file is printed. *)
Definition output_ok (g : str -> str -> N -> Prop) (s0 s : state) : Prop :=
  out s = out s0 \/ exists content mode c1 c2, g (b "-") content mode /\ content = c1 ++ c2 /\ out s = out s0 ++ c1.
