(** Specification of the program: what is done in accordance with options. *)
From Verif Require Import GoBase GoSlice Utf8 Path FileSys FileUtil FileSpec Flags FlagsSpec Manifest Install InstallSpec OptionsSpec LinkTypes LinkTree Emacs Backend Extract Real Main.

(** a file has to be created *)
Definition asks_files (c : config) : Prop := WrapperPath c <> [] \/ FirefoxManifest c <> [] \/ ChromeManifest c <> [].

(** Service in accordance with options *)
Definition service_of (letters : rune -> bool) (u : rune -> rune) (chunk : nat -> N) (c : config) (v : service) : Prop :=
  exists re, UpdateRe (Flags.slice (Scheme c)) = Some re /\
    v = mkService (mkBackend (LinkSources c) (DisableLinkSet c) (real letters re chunk) u) (Flags.slice (EmacsArgs c)) (Command c).

(** The log file exists or it is created empty and may not be accessible for others: 384 is 0600. *)
Definition log_opened (s0 s : state) (name : str) : Prop :=
  (name = [] \/ name = b "-") /\ s = s0 \/
  name <> [] /\ name <> b "-" /\
    ((exists c m, fs s0 name = Some (File c m)) /\ s = s0 \/
     fs s0 name = None /\ out s = out s0 /\ env s = env s0 /\ (forall x, x <> name -> fs s x = fs s0 x) /\
       exists m, fs s name = Some (File [] m) /\ N.land m 384 = m).

(** The wrapper: a script for sh that assigns a variable, checks that the program is executable and starts it instead of itself. *)
Definition tab : str := [ascii_of_N 9].
Definition comment_line (l : str) : Prop := exists t, l = b "#" ++ t ++ nl /\ ~ In newline t.
Definition script_starts (text exe : str) (args : list str) : Prop :=
  exists w comments ws more,
    text = b "#!/bin/sh -eu" ++ nl ++ w ++ nl ++ concat comments ++
      b "[ -x ""$BURL_BACKEND"" ] && \" ++ nl ++ tab ++ b "exec ""$BURL_BACKEND"" " ++ ws ++ nl ++ more /\
    sh_split w = Some [b "BURL_BACKEND=" ++ exe] /\ Forall comment_line comments /\ sh_split ws = Some args.

(** Manifests requested by options *)
Definition manifest_of (u : rune -> rune) (s0 : state) (c : config) (file : str) (m : manifest) : Prop :=
  valid_manifest u m /\ mType m = b "stdio" /\ mDescription m = b "Burl - LinkRemark interface to Emacs" /\ manifest_target u s0 c (mPath m) /\
  exists s, same_folders s0 s /\ env s = env s0 /\ resolves u s file (mkOpts (Name c) (b "io.github.maxnikulin.burl") (b ".json")) (mFile m) (mName m).
Definition firefox_manifest (u : rune -> rune) (s0 : state) (c : config) (m : manifest) : Prop :=
  manifest_of u s0 c (FirefoxManifest c) m /\ mOrigins m = [] /\ mExtensions m = Flags.slice (MozillaExtensionID c).
Definition chrome_manifest (u : rune -> rune) (s0 : state) (c : config) (m : manifest) : Prop :=
  manifest_of u s0 c (ChromeManifest c) m /\ mExtensions m = [] /\ Forall2 chrome_origin (Flags.slice (ChromeExtensionID c)) (mOrigins m).

(** The text is printed or it is the content of the file; a longer file may be taken for the same one, see C44. *)
Definition delivered (s0 s : state) (force : bool) (path content : str) : Prop :=
  path = b "-" /\ out s = out s0 ++ content \/
  path <> b "-" /\ exists extra m, fs s path = Some (File (content ++ extra) m) /\
    (extra = [] \/ force = true /\ length content = (64 * 64)%nat).
