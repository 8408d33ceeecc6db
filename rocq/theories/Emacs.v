(** Model of pkg/burl_emacs/emacs.go and of goroutines that handle requests: a handler is a program
    of effects, a request is a thread.  Slices with a shared backing array are modelled since
    execEmacs appends to a global slice. *)
From Verif Require Import GoBase GoSlice Flags LinkTypes.

(** ** Handlers *)

(** Result of cmd.CombinedOutput: output and, for an error, ProcessState.ExitCode() which is -1 if
    the command is not started or is killed. *)
Inductive xres := XOk (out : str) | XErr (code : Z) (out : str).

(** Reading of a file till the end: it can not be opened, or bytes that are read, [broken]: reading is ended by
    an error and not by the end of file.  Any answer is possible at any time, so files may be changed. *)
Inductive rres := RNone | RData (content : str) (broken : bool).

(** Errors; texts are not modelled. *)
Inductive berr :=
| EServerNotFound                 (* emacs.go:57 *)
| ECommand (code : Z) (out : str) (* failed command *)
| ENotLoaded                      (* emacs.go:90 *)
| EScheme                         (* emacs.go:112 *)
| ETooOld                         (* burl_backend.go:134 *)
| EFormat                         (* burl_backend.go:150 *)
| ENoUrls                         (* burl_backend.go:174 *)
| ENoFiles                        (* burl_backend.go:109 *)
| ENoLinks                        (* burl_backend.go:117 *)
| EProhibited                     (* burl_backend.go:207 *)
| EArguments                      (* burl_backend.go:233, 241 *)
| EDisabled                       (* burl_backend.go:268 *)
| ETooMany                        (* burl_backend.go:272 *)
| EOpen                           (* os.Open *)
| ERead                           (* error of a reader *)
| ETooLong                        (* bufio.ErrTooLong *)
| EPrefix.                        (* errors of ExtractSet *)

(** What is kept in BurlBackend.fileGroup and BurlBackend.err, burl_backend.go:95-96 *)
Definition notes := result berr node.

Inductive hprog (A : Type) : Type :=
| HRet (a : A)
| HPanic
| HExec (args : list str) (k : xres -> hprog A)   (* body of execEmacs *)
| HRead (name : str) (k : rres -> hprog A)
| HOnce (k : notes -> hprog A).                   (* b.once.Do(b.initializer), then b.fileGroup and b.err *)
Arguments HRet {A} _. Arguments HPanic {A}. Arguments HExec {A} _ _. Arguments HRead {A} _ _. Arguments HOnce {A} _.

Fixpoint hbind {A B} (p : hprog A) (f : A -> hprog B) : hprog B :=
  match p with
  | HRet a => f a
  | HPanic => HPanic
  | HExec args k => HExec args (fun r => hbind (k r) f)
  | HRead n k => HRead n (fun r => hbind (k r) f)
  | HOnce k => HOnce (fun r => hbind (k r) f)
  end.

(** ** emacs.go *)

(** 29-47 *)
Definition Args : list str := [b "--quiet"; b "--alternate-editor=sh -c ""exit 9"""].

(** 49 *)
Definition CheckOrgProtocolLisp : str := b "(and (memq 'org-protocol features) 'org-protocol)".
(** 50-55 *)
Definition eol : str := [ascii_of_N 10].
Definition EnsureFrameLisp : str :=
  eol ++ b "(if (and (symbolp 'linkremark-ensure-frame) (fboundp 'linkremark-ensure-frame))" ++ eol ++
  b "    (linkremark-ensure-frame)" ++ eol ++
  b "  (or (memq 'x (mapcar #'framep (frame-list)))" ++ eol ++
  b "      (select-frame (make-frame '((name . ""bURL"") (window-system . x))))))" ++ eol.

(** 59-73 execEmacs; assembling of arguments (60-62) is a part of the semantics of [HExec].
    None: success *)
Definition execEmacs (args : list str) : hprog (str * option berr) :=
  HExec args (fun r =>
    match r with
    | XOk out => HRet (out, None)
    | XErr code out => if (code =? 9)%Z then HRet ([], Some EServerNotFound) else HRet (out, Some (ECommand code out))
    end).

(** 75-81 *)
Definition EnsureFrame : hprog (option berr) :=
  hbind (execEmacs [b "--eval"; EnsureFrameLisp]) (fun '(_, err) => HRet err).

(** 83-93 *)
Definition CheckOrgProtocol : hprog (option berr) :=
  hbind (execEmacs [b "--eval"; CheckOrgProtocolLisp]) (fun '(out, err) =>
    match err with
    | Some e => HRet (Some e)
    | None => if has_prefix out (b "org-protocol") then HRet None else HRet (Some ENotLoaded)
    end).

(** fmt.Sprintf("%d", n) of a non-negative number *)
Definition digit (n : N) : ascii := ascii_of_N (48 + n).
Fixpoint dec_loop (fuel : nat) (n : N) (acc : str) : str :=
  match fuel with
  | O => acc
  | S fuel => if (n <? 10)%N then digit n :: acc else dec_loop fuel (n / 10)%N (digit (n mod 10) :: acc)
  end.
Definition decimal (n : Z) : str := dec_loop (S (N.to_nat (N.log2 (Z.to_N n)))) (Z.to_N n) [].

(** 95-108 *)
Definition VisitFile (path : str) (lineNo : Z) : hprog (option berr) :=
  hbind EnsureFrame (fun err =>
    match err with
    | Some e => HRet (Some e)
    | None =>
        hbind (execEmacs ([b "--no-wait"] ++ (if (0 <? lineNo)%Z then [b "+" ++ decimal lineNo] else []) ++ [path]))
              (fun '(_, err) => HRet err)
    end).

(** 110-124 *)
Definition OrgProtocol (uri : str) : hprog (option berr) :=
  if negb (has_prefix uri (b "org-protocol:")) then HRet (Some EScheme)
  else
    hbind CheckOrgProtocol (fun err =>
      match err with
      | Some e => HRet (Some e)
      | None =>
          hbind EnsureFrame (fun err =>
            match err with
            | Some e => HRet (Some e)
            | None => hbind (execEmacs [uri]) (fun '(_, err) => HRet err)
            end)
      end).

(** ** Threads *)

(** Arrays of strings; a slice is a prefix of an array of length [cap]. *)
Definition mem := list (list str).
Record slice := mkSlice { arr : nat; len : nat }.
Definition array (m : mem) (a : nat) : list str := nth a m [].
Definition cap (m : mem) (s : slice) : nat := length (array m (arr s)).
Definition contents (m : mem) (s : slice) : list str := firstn (len s) (array m (arr s)).
Definition poke (m : mem) (a i : nat) (x : str) : mem := replace_at m a (replace_at (array m a) i x).

(** append(s, xs...): elements are to be written one by one into the same array if there is room, else into a new array of
    sufficient size (its extra size is up to the implementation) where existing elements are copied. *)
Inductive appended (m : mem) (s : slice) (xs : list str) : mem -> slice -> list (nat * str) -> Prop :=
| app_in_place : len s + length xs <= cap m s ->
    appended m s xs m (mkSlice (arr s) (len s + length xs)) (combine (seq (len s) (length xs)) xs)
| app_copy extra : cap m s < len s + length xs ->
    appended m s xs (m ++ [contents m s ++ xs ++ repeat [] extra]) (mkSlice (length m) (len s + length xs)) [].

(** Options of the program that matter here: burl_emacs.UserArgs (48) and burl_emacs.Command (27). *)
Record emacs_cfg := mkEmacs { UserArgs : slice; EmacsCommand : str }.

(** sync.Once, and what its function has stored *)
Inductive once := ONew | OBusy | ODone (v : notes).
Record glob := mkGlob { gmem : mem; gonce : once }.

(** [TBuild]: in execEmacs, [todo] elements are not written yet to the array of [allArgs],
    [more]: arguments of the next append (line 61).  [TWait]: a command is executed.
    [TInit]: initializer is executed by this thread inside of once.Do. *)
Inductive thread (R : Type) : Type :=
| TRun (p : hprog R)
| TBuild (allArgs : slice) (todo : list (nat * str)) (more : option (list str)) (k : xres -> hprog R)
| TWait (k : xres -> hprog R)
| TInit (p : hprog notes) (k : notes -> hprog R)
| TOver (r : R)
| TCrash.
Arguments TRun {R} _. Arguments TBuild {R} _ _ _ _. Arguments TWait {R} _. Arguments TInit {R} _ _. Arguments TOver {R} _. Arguments TCrash {R}.

Inductive label (R : Type) : Type :=
| LTau
| LStart (argv : list str)     (* a command is executed *)
| LEnd (r : xres)              (* it has finished *)
| LRead (name : str) (r : rres)
| LInit (name : str) (r : rres) (* reading by the initializer *)
| LReply (r : R)
| LPanic.
Arguments LTau {R}. Arguments LStart {R} _. Arguments LEnd {R} _. Arguments LRead {R} _ _. Arguments LInit {R} _ _. Arguments LReply {R} _. Arguments LPanic {R}.

(** [init]: BurlBackend.initializer *)
Inductive tstep {R} (e : emacs_cfg) (init : hprog notes) : glob * thread R -> label R -> glob * thread R -> Prop :=
(* line 60 *)
| t_append1 m o args k m' s todo : appended m (UserArgs e) Args m' s todo ->
    tstep e init (mkGlob m o, TRun (HExec args k)) LTau (mkGlob m' o, TBuild s todo (Some args) k)
| t_write m o s i x todo more k :
    tstep e init (mkGlob m o, TBuild s ((i, x) :: todo) more k) LTau (mkGlob (poke m (arr s) i x) o, TBuild s todo more k)
(* line 61 *)
| t_append2 m o s args k m' s' todo : appended m s args m' s' todo ->
    tstep e init (mkGlob m o, TBuild s [] (Some args) k) LTau (mkGlob m' o, TBuild s' todo None k)
(* lines 62-63; exec.Command copies the arguments *)
| t_start m o s k :
    tstep e init (mkGlob m o, TBuild s [] None k) (LStart (EmacsCommand e :: contents m s)) (mkGlob m o, TWait k)
| t_end g k r : tstep e init (g, TWait k) (LEnd r) (g, TRun (k r))
| t_read g name k r : tstep e init (g, TRun (HRead name k)) (LRead name r) (g, TRun (k r))
| t_once_first m k : tstep e init (mkGlob m ONew, TRun (HOnce k)) LTau (mkGlob m OBusy, TInit init k)
| t_init_read g name p k r : tstep e init (g, TInit (HRead name p) k) (LInit name r) (g, TInit (p r) k)
| t_init_end m o v k : tstep e init (mkGlob m o, TInit (HRet v) k) LTau (mkGlob m (ODone v), TRun (k v))
| t_once_done m v k : tstep e init (mkGlob m (ODone v), TRun (HOnce k)) LTau (mkGlob m (ODone v), TRun (k v))
| t_ret g r : tstep e init (g, TRun (HRet r)) (LReply r) (g, TOver r)
| t_panic g : tstep e init (g, TRun HPanic) LPanic (g, TCrash)
| t_init_panic g k : tstep e init (g, TInit HPanic k) LPanic (g, TCrash).

Inductive tsteps {R} (e : emacs_cfg) (init : hprog notes) : glob * thread R -> list (label R) -> glob * thread R -> Prop :=
| ts_nil x : tsteps e init x [] x
| ts_cons x l y tr z : tstep e init x l y -> tsteps e init y tr z -> tsteps e init x (l :: tr) z.

(** Any number of threads.  No step is possible after a panic. *)
Definition crashed {R} (t : thread R) : Prop := t = TCrash.
Inductive step {R} (e : emacs_cfg) (init : hprog notes) : glob * list (thread R) -> nat * label R -> glob * list (thread R) -> Prop :=
| step_thread g pre t post l g' t' :
    Forall (fun t => ~ crashed t) (pre ++ t :: post) -> tstep e init (g, t) l (g', t') ->
    step e init (g, pre ++ t :: post) (length pre, l) (g', pre ++ t' :: post).
Inductive steps {R} (e : emacs_cfg) (init : hprog notes) : glob * list (thread R) -> list (nat * label R) -> glob * list (thread R) -> Prop :=
| steps_nil x : steps e init x [] x
| steps_cons x l y tr z : step e init x l y -> steps e init y tr z -> steps e init x (l :: tr) z.
