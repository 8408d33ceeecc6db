(** Specification of the command line of the backend. *)
From Verif Require Import GoBase Flags FlagsSpec ToolsSpec OutputSpec.

(** ** Words *)

(** options without a value and options with a value *)
Definition switches : list str := map b ["h"; "help"; "version"; "v"; "V"; "disable-link-set"; "force"]%string.
Definition settings : list str := map b ["log"; "scheme"; "emacsclient"; "emacsarg"; "txt"; "org"; "backend"; "wrapper";
  "manifest-firefox"; "mozilla-extension"; "manifest-chrome"; "chrome-extension"]%string.

(** [line args l rest]: the command line has options [l], names and values, and other arguments [rest] *)
Inductive line : list str -> list (str * str) -> list str -> Prop :=
| l_rest args rest : remaining args rest -> line args [] rest
| l_setting n v w args l rest : In n settings -> option_words n v w -> line args l rest -> line (w ++ args) ((n, v) :: l) rest
| l_on n d args l rest : In n switches -> dashes d -> line args l rest -> line ((d ++ n) :: args) ((n, b "true") :: l) rest
| l_switch n v d args l rest : In n switches -> dashes d -> line args l rest -> line ((d ++ n ++ b "=" ++ v) :: args) ((n, v) :: l) rest.

(** ** Values *)

(** all values of options with these names *)
Definition said (names : list str) (l : list (str * str)) : list str := map snd (filter (fun x => existsb (str_eqb (fst x)) names) l).

Definition truth (v : str) (x : bool) : Prop :=
  x = true /\ In v (map b ["1"; "t"; "T"; "true"; "TRUE"; "True"]%string) \/ x = false /\ In v (map b ["0"; "f"; "F"; "false"; "FALSE"; "False"]%string).

(** An empty value may not follow another one unless the first one is empty. *)
Definition repeated_ok (vs : list str) : Prop := match vs with [] => True | v :: more => v = [] \/ ~ In [] more end.
Definition repeated : list str := map b ["scheme"; "emacsarg"; "mozilla-extension"; "chrome-extension"]%string.
Definition acceptable (l : list (str * str)) : Prop :=
  (forall n v, In (n, v) l -> In n switches -> exists x, truth v x) /\ (forall n, In n repeated -> repeated_ok (said [n] l)).

(** The last value counts. *)
Definition last_value (name : string) (l : list (str * str)) (dflt : str) : str := last (said [b name] l) dflt.
Definition switched (names : list string) (l : list (str * str)) (x : bool) : Prop := truth (last (said (map b names) l) (b "false")) x.
(** All values count. *)
Definition values (f : mflag) (dflt : list str) (name : string) (l : list (str * str)) : Prop :=
  slice f = expected dflt (said [b name] l) /\ (IsModified f = true <-> said [b name] l <> []).
(** files in the order of options *)
Definition given_sources (l : list (str * str)) : list source :=
  flat_map (fun x => if str_eqb (fst x) (b "org") then [(Org, snd x)] else if str_eqb (fst x) (b "txt") then [(Txt, snd x)] else []) l.

(** Files are also other arguments, an extension tells the format. *)
Inductive by_extension : list str -> list source -> Prop :=
| be_nil : by_extension [] []
| be_org x names l : by_extension names l -> by_extension ((x ++ b ".org") :: names) ((Org, x ++ b ".org") :: l)
| be_txt name names l : (forall x, name <> x ++ b ".org") -> by_extension names l -> by_extension (name :: names) ((Txt, name) :: l).

(** options [c] of a program that is started with arguments [args] *)
Definition configured (schemes users mozilla chrome args : list str) (c : config) : Prop :=
  exists l rest more, line args l rest /\ acceptable l /\ by_extension rest more /\
  LinkSources c = given_sources l ++ more /\
  LogFile c = last_value "log" l (b "-") /\ Command c = last_value "emacsclient" l (b "emacsclient") /\ Name c = last_value "backend" l [] /\
  WrapperPath c = last_value "wrapper" l [] /\ FirefoxManifest c = last_value "manifest-firefox" l [] /\ ChromeManifest c = last_value "manifest-chrome" l [] /\
  values (Scheme c) schemes "scheme" l /\ values (EmacsArgs c) users "emacsarg" l /\
  values (MozillaExtensionID c) mozilla "mozilla-extension" l /\ values (ChromeExtensionID c) chrome "chrome-extension" l /\
  switched ["h"; "help"]%string l (Help c) /\ switched ["version"; "v"; "V"]%string l (Version c) /\
  switched ["disable-link-set"]%string l (DisableLinkSet c) /\ switched ["force"]%string l (Force c).
