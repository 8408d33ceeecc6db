(** Specification of repeated options and of the command line kept in the wrapper. *)
From Verif Require Import GoBase Flags.

(** ** Repeated option: history of values *)

(** An option is set to values one after another, a rejected value has no effect. *)
Definition accept (f : mflag) (v : str) : mflag := match mSet f v with Some f' => f' | None => f end.
Definition history (defaults : list str) (vs : list str) : mflag := fold_left accept vs (NewMultiStringFlag defaults).

(** values after the last empty one *)
Fixpoint after_last_empty (vs : list str) (acc : list str) : list str :=
  match vs with
  | [] => acc
  | [] :: vs' => after_last_empty vs' []
  | v :: vs' => after_last_empty vs' (acc ++ [v])
  end.
Definition nonempty (v : str) : bool := match v with [] => false | _ => true end.

(** Expected list: an empty value in the first place discards defaults, then each empty value
    discards previous values.  Otherwise non-empty values are added to defaults. *)
Definition expected (defaults vs : list str) : list str :=
  match vs with
  | [] :: vs' => after_last_empty vs' []
  | _ => defaults ++ filter nonempty vs
  end.

(** ** How sh splits arguments of a simple command into words *)

(** characters that have no special meaning in any position of an argument *)
Definition safe_char (a : ascii) : bool :=
  let n := N_of_ascii a in
  (((48 <=? n) && (n <=? 57)) || ((65 <=? n) && (n <=? 90)) || ((97 <=? n) && (n <=? 122)))%N ||
  existsb (Ascii.eqb a) (b "_-./:,+@=%").

Definition quote1 : ascii := "'"%char.
Definition quote2 : ascii := """"%char.
Definition backslash : ascii := "\"%char.
Definition newline : ascii := "010"%char.
Definition blank : ascii := " "%char.
(** special characters inside double quotes *)
Definition special2 (a : ascii) : bool := existsb (Ascii.eqb a) [quote2; backslash; "$"%char; "`"%char].

(** POSIX shell quoting: text [e] stands for the value [v]. *)
Inductive quoted : str -> str -> Prop :=
| q_nil : quoted [] []
| q_bare a e v : safe_char a = true -> quoted e v -> quoted (a :: e) (a :: v)
| q_back a e v : a <> newline -> quoted e v -> quoted (backslash :: a :: e) (a :: v)
| q_single s e v : ~ In quote1 s -> quoted e v -> quoted (quote1 :: s ++ quote1 :: e) (s ++ v)
| q_double s e v : Forall (fun a => special2 a = false) s -> quoted e v -> quoted (quote2 :: s ++ quote2 :: e) (s ++ v).

(** Splitting into words, None: a construct that is not considered here (expansions, operators). *)
Inductive shstate := SBlank | SWord (w : str) | SBack (w : str) | SSingle (w : str) | SDouble (w : str).
Definition sh_step (s : shstate) (a : ascii) : option (shstate * list str) :=
  let start (w : str) :=
    if Ascii.eqb a quote1 then Some (SSingle w, [])
    else if Ascii.eqb a quote2 then Some (SDouble w, [])
    else if Ascii.eqb a backslash then Some (SBack w, [])
    else if safe_char a then Some (SWord (w ++ [a]), [])
    else None in
  match s with
  | SBlank => if Ascii.eqb a blank then Some (SBlank, []) else start []
  | SWord w => if Ascii.eqb a blank then Some (SBlank, [w]) else start w
  | SBack w => if Ascii.eqb a newline then None else Some (SWord (w ++ [a]), [])
  | SSingle w => if Ascii.eqb a quote1 then Some (SWord w, []) else Some (SSingle (w ++ [a]), [])
  | SDouble w =>
      if Ascii.eqb a quote2 then Some (SWord w, [])
      else if special2 a then None else Some (SDouble (w ++ [a]), [])
  end.
Fixpoint sh_run (s : shstate) (text : str) : option (list str) :=
  match text with
  | [] => match s with SBlank => Some [] | SWord w => Some [w] | _ => None end
  | a :: text' =>
      match sh_step s a with
      | None => None
      | Some (s', ws) => option_map (fun r => ws ++ r) (sh_run s' text')
      end
  end.
Definition sh_split (text : str) : option (list str) := sh_run SBlank text.

(** strings.Join(ws, " ") *)
Fixpoint join_blank (ws : list str) : str :=
  match ws with
  | [] => []
  | [w] => w
  | w :: ws' => w ++ blank :: join_blank ws'
  end.

(** A function that quotes every value it accepts *)
Definition quoting (q : str -> option str) : Prop :=
  forall v e, q v = Some e -> quoted e v /\ e <> [].

(** Options that a running backend has. *)
Definition same_backend (c c' : config) : Prop :=
  LogFile c = LogFile c' /\ DisableLinkSet c = DisableLinkSet c' /\ LinkSources c = LinkSources c' /\
  slice (Scheme c) = slice (Scheme c') /\ IsModified (Scheme c) = IsModified (Scheme c') /\
  slice (EmacsArgs c) = slice (EmacsArgs c') /\ IsModified (EmacsArgs c) = IsModified (EmacsArgs c') /\
  Command c = Command c'.

(** A configuration that is a result of some command line, afterwards names of files may be replaced
    (args.go:73-97 FixPaths). *)
Definition reachable (schemes users mozilla chrome : list str) (c : config) : Prop :=
  exists args c0, parse_args (defaults schemes users mozilla chrome) args = Some c0 /\
    exists log sources, c = with_sources (with_log c0 log) sources.

(** A simple quoting function: everything in single quotes. *)
Fixpoint single_quote (v : str) : str :=
  match v with
  | [] => []
  | a :: v' => if Ascii.eqb a quote1 then quote1 :: backslash :: quote1 :: quote1 :: single_quote v' else a :: single_quote v'
  end.
Definition simple_quote (v : str) : option str := Some (quote1 :: single_quote v ++ [quote1]).
