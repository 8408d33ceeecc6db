(** Properties C39, C40, C41: options of the backend. *)
From Verif Require Import GoBase Flags FlagsSpec FlagsProofs.

(** C39.  The list after any history of values (rejected values included). *)
Theorem C39_values : forall defaults vs, slice (history defaults vs) = expected defaults vs.
Proof. exact history_values. Qed.
Print Assumptions C39_values.

(** A value is rejected if and only if it is empty and the first value was not. *)
Theorem C39_rejected : forall defaults vs v,
  mSet (history defaults vs) v = None <-> v = [] /\ exists v0 vs', vs = v0 :: vs' /\ v0 <> [].
Proof. exact history_rejects. Qed.
Print Assumptions C39_rejected.

Example C39_example :
  slice (history [b "doi"; b "mid"] (map b ["x"; ""; "y"]%string)) = map b ["doi"; "mid"; "x"; "y"]%string /\
  slice (history [b "doi"; b "mid"] (map b [""; "x"; ""; "y"; "z"]%string)) = map b ["y"; "z"]%string.
Proof. split; reflexivity. Qed.

(** C40.  Saved modifications are accepted by a new option and make it equal to the saved one. *)
Theorem C40_restored : forall defaults vs, exists saved,
  ModifiedValues (history defaults vs) = Done saved /\
  replay (NewMultiStringFlag defaults) saved = Some (history defaults vs).
Proof. exact (fun defaults vs => restore defaults (history defaults vs) (inv_history defaults vs)). Qed.
Print Assumptions C40_restored.

Example C40_example :
  ModifiedValues (history [b "doi"; b "mid"] (map b ["x"; ""; "y"]%string)) = Done (map b ["x"; "y"]%string) /\
  ModifiedValues (history [b "doi"; b "mid"] (map b [""; "x"; ""; "y"]%string)) = Done (map b [""; "y"]%string) /\
  ModifiedValues (history [b "doi"; b "mid"] []) = Done [].
Proof. repeat split; reflexivity. Qed.

(** C41.  The command line stored in the wrapper, as it is read by the shell and parsed again, gives the
    same configuration and starts the backend. *)
Theorem C41_wrapper_configuration : forall schemes users mozilla chrome q c,
  quoting q -> reachable schemes users mozilla chrome c ->
  exists r, AsShellCommand q c = Done r /\
  forall ws, r = Some ws ->
  exists args c', sh_split (join_blank ws) = Some args /\ parse_args (defaults schemes users mozilla chrome) args = Some c' /\
    same_backend c c' /\
    WrapperPath c' = [] /\ FirefoxManifest c' = [] /\ ChromeManifest c' = [] /\ Help c' = false /\ Version c' = false.
Proof. exact wrapper_round_trip. Qed.
Print Assumptions C41_wrapper_configuration.

(** The command line can be created if values can be quoted. *)
Theorem C41_total : forall schemes users mozilla chrome q c,
  reachable schemes users mozilla chrome c -> (forall v, q v <> None) ->
  exists ws, AsShellCommand q c = Done (Some ws).
Proof. exact reachable_shell_total. Qed.
Print Assumptions C41_total.

Theorem C41_quoting_exists : quoting simple_quote.
Proof. exact simple_quote_ok. Qed.
Print Assumptions C41_quoting_exists.

Definition ex_defaults := defaults [b "doi"; b "https?"; b "mid"] [] [b "m"] [b "c"].
Definition ex_args : list str :=
  map b ["-wrapper"; "/tmp/w"; "-log=/a b"; "--scheme"; ""; "--scheme=file"; "--disable-link-set"; "-emacsclient"; "it's"; "-emacsarg=-s x";
         "--org"; "/n.org"; "--"; "-x.txt"; "y.org"]%string.
Example C41_example : exists c, parse_args ex_defaults ex_args = Some c /\
  reachable [b "doi"; b "https?"; b "mid"] [] [b "m"] [b "c"] c /\
  AsShellCommand simple_quote c = Done (Some (map b
    ["--log"; "'/a b'"; "--disable-link-set=true"; "--emacsclient='it'\''s'"; "--emacsarg='-s x'"; "--scheme=''"; "--scheme='file'";
     "--org='/n.org'"; "--txt='-x.txt'"; "--org='y.org'"]%string)).
Proof.
  eexists. split; [reflexivity|]. split; [|reflexivity].
  exists ex_args. eexists. split; [reflexivity|]. do 2 eexists. reflexivity.
Qed.

(** Quoting by means of $'...' (done by /usr/bin/printf for control characters) is not POSIX quoting. *)
Example C41_dollar_example : sh_split (b "--org=''$'\n'") = None.
Proof. reflexivity. Qed.
