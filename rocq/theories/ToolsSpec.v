(** Specification of command line tools and of the wrapper. *)
From Verif Require Import GoBase Utf8 Flags LinkTypes FrameSpec JsonSpec ReplySpec Emacs Backend Tools.

(** Results of programs for some answers to reading of files *)
Inductive gives {A} : hprog A -> list (str * rres) -> A -> Prop :=
| g_ret a : gives (HRet a) [] a
| g_read name k r reads a : gives (k r) reads a -> gives (HRead name k) ((name, r) :: reads) a.

(** Files in arguments: their kinds are determined by their names. *)
Definition file_source (file : str) (s : source) : Prop := snd s = file /\ (fst s = Org <-> exists p, file = p ++ b ".org").
(** Sources of links: those from options, then arguments; standard input if there is nothing else *)
Definition tool_sources (options : list source) (files : list str) (srcs : list source) : Prop :=
  (options = [] /\ files = [] /\ srcs = [(Txt, b "-")]) \/
  ((options <> [] \/ files <> []) /\ exists l, srcs = options ++ l /\ Forall2 file_source files l).

(** Arguments that are left when there are no options *)
Inductive remaining : list str -> list str -> Prop :=
| rem_nil : remaining [] []
| rem_separator rest : remaining (b "--" :: rest) rest
| rem_dash rest : remaining (b "-" :: rest) (b "-" :: rest)
| rem_plain s rest : (forall x, s <> "-"%char :: x) -> remaining (s :: rest) (s :: rest).

(** Requests of the client *)
Inductive client_asks (parse_int : str -> option Z) : list str -> str -> value -> Prop :=
| ca_mentions urls : client_asks parse_int (b "mentions" :: urls) (b "linkremark.urlMentions") (VObj [(name (b "variants"), VArr (map text urls))])
| ca_set prefixes : client_asks parse_int (b "set" :: prefixes) (b "linkremark.linkSet") (VObj [(name (b "prefix"), VArr (map text prefixes))])
| ca_capture uri : client_asks parse_int [b "capture"; uri] (b "linkremark.capture")
    (VObj [(name (b "format"), text (b "org-protocol")); (name (b "version"), text (b "0.2"));
           (name (b "data"), VObj [(name (b "url"), text uri); (name (b "title"), text []); (name (b "body"), VNull)]); (name (b "error"), VNull)])
| ca_visit path : client_asks parse_int [b "visit"; b "--file"; path] (b "linkremark.visit")
    (VObj [(name (b "file"), text path); (name (b "lineNo"), VNum (b "0"))])
| ca_visit_line path line n t : parse_int line = Some n -> number n (VNum t) -> client_asks parse_int [b "visit"; b "--line"; line; b "--file"; path] (b "linkremark.visit")
    (VObj [(name (b "file"), text path); (name (b "lineNo"), VNum t)]).

(** Path in the message of the wrapper: backslashes and quotes are replaced. *)
Definition shown_char (r : rune) : rune := if (r =? 92)%N then 47%N else if (r =? 34)%N then 39%N else r.
