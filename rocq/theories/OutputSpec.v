(** Specification of output of burl_tool and of manifests as JSON documents. *)
From Coq Require Import Permutation.
From Verif Require Import GoBase Utf8 Utf8Dec Flags LinkTypes LinkTree LinkSpec ScannerSpec ExtractSpec SetSpec JsonSpec ReplySpec Backend BackendSpec Manifest ToolsSpec PrintSpec.

(** ** Command line of burl_tool *)
Definition dashes (d : str) : Prop := d = b "-" \/ d = b "--".
(** An option with a value is one or two words. *)
Definition option_words (name value : str) (w : list str) : Prop :=
  exists d, dashes d /\ (w = [d ++ name; value] \/ w = [d ++ name ++ b "=" ++ value]).
(** Words, files and prefixes *)
Inductive tool_words : list str -> list source -> list str -> Prop :=
| tw_nil : tool_words [] [] []
| tw_txt v w ws files prefixes : option_words (b "txt") v w -> tool_words ws files prefixes -> tool_words (w ++ ws) ((Txt, v) :: files) prefixes
| tw_org v w ws files prefixes : option_words (b "org") v w -> tool_words ws files prefixes -> tool_words (w ++ ws) ((Org, v) :: files) prefixes
| tw_set v w ws files prefixes : option_words (b "set") v w -> tool_words ws files prefixes -> tool_words (w ++ ws) files (v :: prefixes).
Definition help_word (w : str) : Prop :=
  exists d n, dashes d /\ (n = b "h" \/ n = b "help") /\ (w = d ++ n \/ exists v, w = d ++ n ++ b "=" ++ v).
(** Options and other arguments *)
Definition tool_line (args : list str) (files : list source) (prefixes rest : list str) : Prop :=
  exists ws more, args = ws ++ more /\ tool_words ws files prefixes /\ remaining more rest.
Definition tool_help (args : list str) : Prop :=
  exists ws files prefixes h more, args = ws ++ h :: more /\ tool_words ws files prefixes /\ help_word h.

(** ** Output *)
Definition line_break : ascii := ascii_of_nat 10.
(** One item in each line *)
Definition lines_text (l : list str) (t : str) : Prop := t = concat (map (fun x => x ++ [line_break]) l) /\ Forall (fun x => ~ In line_break x) l.
(** A JSON document with indentation, a line break at the end *)
Definition shown_text (v : value) (t : str) : Prop := exists x, laid 0 v x /\ t = x ++ [line_break] /\ forall v', jdocument v' t <-> v' = v.

(** ** Manifests *)
Definition manifest_value (m : manifest) : value :=
  VObj ([(name (b "name"), text (mName m)); (name (b "description"), text (mDescription m)); (name (b "path"), text (mPath m)); (name (b "type"), text (mType m))] ++
        match mOrigins m with [] => [] | l => [(name (b "allowed_origins"), VArr (map text l))] end ++
        match mExtensions m with [] => [] | l => [(name (b "allowed_extensions"), VArr (map text l))] end).
