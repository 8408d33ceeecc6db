(** Specification of replies in JSON. *)
From Coq Require Import Permutation.
From Verif Require Import GoBase Utf8 Utf8Dec JsonSpec LinkTypes ExtractSpec Backend BackendSpec.

(** Texts: every byte that is not a part of a character is replaced by U+FFFD. *)
Definition text (s : str) : value := VStr (runes_of s).
Definition name (s : str) : list rune := runes_of s.
Definition number (n : Z) (v : value) : Prop :=
  exists d, ((0 <= n)%Z /\ v = VNum d /\ denotes d n) \/ ((n < 0)%Z /\ v = VNum (b "-" ++ d) /\ denotes d (- n)).
(** Order of members of an object is arbitrary. *)
Definition object (v : value) (l : list (list rune * value)) : Prop := exists l', Permutation l l' /\ v = VObj l'.

Definition link_shown (l : link) (v : value) : Prop :=
  exists n, number (Z.of_nat (LineNo l)) n /\
  object v ([(name (b "_type"), text (b "Link")); (name (b "url"), text (URL l)); (name (b "lineNo"), n)]
            ++ if list_eq_dec ascii_dec (Description l) [] then [] else [(name (b "descr"), text (Description l))]).

(** Members that describe a heading, a file, a group of files *)
Inductive props_shown : props -> list (list rune * value) -> Prop :=
| ps_file path : props_shown (PFile path) [(name (b "_type"), text (b "File")); (name (b "path"), text path)]
| ps_group : props_shown PFileGroup [(name (b "_type"), text (b "FileGroup"))]
| ps_heading h n : number (Z.of_nat (hLineNo h)) n ->
    props_shown (PHeading (Some h)) [(name (b "_type"), text (b "Heading")); (name (b "lineNo"), n); (name (b "rawText"), text (hRawText h))].

(** A group of a single file is shown as the file. *)
Inductive shown : cnode -> value -> Prop :=
| sh_single k t c v : shown c v -> shown (CInner k t PFileGroup [c]) v
| sh_body k t ls vs kn tn v : Forall2 link_shown ls vs -> number k kn -> number t tn ->
    object v [(name (b "_type"), text (b "Body")); (name (b "total"), kn); (name (b "filtered"), tn); (name (b "links"), VArr vs)] ->
    shown (CLeaf k t ls) v
| sh_inner k t p ch vs kn tn ps v : (p <> PFileGroup \/ length ch <> 1) -> shown_list ch vs -> number k kn -> number t tn -> props_shown p ps ->
    object v ([(name (b "total"), kn); (name (b "filtered"), tn); (name (b "children"), VArr vs)] ++ ps) ->
    shown (CInner k t p ch) v
with shown_list : list cnode -> list value -> Prop :=
| shl_nil : shown_list [] []
| shl_cons c v cs vs : shown c v -> shown_list cs vs -> shown_list (c :: cs) (v :: vs).

(** Properties of inner nodes of a reply; links with properties of nodes above them *)
Fixpoint inner_props (c : cnode) : list props :=
  match c with
  | CLeaf _ _ _ => []
  | CInner _ _ p ch => p :: flat_map inner_props ch
  end.
Fixpoint cpaths (c : cnode) : list (list props * link) :=
  match c with
  | CLeaf _ _ ls => map (fun l => ([], l)) ls
  | CInner _ _ p ch => map (fun x => (p :: fst x, snd x)) (flat_map cpaths ch)
  end.
(** Nothing to show *)
Definition missing (p : props) : Prop := p = PNil \/ p = PHeading None.
(** Headings around the line [n]; [hs]: headings of all lines *)
Definition enclosing (n : nat) (hs : list (option (nat * heading))) : list heading := map snd (fold_left enter (firstn n hs) []).

(** Results of requests, null for an error *)
Inductive result_shown : reply -> value -> Prop :=
| rs_error e : result_shown (PError e) VNull
| rs_hello f ver caps v :
    object v [(name (b "format"), text f); (name (b "version"), text ver);
              (name (b "capabilities"), match caps with [] => VNull | _ => VArr (map text caps) end);
              (name (b "options"), VObj [(name (b "clipboardForBody"), VBool false)])] -> result_shown (PHello f ver caps) v
| rs_capture p s v : object v [(name (b "preview"), VBool p); (name (b "status"), text s)] -> result_shown (PCapture p s) v
| rs_mentions c v : shown c v -> result_shown (PMentions c) v
| rs_visit : result_shown PVisit (VBool true)
| rs_search urls vs : Forall2 (fun u v => object v [(name (b "url"), text u)]) urls vs -> result_shown (PSearch urls) (VArr vs)
| rs_set urls v : object v [(name (b "urls"), VArr (map text urls))] -> result_shown (PLinkSet urls) v.
