(** Specification of decoding of requests that have several members with the same name: each one is put over what previous ones have left. *)
From Verif Require Import GoBase Utf8 JsonSpec Json Backend Server UnmarshalSpec.

(** [P v x y]: a variable has been [x], it is [y] after the value [v].  null does not change strings, integers and structures *)
Definition put_string (v : value) (x y : str) : Prop := (v = VNull /\ y = x) \/ exists rs, v = VStr rs /\ y = string_of rs.
Definition put_int (v : value) (x y : Z) : Prop := (v = VNull /\ y = x) \/ (v <> VNull /\ an_int v y).
Definition put_object {A} (R : list (list rune * value) -> A -> A -> Prop) (v : value) (x y : A) : Prop := (v = VNull /\ y = x) \/ exists l, v = VObj l /\ R l x y.
(** but resets pointers, lists and values of any type. *)
Definition put_optional {A} (zero : A) (P : value -> A -> A -> Prop) (v : value) (x y : option A) : Prop :=
  (v = VNull /\ y = None) \/ (v <> VNull /\ exists a, y = Some a /\ P v (match x with Some a => a | None => zero end) a).
Definition put_anything (float_ok : str -> bool) (v : value) (_ : bool) (y : bool) : Prop := anything float_ok v y.
(** A list: its elements and ones of its predecessors, that are hidden behind its end.  Elements are put over previous ones. *)
Inductive put_each {A} (zero : A) (P : value -> A -> A -> Prop) : list value -> list A -> list A * list A -> Prop :=
| pe_end h : put_each zero P [] h ([], h)
| pe_over v vs x h y l h' : P v x y -> put_each zero P vs h (l, h') -> put_each zero P (v :: vs) (x :: h) (y :: l, h')
| pe_fresh v vs y l h' : P v zero y -> put_each zero P vs [] (l, h') -> put_each zero P (v :: vs) [] (y :: l, h').
Definition put_list {A} (zero : A) (P : value -> A -> A -> Prop) (v : value) (x y : list A * list A) : Prop :=
  ((v = VNull \/ v = VArr []) /\ y = ([], [])) \/ exists vs, v = VArr vs /\ vs <> [] /\ put_each zero P vs (fst x ++ snd x) y.
(** Members with the name one after another *)
Inductive gathered {A} (P : value -> A -> A -> Prop) (name : str) : list (list rune * value) -> A -> A -> Prop :=
| ga_end x : gathered P name [] x x
| ga_same k v l x y z : same_name k name -> P v x y -> gathered P name l y z -> gathered P name ((k, v) :: l) x z
| ga_other k v l x z : ~ same_name k name -> gathered P name l x z -> gathered P name ((k, v) :: l) x z.

(** Requests *)
Definition put_format (float_ok : str -> bool) : value -> str * str -> str * str -> Prop :=
  put_object (fun l x y => gathered put_string (b "format") l (fst x) (fst y) /\ gathered put_string (b "version") l (snd x) (snd y) /\ checked l (b "options") (fun v (_ : unit) => a_map float_ok v)).
Definition put_page (float_ok : str -> bool) : value -> str -> str -> Prop :=
  put_object (fun l x y => gathered put_string (b "url") l x y /\ checked l (b "title") a_string /\ checked l (b "body") (anything float_ok)).
Definition put_limit : value -> Z -> Z -> Prop := put_object (fun l x y => gathered put_int (b "countLimit") l x y).
(** [v]: the query, it begins with empty values *)
Definition fields (v : value) (l : list (list rune * value)) : Prop := (v = VNull /\ l = []) \/ v = VObj l.
Inductive demands (float_ok : str -> bool) (v : value) : meth -> request -> Prop :=
| de_hello l q h : fields v l -> gathered (put_list ([], []) (put_format float_ok)) (b "formats") l ([], []) (q, h) -> checked l (b "version") a_string -> demands float_ok v MHello (QHello q)
| de_capture l q : fields v l -> gathered put_string (b "format") l [] (cqFormat q) -> checked l (b "version") a_string -> checked l (b "options") (anything float_ok) ->
    gathered (put_page float_ok) (b "data") l [] (cqUrl q) -> gathered (put_anything float_ok) (b "error") l false (cqError q) -> demands float_ok v MCapture (QCapture q)
| de_mentions l q h : fields v l -> gathered (put_list [] put_string) (b "variants") l ([], []) (mqVariants q, h) -> gathered (put_optional 0%Z put_limit) (b "options") l None (mqLimit q) ->
    demands float_ok v MUrlMentions (QMentions q)
| de_visit l q : fields v l -> gathered put_string (b "file") l [] (locFile q) -> gathered put_int (b "lineNo") l 0%Z (locLine q) -> demands float_ok v MVisit (QVisit q)
| de_search l q : fields v l -> gathered put_string (b "q") l [] (sqQuery q) -> gathered (put_optional 0%Z put_int) (b "limit") l None (sqLimit q) ->
    gathered (put_optional 0%Z put_int) (b "tol") l None (sqTolerance q) -> demands float_ok v MSearch (QSearch q)
| de_set l q h : fields v l -> gathered (put_list [] put_string) (b "prefix") l ([], []) (q, h) -> demands float_ok v MLinkSet (QLinkSet q).

(** Messages: the last ones of parameters and of identifiers *)
Definition put_text (t : str) (v : value) (_ : option str) (y : option str) : Prop := text_in t v y.
Definition merged_packet (t : str) (l : list (list rune * value)) (p : packet) : Prop :=
  gathered put_string (b "method") l [] (pmethod p) /\ gathered (put_text t) (b "params") l None (pparams p) /\ gathered (put_text t) (b "id") l None (pid p).
