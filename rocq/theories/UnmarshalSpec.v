(** Specification of decoding of requests: how values of JSON are understood. *)
From Verif Require Import GoBase Utf8 JsonSpec Json Frame FrameSpec StreamSpec Backend Server.

(** Names of members are compared regardless of case; U+017F and U+212A are letters "s" and "k". *)
Definition same_letter (r : rune) (c : ascii) : Prop :=
  let n := N_of_ascii c in
  (r = n \/ (65 <= r <= 90 /\ n = r + 32) \/ (65 <= n <= 90 /\ r = n + 32) \/ (r = 383 /\ (n = 83 \/ n = 115)) \/ (r = 8490 /\ (n = 75 \/ n = 107)))%N.
Definition same_name (k : list rune) (name : str) : Prop := Forall2 same_letter k name.
Definition has (l : list (list rune * value)) (name : str) (v : value) : Prop := exists k, In (k, v) l /\ same_name k name.
(** Names of members of objects are different even if case is ignored. *)
Definition different (l : list (list rune * value)) : Prop :=
  forall l1 k1 v1 l2 k2 v2 l3 name, l = l1 ++ (k1, v1) :: l2 ++ (k2, v2) :: l3 -> same_name k1 name -> same_name k2 name -> False.
Inductive tidy : value -> Prop :=
| td_null : tidy VNull
| td_bool v : tidy (VBool v)
| td_num t : jnumber t -> tidy (VNum t)
| td_str s : tidy (VStr s)
| td_arr l : Forall tidy l -> tidy (VArr l)
| td_obj l : different l -> Forall (fun m => tidy (snd m)) l -> tidy (VObj l).

(** Meaning of values: null and absence of a member are the same. *)
Definition a_string (v : value) (s : str) : Prop := (v = VNull /\ s = []) \/ exists rs, v = VStr rs /\ s = string_of rs.
(** Integer numbers without a fraction and an exponent *)
Definition an_int (v : value) (n : Z) : Prop :=
  (v = VNull /\ n = 0%Z) \/ exists t, v = VNum t /\ (t = integer n \/ (t = b "-0" /\ n = 0%Z)) /\ (- 9223372036854775808 <= n <= 9223372036854775807)%Z.
Definition optional {A} (R : value -> A -> Prop) (v : value) (o : option A) : Prop := (v = VNull /\ o = None) \/ (v <> VNull /\ exists x, o = Some x /\ R v x).
Definition a_list {A} (R : value -> A -> Prop) (v : value) (l : list A) : Prop := (v = VNull /\ l = []) \/ exists vs, v = VArr vs /\ Forall2 R vs l.
(** Numbers of a value, they have to be in the range of float64 when it is decoded with no regard to its structure. *)
Inductive occurs (t : str) : value -> Prop :=
| oc_num : occurs t (VNum t)
| oc_arr l v : In v l -> occurs t v -> occurs t (VArr l)
| oc_obj l k v : In (k, v) l -> occurs t v -> occurs t (VObj l).
Definition anything (float_ok : str -> bool) (v : value) (given : bool) : Prop := (given = true <-> v <> VNull) /\ forall t, occurs t v -> float_ok t = true.
Definition a_map (float_ok : str -> bool) (v : value) : Prop := (v = VNull \/ exists l, v = VObj l) /\ forall t, occurs t v -> float_ok t = true.
Inductive field {A} (l : list (list rune * value)) (name : str) (R : value -> A -> Prop) (zero : A) : A -> Prop :=
| fi_given v a : has l name v -> R v a -> field l name R zero a
| fi_absent : (forall v, ~ has l name v) -> field l name R zero zero.
(** A member of which only the type matters *)
Definition checked {A} (l : list (list rune * value)) (name : str) (R : value -> A -> Prop) : Prop := forall v, has l name v -> exists a, R v a.
Definition object {A} (R : list (list rune * value) -> A -> Prop) (v : value) (a : A) : Prop := (v = VNull /\ R [] a) \/ exists l, v = VObj l /\ R l a.

(** Requests *)
Definition a_format (float_ok : str -> bool) : value -> str * str -> Prop :=
  object (fun l a => field l (b "format") a_string [] (fst a) /\ field l (b "version") a_string [] (snd a) /\ checked l (b "options") (fun v (_ : unit) => a_map float_ok v)).
Definition asks_hello (float_ok : str -> bool) : value -> HelloQuery -> Prop :=
  object (fun l q => field l (b "formats") (a_list (a_format float_ok)) [] q /\ checked l (b "version") a_string).
Definition a_page (float_ok : str -> bool) : value -> str -> Prop :=
  object (fun l url => field l (b "url") a_string [] url /\ checked l (b "title") a_string /\ checked l (b "body") (anything float_ok)).
Definition asks_capture (float_ok : str -> bool) : value -> CaptureQuery -> Prop :=
  object (fun l q => field l (b "format") a_string [] (cqFormat q) /\ checked l (b "version") a_string /\ checked l (b "options") (anything float_ok) /\
    field l (b "data") (a_page float_ok) [] (cqUrl q) /\ field l (b "error") (anything float_ok) false (cqError q)).
Definition asks_mentions : value -> UrlMentionsQuery -> Prop :=
  object (fun l q => field l (b "variants") (a_list a_string) [] (mqVariants q) /\
    field l (b "options") (optional (object (fun l n => field l (b "countLimit") an_int 0%Z n))) None (mqLimit q)).
Definition asks_visit : value -> Location -> Prop :=
  object (fun l q => field l (b "file") a_string [] (locFile q) /\ field l (b "lineNo") an_int 0%Z (locLine q)).
Definition asks_search : value -> SearchQuery -> Prop :=
  object (fun l q => field l (b "q") a_string [] (sqQuery q) /\ field l (b "limit") (optional an_int) None (sqLimit q) /\ field l (b "tol") (optional an_int) None (sqTolerance q)).
Definition asks_set : value -> list str -> Prop := object (fun l q => field l (b "prefix") (a_list a_string) [] q).
Definition wants (float_ok : str -> bool) (m : meth) (v : value) (q : request) : Prop :=
  match m with
  | MHello => exists x, q = QHello x /\ asks_hello float_ok v x
  | MCapture => exists x, q = QCapture x /\ asks_capture float_ok v x
  | MUrlMentions => exists x, q = QMentions x /\ asks_mentions v x
  | MVisit => exists x, q = QVisit x /\ asks_visit v x
  | MSearch => exists x, q = QSearch x /\ asks_search v x
  | MLinkSet => exists x, q = QLinkSet x /\ asks_set v x
  end.

(** Messages.  [text_in t v x]: [x] is a text of the value, it is a part of [t]; null is not kept *)
Definition text_in (t : str) (v : value) (o : option str) : Prop :=
  (v = VNull /\ o = None) \/ (v <> VNull /\ exists x y z, o = Some x /\ t = y ++ x ++ z /\ jtext v x).
Definition a_packet (t : str) (v : value) (p : packet) : Prop :=
  object (fun l p => field l (b "method") a_string [] (pmethod p) /\ field l (b "params") (text_in t) None (pparams p) /\ field l (b "id") (text_in t) None (pid p)) v p.
(** A message with a request: an object, there may be white space before it *)
Definition a_message (t : str) (l : list (list rune * value)) : Prop :=
  exists w x, space w /\ jtext (VObj l) x /\ t = w ++ x /\ (N.of_nat (nesting (VObj l)) <= 10000)%N /\ different l /\ checked l (b "method") a_string.

(** Queries of the client.  Bytes that are not UTF-8 are replaced. *)
Definition sent_text (s : str) : str := string_of (runes_of s).
Inductive client_query (parse_int : str -> option Z) : list str -> request -> Prop :=
| cq_mentions urls : client_query parse_int (b "mentions" :: urls) (QMentions (mkMentions (map sent_text urls) None))
| cq_set prefixes : client_query parse_int (b "set" :: prefixes) (QLinkSet (map sent_text prefixes))
| cq_capture uri : client_query parse_int [b "capture"; uri] (QCapture (mkCapture (b "org-protocol") (sent_text uri) false))
| cq_visit path : client_query parse_int [b "visit"; b "--file"; path] (QVisit (mkLocation (sent_text path) 0))
| cq_visit_line path line n : parse_int line = Some n -> (- 9223372036854775808 <= n <= 9223372036854775807)%Z ->
    client_query parse_int [b "visit"; b "--line"; line; b "--file"; path] (QVisit (mkLocation (sent_text path) n)).
