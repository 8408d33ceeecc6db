(** Properties of decoding of requests: from bytes of a stream to queries. *)
From Verif Require Import GoBase Utf8 JsonSpec Json JsonProofs Frame FrameSpec Stream StreamSpec StreamWitness Backend ReplySpec Server ServerSpec Tools Unmarshal UnmarshalSpec ParseProofs PacketProofs UnmarshalWitness CompactProofs.

(** C83.  Any JSON text is read as its value; no text that is accepted by the scanner leads to a panic. *)
Theorem C83_document : forall v t, jdocument v t -> parse t = Some v.
Proof. exact document_parsed. Qed.
Print Assumptions C83_document.
Theorem C83_total : forall t, value_text t -> exists v, parse t = Some v.
Proof. exact value_parsed. Qed.
Print Assumptions C83_total.

Definition ex_json : json := JObj [(b "VARIANTS", JArr [JStr (b "http://a.org/"); JNull]); (b "options", JObj [(b "countlimit", JInt (-3))]); (b "other", JArr [JBool true; JObj []])].
Example C83_example : jdocument (value_of ex_json) (encode ex_json) /\ parse (encode ex_json) = Some (value_of ex_json) /\
  encode ex_json = b "{""VARIANTS"":[""http://a.org/"",null],""options"":{""countlimit"":-3},""other"":[true,{}]}".
Proof. split; [apply text_document, encode_ok|]. vm_compute. split; reflexivity. Qed.
(** Invalid UTF-8 and a surrogate without a pair *)
Example C83_example_loose : parse (b "[""" ++ ["255"%char] ++ b "\" ++ b "ud800"", 1]") = Some (VArr [VStr [65533; 65533]%N; VNum (b "1")]).
Proof. vm_compute. reflexivity. Qed.

(** C84.  Parameters are decoded to a query in accordance with their meaning, otherwise there is an error.  Extra parameters are ignored. *)
Theorem C84_params : forall float_ok message m t v vs q, jdocument (VArr (v :: vs)) t -> tidy v -> (argument (go_decoders float_ok message) m t = Ok q <-> wants float_ok m v q).
Proof. exact params_exact. Qed.
Print Assumptions C84_params.
(** No parameters are the same as an empty object. *)
Theorem C84_empty : forall float_ok message m t, jdocument (VArr []) t -> argument (go_decoders float_ok message) m t = argument (go_decoders float_ok message) m (b "[{}]").
Proof. exact params_none. Qed.
Print Assumptions C84_empty.
(** Named parameters are not supported. *)
Theorem C84_named : forall float_ok message m t v, jdocument v t -> v <> VNull -> (forall l, v <> VArr l) -> argument (go_decoders float_ok message) m t = Err (message m t).
Proof. exact params_bad. Qed.
Print Assumptions C84_named.

Definition ex_message (m : meth) (t : str) : str := b "error".
Definition ex_float (t : str) : bool := true.
Example C84_example : jdocument (VArr [value_of ex_json; VNull]) (b "[" ++ encode ex_json ++ b ", null]") /\ tidy (value_of ex_json) /\
  argument (go_decoders ex_float ex_message) MUrlMentions (b "[" ++ encode ex_json ++ b ", null]") = Ok (QMentions (mkMentions [b "http://a.org/"; []] (Some (-3)%Z))).
Proof.
  split.
  - apply text_document. exact (jt_arr _ _ (ji_more [] [] _ _ _ _ space_nil space_nil (encode_ok ex_json) (ji_one (b " ") [] _ _ ltac:(repeat constructor; cbn; tauto) space_nil jt_null))).
  - split; [apply neat_tidy; vm_compute; reflexivity|vm_compute; reflexivity].
Qed.
Example C84_example_error : argument (go_decoders ex_float ex_message) MUrlMentions (b "[{""variants"":[1]}]") = Err (b "error") /\
  argument (go_decoders ex_float ex_message) MVisit (b "[{""file"":""x"",""lineNo"":1e2}]") = Err (b "error") /\
  argument (go_decoders ex_float ex_message) MUrlMentions (b "{""variants"":[]}") = Err (b "error") /\
  argument (go_decoders ex_float ex_message) MVisit (b "[]") = Ok (QVisit (mkLocation [] 0)).
Proof. vm_compute. auto. Qed.
(** However a repeated member is not replaced by the last one. *)
Theorem C84_refuted : ~ forall float_ok message m l l' t t', jdocument (VArr [VObj (l ++ l')]) t -> jdocument (VArr [VObj l']) t' -> (forall k v, In (k, v) l -> exists v', In (k, v') l') ->
  argument (go_decoders float_ok message) m t = argument (go_decoders float_ok message) m t'.
Proof.
  intros H. specialize (H ex_float ex_message MUrlMentions [(runes_of (b "variants"), VArr [VStr (runes_of (b "a")); VStr (runes_of (b "b"))])] [(runes_of (b "variants"), VArr [VNull])]
    (encode (JArr [JObj [(b "variants", JArr [JStr (b "a"); JStr (b "b")]); (b "variants", JArr [JNull])]])) (encode (JArr [JObj [(b "variants", JArr [JNull])]]))).
  assert (E : forall A B (x y : A) (u v : B), (x, u) = (y, v) -> x = y) by congruence.
  specialize (H ltac:(apply text_document; exact (encode_ok (JArr [JObj [(b "variants", JArr [JStr (b "a"); JStr (b "b")]); (b "variants", JArr [JNull])]])))).
  specialize (H ltac:(apply text_document; exact (encode_ok (JArr [JObj [(b "variants", JArr [JNull])]])))).
  assert (K : argument (go_decoders ex_float ex_message) MUrlMentions (encode (JArr [JObj [(b "variants", JArr [JStr (b "a"); JStr (b "b")]); (b "variants", JArr [JNull])]])) =
    argument (go_decoders ex_float ex_message) MUrlMentions (encode (JArr [JObj [(b "variants", JArr [JNull])]]))).
  { apply H. intros k v [I|[]]. injection I as <- <-. eexists. left. reflexivity. }
  vm_compute in K. discriminate K.
Qed.
Print Assumptions C84_refuted.

(** C85.  A message is a request when its method is a string; a request has that method, texts of its parameters and of its identifier. *)
Theorem C85_request : forall t l, jdocument (VObj l) t -> different l ->
  (forall p, request_packet t = Some p -> a_packet t (VObj l) p) /\ ((exists p, request_packet t = Some p) <-> checked l (b "method") a_string).
Proof. exact packet_exact. Qed.
Print Assumptions C85_request.
Theorem C85_other : forall t v, jdocument v t -> (forall l, v <> VObj l) -> request_packet t = match v with VNull => Some (mkPacket None [] None) | _ => None end.
Proof. exact packet_other. Qed.
Print Assumptions C85_other.
(** Messages of a stream become requests, each one in its turn. *)
Theorem C85_stream : forall stream msgs sch fuel, is_stream stream (map fst msgs) -> Forall (fun m => a_message (fst m) (snd m)) msgs ->
  Forall (fun m => N.of_nat (length (fst m)) <= 1073741824)%N msgs -> length msgs < fuel ->
  exists ps, requests fuel (mkSrc stream EOF sch 0) = Some (ps, EHeader (Io EOF)) /\ Forall2 (fun m p => a_packet (fst m) (VObj (snd m)) p) msgs ps.
Proof. exact requests_exact. Qed.
Print Assumptions C85_stream.
(** What is called *)
Theorem C85_meaning : forall float_ok message t l p rs m v vs q, a_packet t (VObj l) p -> different l -> has l (b "method") (VStr rs) -> serves (string_of rs) m ->
  has l (b "params") (VArr (v :: vs)) -> tidy v -> (meaning (go_decoders float_ok message) p (Ok q) <-> wants float_ok m v q).
Proof. exact meaning_exact. Qed.
Print Assumptions C85_meaning.
(** Value of the identifier in a response is the same as in its request, null if it is absent. *)
Theorem C85_id : forall c tr k t0 l p i t, nth_error (received tr) k = Some p -> a_packet t0 (VObj l) p -> different l -> (has l (b "id") i \/ (i = VNull /\ forall v, ~ has l (b "id") v)) ->
  responds c tr k t ->
  exists result error, jdocument (VObj [(ReplySpec.name (b "id"), i); (ReplySpec.name (b "result"), result); (ReplySpec.name (b "error"), error)]) t.
Proof. exact response_id. Qed.
Print Assumptions C85_id.

Definition ex_visit : json := JObj [(b "id", JArr [JInt 7]); (b "Method", JStr (b "burl.visit")); (b "params", JArr [JObj [(b "file", JStr (b "n.org")); (b "lineNo", JInt 12)]])].
Definition ex_members : list (list rune * value) := match value_of ex_visit with VObj l => l | _ => [] end.
Example C85_example : a_message (b " " ++ encode ex_visit) ex_members /\
  requests 5 (mkSrc (ex_frame (b " " ++ encode ex_visit) ++ ex_frame (b "{}")) EOF (fun i => Nat.modulo i 7) 0) =
    Some ([mkPacket (Some (b "[7]")) (b "burl.visit") (Some (b "[{""file"":""n.org"",""lineNo"":12}]")); mkPacket None [] None], EHeader (Io EOF)) /\
  argument (go_decoders ex_float ex_message) MVisit (b "[{""file"":""n.org"",""lineNo"":12}]") = Ok (QVisit (mkLocation (b "n.org") 12)).
Proof.
  split; [|vm_compute; split; reflexivity]. exists (b " "), (encode ex_visit). split; [repeat constructor; cbn; tauto|]. split; [exact (encode_ok ex_visit)|]. split; [reflexivity|]. split; [vm_compute; discriminate|].
  split; [apply different_keys, nodupb_ok; vm_compute; reflexivity|]. intros v (k & I & F). exists (b "burl.visit"). vm_compute in I. repeat destruct I as [I|I]; try contradiction; injection I as <- <-; try (right; eexists; split; [reflexivity|vm_compute; reflexivity]);
    exfalso; apply UnmarshalProofs.fold_name in F; vm_compute in F; discriminate F.
Qed.
(** A message that is not a request ends reading. *)
Example C85_example_bad : requests 5 (mkSrc (ex_frame (b "{""method"":1}") ++ ex_frame (b "{}")) EOF (fun _ => 100) 0) = Some ([], EUnmarshal).
Proof. vm_compute. reflexivity. Qed.

(** C86.  Requests of the client are decoded to what has been asked in its command line. *)
Theorem C86_client : forall parse_int queries q float_ok message, client_query parse_int queries q -> exists method query, subcommand parse_int queries = CCall method query /\
  forall id, exists p i, request_packet (client_request method query id) = Some p /\ meaning (go_decoders float_ok message) p (Ok q) /\ number id i /\ id_shown (pid p) i.
Proof. exact client_round. Qed.
Print Assumptions C86_client.
Example C86_example : client_query (fun _ => Some 12%Z) [b "visit"; b "--line"; b "0xC"; b "--file"; b "n.org"] (QVisit (mkLocation (b "n.org") 12)).
Proof. apply (cq_visit_line _ (b "n.org") (b "0xC") 12); [reflexivity|split; discriminate]. Qed.
