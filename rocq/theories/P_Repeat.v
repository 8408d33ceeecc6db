(** Properties of decoding of requests with repeated members. *)
From Verif Require Import GoBase Utf8 JsonSpec Json JsonProofs Backend Server Unmarshal UnmarshalSpec PacketProofs RepeatSpec RepeatProofs.

(** C105.  Parameters of any structure are decoded to a query if and only if members, each put over previous ones with the same name, give that query. *)
Theorem C105_params : forall float_ok message m t v vs q, jdocument (VArr (v :: vs)) t -> (argument (go_decoders float_ok message) m t = Ok q <-> demands float_ok v m q).
Proof. exact params_repeated. Qed.
Print Assumptions C105_params.
(** The same for messages: parameters and identifiers are the last ones. *)
Theorem C105_packet : forall t l, jdocument (VObj l) t -> (forall p, request_packet t = Some p -> merged_packet t l p) /\ ((exists p, request_packet t = Some p) <-> checked l (b "method") a_string).
Proof. exact packet_repeated. Qed.
Print Assumptions C105_packet.

Definition ex_message (m : meth) (t : str) : str := b "error".
Definition ex_float (t : str) : bool := true.
(** null has no effect on a string, but it removes a limit. *)
Definition ex_search : json := JObj [(b "q", JStr (b "a")); (b "limit", JInt 5); (b "tol", JNull); (b "Q", JNull); (b "tol", JInt 2); (b "limit", JNull)].
Example C105_example : jdocument (VArr [value_of ex_search]) (b "[" ++ encode ex_search ++ b "]") /\ argument (go_decoders ex_float ex_message) MSearch (b "[" ++ encode ex_search ++ b "]") = Ok (QSearch (mkSearch (b "a") None (Some 2%Z))).
Proof. split; [apply text_document; exact (jt_arr _ _ (ji_one [] [] _ _ ltac:(constructor) ltac:(constructor) (encode_ok ex_search)))|vm_compute; reflexivity]. Qed.
(** Objects are merged, elements of a list are put over hidden ones. *)
Definition ex_mentions : json := JObj [(b "options", JObj [(b "countLimit", JInt 7)]); (b "variants", JArr [JStr (b "a"); JStr (b "b")]); (b "options", JObj []); (b "variants", JArr [JStr (b "c")]); (b "variants", JArr [JNull; JNull; JNull])].
Example C105_example_merged : argument (go_decoders ex_float ex_message) MUrlMentions (b "[" ++ encode ex_mentions ++ b "]") = Ok (QMentions (mkMentions [b "c"; b "b"; []] (Some 7%Z))).
Proof. vm_compute. reflexivity. Qed.
(** A number that is too large is an error even if it is replaced later. *)
Example C105_example_error : argument (go_decoders ex_float ex_message) MVisit (b "[{""lineNo"":9223372036854775808,""lineNo"":1}]") = Err (b "error").
Proof. vm_compute. reflexivity. Qed.
Example C105_example_packet : request_packet (b "{""id"":1,""method"":""a"",""ID"":null,""Method"":null,""id"": 2 ,""params"":[],""params"":{}}") = Some (mkPacket (Some (b "2")) (b "a") (Some (b "{}"))).
Proof. vm_compute. reflexivity. Qed.
