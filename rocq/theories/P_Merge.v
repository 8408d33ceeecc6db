(** Property C114: responses with repeated members (pkg/webextensions/client.go:41-46). *)
From Verif Require Import GoBase Utf8 JsonSpec Json JsonProofs Unmarshal UnmarshalSpec RepeatSpec Client ClientSpec MergeSpec MergeProofs P_Client.

(** C114.  A response of any structure: its members with the same name replace each other, null does not replace the number of a call. *)
Theorem C114_response : forall f t l, jdocument (VObj l) t ->
  (forall h, response_header f t = Some h -> merged_response t l h) /\ ((exists h, response_header f t = Some h) <-> suitable f l /\ exists h, merged_response t l h).
Proof. exact response_merged. Qed.
Print Assumptions C114_response.

Definition ex_repeated : json := JObj [(b "id", JInt 7); (b "error", JStr (b "no")); (b "result", JNull); (b "ID", JNull); (b "result", JInt 5); (b "error", JNull)].
Example C114_example : jdocument (value_of ex_repeated) (encode ex_repeated) /\ response_header ex_reals (encode ex_repeated) = Some (7%N, Ok (b "5")) /\
  map (response_header ex_reals) [b "{""id"":1,""error"":null,""Error"":""x"",""result"":2}"; b "{""id"":""1"",""id"":1,""result"":2}"; b "{""result"":2,""result"":null}"] = [Some (1%N, Err (b "x")); None; None].
Proof. split; [apply encode_document; reflexivity|]. split; vm_compute; reflexivity. Qed.
