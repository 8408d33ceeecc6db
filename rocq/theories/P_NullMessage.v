(** Property C122: messages that are not objects (pkg/webextensions/server.go:37-42). *)
From Verif Require Import GoBase Utf8 JsonSpec Json Backend Server Unmarshal UnmarshalSpec Client NullMessage ArrayMessage Frame FrameSpec Stream StreamSpec StreamWitness.

(** C122.  A null in a frame is a request with no method, no parameters, and no identifier; reading goes on. *)
Theorem C122_null : forall stream msgs w msgs' sch fuel, is_stream stream (map fst msgs ++ (w ++ b "null") :: map fst msgs') -> Forall (fun m => a_message (fst m) (snd m)) (msgs ++ msgs') ->
  Forall (fun m => N.of_nat (length (fst m)) <= 1073741824)%N (msgs ++ msgs') -> space w -> (N.of_nat (length (w ++ b "null")) <= 1073741824)%N -> Datatypes.S (length (msgs ++ msgs')) < fuel ->
  exists ps ps', requests fuel (mkSrc stream EOF sch 0) = Some (ps ++ mkPacket None [] None :: ps', EHeader (Io EOF)) /\
    Forall2 (fun m p => a_packet (fst m) (VObj (snd m)) p) msgs ps /\ Forall2 (fun m p => a_packet (fst m) (VObj (snd m)) p) msgs' ps'.
Proof. exact requests_null. Qed.
Print Assumptions C122_null.
Example C122_example : is_stream (concat (map ex_frame [b "{}"; b " null"; b "{}"])) (map fst [(b "{}", @nil (list rune * value))] ++ (b " " ++ b "null") :: map fst [(b "{}", @nil (list rune * value))]) /\ space (b " ") /\ a_message (b "{}") [] /\
  requests 5 (mkSrc (concat (map ex_frame [b "{}"; b " null"; b "{}"])) EOF (fun i => Nat.modulo i 3) 0) = Some ([mkPacket None [] None; mkPacket None [] None; mkPacket None [] None], EHeader (Io EOF)).
Proof.
  split; [apply (ex_framed [b "{}"; b " null"; b "{}"]); repeat constructor|]. split; [repeat constructor; cbn; tauto|]. split; [exact ex_empty_message|vm_compute; reflexivity].
Qed.

(** C122.  A number, a string, a true, or a false in a frame ends reading after requests before it. *)
Theorem C122_scalar : forall stream msgs w x v ms fin sch fuel, is_stream stream (map fst msgs ++ (w ++ x) :: ms) -> Forall (fun m => a_message (fst m) (snd m)) msgs ->
  Forall (fun m => N.of_nat (length (fst m)) <= 1073741824)%N msgs -> space w -> jtext v x -> v <> VNull -> (forall l, v <> VObj l) -> (forall l, v <> VArr l) -> (N.of_nat (length (w ++ x)) <= 1073741824)%N -> length msgs < fuel ->
  exists ps, requests fuel (mkSrc stream fin sch 0) = Some (ps, EUnmarshal) /\ Forall2 (fun m p => a_packet (fst m) (VObj (snd m)) p) msgs ps.
Proof. exact requests_scalar. Qed.
Print Assumptions C122_scalar.
Example C122_example_scalar : is_stream (concat (map ex_frame [b "{}"; b "-12"; b "{}"])) (map fst [(b "{}", @nil (list rune * value))] ++ ([] ++ b "-12") :: [b "{}"]) /\ jtext (VNum (b "-12")) (b "-12") /\
  requests 5 (mkSrc (concat (map ex_frame [b "{}"; b "-12"; b "{}"])) EOF (fun i => Nat.modulo i 3) 0) = Some ([mkPacket None [] None], EUnmarshal).
Proof.
  split; [apply (ex_framed [b "{}"; b "-12"; b "{}"]); repeat constructor|]. split; [exact (JsonProofs.encode_ok (JInt (-12)))|vm_compute; reflexivity].
Qed.

(** C122.  An array in a frame ends reading as soon as its closing bracket is read, whatever is after it, even if the rest of the frame never comes. *)
Theorem C122_array : forall s1 msgs h size w x l y fin sch fuel, is_stream s1 (map fst msgs) -> Forall (fun m => a_message (fst m) (snd m)) msgs -> Forall (fun m => N.of_nat (length (fst m)) <= 1073741824)%N msgs ->
  space w -> jtext (VArr l) x -> (N.of_nat (nesting (VArr l)) <= 10000)%N -> is_header h size -> (N.of_nat (length (w ++ x)) <= size <= 1073741824)%N -> length msgs < fuel ->
  exists ps, requests fuel (mkSrc (s1 ++ h ++ w ++ x ++ y) fin sch 0) = Some (ps, EUnmarshal) /\ Forall2 (fun m p => a_packet (fst m) (VObj (snd m)) p) msgs ps.
Proof. exact requests_array. Qed.
Print Assumptions C122_array.
Example C122_example_array : jtext (VArr [VNum (b "1"); VArr []]) (b "[1,[]]") /\ (N.of_nat (nesting (VArr [VNum (b "1"); VArr []])) <= 10000)%N /\ is_header (map ascii_of_N [255; 1; 0; 0]%N) 511 /\
  requests 5 (mkSrc (ex_frame (b "{}") ++ map ascii_of_N [255; 1; 0; 0]%N ++ [] ++ b "[1,[]]" ++ b "}") EOF (fun i => Nat.modulo i 3) 0) = Some ([mkPacket None [] None], EUnmarshal).
Proof.
  split; [exact (JsonProofs.encode_ok (JArr [JInt 1; JArr []]))|]. split; [vm_compute; discriminate|]. split; [|vm_compute; reflexivity].
  exists (ascii_of_N 255), (ascii_of_N 1), (ascii_of_N 0), (ascii_of_N 0). split; reflexivity.
Qed.

(** C122.  A client reads responses before a scalar, then reading ends.  There is no exception for null. *)
Theorem C122_client : forall f stream (ts : list str) w x v ms fin sch fuel, is_stream stream (ts ++ (w ++ x) :: ms) -> Forall object_text ts -> Forall (accepted (is_response f)) ts -> Forall (fun m => N.of_nat (length m) <= 1073741824)%N ts ->
  space w -> jtext v x -> (forall l, v <> VObj l) -> (forall l, v <> VArr l) -> (N.of_nat (length (w ++ x)) <= 1073741824)%N -> length ts < fuel ->
  exists hs, responses f fuel (mkSrc stream fin sch 0) = Some (hs, EUnmarshal) /\ Forall2 (fun t h => response_header f t = Some h) ts hs.
Proof. exact responses_scalar. Qed.
Print Assumptions C122_client.
Example C122_example_client : is_stream (concat (map ex_frame [b "{""result"":1}"; b "null"])) ([b "{""result"":1}"] ++ ([] ++ b "null") :: []) /\ jtext VNull (b "null") /\
  responses (fun _ => true) 5 (mkSrc (concat (map ex_frame [b "{""result"":1}"; b "null"])) EOF (fun i => Nat.modulo i 3) 0) = Some ([(0%N, Ok (b "1"))], EUnmarshal).
Proof. split; [apply (ex_framed [b "{""result"":1}"; b "null"]); repeat constructor|]. split; [constructor|vm_compute; reflexivity]. Qed.
