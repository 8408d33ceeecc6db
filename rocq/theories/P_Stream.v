(** Properties C07, C08, C75, C76, C77: sessions of messages. *)
From Verif Require Import GoBase JsonSpec Frame FrameSpec Stream StreamSpec StreamMain StreamMore StreamBytes StreamRfc StreamWitness.

(** C07.  One object in each frame: all of them are decoded, then the end of stream is found. *)
Theorem C07_session : forall unmarshal stream ts sch fuel, is_stream stream ts -> Forall object_text ts -> Forall (accepted unmarshal) ts ->
  Forall (fun m => N.of_nat (length m) <= 1073741824)%N ts -> length ts < fuel ->
  session fuel unmarshal NewDecoder (NewFrameLimitedReader (mkSrc stream EOF sch 0)) = Some (ts, EHeader (Io EOF)).
Proof. exact session_browser. Qed.
Print Assumptions C07_session.

(** Objects of RFC 8259, with whitespace before them, are such objects; nesting is limited by encoding/json. *)
Theorem C07_rfc : forall w l x, space w -> jtext (VObj l) x -> (N.of_nat (nesting (VObj l)) <= 10000)%N -> object_text (w ++ x).
Proof. exact rfc_object. Qed.
Print Assumptions C07_rfc.

Definition ex_messages : list str := [b "{""method"": ""hello"", ""params"": [1.5e3, null]}"; b " {}"; b "{""a"": {""b"": [[], ""\n""]}}"].
Definition ex_stream : str := concat (map ex_frame ex_messages).
Definition ex_any : str -> bool := fun _ => true.
Example C07_example : is_stream ex_stream ex_messages /\
  session 10 ex_any NewDecoder (NewFrameLimitedReader (mkSrc ex_stream EOF (fun i => Nat.modulo i 3) 0)) = Some (ex_messages, EHeader (Io EOF)) /\
  session 10 ex_any NewDecoder (NewFrameLimitedReader (mkSrc ex_stream EOF (fun _ => 1000) 0)) = Some (ex_messages, EHeader (Io EOF)).
Proof. split; [apply ex_framed; repeat constructor|]. vm_compute. split; reflexivity. Qed.
Example C07_example_hypotheses : Forall object_text [b "{}"; b "{ }"] /\ Forall (accepted ex_any) [b "{}"; b "{ }"].
Proof.
  split; [|repeat constructor]. constructor; [apply (ex_empty []); constructor|]. constructor; [|constructor]. apply (ex_empty (b " ")). constructor; [cbn; tauto|constructor].
Qed.

(** Strings may have bytes that are not UTF-8 and surrogates without a pair. *)
Example C07_example_loose : object_text (b "{""" ++ ["255"%char] ++ b "\ud800"":""""}").
Proof.
  exists [], 1, (b """" ++ ["255"%char] ++ b "\ud800"":""""}"). split; [constructor|]. split; [|split; [cbn; lia|reflexivity]].
  apply (gt_obj 0 (b """" ++ ["255"%char] ++ b "\ud800"":""""")). apply (gm_one 0 [] [] [] [] (b """" ++ ["255"%char] ++ b "\ud800""") (b """""")); try (apply Forall_nil).
  - exists ("255"%char :: b "\ud800"). split; [|reflexivity]. apply gc_plain; [vm_compute; discriminate|discriminate|discriminate|]. apply (gc_code "d" "8" "0" "0" []); [exists 13%N|exists 8%N|exists 0%N|exists 0%N|constructor]; unfold hex_digit; cbn; lia.
  - apply gt_str. exists []. split; [constructor|reflexivity].
Qed.

(** C08 (finding).  With newlines after objects (json.Encoder) either all messages are decoded or some number of them, and then the session fails. *)
Theorem C08_session : forall unmarshal stream ts sch fuel, is_stream stream (map (fun t => t ++ newline) ts) -> Forall object_text ts -> Forall (accepted unmarshal) ts ->
  Forall (fun m => N.of_nat (length m) < 1073741824)%N ts -> length ts < fuel ->
  session fuel unmarshal NewDecoder (NewFrameLimitedReader (mkSrc stream EOF sch 0)) = Some (with_newlines ts, EHeader (Io EOF)) \/
  exists k, 0 < k <= length ts /\ session fuel unmarshal NewDecoder (NewFrameLimitedReader (mkSrc stream EOF sch 0)) = Some (with_newlines (firstn k ts), EHeader ErrReadBody).
Proof. exact session_go. Qed.
Print Assumptions C08_session.
(** Unless the whole frame is fetched, nothing more is ever read. *)
Theorem C08_stuck : forall unmarshal d r, Nleft r <> 0%N -> ReadMessage unmarshal d r = (Err (EHeader ErrReadBody), d, r).
Proof. exact stuck_message. Qed.
Print Assumptions C08_stuck.
(** When the stream delivers as much as is requested, the failure after the first message is determined by its size: 512, 1536, 3584... *)
Theorem C08_greedy : forall unmarshal stream t ms sch, is_stream stream ((t ++ newline) :: ms) -> object_text t -> accepted unmarshal t -> (N.of_nat (length t) < 1073741824)%N ->
  (forall i, length stream <= sch i) ->
  exists d' r', ReadMessage unmarshal NewDecoder (NewFrameLimitedReader (mkSrc stream EOF sch 0)) = (Ok t, d', r') /\
    (fst (ReadHeader r') = Err ErrReadBody <-> exists k, N.of_nat (length t) = (512 * (2 ^ k - 1))%N).
Proof. exact greedy_first. Qed.
Print Assumptions C08_greedy.

(** Messages shorter than 512 bytes are safe when the stream delivers as much as is requested. *)
Theorem C08_short : forall unmarshal stream ts sch fuel, is_stream stream (map (fun t => t ++ newline) ts) -> Forall object_text ts -> Forall (accepted unmarshal) ts ->
  Forall (fun m => length m < 512) ts -> length ts < fuel -> (forall i, length stream <= sch i) ->
  session fuel unmarshal NewDecoder (NewFrameLimitedReader (mkSrc stream EOF sch 0)) = Some (with_newlines ts, EHeader (Io EOF)).
Proof. exact session_short. Qed.
Print Assumptions C08_short.

Definition ex_wide (n : nat) : str := b "{" ++ repeat " "%char (n - 2) ++ b "}".
Definition ex_lines (ms : list str) : str := concat (map ex_frame (map (fun t => t ++ newline) ms)).
Definition ex_greedy (n : nat) : option (nat * rerr) :=
  option_map (fun x => (length (fst x), snd x)) (session 10 ex_any NewDecoder (NewFrameLimitedReader (mkSrc (ex_lines [ex_wide n; b "{}"]) EOF (fun _ => 4500) 0))).
Example C08_example : map ex_greedy [511; 512; 513; 1535; 1536; 1537; 3584] =
  [Some (2, EHeader (Io EOF)); Some (1, EHeader ErrReadBody); Some (2, EHeader (Io EOF)); Some (2, EHeader (Io EOF)); Some (1, EHeader ErrReadBody); Some (2, EHeader (Io EOF)); Some (1, EHeader ErrReadBody)].
Proof. vm_compute. reflexivity. Qed.
(** A single byte chunks: the newline is never fetched together with the object. *)
Example C08_example_slow : session 10 ex_any NewDecoder (NewFrameLimitedReader (mkSrc (ex_lines [b "{}"; b "{}"]) EOF (fun _ => 1) 0)) = Some ([b "{}"], EHeader ErrReadBody).
Proof. vm_compute. reflexivity. Qed.
Theorem C08_refuted : ~ forall unmarshal stream ts sch fuel, is_stream stream (map (fun t => t ++ newline) ts) -> Forall object_text ts -> Forall (accepted unmarshal) ts ->
  Forall (fun m => N.of_nat (length m) < 1073741824)%N ts -> length ts < fuel -> (forall i, length stream <= sch i) ->
  session fuel unmarshal NewDecoder (NewFrameLimitedReader (mkSrc stream EOF sch 0)) = Some (with_newlines ts, EHeader (Io EOF)).
Proof.
  intros H. specialize (H ex_any (ex_lines [ex_wide 512; b "{}"]) [ex_wide 512; b "{}"] (fun _ => 4500) 10).
  assert (E : session 10 ex_any NewDecoder (NewFrameLimitedReader (mkSrc (ex_lines [ex_wide 512; b "{}"]) EOF (fun _ => 4500) 0)) = Some ([ex_wide 512], EHeader ErrReadBody)) by (vm_compute; reflexivity).
  rewrite E in H. enough (X : Some ([ex_wide 512], EHeader ErrReadBody) = Some (with_newlines [ex_wide 512; b "{}"], EHeader (Io EOF))) by discriminate X. apply H.
  - apply (ex_framed (map (fun t => t ++ newline) [ex_wide 512; b "{}"])). repeat constructor.
  - constructor; [|constructor; [apply (ex_empty []); constructor|constructor]]. apply ex_empty. apply Forall_forall. intros c I. apply repeat_spec in I. subst c. cbn. tauto.
  - repeat constructor.
  - repeat constructor; apply N.ltb_lt; vm_compute; reflexivity.
  - cbn. lia.
  - intros _. apply Nat.leb_le. vm_compute. reflexivity.
Qed.
Print Assumptions C08_refuted.

(** C75.  A frame with a beginning of an object: previous messages are decoded, following frames are not; bytes of them are never taken as a continuation. *)
Theorem C75_truncated : forall unmarshal stream ts p q ms sch fin fuel, is_stream stream (ts ++ p :: ms) -> Forall object_text ts -> Forall (accepted unmarshal) ts ->
  Forall (fun m => N.of_nat (length m) <= 1073741824)%N ts -> q <> [] -> object_text (p ++ q) -> ~ space p -> (N.of_nat (length p) <= 1073741824)%N -> length ts < fuel ->
  session fuel unmarshal NewDecoder (NewFrameLimitedReader (mkSrc stream fin sch 0)) = Some (ts, EDecode (EInput UnexpectedEOF)).
Proof. exact session_partial. Qed.
Print Assumptions C75_truncated.
(** (Finding)  If there are only spaces in the frame, then the session ends with the error that means the stream has been closed. *)
Theorem C75_blank : forall unmarshal stream ts p ms sch fin fuel, is_stream stream (ts ++ p :: ms) -> Forall object_text ts -> Forall (accepted unmarshal) ts ->
  Forall (fun m => N.of_nat (length m) <= 1073741824)%N ts -> space p -> (N.of_nat (length p) <= 1073741824)%N -> length ts < fuel ->
  session fuel unmarshal NewDecoder (NewFrameLimitedReader (mkSrc stream fin sch 0)) = Some (ts, EDecode (EInput EOF)).
Proof. exact session_blank. Qed.
Print Assumptions C75_blank.
Example C75_example :
  session 10 ex_any NewDecoder (NewFrameLimitedReader (mkSrc (concat (map ex_frame [b "{}"; b "{""a"": [1"; b "]}"; b "{}"])) EOF (fun _ => 1000) 0)) = Some ([b "{}"], EDecode (EInput UnexpectedEOF)) /\
  session 10 ex_any NewDecoder (NewFrameLimitedReader (mkSrc (concat (map ex_frame [b "{}"; b " "; b "{}"])) EOF (fun _ => 1000) 0)) = Some ([b "{}"], EDecode (EInput EOF)) /\
  session 10 ex_any NewDecoder (NewFrameLimitedReader (mkSrc (concat (map ex_frame [b "{}"; b ""; b "{}"])) EOF (fun _ => 1) 0)) = Some ([b "{}"], EDecode (EInput EOF)) /\
  object_text (b "{ " ++ b "}").
Proof. split; [vm_compute; reflexivity|]. split; [vm_compute; reflexivity|]. split; [vm_compute; reflexivity|]. apply (ex_empty (b " ")). constructor; [cbn; tauto|constructor]. Qed.

(** C76 (finding).  Two objects in a frame: the message in the next frame is never decoded, even though its frame has been accepted. *)
Theorem C76_two : forall unmarshal stream t1 t2 t3 ms sch fin fuel, is_stream stream ((t1 ++ t2) :: t3 :: ms) -> object_text t1 -> object_text t2 -> t3 <> [] -> accepted unmarshal t1 -> accepted unmarshal t2 ->
  (N.of_nat (length (t1 ++ t2)) <= 1073741824)%N -> (N.of_nat (length t3) <= 1073741824)%N -> 2 < fuel ->
  session fuel unmarshal NewDecoder (NewFrameLimitedReader (mkSrc stream fin sch 0)) = Some ([t1], EHeader ErrReadBody) \/
  session fuel unmarshal NewDecoder (NewFrameLimitedReader (mkSrc stream fin sch 0)) = Some ([t1; t2], EHeader ErrReadBody).
Proof. exact session_two. Qed.
Print Assumptions C76_two.
Example C76_example :
  session 10 ex_any NewDecoder (NewFrameLimitedReader (mkSrc (concat (map ex_frame [b "{}{ }"; b "{""id"": 1}"])) EOF (fun _ => 1000) 0)) = Some ([b "{}"; b "{ }"], EHeader ErrReadBody) /\
  session 10 ex_any NewDecoder (NewFrameLimitedReader (mkSrc (concat (map ex_frame [b "{}{ }"; b "{""id"": 1}"])) EOF (fun _ => 1) 0)) = Some ([b "{}"], EHeader ErrReadBody).
Proof. vm_compute. split; reflexivity. Qed.

(** C77.  Whatever the stream is, only texts of JSON values that are suitable for the structure of a message are passed further. *)
Theorem C77_values : forall unmarshal stream fin sch fuel ts e, session fuel unmarshal NewDecoder (NewFrameLimitedReader (mkSrc stream fin sch 0)) = Some (ts, e) ->
  Forall (fun t => value_text t /\ unmarshal t = true) ts.
Proof. exact session_values. Qed.
Print Assumptions C77_values.
(** They are consecutive bytes of bodies of frames: nothing is lost between them, and bytes of headers are not taken. *)
Theorem C77_bytes : forall unmarshal stream fin sch fuel ts e, session fuel unmarshal NewDecoder (NewFrameLimitedReader (mkSrc stream fin sch 0)) = Some (ts, e) ->
  exists z, bodies stream (concat ts ++ z).
Proof. exact session_bodies. Qed.
Print Assumptions C77_bytes.
(** Any session ends, so there is no stream that makes the decoder loop. *)
Theorem C77_total : forall unmarshal stream fin sch fuel, length stream / 4 < fuel ->
  exists ts e, session fuel unmarshal NewDecoder (NewFrameLimitedReader (mkSrc stream fin sch 0)) = Some (ts, e) /\ e <> EDecode EFuel /\ e <> EHeader FuelOut /\ 4 * length ts <= length stream.
Proof. exact session_total. Qed.
Print Assumptions C77_total.
(** Bytes that are not UTF-8 in a string, a number at the end of the frame, then various errors *)
Example C77_example :
  let odd := b "{""" ++ [ascii_of_nat 255] ++ b """: -0.5E+1}" in
  session 10 ex_any NewDecoder (NewFrameLimitedReader (mkSrc (concat (map ex_frame [odd; b "[1, 2]"; b "{""a"": 01}"])) EOF (fun _ => 1000) 0)) = Some ([odd; b "[1, 2]"], EDecode ESyntax) /\
  session 10 ex_any NewDecoder (NewFrameLimitedReader (mkSrc (concat (map ex_frame [b "12"; b "3"; b "x"])) EOF (fun _ => 1000) 0)) = Some ([b "12"; b "3"], EDecode ESyntax) /\
  session 10 ex_any NewDecoder (NewFrameLimitedReader (mkSrc (concat (map ex_frame [b "{}"; b "{'a': 1}"])) EOF (fun _ => 0) 0)) = Some ([b "{}"], EDecode ESyntax).
Proof. vm_compute. repeat split; reflexivity. Qed.
