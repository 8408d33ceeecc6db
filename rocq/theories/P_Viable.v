(** Property C121: messages that stop being beginnings of JSON objects (pkg/webextensions/frame.go, server.go, client.go). *)
From Verif Require Import GoBase JsonSpec Viable ViableMore Frame FrameSpec Stream StreamSpec StreamWitness.

(** C121.  A message is an object up to some byte: what is before the byte may be completed to a JSON object, but together with the byte it may not. All messages before it are read, then reading ends
    with a syntax error, whatever is after the byte, whatever parts the stream is read in, and even if the rest of the frame never comes. *)
Theorem C121_syntax : forall unmarshal s1 ts h size w z q c x fin sch fuel, is_stream s1 ts -> Forall object_text ts -> Forall (accepted unmarshal) ts -> Forall (fun m => N.of_nat (length m) <= 1073741824)%N ts ->
  space w -> object_text (w ++ b "{" ++ z ++ q) -> q <> [] -> (forall x, ~ object_text (w ++ b "{" ++ z ++ c :: x)) ->
  is_header h size -> (N.of_nat (length (w ++ b "{" ++ z)) < size <= 1073741824)%N -> length ts < fuel ->
  session fuel unmarshal NewDecoder (NewFrameLimitedReader (mkSrc (s1 ++ h ++ w ++ b "{" ++ z ++ c :: x) fin sch 0)) = Some (ts, EDecode ESyntax).
Proof. exact session_broken. Qed.
Print Assumptions C121_syntax.
Example C121_hypotheses : space [] /\ object_text ([] ++ b "{" ++ b """a"":1," ++ b """b"":2}") /\ b """b"":2}" <> [] /\ (forall x, ~ object_text ([] ++ b "{" ++ b """a"":1," ++ "}"%char :: x)).
Proof. split; [constructor|]. split; [exact ex_viable|]. split; [discriminate|exact ex_broken]. Qed.
Example C121_example : session 5 (fun _ => true) NewDecoder (NewFrameLimitedReader (mkSrc (ex_frame (b "{}") ++ ex_frame (b "{""a"":1,} ""tail"": {}") ++ ex_frame (b "{}")) EOF (fun i => Nat.modulo i 3) 0)) = Some ([b "{}"], EDecode ESyntax).
Proof. vm_compute. reflexivity. Qed.
Example C121_example_cut : session 5 (fun _ => true) NewDecoder (NewFrameLimitedReader (mkSrc (map ascii_of_N [255; 1; 0; 0]%N ++ b "{""a"":1,}") EOF (fun i => i) 0)) = Some ([], EDecode ESyntax).
Proof. vm_compute. reflexivity. Qed.

(** C121.  If a whole frame is in the stream and its body begins as an object then there are no other reasons of syntax errors: one is reported instead of this message if and only if there is such byte in the body. *)
Theorem C121_exact : forall unmarshal s1 ts f w y s2 fin sch fuel, is_stream s1 ts -> Forall object_text ts -> Forall (accepted unmarshal) ts -> Forall (fun m => N.of_nat (length m) <= 1073741824)%N ts ->
  space w -> is_frame f (w ++ b "{" ++ y) -> (N.of_nat (length (w ++ b "{" ++ y)) <= 1073741824)%N -> length ts < fuel ->
  session fuel unmarshal NewDecoder (NewFrameLimitedReader (mkSrc (s1 ++ f ++ s2) fin sch 0)) = Some (ts, EDecode ESyntax) <->
  exists z q c x, y = z ++ c :: x /\ q <> [] /\ object_text (w ++ b "{" ++ z ++ q) /\ (forall x, ~ object_text (w ++ b "{" ++ z ++ c :: x)).
Proof. exact session_wrong. Qed.
Print Assumptions C121_exact.
Example C121_example_exact : exists z q c x, b """a"":1,}" = z ++ c :: x /\ q <> [] /\ object_text ([] ++ b "{" ++ z ++ q) /\ (forall x, ~ object_text ([] ++ b "{" ++ z ++ c :: x)).
Proof. exists (b """a"":1,"), (b """b"":2}"), "}"%char, []. split; [reflexivity|]. split; [discriminate|]. split; [exact ex_viable|exact ex_broken]. Qed.
Example C121_example_unfinished : session 5 (fun _ => true) NewDecoder (NewFrameLimitedReader (mkSrc (ex_frame (b "{""a"":1,") ++ ex_frame (b "{}")) EOF (fun i => i) 0)) = Some ([], EDecode (EInput UnexpectedEOF)).
Proof. vm_compute. reflexivity. Qed.
