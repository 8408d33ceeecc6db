(** Properties C120 and C61: messages that are not JSON since their first byte (pkg/webextensions/frame.go, server.go, client.go). *)
From Verif Require Import GoBase JsonSpec Tools ToolsProofs BadStart Frame FrameSpec Stream StreamSpec StreamWitness.

(** C120.  If the body of a frame begins with a byte that is neither white space nor a beginning of a value then reading ends with a syntax error after messages in frames before it. It does not matter
    what is after this byte, how long the frame is, and how the stream ends; nothing is waited for. *)
Theorem C120_syntax : forall unmarshal s1 ts h size c x fin sch fuel, is_stream s1 ts -> Forall object_text ts -> Forall (accepted unmarshal) ts -> Forall (fun m => N.of_nat (length m) <= 1073741824)%N ts ->
  is_header h size -> (0 < size <= 1073741824)%N -> ~ space [c] -> ~ In c (b "{[""-0123456789tfn") -> length ts < fuel ->
  session fuel unmarshal NewDecoder (NewFrameLimitedReader (mkSrc (s1 ++ h ++ c :: x) fin sch 0)) = Some (ts, EDecode ESyntax).
Proof. exact session_start. Qed.
Print Assumptions C120_syntax.
Example C120_example : session 5 (fun _ => true) NewDecoder (NewFrameLimitedReader (mkSrc (ex_frame (b "{}") ++ map ascii_of_N [255; 1; 0; 0]%N ++ b "usage") EOF (fun i => Nat.modulo i 3) 0)) = Some ([b "{}"], EDecode ESyntax).
Proof. vm_compute. reflexivity. Qed.

(** C61.  A client that is written in Go gets a syntax error instead of a long message of the wrapper. *)
Theorem C61_client : forall unmarshal exe fin sch fuel, (256 <= length (wrapper_error exe))%nat -> (N.of_nat (length (wrapper_error exe)) < 4096)%N -> 0 < fuel ->
  session fuel unmarshal NewDecoder (NewFrameLimitedReader (mkSrc (wrapper_output (fun s => N.of_nat (length s)) exe) fin sch 0)) = Some ([], EDecode ESyntax).
Proof. exact wrapper_client. Qed.
Print Assumptions C61_client.
Example C61_example_client : let exe := b "/" ++ repeat "d"%char 220 in
  session 2 (fun _ => true) NewDecoder (NewFrameLimitedReader (mkSrc (wrapper_output (fun s => N.of_nat (length s)) exe) EOF (fun i => i) 0)) = Some ([], EDecode ESyntax).
Proof. vm_compute. reflexivity. Qed.
