(** Property C61: messages of the wrapper for long paths and for paths with control characters (cmd/burl_backend/install.go). *)
From Verif Require Import GoBase Frame FrameSpec StreamSpec Tools ToolsProofs WrapperLong.

(** C61 (finding).  A message of 256-4095 bytes is preceded by a header with a size that is allowed and greater than size of everything that is printed after it: the least digit
    of the length is taken as a byte.  So the message is never completed. *)
Theorem C61_long : forall size exe, let n := N.of_nat (length (wrapper_error exe)) in size (wrapper_error exe) = n -> (256 <= n < 4096)%N ->
  exists c h rest declared, nth_error (b "0123456789abcdef") (N.to_nat (n mod 16)) = Some c /\ wrapper_output size exe = h ++ rest /\ declared = (n / 16 + 256 * byte_value c)%N /\
    is_header h declared /\ (declared <= 1073741824)%N /\ (N.of_nat (length rest) < declared)%N.
Proof. exact wrapper_long. Qed.
Print Assumptions C61_long.
Example C61_example_long : let exe := b "/" ++ repeat "d"%char 220 in length (wrapper_error exe) = 268 /\
  firstn 7 (wrapper_output (fun s => N.of_nat (length s)) exe) = [ascii_of_N 16; "c"%char; ascii_of_N 0; ascii_of_N 0; ascii_of_N 0; "{"%char; ascii_of_N 34].
Proof. vm_compute. split; reflexivity. Qed.

(** The message is an object that is accepted by Go, whether the path is valid UTF-8 or not, if and only if there are no control characters in the path; newlines at its end are dropped. *)
Theorem C61_text : forall exe, object_text (wrapper_error exe) <-> exists p n, exe = p ++ repeat (ascii_of_N 10) n /\ Forall (fun c => 32 <= N_of_ascii c)%N p.
Proof. exact wrapper_text. Qed.
Print Assumptions C61_text.
Example C61_example_text : object_text (wrapper_error (b "/a\""" ++ [ascii_of_N 255; ascii_of_N 10])) /\ ~ object_text (wrapper_error (b "/a" ++ [ascii_of_N 9] ++ b "b")).
Proof.
  split; [apply wrapper_text; exists (b "/a\""" ++ [ascii_of_N 255]), 1; split; [reflexivity|repeat constructor; discriminate]|].
  intros H. apply wrapper_text in H. destruct H as (p & n & E & F). destruct p as [|c1 [|c2 [|c3 p]]]; [destruct n; discriminate E|destruct n as [|[|]]; discriminate E|destruct n as [|[|]]; discriminate E|].
  injection E as _ _ <- _. inversion_clear F as [|? ? _ F1]. inversion_clear F1 as [|? ? _ F2]. inversion_clear F2 as [|? ? L _]. apply L. reflexivity.
Qed.
