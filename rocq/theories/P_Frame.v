(** Properties C01-C06: framing of native messages. *)
From Verif Require Import GoBase Frame FrameSpec FrameProofs FrameMain.

(** C01.  Messages written one WriteFrame each are read back exactly, whatever
    chunks ([sch]) the transport delivers and whatever buffers ([sizes]) are used. *)
Theorem C01_round_trip : forall (ms : list str) (sch sizes : nat -> nat),
  Forall (fun m => N.of_nat (length m) <= 1073741824)%N ms ->
  exists fuel0, forall fuel, fuel0 <= fuel ->
  let w := fold_left (fun w m => snd (WriteFrame (fbw_write m w))) ms (mkFbw [] (mkSink [] None)) in
  read_all fuel sizes 0 (NewFrameLimitedReader (mkSrc (out (W w)) EOF sch 0)) = Some (ms, Io EOF).
Proof. exact round_trip. Qed.
Print Assumptions C01_round_trip.

Example C01_example :
  let ms := [b "{}"; b ""; b "hello"] in
  let w := fold_left (fun w m => snd (WriteFrame (fbw_write m w))) ms (mkFbw [] (mkSink [] None)) in
  length (out (W w)) = 19 /\
  read_all 100 (fun t => t) 0 (NewFrameLimitedReader (mkSrc (out (W w)) EOF (fun t => Nat.modulo t 2) 0))
  = Some (ms, Io EOF).
Proof. vm_compute. split; reflexivity. Qed.

(** C02.  Whatever calls a client makes, it observes only what the abstract
    reader of frames allows: no byte of another frame, ErrReadBody without
    any effect when the body is not consumed. *)
Theorem C02_frame_boundary : forall stream ms sch (calls : list call),
  is_stream stream ms -> Forall (fun m => N.of_nat (length m) <= 1073741824)%N ms ->
  exists s, arun (Frames [] ms) (fst (crun (NewFrameLimitedReader (mkSrc stream EOF sch 0)) calls)) s.
Proof. exact frame_boundary. Qed.
Print Assumptions C02_frame_boundary.

(** On arbitrary (even malformed) input ReadHeader in the middle of a body changes nothing
    and reads deliver at most what is left of the declared size. *)
Theorem C02_early_header : forall r, Nleft r <> 0%N -> ReadHeader r = (Err ErrReadBody, r).
Proof. exact ReadHeader_early. Qed.
Print Assumptions C02_early_header.

Theorem C02_declared_size : forall r r' calls,
  Nleft r = 0%N -> ReadHeader r = (Ok tt, r') ->
  exists h size, is_header h size /\
  (N.of_nat (length (concat (map data_of (reads_before_header (fst (crun r' calls)))))) <= size)%N /\
  exists tl, rest (R r) = h ++ concat (map data_of (reads_before_header (fst (crun r' calls)))) ++ tl.
Proof. exact declared_size. Qed.
Print Assumptions C02_declared_size.

Definition ex_stream : str := map ascii_of_nat [2;0;0;0;65;66;1;0;0;0;67].
Example C02_example :
  is_stream ex_stream [b "AB"; b "C"] /\
  map snd (fst (crun (NewFrameLimitedReader (mkSrc ex_stream EOF (fun _ => 9) 0))
     [CRead 5; CHeader; CRead 1; CHeader; CRead 5; CRead 5; CHeader; CRead 5; CHeader; CHeader])) =
  [DataErr EOF; HeaderOk; Data (b "A"); HeaderErr ErrReadBody; Data (b "B"); DataErr EOF; HeaderOk;
   Data (b "C"); HeaderErr (Io EOF); HeaderErr ErrReadBody].
Proof.
  split; [|vm_compute; reflexivity].
  apply (stream_cons (map ascii_of_nat [2;0;0;0;65;66]) (b "AB")).
  { exists (map ascii_of_nat [2;0;0;0]). split; [|reflexivity]. do 4 eexists; split; reflexivity. }
  apply (stream_cons (map ascii_of_nat [1;0;0;0;67]) (b "C") []); [|constructor].
  exists (map ascii_of_nat [1;0;0;0]). split; [|reflexivity]. do 4 eexists; split; reflexivity.
Qed.

(** C03.  Classification of every input at a frame boundary. *)
Theorem C03_header_errors : forall r, Nleft r = 0%N -> fin (R r) = EOF ->
  let s := rest (R r) in
  (s = [] -> fst (ReadHeader r) = Err (Io EOF)) /\
  (0 < length s < 4 -> fst (ReadHeader r) = Err (Io UnexpectedEOF)) /\
  (forall h size tl, is_header h size -> s = h ++ tl ->
     fst (ReadHeader r) = (if N.leb size 1073741824 then Ok tt else Err TooLargeError) /\
     rest (R (snd (ReadHeader r))) = tl).
Proof. exact header_errors. Qed.
Print Assumptions C03_header_errors.

(** After any failed header no data is delivered until a header is accepted. *)
Theorem C03_no_data : forall r e r' sizes, Nleft r = 0%N ->
  ReadHeader r = (Err e, r') ->
  concat (map data_of (fst (crun r' (map CRead sizes)))) = [].
Proof. exact no_data. Qed.
Print Assumptions C03_no_data.

(** A header above the limit does not close the reader: next ReadHeader takes
    the first bytes of the body of the rejected frame for a header (the caller must stop,
    and net/rpc does). *)
Theorem C03_resume_after_too_large_refuted :
  ~ (forall r e r', Nleft r = 0%N -> ReadHeader r = (Err e, r') ->
     exists e', fst (ReadHeader r') = Err e').
Proof. exact resume_refuted. Qed.
Print Assumptions C03_resume_after_too_large_refuted.

Example C03_example :
  fst (ReadHeader (NewFrameLimitedReader (mkSrc (map ascii_of_nat [1;0;0;64;7]) EOF (fun _ => 0) 0))) = Err TooLargeError /\
  fst (ReadHeader (NewFrameLimitedReader (mkSrc (map ascii_of_nat [0;0;0;64;7]) EOF (fun _ => 0) 0))) = Ok tt /\
  fst (ReadHeader (NewFrameLimitedReader (mkSrc (map ascii_of_nat [0;0;0]) EOF (fun _ => 0) 0))) = Err (Io UnexpectedEOF).
Proof. vm_compute. repeat split. Qed.

(** C04.  Any history of a writer emits exactly the frames of its messages. *)
Theorem C04_history : forall cs ms p,
  messages [] cs = (ms, p) -> Forall (fun m => N.of_nat (length m) < 4294967296)%N ms ->
  let w := fold_left wstep cs (mkFbw [] (mkSink [] None)) in
  is_stream (out (W w)) ms /\ buf w = p.
Proof. exact writer_history. Qed.
Print Assumptions C04_history.

Theorem C04_one_frame : forall m o, (N.of_nat (length m) < 4294967296)%N ->
  exists f, is_frame f m /\
  WriteFrame (mkFbw m (mkSink o None)) = (Ok tt, mkFbw [] (mkSink (o ++ f) None)).
Proof. exact one_frame. Qed.
Print Assumptions C04_one_frame.

Theorem C04_too_long : forall w, (4294967296 <= N.of_nat (length (buf w)))%N ->
  exists e, fst (WriteFrame w) = Err e.
Proof. exact WriteFrame_too_long. Qed.
Print Assumptions C04_too_long.

Theorem C04_buffer_empty : forall w, buf (snd (WriteFrame w)) = [].
Proof. exact WriteFrame_buf. Qed.
Print Assumptions C04_buffer_empty.

Example C04_example :
  let cs := [WWrite (b "a"); WWrite (b "bc"); WFrame; WWrite (b "junk"); WDiscard; WFrame; WWrite (b "x")] in
  messages [] cs = ([b "abc"; []], b "x") /\
  out (W (fold_left wstep cs (mkFbw [] (mkSink [] None)))) = map ascii_of_nat [3;0;0;0;97;98;99;0;0;0;0].
Proof. vm_compute. split; reflexivity. Qed.

(** C05.  Output stream that fails after [k] more bytes. *)
Theorem C05_failing_stream : forall m o k, (N.of_nat (length m) < 4294967296)%N ->
  exists f, is_frame f m /\
  let '(res, w') := WriteFrame (mkFbw m (mkSink o (Some k))) in
  out (W w') = o ++ firstn k f /\ (res = Ok tt <-> length f <= k).
Proof. exact failing_stream. Qed.
Print Assumptions C05_failing_stream.

Example C05_example :
  WriteFrame (mkFbw (b "hello") (mkSink [] (Some 6))) =
    (Err (Io (OtherError 0)), mkFbw [] (mkSink (map ascii_of_nat [5;0;0;0;104;101]) (Some 0))) /\
  fst (WriteFrame (mkFbw (b "hello") (mkSink [] (Some 9)))) = Ok tt.
Proof. vm_compute. split; reflexivity. Qed.

(** C06. *)
Theorem C06_close : forall errR errW s,
  let '(ret, s') := Split_Close errR errW s in
  rclosed s' = true /\ wclosed s' = true /\ pending s' = [] /\
  (forall e, errR = Some e -> ret = Some (CloseR e)) /\
  (forall e, errR = None -> errW = Some e -> ret = Some (CloseW e)) /\
  (ret = Some ErrOutBufferNotEmpty <-> errR = None /\ errW = None /\ pending s <> []) /\
  (ret = None <-> errR = None /\ errW = None /\ pending s = []).
Proof. exact close_spec. Qed.
Print Assumptions C06_close.

Example C06_example :
  Split_Close None None (mkSplit false false (b "x")) = (Some ErrOutBufferNotEmpty, mkSplit true true []) /\
  Split_Close (Some UnexpectedEOF) (Some EOF) (mkSplit false false (b "x")) = (Some (CloseR UnexpectedEOF), mkSplit true true []).
Proof. split; reflexivity. Qed.
