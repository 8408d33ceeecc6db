(** Model of pkg/webextensions/frame.go (and native_amd64.go). *)
From Verif Require Import GoBase.

(** I/O errors of streams.  [OtherError n] is any error distinct from EOF. *)
Inductive ioerr := EOF | UnexpectedEOF | OtherError (n : nat).

(** ** Environment: input stream

    [rest]: bytes that are not delivered yet; [fin]: what is reported when they are
    exhausted (EOF of a pipe or another error); [sched t]: the [t]-th read
    delivers at most [sched t + 1] bytes.  A read into a non-empty buffer
    delivers at least one byte or an error (contract of os.File / io.Pipe);
    data and error are never returned together by these readers. *)
Record src := mkSrc { rest : str; fin : ioerr; sched : nat -> nat; tick : nat }.

Definition src_read (k : nat) (s : src) : str * option ioerr * src :=
  match k with
  | O => ([], None, s)
  | _ =>
      match rest s with
      | [] => ([], Some (fin s), s)
      | _ :: _ =>
          let n := Nat.min k (S (sched s (tick s))) in
          (firstn n (rest s), None,
           mkSrc (skipn n (rest s)) (fin s) (sched s) (S (tick s)))
      end
  end.

(** ** FrameLimitedReader, frame.go:46-48: io.LimitedReader with fields R and N *)
Record flr := mkFlr { R : src; Nleft : N }.

(** io.LimitedReader.Read (Go standard library): at most [N] bytes remain. *)
Definition lr_read (k : nat) (r : flr) : str * option ioerr * flr :=
  if N.eqb (Nleft r) 0 then ([], Some EOF, r)
  else
    let k' := if N.ltb (Nleft r) (N.of_nat k) then N.to_nat (Nleft r) else k in
    let '(bs, e, s') := src_read k' (R r) in
    (bs, e, mkFlr s' (Nleft r - N.of_nat (length bs))).

(** frame.go:33 MaxInSize = 1024 * 1024 * 1024 *)
Definition MaxInSize : N := (1024 * 1024 * 1024)%N.

(** frame.go:26-30 errors.  [FuelOut] is not a Go error: it marks exhaustion of
    fuel of [read_full] and is proved unreachable. *)
Inductive ferr := Io (e : ioerr) | ErrReadBody | TooLargeError | SizeMismatchError | FuelOut.

(** io.ReadFull(r, buf) as used by binary.Read: [need] bytes are still missing,
    [acc] is what has been read. *)
Fixpoint read_full (fuel need : nat) (acc : str) (r : flr) : result ferr str * flr :=
  match need with
  | O => (Ok acc, r)
  | _ =>
      match fuel with
      | O => (Err FuelOut, r)
      | S fuel' =>
          let '(bs, e, r') := lr_read need r in
          match e with
          | None => read_full fuel' (need - length bs) (acc ++ bs) r'
          | Some EOF =>
              (Err (Io (match acc ++ bs with [] => EOF | _ => UnexpectedEOF end)), r')
          | Some e' => (Err (Io e'), r')
          end
      end
  end.

(** binary.LittleEndian, native_amd64.go:29 *)
Definition le32_decode (s : str) : N :=
  fold_right (fun c acc => (N_of_ascii c + 256 * acc)%N) 0%N s.
Definition le32_encode (v : N) : str :=
  map ascii_of_N [v mod 256; (v / 256) mod 256; (v / 65536) mod 256; (v / 16777216) mod 256]%N.

(** frame.go:56-71 ReadHeader *)
Definition ReadHeader (r : flr) : result ferr unit * flr :=
  if negb (N.eqb (Nleft r) 0) then (Err ErrReadBody, r)         (* 57-60 *)
  else
    let r := mkFlr (R r) 4 in                                   (* 61 *)
    match read_full 4 4 [] r with                               (* 63-65 *)
    | (Err e, r') => (Err e, r')
    | (Ok bs, r') =>
        let size := le32_decode bs in
        if N.ltb MaxInSize size then (Err TooLargeError, r')    (* 66-68 *)
        else (Ok tt, mkFlr (R r') size)                         (* 69-70 *)
    end.

(** frame.go:52-54 NewFrameLimitedReader *)
Definition NewFrameLimitedReader (s : src) : flr := mkFlr s 0.

(** ** Environment: output stream

    [out]: accepted bytes; [budget]: how many more bytes are accepted before the stream
    starts to fail ([None]: never fails).  A write that is not accepted in full
    returns an error (contract of io.Writer). *)
Record sink := mkSink { out : str; budget : option nat }.

Definition sink_write (p : str) (s : sink) : nat * option ioerr * sink :=
  match budget s with
  | None => (length p, None, mkSink (out s ++ p) None)
  | Some k =>
      if Nat.leb (length p) k
      then (length p, None, mkSink (out s ++ p) (Some (k - length p)))
      else (k, Some (OtherError 0), mkSink (out s ++ firstn k p) (Some 0))
  end.

(** frame.go:82-85 FrameBufferedWriter: embedded bytes.Buffer and W *)
Record fbw := mkFbw { buf : str; W : sink }.

(** Write of the embedded bytes.Buffer *)
Definition fbw_write (p : str) (w : fbw) : fbw := mkFbw (buf w ++ p) (W w).

(** frame.go:109-111 *)
Definition fbw_Empty (w : fbw) : bool := match buf w with [] => true | _ => false end.
(** frame.go:113-115 *)
Definition fbw_Discard (w : fbw) : fbw := mkFbw [] (W w).

(** bytes.Buffer.WriteTo (standard library): nothing is written for an empty buffer. *)
Definition buffer_write_to (p : str) (s : sink) : N * option ioerr * sink :=
  match p with
  | [] => (0%N, None, s)
  | _ => let '(m, e, s') := sink_write p s in (N.of_nat m, e, s')
  end.

(** frame.go:93-107 WriteFrame; [defer w.Buffer.Reset()] empties the buffer on every path *)
Definition WriteFrame (w : fbw) : result ferr unit * fbw :=
  let size := (N.of_nat (length (buf w)) mod 2 ^ 32)%N in         (* 95: uint32(Len()) *)
  let '(_, e1, s1) := sink_write (le32_encode size) (W w) in       (* 96 *)
  match e1 with
  | Some e => (Err (Io e), mkFbw [] s1)                             (* 97 *)
  | None =>
      let '(outSize, e2, s2) := buffer_write_to (buf w) s1 in       (* 99 *)
      match e2 with
      | Some e => (Err (Io e), mkFbw [] s2)                         (* 100-102 *)
      | None =>
          if N.eqb outSize size then (Ok tt, mkFbw [] s2)           (* 106 *)
          else (Err SizeMismatchError, mkFbw [] s2)                 (* 103-105 *)
      end
  end.

(** ** SplitFrameReadWriteCloser.Close, frame.go:144-158

    [errR], [errW]: results of closing of the two streams.  The state records
    whether each of streams is closed and the pending output. *)
Record splitrwc := mkSplit { rclosed : bool; wclosed : bool; pending : str }.

Inductive cerr := CloseR (e : ioerr) | CloseW (e : ioerr) | ErrOutBufferNotEmpty.

Definition Split_Close (errR errW : option ioerr) (s : splitrwc) : option cerr * splitrwc :=
  let s1 := mkSplit true (wclosed s) (pending s) in              (* 146 *)
  let s2 := mkSplit (rclosed s1) true (pending s1) in            (* 147 *)
  let ret :=
    match errR with
    | Some e => Some (CloseR e)                                  (* 148-150 *)
    | None =>
        match errW with
        | Some e => Some (CloseW e)                              (* 151-153 *)
        | None =>
            if fbw_Empty (mkFbw (pending s2) (mkSink [] None))
            then None                                            (* 157 *)
            else Some ErrOutBufferNotEmpty                       (* 154-156 *)
        end
    end in
  (ret, mkSplit (rclosed s2) (wclosed s2) []).                   (* 145: deferred Discard *)
