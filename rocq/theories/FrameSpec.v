(** Specification of framing, independent of the model of frame.go. *)
From Verif Require Import GoBase Frame.

(** A frame: 4 byte little-endian length, then the payload.  [header] is given
    by its value: the only 4 byte string whose base-256 value, least significant
    digit first, is the length. *)
Definition byte_value (c : ascii) : N := N_of_ascii c.
Definition is_header (h : str) (size : N) : Prop :=
  exists c0 c1 c2 c3, h = [c0; c1; c2; c3] /\
    size = (byte_value c0 + 256 * byte_value c1 + 65536 * byte_value c2 + 16777216 * byte_value c3)%N.

Definition is_frame (f m : str) : Prop :=
  exists h, is_header h (N.of_nat (length m)) /\ f = h ++ m.

(** Concatenation of frames of a list of messages. *)
Inductive is_stream : str -> list str -> Prop :=
| stream_nil : is_stream [] []
| stream_cons f m s ms : is_frame f m -> is_stream s ms -> is_stream (f ++ s) (m :: ms).

(** ** Abstract reader: what a user of the reader may observe. *)
Inductive call := CHeader | CRead (k : nat).
Inductive reply := HeaderOk | HeaderErr (e : ferr) | Data (d : str) | DataErr (e : ioerr).

(** [cur]: unread part of the current message; [todo]: following messages;
    [Ended]: a header was requested after the last message. *)
Inductive astate := Frames (cur : str) (todo : list str) | Ended.

Inductive astep : astate -> call -> reply -> astate -> Prop :=
| a_header m todo : astep (Frames [] (m :: todo)) CHeader HeaderOk (Frames m todo)
| a_header_eof : astep (Frames [] []) CHeader (HeaderErr (Io EOF)) Ended
| a_header_early c cur todo :
    astep (Frames (c :: cur) todo) CHeader (HeaderErr ErrReadBody) (Frames (c :: cur) todo)
| a_header_ended : astep Ended CHeader (HeaderErr ErrReadBody) Ended
| a_read d cur todo k :       (* a non-empty part of the current message *)
    d <> [] -> length d <= k -> astep (Frames (d ++ cur) todo) (CRead k) (Data d) (Frames cur todo)
| a_read_0 c cur todo : astep (Frames (c :: cur) todo) (CRead 0) (Data []) (Frames (c :: cur) todo)
| a_read_end todo k : astep (Frames [] todo) (CRead k) (DataErr EOF) (Frames [] todo)
| a_read_ended k : k <> 0 -> astep Ended (CRead k) (DataErr EOF) Ended
| a_read_ended_0 : astep Ended (CRead 0) (Data []) Ended.

Inductive arun : astate -> list (call * reply) -> astate -> Prop :=
| arun_nil s : arun s [] s
| arun_cons s c r s' tr s'' : astep s c r s' -> arun s' tr s'' -> arun s ((c, r) :: tr) s''.

(** ** The concrete reader as a machine with the same interface. *)
Definition cstep (r : flr) (c : call) : reply * flr :=
  match c with
  | CHeader => match ReadHeader r with
               | (Ok _, r') => (HeaderOk, r')
               | (Err e, r') => (HeaderErr e, r')
               end
  | CRead k => let '(bs, e, r') := lr_read k r in
               match e with None => (Data bs, r') | Some e => (DataErr e, r') end
  end.
Fixpoint crun (r : flr) (cs : list call) : list (call * reply) * flr :=
  match cs with
  | [] => ([], r)
  | c :: cs' => let '(rep, r') := cstep r c in
                let '(tr, r'') := crun r' cs' in ((c, rep) :: tr, r'')
  end.

(** A client that reads whole messages: header, then reads of sizes [sizes t]
    (at least one byte) until the end of frame. [fuel] bounds the number of calls. *)
Fixpoint read_body (fuel : nat) (sizes : nat -> nat) (t : nat) (acc : str) (r : flr) : option (str * nat * flr) :=
  match fuel with
  | O => None
  | S fuel' =>
      match cstep r (CRead (S (sizes t))) with
      | (Data d, r') => read_body fuel' sizes (S t) (acc ++ d) r'
      | (DataErr EOF, r') => Some (acc, S t, r')
      | _ => None
      end
  end.
Fixpoint read_all (fuel : nat) (sizes : nat -> nat) (t : nat) (r : flr) : option (list str * ferr) :=
  match fuel with
  | O => None
  | S fuel' =>
      match cstep r CHeader with
      | (HeaderOk, r') =>
          match read_body fuel' sizes t [] r' with
          | Some (m, t', r'') =>
              match read_all fuel' sizes t' r'' with
              | Some (ms, e) => Some (m :: ms, e)
              | None => None
              end
          | None => None
          end
      | (HeaderErr e, _) => Some ([], e)
      | _ => None
      end
  end.

(** ** Histories of a writer *)
Inductive wcall := WWrite (p : str) | WFrame | WDiscard.
Definition wstep (w : fbw) (c : wcall) : fbw :=
  match c with
  | WWrite p => fbw_write p w
  | WFrame => snd (WriteFrame w)
  | WDiscard => fbw_Discard w
  end.
(** Messages that a history is expected to emit, and what remains pending. *)
Fixpoint messages (pend : str) (cs : list wcall) : list str * str :=
  match cs with
  | [] => ([], pend)
  | WWrite p :: cs' => messages (pend ++ p) cs'
  | WFrame :: cs' => let '(ms, p) := messages [] cs' in (pend :: ms, p)
  | WDiscard :: cs' => messages [] cs'
  end.

(** Data delivered by a reply. *)
Definition data_of (p : call * reply) : str :=
  match snd p with Data d => d | _ => [] end.
(** The part of a trace before the next accepted header. *)
Fixpoint reads_before_header (tr : list (call * reply)) : list (call * reply) :=
  match tr with
  | [] => []
  | (_, HeaderOk) :: _ => []
  | x :: tr' => x :: reads_before_header tr'
  end.
