(** Model of reading of JSON messages: pkg/webextensions/server.go:37-42, client.go:41-46 (ReadHeader, then Decode of net/rpc/jsonrpc) and of
    encoding/json.Decoder: scanner.go and stream.go of the Go standard library (go 1.15 and later). *)
From Verif Require Import GoBase Frame.

(** ** scanner.go *)

(** Fields parseState and step.  The last element of the Go slice is the first one here. *)
Inductive pstate := parseObjectKey | parseObjectValue | parseArrayValue.
Inductive sfun :=
| stateBeginValueOrEmpty | stateBeginValue | stateBeginStringOrEmpty | stateBeginString | stateEndValue | stateEndTop
| stateInString | stateInStringEsc | stateInStringEscU | stateInStringEscU1 | stateInStringEscU12 | stateInStringEscU123
| stateNeg | state1 | state0 | stateDot | stateDot0 | stateE | stateESign | stateE0
| stateT | stateTr | stateTru | stateF | stateFa | stateFal | stateFals | stateN | stateNu | stateNul | stateError.
Inductive code :=
| scanContinue | scanBeginLiteral | scanBeginObject | scanObjectKey | scanObjectValue | scanEndObject | scanBeginArray | scanArrayValue | scanEndArray
| scanSkipSpace | scanEnd | scanError.
Record scanner := mkScan { step : sfun; parseState : list pstate }.

Local Open Scope N_scope.
Definition isSpace (c : N) : bool := (c <=? 32) && ((c =? 32) || (c =? 9) || (c =? 13) || (c =? 10)).
Definition isDigit (c : N) : bool := (48 <=? c) && (c <=? 57).
Definition isHex (c : N) : bool := isDigit c || ((97 <=? c) && (c <=? 102)) || ((65 <=? c) && (c <=? 70)).
Definition maxNestingDepth : N := 10000.

(** s.step = f; return r *)
Definition go (s : scanner) (f : sfun) (r : code) : code * scanner := (r, mkScan f (parseState s)).
Definition fail (s : scanner) : code * scanner := go s stateError scanError.
Definition push (s : scanner) (f : sfun) (p : pstate) (r : code) : code * scanner :=
  let st := p :: parseState s in
  if N.of_nat (length st) <=? maxNestingDepth then (r, mkScan f st) else (scanError, mkScan stateError st).
Definition pop (st : list pstate) : scanner := mkScan (match st with [] => stateEndTop | _ => stateEndValue end) st.
(** An error after a value is recorded, nevertheless the result is scanEnd. *)
Definition do_EndTop (s : scanner) (c : N) : code * scanner := (scanEnd, mkScan (if isSpace c then stateEndTop else stateError) (parseState s)).
Definition do_EndValue (s : scanner) (c : N) : code * scanner :=
  match parseState s with
  | [] => do_EndTop s c
  | p :: st =>
      if isSpace c then go s stateEndValue scanSkipSpace
      else
        match p with
        | parseObjectKey => if c =? 58 then (scanObjectKey, mkScan stateBeginValue (parseObjectValue :: st)) else fail s
        | parseObjectValue =>
            if c =? 44 then (scanObjectValue, mkScan stateBeginString (parseObjectKey :: st))
            else if c =? 125 then (scanEndObject, pop st)
            else fail s
        | parseArrayValue =>
            if c =? 44 then go s stateBeginValue scanArrayValue
            else if c =? 93 then (scanEndArray, pop st)
            else fail s
        end
  end.
Definition do_BeginValue (s : scanner) (c : N) : code * scanner :=
  if isSpace c then (scanSkipSpace, s)
  else if c =? 123 then push s stateBeginStringOrEmpty parseObjectKey scanBeginObject
  else if c =? 91 then push s stateBeginValueOrEmpty parseArrayValue scanBeginArray
  else if c =? 34 then go s stateInString scanBeginLiteral
  else if c =? 45 then go s stateNeg scanBeginLiteral
  else if c =? 48 then go s state0 scanBeginLiteral
  else if c =? 116 then go s stateT scanBeginLiteral
  else if c =? 102 then go s stateF scanBeginLiteral
  else if c =? 110 then go s stateN scanBeginLiteral
  else if (49 <=? c) && (c <=? 57) then go s state1 scanBeginLiteral
  else fail s.
Definition do_BeginString (s : scanner) (c : N) : code * scanner :=
  if isSpace c then (scanSkipSpace, s)
  else if c =? 34 then go s stateInString scanBeginLiteral
  else fail s.
Definition do_0 (s : scanner) (c : N) : code * scanner :=
  if c =? 46 then go s stateDot scanContinue
  else if (c =? 101) || (c =? 69) then go s stateE scanContinue
  else do_EndValue s c.
Definition do_ESign (s : scanner) (c : N) : code * scanner := if isDigit c then go s stateE0 scanContinue else fail s.
Definition expect (k : N) (f : sfun) (s : scanner) (c : N) : code * scanner := if c =? k then go s f scanContinue else fail s.
Definition hexa (f : sfun) (s : scanner) (c : N) : code * scanner := if isHex c then go s f scanContinue else fail s.
Definition sstep (s : scanner) (c : N) : code * scanner :=
  match step s with
  | stateBeginValueOrEmpty => if isSpace c then (scanSkipSpace, s) else if c =? 93 then do_EndValue s c else do_BeginValue s c
  | stateBeginValue => do_BeginValue s c
  | stateBeginStringOrEmpty =>
      if isSpace c then (scanSkipSpace, s)
      else if c =? 125 then do_EndValue (mkScan (step s) (parseObjectValue :: tl (parseState s))) c
      else do_BeginString s c
  | stateBeginString => do_BeginString s c
  | stateEndValue => do_EndValue s c
  | stateEndTop => do_EndTop s c
  | stateInString =>
      if c =? 34 then go s stateEndValue scanContinue
      else if c =? 92 then go s stateInStringEsc scanContinue
      else if c <? 32 then fail s
      else (scanContinue, s)
  | stateInStringEsc =>
      if existsb (N.eqb c) [98; 102; 110; 114; 116; 92; 47; 34] then go s stateInString scanContinue
      else if c =? 117 then go s stateInStringEscU scanContinue
      else fail s
  | stateInStringEscU => hexa stateInStringEscU1 s c
  | stateInStringEscU1 => hexa stateInStringEscU12 s c
  | stateInStringEscU12 => hexa stateInStringEscU123 s c
  | stateInStringEscU123 => hexa stateInString s c
  | stateNeg => if c =? 48 then go s state0 scanContinue else if (49 <=? c) && (c <=? 57) then go s state1 scanContinue else fail s
  | state1 => if isDigit c then go s state1 scanContinue else do_0 s c
  | state0 => do_0 s c
  | stateDot => if isDigit c then go s stateDot0 scanContinue else fail s
  | stateDot0 =>
      if isDigit c then (scanContinue, s)
      else if (c =? 101) || (c =? 69) then go s stateE scanContinue
      else do_EndValue s c
  | stateE => if (c =? 43) || (c =? 45) then go s stateESign scanContinue else do_ESign s c
  | stateESign => do_ESign s c
  | stateE0 => if isDigit c then (scanContinue, s) else do_EndValue s c
  | stateT => expect 114 stateTr s c
  | stateTr => expect 117 stateTru s c
  | stateTru => expect 101 stateEndValue s c
  | stateF => expect 97 stateFa s c
  | stateFa => expect 108 stateFal s c
  | stateFal => expect 115 stateFals s c
  | stateFals => expect 101 stateEndValue s c
  | stateN => expect 117 stateNu s c
  | stateNu => expect 108 stateNul s c
  | stateNul => expect 108 stateEndValue s c
  | stateError => (scanError, s)
  end.
Definition reset : scanner := mkScan stateBeginValue [].
Local Close Scope N_scope.

(** ** stream.go *)

(** Loop over bytes in the buffer: [SEnd n]: the value ends after [n] bytes, [SMore]: no more bytes. *)
Inductive scanned := SEnd (n : nat) | SBad | SMore (s : scanner).
Definition more (r : scanned) : scanned := match r with SEnd n => SEnd (S n) | r => r end.
Fixpoint scan_bytes (s : scanner) (l : str) : scanned :=
  match l with
  | [] => SMore s
  | c :: l' =>
      match sstep s (N_of_ascii c) with
      | (scanEnd, _) => SEnd 0
      | (scanEndObject, s') | (scanEndArray, s') =>
          match do_EndValue s' 32 with                       (* a space byte is invented *)
          | (scanEnd, _) => SEnd 1
          | (_, s'') => more (scan_bytes s'' l')
          end
      | (scanError, _) => SBad
      | (_, s') => more (scan_bytes s' l')
      end
  end.

(** Fields buf, scanp, capacity of buf, err *)
Inductive jerr := ESyntax | EInput (e : ioerr) | EFuel.
Record decoder := mkDec { dbuf : str; scanp : nat; dcap : nat; derr : option jerr }.
Definition NewDecoder : decoder := mkDec [] 0 0 None.
Definition nonSpace (s : str) : bool := existsb (fun c => negb (isSpace (N_of_ascii c))) s.
Definition minRead : nat := 512.
Definition refill (d : decoder) (r : flr) : option ioerr * decoder * flr :=
  let buf := skipn (scanp d) (dbuf d) in
  let cap := if dcap d - length buf <? minRead then 2 * dcap d + minRead else dcap d in
  let '(bs, e, r') := lr_read (cap - length buf) r in
  (e, mkDec (buf ++ bs) 0 cap (derr d), r').
(** [n]: bytes of the value that are already scanned, [err]: result of the last refill *)
Fixpoint readValue (fuel : nat) (s : scanner) (n : nat) (err : option ioerr) (d : decoder) (r : flr) : result jerr nat * decoder * flr :=
  let failed e := (Err e, mkDec (dbuf d) (scanp d) (dcap d) (Some e), r) in
  match scan_bytes s (skipn (scanp d + n) (dbuf d)) with
  | SEnd k => (Ok (n + k), d, r)
  | SBad => failed ESyntax
  | SMore s' =>
      let n := length (dbuf d) - scanp d in
      match err with
      | Some EOF =>
          match sstep s' 32 with
          | (scanEnd, _) => (Ok n, d, r)
          | _ => failed (EInput (if nonSpace (dbuf d) then UnexpectedEOF else EOF))
          end
      | Some e => failed (EInput e)
      | None =>
          match fuel with
          | O => failed EFuel
          | S fuel =>
              let '(err, d, r) := refill d r in readValue fuel s' n err d r
          end
      end
  end.
(** Decode: text that is passed to unmarshal.  Tokens are not used. *)
Definition Decode (d : decoder) (r : flr) : result jerr str * decoder * flr :=
  match derr d with
  | Some e => (Err e, d, r)
  | None =>
      match readValue (2 + length (rest (R r))) reset 0 None d r with
      | (Ok n, d, r) => (Ok (firstn n (skipn (scanp d) (dbuf d))), mkDec (dbuf d) (scanp d + n) (dcap d) (derr d), r)
      | (Err e, d, r) => (Err e, d, r)
      end
  end.

(** ** server.go:37-42, client.go:41-46; [unmarshal]: the text is suitable for the Go structure. *)
Inductive rerr := EHeader (e : ferr) | EDecode (e : jerr) | EUnmarshal.
Definition ReadMessage (unmarshal : str -> bool) (d : decoder) (r : flr) : result rerr str * decoder * flr :=
  match ReadHeader r with
  | (Err e, r) => (Err (EHeader e), d, r)
  | (Ok _, r) =>
      match Decode d r with
      | (Err e, d, r) => (Err (EDecode e), d, r)
      | (Ok t, d, r) => if unmarshal t then (Ok t, d, r) else (Err EUnmarshal, d, r)
      end
  end.
(** Messages are read one after another till an error (ServeCodec of net/rpc, input of a client). *)
Fixpoint session (fuel : nat) (unmarshal : str -> bool) (d : decoder) (r : flr) : option (list str * rerr) :=
  match fuel with
  | O => None
  | S fuel =>
      match ReadMessage unmarshal d r with
      | (Err e, _, _) => Some ([], e)
      | (Ok t, d, r) => match session fuel unmarshal d r with Some (l, e) => Some (t :: l, e) | None => None end
      end
  end.
