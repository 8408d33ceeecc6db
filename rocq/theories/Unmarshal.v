(** Model of decoding of requests: json.Unmarshal (encoding/json, decode.go of Go standard library) into structures of
    pkg/burl_rpc/burl_rpc.go and of net/rpc/jsonrpc (serverRequest).  Validity of texts is checked by the scanner (Stream.v) before,
    [None] of the parser would be a panic of decode.go; it is proved unreachable for texts that pass the scanner. *)
From Verif Require Import GoBase Utf8 Utf8Dec JsonSpec Frame Stream Backend Server.

(** ** Strings: unquoteBytes.  The argument begins after the opening quote, the result: characters and text after the closing quote.
    An invalid sequence of bytes and a surrogate without its pair become U+FFFD. *)
Definition hexval (c : ascii) : option N :=
  let k := N_of_ascii c in
  if (48 <=? k)%N && (k <=? 57)%N then Some (k - 48)%N
  else if (65 <=? k)%N && (k <=? 70)%N then Some (k - 55)%N
  else if (97 <=? k)%N && (k <=? 102)%N then Some (k - 87)%N
  else None.
Definition hex4 (s : str) : option (N * str) :=
  match s with
  | c1 :: c2 :: c3 :: c4 :: s' =>
      match hexval c1, hexval c2, hexval c3, hexval c4 with
      | Some n1, Some n2, Some n3, Some n4 => Some (4096 * n1 + 256 * n2 + 16 * n3 + n4, s')%N
      | _, _, _, _ => None
      end
  | _ => None
  end.
(** getu4 *)
Definition getu4 (s : str) : option (N * str) :=
  match s with
  | c :: u :: s' => if Ascii.eqb c backslash && Ascii.eqb u "u" then hex4 s' else None
  | _ => None
  end.
Definition escaped (c : ascii) : option rune := option_map snd (find (fun x => Ascii.eqb (fst x) c) escapes).
Definition add {A B} (a : A) (r : option (list A * B)) : option (list A * B) := match r with Some (l, x) => Some (a :: l, x) | None => None end.
Fixpoint unquote (fuel : nat) (s : str) : option (list rune * str) :=
  match fuel with
  | O => None
  | S fuel =>
      match s with
      | [] => None
      | c :: s1 =>
          if Ascii.eqb c quote then Some ([], s1)
          else if Ascii.eqb c backslash then
            match s1 with
            | [] => None
            | e :: s2 =>
                if Ascii.eqb e "u" then
                  match hex4 s2 with
                  | None => None
                  | Some (rr, s3) =>
                      if (55296 <=? rr)%N && (rr <? 57344)%N then            (* utf16.IsSurrogate *)
                        match getu4 s3 with
                        | Some (rr1, s4) =>
                            if (rr <? 56320)%N && (56320 <=? rr1)%N && (rr1 <? 57344)%N     (* utf16.DecodeRune *)
                            then add (65536 + (rr - 55296) * 1024 + (rr1 - 56320))%N (unquote fuel s4)
                            else add rune_error (unquote fuel s3)
                        | None => add rune_error (unquote fuel s3)
                        end
                      else add rr (unquote fuel s3)
                  end
                else match escaped e with Some r => add r (unquote fuel s2) | None => None end
            end
          else if (N_of_ascii c <? 32)%N then None
          else let '(r, rest) := decode1 (N_of_ascii c) (bytesN s1) in add r (unquote fuel (strN rest))
      end
  end.

(** ** Values: decodeState.value, array, object, rescanLiteral.  The result: a value and text after it. *)
Fixpoint skip (s : str) : str :=
  match s with
  | c :: s' => if isSpace (N_of_ascii c) then skip s' else s
  | [] => []
  end.
Definition number_byte (c : ascii) : bool := isDigit (N_of_ascii c) || existsb (Ascii.eqb c) (b ".eE+-").
Fixpoint span (f : ascii -> bool) (s : str) : str * str :=
  match s with
  | c :: s' => if f c then let '(x, y) := span f s' in (c :: x, y) else ([], s)
  | [] => ([], [])
  end.
Fixpoint cut (w s : str) : option str :=
  match w, s with
  | [], _ => Some s
  | c :: w', d :: s' => if Ascii.eqb c d then cut w' s' else None
  | _, [] => None
  end.
(** A member of an object: name, value and its text *)
Definition member := (list rune * value * str)%type.
Fixpoint parse_value (fuel : nat) (s : str) : option (value * str) :=
  match fuel with
  | O => None
  | S fuel =>
      match skip s with
      | [] => None
      | c :: s1 =>
          if Ascii.eqb c quote then match unquote (S (length s1)) s1 with Some (rs, y) => Some (VStr rs, y) | None => None end
          else if Ascii.eqb c "{" then
            match skip s1 with
            | "}"%char :: y => Some (VObj [], y)
            | _ => match parse_members fuel s1 with Some (l, y) => Some (VObj (map fst l), y) | None => None end
            end
          else if Ascii.eqb c "[" then
            match skip s1 with
            | "]"%char :: y => Some (VArr [], y)
            | _ => match parse_items fuel s1 with Some (l, y) => Some (VArr l, y) | None => None end
            end
          else match cut (b "null") (c :: s1), cut (b "true") (c :: s1), cut (b "false") (c :: s1) with
               | Some y, _, _ => Some (VNull, y)
               | _, Some y, _ => Some (VBool true, y)
               | _, _, Some y => Some (VBool false, y)
               | None, None, None => match span number_byte (c :: s1) with ([], _) => None | (t, y) => Some (VNum t, y) end
               end
      end
  end
with parse_items (fuel : nat) (s : str) : option (list value * str) :=
  match fuel with
  | O => None
  | S fuel =>
      match parse_value fuel s with
      | None => None
      | Some (v, y) =>
          match skip y with
          | ","%char :: y => add v (parse_items fuel y)
          | "]"%char :: y => Some ([v], y)
          | _ => None
          end
      end
  end
with parse_members (fuel : nat) (s : str) : option (list member * str) :=
  match fuel with
  | O => None
  | S fuel =>
      match skip s with
      | c :: s1 =>
          if Ascii.eqb c quote then
            match unquote (S (length s1)) s1 with
            | None => None
            | Some (k, y) =>
                match skip y with
                | ":"%char :: y =>
                    let z := skip y in
                    match parse_value fuel z with
                    | None => None
                    | Some (v, y) =>
                        let m := (k, v, firstn (length z - length y) z) in
                        match skip y with
                        | ","%char :: y => add m (parse_members fuel y)
                        | "}"%char :: y => Some ([m], y)
                        | _ => None
                        end
                    end
                | _ => None
                end
            end
          else None
      | [] => None
      end
  end.
Definition budget_of (s : str) : nat := 2 * length s + 2.
Definition parse (s : str) : option value :=
  match parse_value (budget_of s) s with
  | Some (v, y) => match skip y with [] => Some v | _ => None end
  | None => None
  end.

(** ** Structures.  A decoder changes a variable and tells whether there is no mismatch of types; a mismatch is remembered (saveError), decoding goes on,
    and Unmarshal returns the error in the end. *)
Definition dec (A : Type) := value -> A -> A * bool.

(** Names of fields: foldFunc, equalFold.  The long s and the sign of Kelvin are the same letters as "s" and "k".  Names that are equal
    precede ones that are equal up to case, but names of fields of each structure are different in any case. *)
Definition fold_rune (r : rune) : rune :=
  if (65 <=? r)%N && (r <=? 90)%N then (r + 32)%N else if (r =? 383)%N then 115%N else if (r =? 8490)%N then 107%N else r.
Fixpoint same_fold (k : list rune) (name : str) : bool :=
  match k, name with
  | [], [] => true
  | r :: k', c :: name' => N.eqb (fold_rune r) (fold_rune (N_of_ascii c)) && same_fold k' name'
  | _, _ => false
  end.
Fixpoint find_field {A} (fields : list (str * A)) (k : list rune) : option A :=
  match fields with
  | [] => None
  | (name, d) :: fields' => if same_fold k name then Some d else find_field fields' k
  end.

(** literalStore *)
Definition d_string : dec str := fun v a => match v with VStr rs => (string_of rs, true) | VNull => (a, true) | _ => (a, false) end.
(** strconv.ParseInt(s, 10, 64) for a text of a JSON number *)
Fixpoint digits_value (s : str) (n : Z) : option Z :=
  match s with
  | [] => Some n
  | c :: s' => if isDigit (N_of_ascii c) then digits_value s' (10 * n + (Z.of_N (N_of_ascii c) - 48))%Z else None
  end.
Definition parse_int64 (s : str) : option Z :=
  let r := match s with
           | [] => None
           | c :: s' => if Ascii.eqb c "-" then match s' with [] => None | _ => option_map Z.opp (digits_value s' 0) end else digits_value s 0
           end in
  match r with Some n => if (- 9223372036854775808 <=? n)%Z && (n <=? 9223372036854775807)%Z then Some n else None | None => None end.
Definition d_int : dec Z :=
  fun v a => match v with
             | VNum t => match parse_int64 t with Some n => (n, true) | None => (a, false) end
             | VNull => (a, true)
             | _ => (a, false)
             end.
(** Interface types: valueInterface.  [float_ok]: strconv.ParseFloat does not fail (the number is not too large).  Only "is it nil" is kept. *)
Fixpoint floats (float_ok : str -> bool) (v : value) : bool :=
  match v with
  | VNum t => float_ok t
  | VArr l => forallb (floats float_ok) l
  | VObj l => forallb (fun m => floats float_ok (snd m)) l
  | _ => true
  end.
Definition d_any (float_ok : str -> bool) : dec bool := fun v a => match v with VNull => (false, true) | _ => (true, floats float_ok v) end.
(** map[string]interface{}, its content is not used *)
Definition d_map (float_ok : str -> bool) : dec unit :=
  fun v a => match v with VNull => (tt, true) | VObj _ => (tt, floats float_ok v) | _ => (tt, false) end.
Definition d_pointer {A} (zero : A) (d : dec A) : dec (option A) :=
  fun v a => match v with
             | VNull => (None, true)
             | _ => let '(x, ok) := d v (match a with Some x => x | None => zero end) in (Some x, ok)
             end.
(** A slice: storage and length.  When there are several members with the same name, next arrays are decoded over elements of previous ones,
    even of elements beyond the length. *)
Record slice (A : Type) := mkSlice { store : list A; slen : nat }.
Arguments mkSlice {A}. Arguments store {A}. Arguments slen {A}.
Definition elements {A} (s : slice A) : list A := firstn (slen s) (store s).
Definition no_elements {A} : slice A := mkSlice [] 0.
Fixpoint d_elements {A} (zero : A) (d : dec A) (l : list value) (st : list A) : list A * bool :=
  match l with
  | [] => (st, true)
  | v :: l' =>
      let '(x, ok) := d v (match st with x :: _ => x | [] => zero end) in
      let '(st', ok') := d_elements zero d l' (match st with _ :: st' => st' | [] => [] end) in
      (x :: st', ok && ok')
  end.
Definition d_slice {A} (zero : A) (d : dec A) : dec (slice A) :=
  fun v a => match v with
             | VNull => (no_elements, true)
             | VArr [] => (no_elements, true)
             | VArr l => let '(st, ok) := d_elements zero d l (store a) in (mkSlice st (length l), ok)
             | _ => (a, false)
             end.
Fixpoint d_fields {A} (fields : list (str * dec A)) (l : list (list rune * value)) (a : A) : A * bool :=
  match l with
  | [] => (a, true)
  | (k, v) :: l' =>
      let '(a, ok) := match find_field fields k with Some d => d v a | None => (a, true) end in
      let '(a, ok') := d_fields fields l' a in (a, ok && ok')
  end.
Definition d_struct {A} (fields : list (str * dec A)) : dec A :=
  fun v a => match v with
             | VNull => (a, true)
             | VObj l => d_fields fields l a
             | _ => (a, false)
             end.
(** A field that is kept and one that is only checked *)
Definition keep {A B} (get : A -> B) (set : B -> A -> A) (d : dec B) : dec A := fun v a => let '(x, ok) := d v (get a) in (set x a, ok).
Definition check {A B} (zero : B) (d : dec B) : dec A := fun v a => (a, snd (d v zero)).

(** burl_rpc.go:43-52; [fst], [snd]: Format and Version *)
Definition hello_format (float_ok : str -> bool) : dec (str * str) :=
  d_struct [(b "format", keep fst (fun x a => (x, snd a)) d_string); (b "version", keep snd (fun x a => (fst a, x)) d_string);
            (b "options", check tt (d_map float_ok))].
Definition hello_query (float_ok : str -> bool) : dec (slice (str * str)) :=
  d_struct [(b "formats", d_slice ([], []) (hello_format float_ok)); (b "version", check [] d_string)].
(** 61-73 *)
Definition capture_data (float_ok : str -> bool) : dec str :=
  d_struct [(b "url", d_string); (b "title", check [] d_string); (b "body", check false (d_any float_ok))].
Definition capture_query (float_ok : str -> bool) : dec CaptureQuery :=
  d_struct [(b "format", keep cqFormat (fun x a => mkCapture x (cqUrl a) (cqError a)) d_string); (b "version", check [] d_string);
            (b "options", check false (d_any float_ok));
            (b "data", keep cqUrl (fun x a => mkCapture (cqFormat a) x (cqError a)) (capture_data float_ok));
            (b "error", keep cqError (fun x a => mkCapture (cqFormat a) (cqUrl a) x) (d_any float_ok))].
(** 29-36 *)
Definition mentions_options : dec Z := d_struct [(b "countLimit", d_int)].
Definition mentions_query : dec (slice str * option Z) :=
  d_struct [(b "variants", keep fst (fun x a => (x, snd a)) (d_slice [] d_string));
            (b "options", keep snd (fun x a => (fst a, x)) (d_pointer 0%Z mentions_options))].
(** 38-41 *)
Definition location : dec Location :=
  d_struct [(b "file", keep locFile (fun x a => mkLocation x (locLine a)) d_string); (b "lineNo", keep locLine (fun x a => mkLocation (locFile a) x) d_int)].
(** 18-22 *)
Definition search_query : dec SearchQuery :=
  d_struct [(b "q", keep sqQuery (fun x a => mkSearch x (sqLimit a) (sqTolerance a)) d_string);
            (b "limit", keep sqLimit (fun x a => mkSearch (sqQuery a) x (sqTolerance a)) (d_pointer 0%Z d_int));
            (b "tol", keep sqTolerance (fun x a => mkSearch (sqQuery a) (sqLimit a) x) (d_pointer 0%Z d_int))].
(** 82-84 *)
Definition set_query : dec (slice str) := d_struct [(b "prefix", d_slice [] d_string)].

(** jsonrpc.serverCodec.ReadRequestBody: an array with a pointer to the query, other elements are skipped.
    [message]: texts of errors. *)
Definition d_params {A} (d : dec A) : dec A :=
  fun v a => match v with
             | VArr [] => (a, true)
             | VArr (x :: _) => d x a
             | VNull => (a, true)
             | _ => (a, false)
             end.
Definition unmarshal {A B} (message : str -> str) (d : dec A) (zero : A) (f : A -> B) (t : str) : result str B :=
  match parse t with
  | Some v => let '(a, ok) := d_params d v zero in if ok then Ok (f a) else Err (message t)
  | None => Err (message t)
  end.
Definition go_decoders (float_ok : str -> bool) (message : meth -> str -> str) : decoders :=
  mkDecoders (unmarshal (message MHello) (hello_query float_ok) no_elements elements)
    (unmarshal (message MCapture) (capture_query float_ok) (mkCapture [] [] false) (fun q => q))
    (unmarshal (message MUrlMentions) mentions_query (no_elements, None) (fun q => mkMentions (elements (fst q)) (snd q)))
    (unmarshal (message MVisit) location (mkLocation [] 0) (fun q => q))
    (unmarshal (message MSearch) search_query (mkSearch [] None None) (fun q => q))
    (unmarshal (message MLinkSet) set_query no_elements elements).

(** ** Messages: jsonrpc.serverCodec.ReadRequestHeader, serverRequest.  Params and Id are *json.RawMessage: null is a nil pointer. *)
Definition raw (v : value) (t : str) : option str := match v with VNull => None | _ => Some t end.
Definition packet_member (p : packet) (m : member) : packet * bool :=
  let '(k, v, t) := m in
  if same_fold k (b "method") then let '(x, ok) := d_string v (pmethod p) in (mkPacket (pid p) x (pparams p), ok)
  else if same_fold k (b "params") then (mkPacket (pid p) (pmethod p) (raw v t), true)
  else if same_fold k (b "id") then (mkPacket (raw v t) (pmethod p) (pparams p), true)
  else (p, true).
Fixpoint members {A} (step : A -> member -> A * bool) (l : list member) (a : A) : A * bool :=
  match l with
  | [] => (a, true)
  | m :: l' => let '(a, ok) := step a m in let '(a, ok') := members step l' a in (a, ok && ok')
  end.
(** A structure with raw texts of members; [None]: an error *)
Definition read_object {A} (step : A -> member -> A * bool) (zero : A) (t : str) : option A :=
  match parse t with
  | Some VNull => Some zero
  | Some (VObj []) => Some zero
  | Some (VObj _) =>
      match skip t with
      | _ :: s =>
          match parse_members (budget_of s) s with
          | Some (l, _) => let '(a, ok) := members step l zero in if ok then Some a else None
          | None => None
          end
      | [] => None
      end
  | _ => None
  end.
Definition request_packet (t : str) : option packet := read_object packet_member (mkPacket None [] None) t.
(** Requests that are read from a stream one after another (Server.ServeCodec of net/rpc), and the error that ends reading *)
Definition is_request (t : str) : bool := match request_packet t with Some _ => true | None => false end.
Definition requests (fuel : nat) (s : src) : option (list packet * rerr) :=
  match session fuel is_request NewDecoder (NewFrameLimitedReader s) with
  | Some (ts, e) => Some (flat_map (fun t => match request_packet t with Some p => [p] | None => [] end) ts, e)
  | None => None
  end.

Example ex_parse : parse (b " {""a"": [1, -2.5e3, null, true, false, ""x\n\" ++ b "ud83d\" ++ b "ude00""], ""b"":{} ,""c"":[ ]} ") =
  Some (VObj [(bytesN (b "a"), VArr [VNum (b "1"); VNum (b "-2.5e3"); VNull; VBool true; VBool false; VStr [120; 10; 128512]%N]);
              (bytesN (b "b"), VObj []); (bytesN (b "c"), VArr [])]).
Proof. vm_compute. reflexivity. Qed.
Example ex_packet : request_packet (b "{""ID"" : [ 1 ],""method"":""hello"",""params"": {""x"":[]} }") = Some (mkPacket (Some (b "[ 1 ]")) (b "hello") (Some (b "{""x"":[]}"))).
Proof. vm_compute. reflexivity. Qed.
