(** Model of pkg/webextensions/server.go and of serving in cmd/burl_backend/burl_backend.go:316-341 together with net/rpc and
    net/rpc/jsonrpc of Go standard library: a goroutine that reads requests, a goroutine for each call, a mutex for responses,
    the shared buffer of a frame. *)
From Verif Require Import GoBase GoSlice Frame Flags LinkTypes JsonStr Json Emacs Backend ReplyJson Compact.

(** ** Requests *)

(** serverRequest of net/rpc/jsonrpc: Id and Params are raw texts or null. *)
Record packet := mkPacket { pid : option str; pmethod : str; pparams : option str }.

(** burl_backend.go:324-337 methodMap *)
Definition methodMap : list (str * str) :=
  [(b "hello", b "Burl.Hello");
   (b "linkremark.hello", b "Burl.Hello");
   (b "burl.hello", b "Burl.Hello");
   (b "capture", b "Burl.Capture");
   (b "linkremark.capture", b "Burl.Capture");
   (b "burl.capture", b "Burl.Capture");
   (b "burl.visit", b "Burl.Visit");
   (b "linkremark.visit", b "Burl.Visit");
   (b "burl.urlMentions", b "Burl.UrlMentions");
   (b "linkremark.urlMentions", b "Burl.UrlMentions");
   (b "burl.linkSet", b "Burl.LinkSet");
   (b "linkremark.linkSet", b "Burl.LinkSet")].
Fixpoint lookup {A} (k : str) (m : list (str * A)) : option A :=
  match m with
  | [] => None
  | (k', v) :: m' => if str_eqb k k' then Some v else lookup k m'
  end.
(** server.go:75-87 MappedServerCodec.ReadRequestHeader *)
Definition mapped (name : str) : str :=
  match lookup name methodMap with
  | Some n => n                       (* 79 *)
  | None => b "unknown." ++ name      (* 83 *)
  end.

(** Methods of BurlBackend that are suitable for net/rpc, burl_backend.go:123-278, registered at 317 as "Burl" *)
Inductive meth := MHello | MCapture | MUrlMentions | MVisit | MSearch | MLinkSet.
Definition methods : list (str * meth) :=
  [(b "Hello", MHello); (b "Capture", MCapture); (b "UrlMentions", MUrlMentions); (b "Visit", MVisit); (b "Search", MSearch);
   (b "LinkSet", MLinkSet)].
(** strings.LastIndex(s, ".") and slices around the dot *)
Fixpoint split_last (s : str) : option (str * str) :=
  match s with
  | [] => None
  | c :: s' =>
      match split_last s' with
      | Some (x, y) => Some (c :: x, y)
      | None => if Ascii.eqb c "."%char then Some ([], s') else None
      end
  end.
(** Server.readRequestHeader of net/rpc *)
Definition find_method (name : str) : result str meth :=
  match split_last name with
  | None => Err (b "rpc: service/method request ill-formed: " ++ name)
  | Some (service, m) =>
      if str_eqb service (b "Burl")
      then match lookup m methods with
           | Some h => Ok h
           | None => Err (b "rpc: can't find method " ++ name)
           end
      else Err (b "rpc: can't find service " ++ name)
  end.
Definition route (name : str) : result str meth := find_method (mapped name).

(** Unmarshalling of an array with a single argument: jsonrpc.serverCodec.ReadRequestBody.  Either a text of an error or
    a query; the decoder is a parameter. *)
Record decoders := mkDecoders {
  d_hello : str -> result str HelloQuery;
  d_capture : str -> result str CaptureQuery;
  d_mentions : str -> result str UrlMentionsQuery;
  d_visit : str -> result str Location;
  d_search : str -> result str SearchQuery;
  d_set : str -> result str (list str) }.
Definition rmap {E A B} (f : A -> B) (r : result E A) : result E B :=
  match r with Ok a => Ok (f a) | Err e => Err e end.
Definition argument (d : decoders) (m : meth) (params : str) : result str request :=
  match m with
  | MHello => rmap QHello (d_hello d params)
  | MCapture => rmap QCapture (d_capture d params)
  | MUrlMentions => rmap QMentions (d_mentions d params)
  | MVisit => rmap QVisit (d_visit d params)
  | MSearch => rmap QSearch (d_search d params)
  | MLinkSet => rmap QLinkSet (d_set d params)
  end.
(** Server.readRequest of net/rpc: text of an error or what is to be called *)
Definition readRequest (d : decoders) (p : packet) : result str request :=
  match route (pmethod p) with
  | Err msg => Err msg
  | Ok m =>
      match pparams p with
      | None => Err (b "jsonrpc: request body missing params")
      | Some t => argument d m t
      end
  end.

(** ** Responses *)

Inductive answer := AResult (r : reply) | AError (msg : str).
(** service.call of net/rpc; [etext]: Error(), texts are never empty. *)
Definition answer_of (etext : berr -> str) (r : reply) : answer :=
  match r with
  | PError e => AError (etext e)
  | _ => AResult r
  end.
(** jsonrpc.serverCodec.WriteResponse: serverResponse, json.Encoder adds a newline. *)
Definition response (id : option str) (a : answer) : outcome str :=
  let i := match id with None => b "null" | Some t => compact t end in
  let body (result error : str) := b "{""id"":" ++ i ++ b ",""result"":" ++ result ++ b ",""error"":" ++ error ++ b "}" ++ eol in
  match a with
  | AResult r => let! j := result_json r in Done (body (encode j) (b "null"))
  | AError msg => Done (body (b "null") (json_string msg))
  end.

(** ** Server *)

(** Progress of Server.sendResponse of net/rpc *)
Inductive sender :=
| SLock (a : answer)     (* sending.Lock() *)
| SEncode (a : answer)   (* jsonrpc.serverCodec.WriteResponse *)
| SHeader                (* server.go:48, frame.go:95 *)
| SWrite (todo : str)    (* bytes that are not written yet by WriteFrame *)
| SUnlock                (* sending.Unlock() *)
| SOver
| SPanic.                (* panic in MarshalJSON *)
(** jsonrpc.serverCodec.pending, [locked]: mutex [sending], FrameBufferedWriter.Buffer, bytes in stdout *)
Record conn := mkConn { pend : list (nat * option str); locked : bool; cbuf : str; cout : str }.

Inductive slabel :=
| VAccept (p : packet) (o : option orders)   (* a request is read, a call is started for [Some] *)
| VBack (i : nat) (l : label reply)          (* the [i]-th call is executed *)
| VOut (d : str)                             (* bytes are written to stdout *)
| VFail                                      (* failure of writing *)
| VCrash                                     (* panic while a response is encoded *)
| VClose
| VTau.

Definition taken (k : nat) (m : list (nat * option str)) : option (option str) :=
  match find (fun x => Nat.eqb (fst x) k) m with Some x => Some (snd x) | None => None end.
Definition dropped (k : nat) (m : list (nat * option str)) : list (nat * option str) := filter (fun x => negb (Nat.eqb (fst x) k)) m.

(** [k]: sequence number of the request *)
Inductive send (k : nat) : conn * sender -> slabel -> conn * sender -> Prop :=
| s_lock m buf out a : send k (mkConn m false buf out, SLock a) VTau (mkConn m true buf out, SEncode a)
| s_encode m l buf out a id t : taken k m = Some id -> response id a = Done t ->
    send k (mkConn m l buf out, SEncode a) VTau (mkConn (dropped k m) l (buf ++ t) out, SHeader)
| s_encode_panic m l buf out a id : taken k m = Some id -> response id a = Panic ->
    send k (mkConn m l buf out, SEncode a) VCrash (mkConn (dropped k m) l buf out, SPanic)
| s_encode_none m l buf out a : taken k m = None ->     (* invalid sequence number in response *)
    send k (mkConn m l buf out, SEncode a) VTau (mkConn m l buf out, SUnlock)
| s_header m l buf out :                                (* frame.go:95 *)
    send k (mkConn m l buf out, SHeader) VTau
      (mkConn m l buf out, SWrite (le32_encode (N.of_nat (length buf) mod 2 ^ 32)%N ++ buf))
| s_write m l buf out d todo : d <> [] ->               (* frame.go:96, 99 *)
    send k (mkConn m l buf out, SWrite (d ++ todo)) (VOut d) (mkConn m l buf (out ++ d), SWrite todo)
| s_written m l buf out :                               (* frame.go:106, 94: deferred Reset *)
    send k (mkConn m l buf out, SWrite []) VTau (mkConn m l [] out, SUnlock)
| s_failed m l buf out c todo :                         (* frame.go:97, 101; the error is ignored by net/rpc *)
    send k (mkConn m l buf out, SWrite (c :: todo)) VFail (mkConn m l [] out, SUnlock)
| s_unlock m l buf out : send k (mkConn m l buf out, SUnlock) VTau (mkConn m false buf out, SOver).

(** Goroutines of calls and the goroutine of ServeCodec *)
Inductive job := JRun (t : thread reply) | JSend (s : sender).
Record call := mkCall { cseq : nat; cjob : job }.
Inductive reader := RRead | RSend (k : nat) (s : sender) | RWait | RClosed.
Record server := mkServer { sglob : glob; sinput : list packet; sseq : nat; sreader : reader; scalls : list call; sconn : conn }.
Record config := mkConfig { c_emacs : emacs_cfg; c_back : backend; c_dec : decoders; c_text : berr -> str }.

(** No step is possible after a panic. *)
Definition panicked (j : job) : Prop := j = JRun TCrash \/ j = JSend SPanic.
Definition alive (s : server) : Prop :=
  Forall (fun c => ~ panicked (cjob c)) (scalls s) /\ (forall k, sreader s <> RSend k SPanic).

Inductive sstep (c : config) : server -> slabel -> server -> Prop :=
(* ServeCodec: readRequest *)
| v_call g p rest n cs cn q o :
    alive (mkServer g (p :: rest) n RRead cs cn) -> readRequest (c_dec c) p = Ok q ->
    sstep c (mkServer g (p :: rest) n RRead cs cn) (VAccept p (Some o))
      (mkServer g rest (S n) RRead (cs ++ [mkCall (S n) (JRun (TRun (handle (c_back c) o q)))])
         (mkConn ((S n, pid p) :: pend cn) (locked cn) (cbuf cn) (cout cn)))
| v_error g p rest n cs cn msg :
    alive (mkServer g (p :: rest) n RRead cs cn) -> readRequest (c_dec c) p = Err msg ->
    sstep c (mkServer g (p :: rest) n RRead cs cn) (VAccept p None)
      (mkServer g rest (S n) (RSend (S n) (SLock (AError msg))) cs
         (mkConn ((S n, pid p) :: pend cn) (locked cn) (cbuf cn) (cout cn)))
| v_error_send g inp n k s cs cn l cn' s' :
    alive (mkServer g inp n (RSend k s) cs cn) -> send k (cn, s) l (cn', s') ->
    sstep c (mkServer g inp n (RSend k s) cs cn) l (mkServer g inp n (RSend k s') cs cn')
| v_error_sent g inp n k cs cn :
    alive (mkServer g inp n (RSend k SOver) cs cn) ->
    sstep c (mkServer g inp n (RSend k SOver) cs cn) VTau (mkServer g inp n RRead cs cn)
(* end of input, wg.Wait() *)
| v_end g n cs cn :
    alive (mkServer g [] n RRead cs cn) ->
    sstep c (mkServer g [] n RRead cs cn) VTau (mkServer g [] n RWait cs cn)
(* codec.Close(), frame.go:145 *)
| v_close g inp n cs cn :
    Forall (fun x => cjob x = JSend SOver) cs ->
    sstep c (mkServer g inp n RWait cs cn) VClose (mkServer g inp n RClosed cs (mkConn (pend cn) (locked cn) [] (cout cn)))
(* service.call *)
| v_back g inp n r pre k t post cn l g' t' :
    alive (mkServer g inp n r (pre ++ mkCall k (JRun t) :: post) cn) ->
    tstep (c_emacs c) (initializer (c_back c)) (g, t) l (g', t') ->
    sstep c (mkServer g inp n r (pre ++ mkCall k (JRun t) :: post) cn) (VBack (length pre) l)
      (mkServer g' inp n r (pre ++ mkCall k (JRun t') :: post) cn)
| v_over g inp n r pre k x post cn :
    alive (mkServer g inp n r (pre ++ mkCall k (JRun (TOver x)) :: post) cn) ->
    sstep c (mkServer g inp n r (pre ++ mkCall k (JRun (TOver x)) :: post) cn) VTau
      (mkServer g inp n r (pre ++ mkCall k (JSend (SLock (answer_of (c_text c) x))) :: post) cn)
| v_send g inp n r pre k s post cn l cn' s' :
    alive (mkServer g inp n r (pre ++ mkCall k (JSend s) :: post) cn) ->
    send k (cn, s) l (cn', s') ->
    sstep c (mkServer g inp n r (pre ++ mkCall k (JSend s) :: post) cn) l
      (mkServer g inp n r (pre ++ mkCall k (JSend s') :: post) cn').

Inductive srun (c : config) : server -> list slabel -> server -> Prop :=
| srun_nil s : srun c s [] s
| srun_cons s l s1 tr s2 : sstep c s l s1 -> srun c s1 tr s2 -> srun c s (l :: tr) s2.

Definition start (g : glob) (input : list packet) : server := mkServer g input 0 RRead [] (mkConn [] false [] []).
