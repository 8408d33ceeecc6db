(** Properties C96-C98: the client and the server that are connected to each other. *)
From Coq Require Import Permutation.
From Verif Require Import GoBase GoSlice Utf8 Frame FrameSpec Stream StreamSpec StreamWitness JsonSpec Json Emacs Backend BackendSpec BackendWitness Real ReplySpec Server ServerSpec ServerWitness Tools ToolsSpec Unmarshal UnmarshalSpec
  Client ClientSpec Print PrintSpec EndSpec EndProofs EndMain EndDepth EndWitness P_Reply.

(** C96.  Requests of the client are written in any order, the server receives the beginning of that stream, handles requests concurrently, the client receives the beginning of what is sent.
    If a call is completed because of a response then it is the reply of the method that has been executed for the query of this call. *)
Theorem C96_call : forall body ctr cs float_ok message Q ts out z fin sch fuel input e c g str s f z' fin' sch' fuel' hs e',
  Client.crun body new_client ctr cs -> Forall2 (fun iq t => asks_for float_ok (Q (fst iq)) (snd iq) t) (sends ctr) ts -> is_stream out ts ->
  beginning z out -> requests fuel (mkSrc z fin sch 0) = Some (input, e) -> c_dec c = go_decoders float_ok message -> srun c (start g input) str s -> ~ In VFail str -> fit c str -> shallow str ->
  beginning z' (sent str) -> responses f fuel' (mkSrc z' fin' sch' 0) = Some (hs, e') -> beginning (heard ctr) hs ->
  forall i x, In (XDone i x) ctr -> responded x -> exists k r, In (XSend i (N.of_nat k)) ctr /\ handled c g str k (Q i) r /\ settled body i r x.
Proof. exact connected. Qed.
Print Assumptions C96_call.
(** Queries of the command line client are such requests. *)
Theorem C96_client : forall parse_int queries q float_ok, client_query parse_int queries q -> exists method query, subcommand parse_int queries = CCall method query /\
  forall n, (n <= 18446744073709551615)%N -> asks_for float_ok q n (client_request method query (Z.of_N n)).
Proof. exact client_asks. Qed.
Print Assumptions C96_client.
(** Results are never deeper than 14 levels of files and headings. *)
Theorem C96_depth : forall c g input tr s users u sc chunk, booted (c_emacs c) users g -> srun c (start g input) tr s -> ext (c_back c) = real u sc chunk ->
  (forall k o, In (k, o) (started 0 tr) -> fair_orders o) -> forall i x, In (VBack i (LReply (PMentions x))) tr -> levels x <= 14.
Proof. exact real_shallow. Qed.
Print Assumptions C96_depth.

(** C97.  What is printed by the command line client is the reply of the method that has been executed for the query. *)
Theorem C97_printed : forall parse_int f show oops w args X t q, In (GPrint X) (fst (client_tool parse_int f show w args)) -> In (GRequest t) (fst (client_tool parse_int f show w args)) -> (forall t, f t = true -> jnumber (show t)) ->
  forall ctr cs float_ok message out z fin sch fuel input e c g str s z' fin' sch' fuel' hs e', asks_for float_ok q 0 t ->
  Client.crun (fun _ => any_body f oops) new_client ctr cs -> sends ctr = [(0, 0%N)] -> In (XDone 0 (w_call w t)) ctr -> is_stream out [t] ->
  beginning z out -> requests fuel (mkSrc z fin sch 0) = Some (input, e) -> c_dec c = go_decoders float_ok message -> srun c (start g input) str s -> ~ In VFail str -> fit c str -> shallow str ->
  beginning z' (sent str) -> responses f fuel' (mkSrc z' fin' sch' 0) = Some (hs, e') -> beginning (heard ctr) hs ->
  exists x v v' y, handled c g str 0 q (Ok x) /\ jtext v x /\ canonical show v v' /\ laid 0 v' y /\ X = y ++ eol.
Proof. exact printed. Qed.
Print Assumptions C97_printed.
Theorem C97_query : forall parse_int f show w args name rest queries q t float_ok, started_with w args name rest queries -> client_query parse_int queries q -> In (GRequest t) (fst (client_tool parse_int f show w args)) ->
  asks_for float_ok q 0 t.
Proof. exact query_asked. Qed.
Print Assumptions C97_query.

(** C98.  If both streams are received till the end then there is exactly one response for each request that has been sent. *)
Theorem C98_all : forall body ctr cs float_ok message Q ts out fin sch fuel input c g str s f fin' sch' fuel' hs,
  Client.crun body new_client ctr cs -> Forall2 (fun iq t => asks_for float_ok (Q (fst iq)) (snd iq) t) (sends ctr) ts -> is_stream out ts ->
  requests fuel (mkSrc out fin sch 0) = Some (input, EHeader (Io EOF)) -> c_dec c = go_decoders float_ok message -> srun c (start g input) str s -> In VClose str -> ~ In VFail str -> fit c str -> shallow str ->
  responses f fuel' (mkSrc (sent str) fin' sch' 0) = Some (hs, EHeader (Io EOF)) ->
  Permutation (map fst hs) (map snd (sends ctr)) /\ Forall (fun h => exists i k, fst h = N.of_nat k /\ In (XSend i (fst h)) ctr /\ handled c g str k (Q i) (snd h)) hs.
Proof. exact all_answered. Qed.
Print Assumptions C98_all.

(** ** Examples *)
Definition ex_any (t : str) : bool := true.
Definition ex_config : config := mkConfig ex_cfg ex_backend (go_decoders ex_any (fun _ _ => b "error")) (fun _ => b "error").
Definition ex_request (queries : list str) (n : Z) : str := match subcommand (fun _ => None) queries with CCall m q => client_request m q n | _ => [] end.
Definition ex_queries (i : nat) : list str := match i with 0 => [b "mentions"; b "http://a.org/x"] | _ => [b "set"; b "https:"] end.
Definition ex_asked (i : nat) : request := match i with 0 => QMentions (mkMentions [b "http://a.org/x"] None) | _ => QLinkSet [b "https:"] end.
Definition ex_source (z : str) : src := mkSrc z EOF (fun _ => 100) 0.
Definition ex_received (z : str) : list packet := match requests 5 (ex_source z) with Some (ps, EHeader (Io EOF)) => ps | _ => [] end.
(** Two calls, the request of the second one is answered first. *)
Definition ex_texts : list str := [ex_request (ex_queries 0) 0; ex_request (ex_queries 1) 1].
Definition ex_out : str := concat (map ex_frame ex_texts).
Definition ex_reader (n : nat) : list pick := repeat (PReader ex_orders 7) n.
Definition ex_job (i n : nat) : list pick := repeat (PCall i succ 100) n.
Definition ex_file (i : nat) (t : str) : list pick := [PCall i (IRead (RData t false)) 0].
Definition ex_picks : list pick := ex_reader 3 ++ ex_job 0 1 ++ ex_file 1 ex_org ++ ex_file 0 ex_org ++ ex_file 1 ex_txt ++ ex_job 1 8 ++ ex_file 0 ex_txt ++ ex_job 0 16 ++ ex_reader 1.
Definition ex_run2 : list slabel * server := Eval vm_compute in match moves ex_config (start ex_glob (ex_received ex_out)) ex_picks with Some x => x | None => ([], start ex_glob []) end.
Definition ex_trace : list slabel := Eval vm_compute in fst ex_run2.
Definition ex_first : str := b "{""urls"":[""https://a.org/x""]}".
Definition ex_second : str := ex_json.
Definition ex_value (t : str) : value := match any_body ex_any [] t with Ok v => v | Err _ => VNull end.
Definition ex_calls : list clabel :=
  [XGo; XGo; XSend 0 0; XSent 0 None; XSend 1 1; XSent 1 None; XHeader 1 (Ok ex_first); XTau; XDone 1 (OResult (ex_value ex_first)); XHeader 0 (Ok ex_second); XTau; XDone 0 (OResult (ex_value ex_second))].
Example ex_moves : moves ex_config (start ex_glob (ex_received ex_out)) ex_picks = Some (ex_trace, snd ex_run2).
Proof. vm_compute. reflexivity. Qed.
Example ex_asks : Forall2 (fun iq t => asks_for ex_any (ex_asked (fst iq)) (snd iq) t) (sends ex_calls) ex_texts.
Proof.
  constructor; [|constructor; [|constructor]]; cbn [fst snd ex_asked].
  - destruct (client_asks (fun _ => None) (ex_queries 0) _ ex_any (cq_mentions _ [b "http://a.org/x"])) as (m & q & E & A). unfold ex_request. rewrite E. exact (A 0%N ltac:(lia)).
  - destruct (client_asks (fun _ => None) (ex_queries 1) _ ex_any (cq_set _ [b "https:"])) as (m & q & E & A). unfold ex_request. rewrite E. exact (A 1%N ltac:(lia)).
Qed.
Example ex_client : exists s, Client.crun (fun _ => any_body ex_any []) new_client ex_calls s.
Proof.
  eexists. unfold ex_calls, new_client.
  assert (E1 : any_body ex_any [] ex_first = Ok (ex_value ex_first)) by (vm_compute; reflexivity). assert (E2 : any_body ex_any [] ex_second = Ok (ex_value ex_second)) by (vm_compute; reflexivity).
  revert E1 E2. generalize ex_first, ex_second. intros t1 t2. generalize (ex_value t1), (ex_value t2). intros v1 v2 E1 E2.
  repeat (eapply cr_step; [first [eapply x_go|eapply x_send; reflexivity|eapply x_sent; reflexivity|eapply x_header|eapply x_match|eapply x_result; [exact E1]|eapply x_result; [exact E2]]|];
    cbn [put firstn skipn app N.add Pos.add Pos.succ found find fst snd N.eqb Pos.eqb without filter negb ended]).
  apply cr_nil.
Qed.
Example ex_stream : is_stream ex_out ex_texts.
Proof. apply ex_framed. repeat constructor. Qed.
Example ex_server : srun ex_config (start ex_glob (ex_received ex_out)) ex_trace (snd ex_run2) /\ In VClose ex_trace /\ ~ In VFail ex_trace /\ fit ex_config ex_trace /\ shallow ex_trace.
Proof.
  split; [eapply moves_ok, ex_moves|]. split; [apply existsb_close; vm_compute; reflexivity|]. split; [apply no_fail; vm_compute; reflexivity|]. split; [apply fit1_ok|apply shallow1_ok]; vm_compute; reflexivity.
Qed.
Example ex_sessions : requests 5 (ex_source ex_out) = Some (ex_received ex_out, EHeader (Io EOF)) /\ responses ex_any 5 (ex_source (sent ex_trace)) = Some ([(1%N, Ok ex_first); (0%N, Ok ex_second)], EHeader (Io EOF)).
Proof. split; vm_compute; reflexivity. Qed.
(** All hypotheses of the theorem are met, so both calls have got replies to their queries. *)
Example C96_example : forall i x, In (XDone i x) ex_calls -> responded x -> exists k r, In (XSend i (N.of_nat k)) ex_calls /\ handled ex_config ex_glob ex_trace k (ex_asked i) r /\ settled (fun _ => any_body ex_any []) i r x.
Proof.
  destruct ex_client as (cs & Rc). destruct ex_server as (Rs & Cl & NF & Ft & Sh). destruct ex_sessions as (Rq & Rp).
  apply (C96_call _ _ cs ex_any (fun _ _ => b "error") ex_asked ex_texts ex_out ex_out EOF (fun _ => 100) 5 (ex_received ex_out) (EHeader (Io EOF)) ex_config ex_glob ex_trace (snd ex_run2) ex_any (sent ex_trace) EOF (fun _ => 100) 5
    [(1%N, Ok ex_first); (0%N, Ok ex_second)] (EHeader (Io EOF)) Rc ex_asks ex_stream); try assumption; try reflexivity; exists []; rewrite app_nil_r; reflexivity.
Qed.
Example C96_example_depth : booted (c_emacs ex_config) [b "-snotes"] ex_glob /\ ext (c_back ex_config) = real ex_u ex_c ex_chunk /\ (forall k o, In (k, o) (started 0 ex_trace) -> fair_orders o) /\
  match replies_of ex_trace with [PLinkSet _; PMentions x] => levels x = 4 | _ => False end.
Proof.
  split; [exact ex_booted|]. split; [reflexivity|]. split; [intros k o I; destruct I as [I|[I|[]]]; injection I as _ <-; exact ex_fair|]. vm_compute. reflexivity.
Qed.
Example C98_example : handled ex_config ex_glob ex_trace 0 (ex_asked 0) (Ok ex_json) /\ handled ex_config ex_glob ex_trace 1 (ex_asked 1) (Ok (b "{""urls"":[""https://a.org/x""]}")).
Proof.
  destruct ex_client as (cs & Rc). destruct ex_server as (Rs & Cl & NF & Ft & Sh). destruct ex_sessions as (Rq & Rp).
  destruct (C98_all _ _ cs ex_any (fun _ _ => b "error") ex_asked ex_texts ex_out EOF (fun _ => 100) 5 (ex_received ex_out) ex_config ex_glob ex_trace (snd ex_run2) ex_any EOF (fun _ => 100) 5 [(1%N, Ok ex_first); (0%N, Ok ex_second)] Rc ex_asks ex_stream Rq eq_refl Rs Cl NF Ft Sh Rp) as (_ & F).
  pose proof (Forall_inv F) as (i1 & k1 & E1 & S1 & H1). pose proof (Forall_inv (Forall_inv_tail F)) as (i0 & k0 & E0 & S0 & H0). cbn [fst snd] in *.
  assert (k1 = 1) as -> by lia. assert (k0 = 0) as -> by lia. split.
  - assert (i0 = 0) as -> by (repeat (destruct S0 as [S0|S0]; [try discriminate S0; injection S0 as <-; reflexivity|]); destruct S0). exact H0.
  - assert (i1 = 1) as -> by (repeat (destruct S1 as [S1|S1]; [try discriminate S1; injection S1 as <-; reflexivity|]); destruct S1). exact H1.
Qed.

(** A single query: burl_client burl_backend -- set https: *)
Definition ex_set : str := ex_request (ex_queries 1) 0.
Definition ex_show (t : str) : str := b "0".
Definition ex_world : world := mkWorld None None None (fun _ => OResult (ex_value ex_first)) None None.
Definition ex_args : list str := [b "burl_backend"; b "--"; b "set"; b "https:"].
Definition ex_set_picks : list pick := ex_reader 2 ++ ex_file 0 ex_org ++ ex_file 0 ex_txt ++ ex_job 0 8 ++ ex_reader 1.
Definition ex_run1 : list slabel * server := Eval vm_compute in match moves ex_config (start ex_glob (ex_received (ex_frame ex_set))) ex_set_picks with Some x => x | None => ([], start ex_glob []) end.
Definition ex_call1 : list clabel := [XGo; XSend 0 0; XSent 0 None; XHeader 0 (Ok ex_first); XTau; XDone 0 (OResult (ex_value ex_first))].
Definition ex_printed : str := b "{
  ""urls"": [
    ""https://a.org/x""
  ]
}
".
Example C97_example_query : asks_for ex_any (QLinkSet [b "https:"]) 0 ex_set /\ In (GRequest ex_set) (fst (client_tool (fun _ => None) ex_any ex_show ex_world ex_args)).
Proof.
  assert (R : In (GRequest ex_set) (fst (client_tool (fun _ => None) ex_any ex_show ex_world ex_args))) by (right; left; vm_compute; reflexivity). split; [|exact R].
  apply (C97_query (fun _ => None) ex_any ex_show ex_world ex_args (b "burl_backend") [] [b "set"; b "https:"]); [|apply (cq_set _ [b "https:"])|exact R].
  repeat (split; [reflexivity|]). split; [discriminate|]. split; [intros I; repeat (destruct I as [I|I]; [discriminate I|]); destruct I|]. apply rem_plain. intros x E. discriminate E.
Qed.
Example ex_client1 : exists s, Client.crun (fun _ => any_body ex_any []) new_client ex_call1 s.
Proof.
  eexists. unfold ex_call1, new_client. assert (E1 : any_body ex_any [] ex_first = Ok (ex_value ex_first)) by (vm_compute; reflexivity). revert E1. generalize ex_first. intros t1. generalize (ex_value t1). intros v1 E1.
  repeat (eapply cr_step; [first [eapply x_go|eapply x_send; reflexivity|eapply x_sent; reflexivity|eapply x_header|eapply x_match|eapply x_result; [exact E1]]|];
    cbn [put firstn skipn app N.add Pos.add Pos.succ found find fst snd N.eqb Pos.eqb without filter negb ended]).
  apply cr_nil.
Qed.
Example C97_example : In (GPrint ex_printed) (fst (client_tool (fun _ => None) ex_any ex_show ex_world ex_args)) /\
  exists x v v' y, handled ex_config ex_glob (fst ex_run1) 0 (QLinkSet [b "https:"]) (Ok x) /\ jtext v x /\ canonical ex_show v v' /\ laid 0 v' y /\ ex_printed = y ++ eol.
Proof.
  assert (P : In (GPrint ex_printed) (fst (client_tool (fun _ => None) ex_any ex_show ex_world ex_args))) by (right; right; left; vm_compute; reflexivity). split; [exact P|].
  destruct C97_example_query as (A & R). destruct ex_client1 as (cs & Rc).
  assert (M : moves ex_config (start ex_glob (ex_received (ex_frame ex_set))) ex_set_picks = Some (fst ex_run1, snd ex_run1)) by (vm_compute; reflexivity).
  apply (C97_printed (fun _ => None) ex_any ex_show [] ex_world ex_args ex_printed ex_set (QLinkSet [b "https:"]) P R) with (ctr := ex_call1) (cs := cs) (float_ok := ex_any) (message := fun _ _ => b "error")
    (out := concat (map ex_frame [ex_set])) (z := ex_frame ex_set) (fin := EOF) (sch := fun _ => 100) (fuel := 5) (input := ex_received (ex_frame ex_set)) (e := EHeader (Io EOF)) (s := snd ex_run1)
    (z' := sent (fst ex_run1)) (fin' := EOF) (sch' := fun _ => 100) (fuel' := 5) (hs := [(0%N, Ok ex_first)]) (e' := EHeader (Io EOF)).
  - intros t _. exact (JsonProofs.integer_ok 0).
  - exact A.
  - exact Rc.
  - reflexivity.
  - do 5 right. left. reflexivity.
  - apply ex_framed. repeat constructor.
  - exists []. cbn [map concat]. rewrite !app_nil_r. reflexivity.
  - vm_compute. reflexivity.
  - reflexivity.
  - eapply moves_ok, M.
  - apply no_fail. vm_compute. reflexivity.
  - apply fit1_ok. vm_compute. reflexivity.
  - apply shallow1_ok. vm_compute. reflexivity.
  - exists []. rewrite app_nil_r. reflexivity.
  - vm_compute. reflexivity.
  - exists []. rewrite app_nil_r. reflexivity.
Qed.
