(** Properties C93-C95: the command line client, tools/burl_client. *)
From Coq Require Import Permutation.
From Verif Require Import GoBase Utf8 JsonSpec Json JsonProofs Emacs Stream StreamSpec Backend BackendSpec ReplySpec Server ServerSpec Tools ToolsSpec Unmarshal UnmarshalSpec UnmarshalProofs PacketProofs Client Print PrintSpec PrintProofs CheckProofs PrintMain.

(** C93.  Each decoded reply is printed as JSON text of that value: members are sorted, each one is on its own line with indentation. *)
Theorem C93_print : forall f show oops x v, any_body f oops x = Ok v -> (forall t, f t = true -> jnumber (show t)) ->
  exists w t, canonical show v w /\ (forall w', canonical show v w' -> w' = w) /\ laid 0 w t /\ print (as_any show v) = t ++ eol /\ jdocument w (print (as_any show v)).
Proof. exact reply_printed. Qed.
Print Assumptions C93_print.
(** It is the same value unless names are repeated. *)
Theorem C93_same : forall show v w, canonical show v w -> once_named v -> (forall t, occurs t v -> show t = t) -> reordered v w.
Proof. exact canonical_reordered. Qed.
Print Assumptions C93_same.
(** What is printed is read as a value that is printed in the same way. *)
Theorem C93_again : forall show v, proper v -> (forall t, occurs t v -> jnumber (show t)) -> (forall t, occurs t v -> show (show t) = show t) ->
  exists w, parse (print (as_any show v)) = Some w /\ print (as_any show w) = print (as_any show v).
Proof. exact print_again. Qed.
Print Assumptions C93_again.
Definition ex_reply : str := b "{""version"":""0.2"" , ""a"":[1,{},[]],""formats"":null, ""a"":[ true,{""z"":""<é"",""b"":-7}]}".
Definition ex_any (t : str) : bool := true.
Definition ex_show (t : str) : str := if str_eqb t (b "1") then b "1.5" else t.
Example C93_example : exists v, any_body ex_any (b "error") ex_reply = Ok v /\ print (as_any ex_show v) =
  b "{
  ""a"": [
    true,
    {
      ""b"": -7,
      ""z"": ""\u003cé""
    }
  ],
  ""formats"": null,
  ""version"": ""0.2""
}
".
Proof. eexists. split; vm_compute; reflexivity. Qed.
Example C93_example_lists : print (as_any ex_show (VArr [VNum (b "1"); VArr []; VObj []; VArr [VArr [VBool false]]])) = b "[
  1.5,
  [],
  {},
  [
    [
      false
    ]
  ]
]
".
Proof. vm_compute. reflexivity. Qed.
Example C93_example_same : once_named (VObj [(name (b "b"), VNull); (name (b "a"), VNum (b "2"))]) /\ canonical ex_show (VObj [(name (b "b"), VNull); (name (b "a"), VNum (b "2"))]) (VObj [(name (b "a"), VNum (b "2")); (name (b "b"), VNull)]).
Proof.
  split; [constructor; [vm_compute; repeat constructor; intros I; repeat (destruct I as [I|I]; [discriminate I|]); destruct I|repeat constructor]|].
  assert (P : proper (VObj [(name (b "b"), VNull); (name (b "a"), VNum (b "2"))])) by (vm_compute; repeat constructor). exact (as_any_canonical ex_show _ P).
Qed.

(** C94.  A query that is given to hello as JSON is understood by the server as it is written. *)
Theorem C94_hello : forall parse_int f show v t f' message, jdocument v t -> (N.of_nat (nesting v) <= 10000)%N -> (forall x, occurs x v -> f x = true) -> (forall x, f x = true -> jnumber (show x)) ->
  tidy v -> (forall x, f x = true -> f' x = true /\ f' (show x) = true) ->
  exists w x p, canonical show v w /\ query_text parse_int f show [b "hello"; t] = Some x /\ jdocument (hello_object w) x /\ request_packet x = Some p /\ id_shown (pid p) (VNum (b "0")) /\
    forall q, meaning (go_decoders f' message) p (Ok q) <-> wants f' MHello v q.
Proof. exact hello_sent. Qed.
Print Assumptions C94_hello.
(** Other texts are not sent. *)
Theorem C94_refused : forall parse_int f show t, ~ document_text t -> query_text parse_int f show [b "hello"; t] = None.
Proof. exact hello_refused. Qed.
Print Assumptions C94_refused.
Theorem C94_range : forall parse_int f show v t x, jdocument v t -> occurs x v -> f x = false -> query_text parse_int f show [b "hello"; t] = None.
Proof. exact hello_range. Qed.
Print Assumptions C94_range.
(** The query that is sent when there is no argument *)
Theorem C94_default : forall parse_int f show f' message, exists x p, query_text parse_int f show [b "hello"] = Some x /\ request_packet x = Some p /\ id_shown (pid p) (VNum (b "0")) /\
  meaning (go_decoders f' message) p (Ok (QHello [(b "org", b "0.2"); (b "object", b "0.2"); (b "org-protocol", b "0.2")])).
Proof. exact hello_default. Qed.
Print Assumptions C94_default.
Definition ex_hello : json := JObj [(b "version", JStr (b "0.2")); (b "formats", JArr [JObj [(b "version", JStr (b "0.1")); (b "format", JStr (b "org")); (b "options", JObj [(b "n", JInt 1)])]])].
Example C94_example : jdocument (value_of ex_hello) (encode ex_hello) /\ tidy (value_of ex_hello) /\
  query_text (fun _ => None) ex_any ex_show [b "hello"; encode ex_hello] =
  Some (b "{""method"":""linkremark.hello"",""params"":[{""formats"":[{""format"":""org"",""options"":{""n"":1.5},""version"":""0.1""}],""version"":""0.2""}],""id"":0}" ++ eol) /\
  wants ex_any MHello (value_of ex_hello) (QHello [(b "org", b "0.1")]).
Proof.
  split; [apply text_document, encode_ok|]. assert (T : tidy (value_of ex_hello)).
  { assert (D : forall l, (fix go (l : list (list rune * value)) := match l with [] => true | m :: l' => negb (existsb (fun m' => if list_eq_dec N.eq_dec (map fold_rune (fst m)) (map fold_rune (fst m')) then true else false) l') && go l' end) l = true -> different l).
    { intros l. induction l as [|m l IH]; intros H l1 k1 v1 l2 k2 v2 l3 nm E S1 S2; [destruct l1; discriminate E|]. apply andb_true_iff in H as [H1 H2]. destruct l1 as [|m' l1]; cbn [app] in E; injection E as -> ->; [|eapply (IH H2); [reflexivity|exact S1|exact S2]].
      apply negb_true_iff in H1. apply fold_name, fold_same in S1. apply fold_name, fold_same in S2. rewrite existsb_app in H1. cbn [existsb fst] in H1. destruct (list_eq_dec N.eq_dec (map fold_rune k1) (map fold_rune k2)) as [_|N]; [|congruence]. rewrite orb_true_r in H1. discriminate H1. }
    unfold ex_hello. cbn [value_of map]. repeat (constructor; cbn [snd]); try (apply D; vm_compute; reflexivity). apply integer_ok. }
  split; [exact T|]. split; [vm_compute; reflexivity|].
  apply (params_exact ex_any (fun _ _ => b "error") MHello (encode (JArr [ex_hello])) (value_of ex_hello) []); [apply text_document; exact (encode_ok (JArr [ex_hello]))|exact T|]. vm_compute. reflexivity.
Qed.
Example C94_example_refused : query_text (fun _ => None) ex_any ex_show [b "hello"; b "{} {}"] = None /\ query_text (fun _ => None) ex_any ex_show [b "hello"; b ""] = None /\ query_text (fun _ => None) ex_any ex_show [b "hello"; b "{}"; b "{}"] = None.
Proof. vm_compute. auto. Qed.

(** C95.  What the client does: the backend is started, the request is sent, the reply is printed, the connection is closed, the process is waited for. *)
Theorem C95_order : forall parse_int f show w args, fst (client_tool parse_int f show w args) = [] \/
  exists name rest t x more, fst (client_tool parse_int f show w args) ++ more = [GStart name rest; GRequest t; GPrint x; GClose; GWait].
Proof. exact flow_order. Qed.
Print Assumptions C95_order.
Theorem C95_start : forall parse_int f show w args name rest, In (GStart name rest) (fst (client_tool parse_int f show w args)) <-> exists queries, started_with w args name rest queries.
Proof. exact flow_start. Qed.
Print Assumptions C95_start.
Theorem C95_request : forall parse_int f show w args t, In (GRequest t) (fst (client_tool parse_int f show w args)) <-> exists name rest queries, started_with w args name rest queries /\ query_text parse_int f show queries = Some t.
Proof. exact flow_request. Qed.
Print Assumptions C95_request.
(** Only results are printed, exactly that one of the call. *)
Theorem C95_print : forall parse_int f show w args x, In (GPrint x) (fst (client_tool parse_int f show w args)) <->
  exists t v, In (GRequest t) (fst (client_tool parse_int f show w args)) /\ w_call w t = OResult v /\ x = print (as_any show v).
Proof. exact flow_print. Qed.
Print Assumptions C95_print.
(** The exit code is 0 only if help has been requested or everything has succeeded. *)
Theorem C95_exit : forall parse_int f show w args, snd (client_tool parse_int f show w args) = Exit0 <->
  client_main args = LHelp \/ exists t v, In (GRequest t) (fst (client_tool parse_int f show w args)) /\ w_call w t = OResult v /\ w_close w = None /\ w_wait w = None.
Proof. exact flow_exit. Qed.
Print Assumptions C95_exit.
Theorem C95_wait : forall parse_int f show w args, In GWait (fst (client_tool parse_int f show w args)) <-> exists x, In (GPrint x) (fst (client_tool parse_int f show w args)) /\ w_close w = None.
Proof. exact flow_wait. Qed.
Print Assumptions C95_wait.
Theorem C95_crash : forall parse_int f show w args, snd (client_tool parse_int f show w args) = Crash <-> exists rest, remaining args (b "--" :: rest).
Proof. exact flow_crash. Qed.
Print Assumptions C95_crash.
Definition ex_world : world := mkWorld None None None (fun _ => OResult (VArr [])) None None.
Definition ex_args : list str := [b "burl_backend"; b "-log"; b "x"; b "--"; b "set"; b "http://a"].
Example C95_example : started_with ex_world ex_args (b "burl_backend") [b "-log"; b "x"] [b "set"; b "http://a"] /\
  client_tool (fun _ => None) ex_any ex_show ex_world ex_args =
  ([GStart (b "burl_backend") [b "-log"; b "x"]; GRequest (b "{""method"":""linkremark.linkSet"",""params"":[{""prefix"":[""http://a""]}],""id"":0}" ++ eol); GPrint (b "[]" ++ eol); GClose; GWait], Exit0) /\
  client_tool (fun _ => None) ex_any ex_show (mkWorld None None None (fun _ => OServer (b "no")) None None) ex_args =
  ([GStart (b "burl_backend") [b "-log"; b "x"]; GRequest (b "{""method"":""linkremark.linkSet"",""params"":[{""prefix"":[""http://a""]}],""id"":0}" ++ eol)], Exit1 false).
Proof.
  split; [|split; vm_compute; reflexivity]. repeat (split; [reflexivity|]). split; [discriminate|]. split; [intros I; repeat (destruct I as [I|I]; [discriminate I|]); destruct I|].
  apply rem_plain. intros x E. discriminate E.
Qed.
(** Findings.  The backend is started even if the subcommand is unknown; it is not waited for when the call fails. *)
Theorem C95_refuted : ~ forall parse_int f show w args name rest, In (GStart name rest) (fst (client_tool parse_int f show w args)) -> exists t, In (GRequest t) (fst (client_tool parse_int f show w args)).
Proof.
  intros H. destruct (H (fun _ => None) ex_any ex_show ex_world [b "burl_backend"; b "--"; b "unknown"] (b "burl_backend") []) as (t & I); [left; reflexivity|]. destruct I as [I|[]]. discriminate I.
Qed.
Print Assumptions C95_refuted.
Theorem C95_wait_refuted : ~ forall parse_int f show w args name rest, In (GStart name rest) (fst (client_tool parse_int f show w args)) -> In GWait (fst (client_tool parse_int f show w args)).
Proof.
  intros H. destruct (H (fun _ => None) ex_any ex_show (mkWorld None None None (fun _ => OServer (b "no")) None None) [b "burl_backend"; b "--"; b "set"] (b "burl_backend") []) as [I|[I|[]]]; [left; reflexivity|discriminate I|discriminate I].
Qed.
Print Assumptions C95_wait_refuted.
