(** Properties C59-C61, C74: command line tools and the wrapper. *)
From Verif Require Import GoBase Utf8 Utf8Dec Regex RegexParse Patterns Url Flags LinkTypes LinkTree LinkSpec LinkMain FrameSpec Emacs Backend Extract Real JsonSpec ReplySpec ServerSpec Tools ToolsSpec ToolsProofs.
Local Open Scope Z_scope.

(** C59 (finding).  The URL does not matter ... *)
Theorem C59_ignored : forall u c chunk entries order o url url' files, set o = [] ->
  tool_main u c chunk entries order o (url :: files) = tool_main u c chunk entries order o (url' :: files).
Proof. exact tool_ignores. Qed.
Print Assumptions C59_ignored.

(** ... a part of the tree of all links is printed, all of them if there are at most 8. *)
Theorem C59_all : forall u c chunk entries order o url files reads r err, set o = [] ->
  gives (tool_main u c chunk entries order o (url :: files)) reads (OTree (Some r) err) ->
  exists srcs tree, tool_sources (linkSources o) files srcs /\ gives (ExtractLinksFromFileGroup (real u c chunk) srcs) reads (Some tree, err) /\
    (nmatches (fun _ => true) tree * 8 <= maxint -> pruned (reply_node (fun _ => true)) tree r /\ nlinks r <= 8 /\
      (nmatches (fun _ => true) tree <= 8 -> complete (fun _ => true) tree r)).
Proof. exact tool_tree. Qed.
Print Assumptions C59_all.

Definition ex_scheme : option schemeRe := UpdateRe [b "http"; b "ftp"].
Definition ex_chunk : nat -> N := fun _ => 4096%N.
Definition ex_content : str := b "see http://a.org/x and" ++ [ascii_of_N 10] ++ b "ftp://b.net/y too" ++ [ascii_of_N 10].
Definition ex_reads : list (str * rres) := [(b "n.txt", RData ex_content false)].
Definition ex_tool (c : schemeRe) (url : str) : option (list str) :=
  match answers (tool_main (fun _ => false) c ex_chunk [] (fun l => l) (mkTool [] []) [url; b "n.txt"]) ex_reads with
  | Some (OTree (Some r) None) => Some (map (fun x => URL (snd x)) (cpaths r))
  | _ => None
  end.
Example C59_example : match ex_scheme with Some c => ex_tool c (b "http://a.org/x") | None => None end = Some [b "http://a.org/x"; b "ftp://b.net/y"].
Proof. vm_compute. reflexivity. Qed.
Theorem C59_refuted : ~ forall u c chunk entries order o url files reads r err, set o = [] ->
  gives (tool_main u c chunk entries order o (url :: files)) reads (OTree (Some r) err) ->
  forall p l, In (p, l) (cpaths r) -> In (URL l) (UrlVariants entries url).
Proof.
  intros H. pose proof C59_example as E. destruct ex_scheme as [c|]; [|discriminate E]. unfold ex_tool in E.
  destruct (answers _ ex_reads) as [[| |[r|] [|]]|] eqn:A; try discriminate E. apply answers_gives in A. injection E as E.
  assert (I : In (b "ftp://b.net/y") (map (fun x => URL (snd x)) (cpaths r))) by (rewrite E; right; left; reflexivity).
  apply in_map_iff in I. destruct I as ([p l] & U & I). cbn [snd] in U. specialize (H _ _ _ _ _ (mkTool [] []) _ _ _ _ _ eq_refl A p l I). rewrite U in H. vm_compute in H. intuition discriminate.
Qed.
Print Assumptions C59_refuted.

(** C60.  The query and the command are separated by the first separator; a crash when there is no command before it. *)
Theorem C60_start : forall args command arguments queries,
  client_main args = LStart command arguments queries <->
  (queries <> [] /\ ~ In (b "--") (command :: arguments) /\ remaining args (command :: arguments ++ b "--" :: queries)).
Proof. exact client_starts. Qed.
Print Assumptions C60_start.
Theorem C60_panic : forall args, client_main args = LPanic <-> exists rest, remaining args (b "--" :: rest).
Proof. exact client_panics. Qed.
Print Assumptions C60_panic.
Theorem C60_refuted : ~ forall args, client_main args <> LPanic.
Proof. intros H. exact (H [b "--"; b "--"; b "hello"] eq_refl). Qed.
Print Assumptions C60_refuted.
Example C60_example :
  client_main [b "burl_backend"; b "-log"; b "x"; b "--"; b "mentions"; b "--"; b "http://a.org/"] = LStart (b "burl_backend") [b "-log"; b "x"] [b "mentions"; b "--"; b "http://a.org/"] /\
  client_main [b "burl_backend"; b "--"] = LUsage /\ client_main [b "burl_backend"; b "hello"] = LUsage /\ client_main [b "-x"] = LUsage /\ client_main [b "-h"] = LHelp.
Proof. vm_compute. auto. Qed.

(** C74.  Requests of the client are JSON objects with names of published methods. *)
Theorem C74_request : forall parse_int queries method v0 id, client_asks parse_int queries method v0 ->
  exists query v n, subcommand parse_int queries = CCall method query /\ client_asks parse_int queries method v /\ number id n /\
    jdocument (VObj [(name (b "method"), text method); (name (b "params"), VArr [v]); (name (b "id"), n)]) (client_request method query id).
Proof. exact asked_number. Qed.
Print Assumptions C74_request.
Theorem C74_served : forall parse_int queries method v, client_asks parse_int queries method v -> exists m, serves method m.
Proof. exact asked_served. Qed.
Print Assumptions C74_served.
Definition ex_int (s : str) : option Z := if str_eqb s (b "12") then Some 12 else None.
Example C74_example : client_asks ex_int [b "visit"; b "--line"; b "12"; b "--file"; b "n.org"] (b "linkremark.visit")
    (VObj [(name (b "file"), text (b "n.org")); (name (b "lineNo"), VNum (b "12"))]) /\
  match subcommand ex_int [b "visit"; b "--line"; b "12"; b "--file"; b "n.org"] with
  | CCall method query => client_request method query 0 = b "{""method"":""linkremark.visit"",""params"":[{""file"":""n.org"",""lineNo"":12}],""id"":0}" ++ [ascii_of_N 10]
  | _ => False
  end.
Proof.
  split; [|vm_compute; reflexivity]. apply ca_visit_line with (n := 12); [reflexivity|]. exists (b "12"). left. split; [discriminate|]. split; [reflexivity|].
  split; [discriminate|]. split; [|reflexivity]. repeat constructor; discriminate.
Qed.

(** C61.  What is printed by the wrapper is a frame when the length is counted in bytes and the message is short ... *)
Theorem C61_frame : forall size exe,
  is_frame (wrapper_output size exe) (wrapper_error exe) <->
  (size (wrapper_error exe) = N.of_nat (length (wrapper_error exe)) /\ (length (wrapper_error exe) <= 255)%nat).
Proof. exact wrapper_frame. Qed.
Print Assumptions C61_frame.
(** ... and the message is JSON for paths without control characters; newlines at the end of the path are dropped. *)
Theorem C61_json : forall rs n, Forall (fun r => valid_rune r = true /\ (32 <= r)%N) rs ->
  jdocument (VObj [(name (b "error"), VStr (map shown_char rs ++ name (b ": file not found or not executable")))])
    (wrapper_error (flat_map utf8 rs ++ repeat (ascii_of_N 10) n)).
Proof. exact wrapper_json_lines. Qed.
Print Assumptions C61_json.
Theorem C61_refuted : ~ forall exe, is_frame (wrapper_output (fun s => N.of_nat (length s)) exe) (wrapper_error exe).
Proof. intros H. specialize (H (repeat "a"%char 256)). apply wrapper_frame in H. destruct H as [_ H]. revert H. vm_compute. intros H. repeat apply le_S_n in H. inversion H. Qed.
Print Assumptions C61_refuted.
Example C61_example : wrapper_output (fun s => N.of_nat (length s)) (b "/home/me/bin/burl ""x""") =
  ascii_of_N 68 :: repeat (ascii_of_N 0) 3 ++ b "{""error"": ""/home/me/bin/burl 'x': file not found or not executable""}".
Proof. vm_compute. reflexivity. Qed.
