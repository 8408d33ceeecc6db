(** Property C110: the sample client, examples/webextensions_client. *)
From Verif Require Import GoBase Utf8 JsonSpec Json JsonProofs Emacs Backend ReplySpec Server Unmarshal ParseProofs PacketProofs Tools ToolsSpec Client Sample Print SampleClient SampleClientSpec SampleClientProofs.

(** C110.  Two requests are sent one after another, something is told about each one whatever is its outcome, then the program is waited for. *)
Theorem C110_run : forall show w name args command rest, remaining args (command :: rest) -> startable w -> numeric w ->
  exists t1 k1 x1 t2 k2 x2, jdocument (sqrt_object (b "2") (b "0")) t1 /\ told show (w_call w t1) k1 x1 /\ jdocument (sqrt_object (b "-2") (b "1")) t2 /\ told show (w_call w t2) k2 x2 /\
    fst (sample_client show w name args) =
      [GStart command rest; GRequest t1; GPrint (b "sqrt: query 2 " ++ k1 ++ b " " ++ x1 ++ eol); GRequest t2; GPrint (b "sqrt: query -2 " ++ k2 ++ b " " ++ x2 ++ eol); GClose; GWait].
Proof. exact sample_run. Qed.
Print Assumptions C110_run.
(** The exit code depends on closing and on the program only. *)
Theorem C110_exit : forall show w name args command rest, remaining args (command :: rest) -> startable w ->
  snd (sample_client show w name args) = match w_close w, w_wait w with
                                         | Some e, _ => NExit1 (name ++ b ": backend error: " ++ e ++ eol)
                                         | None, Some e => NExit1 (name ++ b ": backend error: " ++ e ++ eol)
                                         | None, None => NExit0
                                         end.
Proof. exact sample_exit. Qed.
Print Assumptions C110_exit.
(** When the program can not be started *)
Theorem C110_failed : forall show w name args command rest, remaining args (command :: rest) -> ~ startable w ->
  exists e, In (Some e) [w_stdin w; w_stdout w; w_start w] /\ sample_client show w name args = ([], NExit1 (name ++ b ": backend error: " ++ e ++ eol)).
Proof. exact sample_failed. Qed.
Print Assumptions C110_failed.
Theorem C110_usage : forall show w name args, remaining args [] -> sample_client show w name args = ([], NExit1 (b "Usage: " ++ name ++ b " BACKEND_COMMAND ARG..." ++ eol)).
Proof. exact sample_usage. Qed.
Print Assumptions C110_usage.
Theorem C110_options : forall show w name args, (forall rest, ~ remaining args rest) -> sample_client show w name args = ([], NExit0) \/ sample_client show w name args = ([], NExit2).
Proof. exact sample_other. Qed.
Print Assumptions C110_options.
(** The dialog with the sample backend *)
Theorem C110_dialog : forall show f negative root w name args command rest, remaining args (command :: rest) -> startable w ->
  negative (b "2") = false -> negative (b "-2") = true -> jnumber (root (b "2")) ->
  (forall t, jdocument (sqrt_object (b "2") (b "0")) t -> completes f 0 (sqrt_response negative root (b "0") (b "2")) (w_call w t)) ->
  (forall t, jdocument (sqrt_object (b "-2") (b "1")) t -> completes f 1 (sqrt_response negative root (b "1") (b "-2")) (w_call w t)) ->
  exists t1 t2, fst (sample_client show w name args) =
    [GStart command rest; GRequest t1; GPrint (b "sqrt: query 2 result " ++ show (root (b "2")) ++ eol);
     GRequest t2; GPrint (b "sqrt: query -2 error square root of negative number" ++ eol); GClose; GWait].
Proof. exact sample_dialog. Qed.
Print Assumptions C110_dialog.
(** Replies that are not numbers: null is shown as zero, other ones are errors. *)
Theorem C110_reply : forall f oops t v, jdocument v t -> float_result f oops v (float_body f oops t).
Proof. exact float_reply. Qed.
Print Assumptions C110_reply.
Theorem C110_numeric : forall f oops t v, float_body f oops t = Ok v -> exists x, v = VNum x.
Proof. exact float_numeric. Qed.
Print Assumptions C110_numeric.
Definition ex_negative (x : str) : bool := has_prefix x (b "-").
Definition ex_root (x : str) : str := if str_eqb x (b "2") then b "1.4142135623730951" else b "0".
Definition ex_answer (t : str) : completion :=
  match parse t with
  | Some (VObj [_; (_, VArr [VNum x]); _]) => if ex_negative x then OServer (b "square root of negative number") else OResult (VNum (ex_root x))
  | _ => OEnd EndEof
  end.
Definition ex_world : world := mkWorld None None None ex_answer None None.
Definition ex_any (t : str) : bool := true.
Example C110_example : remaining [b "sample"; b "-x"] (b "sample" :: [b "-x"]) /\ startable ex_world /\ numeric ex_world /\ jnumber (ex_root (b "2")) /\
  (forall t, jdocument (sqrt_object (b "2") (b "0")) t -> completes ex_any 0 (sqrt_response ex_negative ex_root (b "0") (b "2")) (w_call ex_world t)) /\
  (forall t, jdocument (sqrt_object (b "-2") (b "1")) t -> completes ex_any 1 (sqrt_response ex_negative ex_root (b "1") (b "-2")) (w_call ex_world t)) /\
  sample_client (fun x => x) ex_world (b "client") [b "sample"; b "-x"] =
   ([GStart (b "sample") [b "-x"];
     GRequest (b "{""method"":""example.Sqrt"",""params"":[2],""id"":0}" ++ eol); GPrint (b "sqrt: query 2 result 1.4142135623730951" ++ eol);
     GRequest (b "{""method"":""example.Sqrt"",""params"":[-2],""id"":1}" ++ eol); GPrint (b "sqrt: query -2 error square root of negative number" ++ eol); GClose; GWait], NExit0).
Proof.
  split; [apply rem_plain; intros x E; discriminate E|]. split; [repeat constructor|].
  assert (J : jnumber (ex_root (b "2"))) .
  { exists [], (b "1"), (b ".4142135623730951"), []. split; [reflexivity|]. split; [auto|]. split; [right; split; [split; [discriminate|repeat constructor; discriminate]|discriminate]|]. split; [right; exists (b "4142135623730951"); split; [split; [discriminate|repeat constructor; discriminate]|reflexivity]|auto]. }
  split; [intros t v; cbn [ex_world w_call]; unfold ex_answer; destruct (parse t) as [[| | | | |l]|]; try discriminate; destruct l as [|m1 [|[k [| | | |[|[| |y| | |] [|]]|]] [|m3 [|]]]]; try discriminate; destruct (ex_negative y); [discriminate|]; intros E; injection E as <-; eauto|].
  split; [exact J|]. split; [|split; [|vm_compute; reflexivity]].
  - intros t D. cbn [ex_world w_call]. unfold ex_answer. rewrite (document_parsed _ _ D). apply cm_result with (x := ex_root (b "2")); [vm_compute; reflexivity| |reflexivity]. apply text_document. constructor. exact J.
  - intros t D. cbn [ex_world w_call]. unfold ex_answer. rewrite (document_parsed _ _ D). apply cm_error. vm_compute. reflexivity.
Qed.
(** Finding: success of the client does not mean that there are any results. *)
Theorem C110_refuted : ~ forall show w name args command rest t, remaining args (command :: rest) -> startable w -> In (GRequest t) (fst (sample_client show w name args)) ->
  snd (sample_client show w name args) = NExit0 -> jdocument (sqrt_object (b "2") (b "0")) t -> exists v, w_call w t = OResult v.
Proof.
  intros H. destruct (H (fun x => x) (mkWorld None None None (fun _ => OEnd EndEof) None None) [] [b "true"] (b "true") [] (sqrt_request 2 0)) as (v & E); [apply rem_plain; intros x E; discriminate E|repeat constructor|right; left; reflexivity|reflexivity|exact (request_document 2 0)|discriminate E].
Qed.
Print Assumptions C110_refuted.
