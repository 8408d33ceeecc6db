(** Proofs for the sample client. *)
From Coq Require Import ZifyBool ZifyNat ZifyN.
From Verif Require Import GoBase Utf8 Utf8Dec JsonSpec JsonStr Json JsonProofs Compact CompactProofs Emacs Stream Flags Backend BackendSpec ReplySpec ReplyProofs Server ServerSpec ServerProofs Unmarshal UnmarshalSpec ParseProofs UnmarshalProofs PacketProofs Tools ToolsSpec ToolsProofs Client ClientSpec ResponseProofs Sample Print PrintSpec SampleClient SampleClientSpec.

Lemma parsed_remaining args rest : ParseFlags (C := unit) [] args tt = PArgs tt rest -> remaining args rest.
Proof.
  intros H. destruct (remaining_dec args) as [(r & R)|N]; [rewrite (remaining_ok _ _ R) in H; injection H as <-; exact R|]. exfalso. destruct args as [|s l]; [eapply N; constructor|].
  assert (D : (forall x, s <> "-"%char :: x) \/ exists x, s = "-"%char :: x).
  { destruct s as [|a s]; [left; discriminate|]. destruct (ascii_dec a "-"%char) as [->|Na]; [eauto|left; congruence]. }
  destruct D as [D|(x & ->)]; [eapply N, rem_plain, D|]. destruct x as [|a x]; [eapply N, rem_dash|]. cbn [ParseFlags] in H.
  assert (Z : forall nm, (match nm with
            | [] => PBad
            | "-"%char :: _ | "="%char :: _ => PBad
            | _ => let '(name, value) := split_value nm in match find_flag (C := unit) name [] with
                | None => if str_eqb name (b "help") || str_eqb name (b "h") then PHelp else PBad
                | Some set => match value, l with
                    | Some v, _ => match set tt v with Some c' => ParseFlags [] l c' | None => PBad end
                    | None, v :: rest' => match set tt v with Some c' => ParseFlags [] rest' c' | None => PBad end
                    | None, [] => PBad
                    end
                end
            end) <> PArgs tt rest).
  { intros nm. destruct nm as [|c nm]; [discriminate|]. destruct (split_value (c :: nm)) as [n v]. cbn [find_flag].
    destruct (str_eqb n (b "help") || str_eqb n (b "h")); destruct c as [[] [] [] [] [] [] [] []]; discriminate. }
  destruct (Ascii.eqb a "-") eqn:Ea; [|exact (Z (a :: x) H)]. apply Ascii.eqb_eq in Ea. subst a. destruct x as [|a x]; [eapply N, rem_separator|]. exact (Z (a :: x) H).
Qed.
Lemma sample_other show w name args : (forall rest, ~ remaining args rest) -> sample_client show w name args = ([], NExit0) \/ sample_client show w name args = ([], NExit2).
Proof.
  intros N. unfold sample_client. destruct (ParseFlags [] args tt) as [[] rest| |] eqn:P; auto. exfalso. exact (N _ (parsed_remaining _ _ P)).
Qed.
Lemma sample_usage show w name args : remaining args [] -> sample_client show w name args = ([], NExit1 (b "Usage: " ++ name ++ b " BACKEND_COMMAND ARG..." ++ eol)).
Proof. intros R. unfold sample_client. rewrite (remaining_ok _ _ R). reflexivity. Qed.
Lemma sample_failed show w name args command rest : remaining args (command :: rest) -> ~ startable w ->
  exists e, In (Some e) [w_stdin w; w_stdout w; w_start w] /\ sample_client show w name args = ([], NExit1 (name ++ b ": backend error: " ++ e ++ eol)).
Proof.
  intros R N. unfold sample_client. rewrite (remaining_ok _ _ R). unfold sample_session, NewClientCommand, startable in *.
  destruct (w_stdin w) as [e|]; [exists e; cbn; auto|]. destruct (w_stdout w) as [e|]; [exists e; cbn; auto|]. destruct (w_start w) as [e|]; [exists e; cbn; auto|]. exfalso. auto.
Qed.
Lemma sample_calls show w name args command rest : remaining args (command :: rest) -> startable w ->
  let t1 := sqrt_request 2 0 in let t2 := sqrt_request (-2) 1 in
  fst (sample_client show w name args) = [GStart command rest; GRequest t1; GPrint (sqrt_line show 2 (w_call w t1)); GRequest t2; GPrint (sqrt_line show (-2) (w_call w t2)); GClose; GWait].
Proof.
  intros R (S1 & S2 & S3) t1 t2. unfold sample_client. rewrite (remaining_ok _ _ R). unfold sample_session, NewClientCommand. rewrite S1, S2, S3.
  unfold ClientCommand_Close, sqrt_call. subst t1 t2. generalize (sqrt_request 2 0) (sqrt_request (-2) 1). intros t1 t2. destruct (w_close w); [reflexivity|]. destruct (w_wait w); reflexivity.
Qed.
Lemma line_told show q c : (forall v, c = OResult v -> exists x, v = VNum x) -> exists kind t, told show c kind t /\ sqrt_line show q c = b "sqrt: query " ++ integer q ++ b " " ++ kind ++ b " " ++ t ++ eol.
Proof.
  intros N. destruct c as [v|e|e|e|e].
  - destruct (N _ eq_refl) as (x & ->). exists (b "result"), (show x). split; [constructor|reflexivity].
  - exists (b "error"), e. split; [constructor|reflexivity].
  - exists (b "error"), e. split; [constructor|reflexivity].
  - exists (b "error"), e. split; [constructor|reflexivity].
  - exists (b "error"), (ending_text e). split; [destruct e; constructor|reflexivity].
Qed.
Lemma request_document q id : jdocument (sqrt_object (integer q) (integer id)) (sqrt_request q id).
Proof.
  unfold sqrt_request, client_request, sqrt_object. pose proof (encode_ok (JObj [(b "method", JStr (b "example.Sqrt")); (b "params", JArr [JInt q]); (b "id", JInt id)])) as H.
  eexists [], _, eol. split; [constructor|]. split; [constructor; [cbn; tauto|constructor]|]. split; [exact H|reflexivity].
Qed.
Lemma sample_run show w name args command rest : remaining args (command :: rest) -> startable w -> numeric w ->
  exists t1 k1 x1 t2 k2 x2, jdocument (sqrt_object (b "2") (b "0")) t1 /\ told show (w_call w t1) k1 x1 /\ jdocument (sqrt_object (b "-2") (b "1")) t2 /\ told show (w_call w t2) k2 x2 /\
    fst (sample_client show w name args) =
      [GStart command rest; GRequest t1; GPrint (b "sqrt: query 2 " ++ k1 ++ b " " ++ x1 ++ eol); GRequest t2; GPrint (b "sqrt: query -2 " ++ k2 ++ b " " ++ x2 ++ eol); GClose; GWait].
Proof.
  intros R S N. pose proof (sample_calls show w name args command rest R S) as A. cbv zeta in A.
  destruct (line_told show 2 (w_call w (sqrt_request 2 0)) (N _)) as (k1 & x1 & T1 & E1). destruct (line_told show (-2) (w_call w (sqrt_request (-2) 1)) (N _)) as (k2 & x2 & T2 & E2).
  exists (sqrt_request 2 0), k1, x1, (sqrt_request (-2) 1), k2, x2. rewrite A, E1, E2. split; [exact (request_document 2 0)|]. split; [exact T1|]. split; [exact (request_document (-2) 1)|]. split; [exact T2|]. reflexivity.
Qed.
Lemma sample_exit show w name args command rest : remaining args (command :: rest) -> startable w ->
  snd (sample_client show w name args) = match w_close w, w_wait w with
                                         | Some e, _ => NExit1 (name ++ b ": backend error: " ++ e ++ eol)
                                         | None, Some e => NExit1 (name ++ b ": backend error: " ++ e ++ eol)
                                         | None, None => NExit0
                                         end.
Proof.
  intros R (S1 & S2 & S3). unfold sample_client. rewrite (remaining_ok _ _ R). unfold sample_session, NewClientCommand. rewrite S1, S2, S3.
  unfold ClientCommand_Close. destruct (w_close w); [reflexivity|]. destruct (w_wait w); reflexivity.
Qed.

(** Replies of the sample backend *)
Lemma reply_error f negative root n x : (n <= 18446744073709551615)%N -> negative x = true ->
  response_header f (sqrt_response negative root (integer (Z.of_N n)) x) = Some (n, Err (b "square root of negative number")).
Proof.
  intros L H. unfold sqrt_response, Sqrt. rewrite H. unfold sample_response.
  assert (J : jnumber (integer (Z.of_N n))) by apply integer_ok.
  pose proof (obj3 _ _ _ _ _ _ (compact_value _ _ (jt_num _ J)) jt_null (encode_ok (JStr (b "square root of negative number")))) as Q.
  exact (header3_error f _ n VNull _ Q L).
Qed.
Lemma reply_result f negative root n x : (n <= 18446744073709551615)%N -> negative x = false -> jnumber (root x) ->
  exists y, response_header f (sqrt_response negative root (integer (Z.of_N n)) x) = Some (n, Ok y) /\ jtext (VNum (root x)) y.
Proof.
  intros L H Jr. unfold sqrt_response, Sqrt. rewrite H. unfold sample_response.
  assert (J : jnumber (integer (Z.of_N n))) by apply integer_ok.
  pose proof (obj3 _ _ _ _ _ _ (compact_value _ _ (jt_num _ J)) (jt_num _ Jr) jt_null) as Q.
  apply (header3_result f _ n (VNum (root x)) Q L). discriminate.
Qed.
(** The dialog with the sample backend: both calls are completed by its replies. *)
Lemma sample_dialog show f negative root w name args command rest : remaining args (command :: rest) -> startable w ->
  negative (b "2") = false -> negative (b "-2") = true -> jnumber (root (b "2")) ->
  (forall t, jdocument (sqrt_object (b "2") (b "0")) t -> completes f 0 (sqrt_response negative root (b "0") (b "2")) (w_call w t)) ->
  (forall t, jdocument (sqrt_object (b "-2") (b "1")) t -> completes f 1 (sqrt_response negative root (b "1") (b "-2")) (w_call w t)) ->
  exists t1 t2, fst (sample_client show w name args) =
    [GStart command rest; GRequest t1; GPrint (b "sqrt: query 2 result " ++ show (root (b "2")) ++ eol);
     GRequest t2; GPrint (b "sqrt: query -2 error square root of negative number" ++ eol); GClose; GWait].
Proof.
  intros R S P N Jr H1 H2. pose proof (sample_calls show w name args command rest R S) as A. cbv zeta in A. exists (sqrt_request 2 0), (sqrt_request (-2) 1). rewrite A. clear A.
  assert (E1 : w_call w (sqrt_request 2 0) = OResult (VNum (root (b "2")))).
  { pose proof (H1 _ (request_document 2 0)) as C. destruct (reply_result f negative root 0 (integer 2) ltac:(lia) P Jr) as (y & Hy & Jy). change (integer (Z.of_N 0)) with (b "0") in Hy. change (integer 2) with (b "2") in Hy.
    inversion C as [e Hh E|x v Hh J F E].
    - exfalso. rewrite Hy in Hh. discriminate Hh.
    - rewrite Hy in Hh. injection Hh as <-. f_equal. exact (document_same _ _ _ J (text_document _ _ Jy)). }
  assert (E2 : w_call w (sqrt_request (-2) 1) = OServer (b "square root of negative number")).
  { pose proof (H2 _ (request_document (-2) 1)) as C. pose proof (reply_error f negative root 1 (integer (-2)) ltac:(lia) N) as Hy. change (integer (Z.of_N 1)) with (b "1") in Hy. change (integer (-2)) with (b "-2") in Hy.
    inversion C as [e Hh E|x v Hh J F E].
    - rewrite Hy in Hh. injection Hh as <-. reflexivity.
    - exfalso. rewrite Hy in Hh. discriminate Hh. }
  rewrite E1, E2. reflexivity.
Qed.
(** The value of a reply *)
Lemma float_reply f oops t v : jdocument v t -> float_result f oops v (float_body f oops t).
Proof.
  intros D. unfold float_body. rewrite (document_parsed _ _ D). destruct v as [| |n| | |]; try (constructor; intros; discriminate); try constructor.
  destruct (f n) eqn:F; constructor; exact F.
Qed.
Lemma float_numeric f oops t v : float_body f oops t = Ok v -> exists x, v = VNum x.
Proof. unfold float_body. destruct (parse t) as [[| |n| | |]|]; try discriminate; [intros E; injection E as <-; eauto|]. destruct (f n); [|discriminate]. intros E. injection E as <-. eauto. Qed.
