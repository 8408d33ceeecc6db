(** Lemmas about messages that are not requests, texts of Lisp expressions. *)
From Coq Require Import ZifyBool ZifyNat ZifyN.
From Verif Require Import GoBase Utf8 JsonSpec Json Emacs Frame FrameSpec Stream StreamSpec StreamProofs StreamMain StreamRfc Backend Server Unmarshal UnmarshalSpec UnmarshalProofs PacketProofs RepeatSpec RepeatProofs.

Lemma session_bad unmarshal ts t : object_text t -> unmarshal t = false -> (N.of_nat (length t) <= 1073741824)%N -> forall stream ms d r fuel,
  is_stream stream (ts ++ t :: ms) -> Forall object_text ts -> Forall (accepted unmarshal) ts ->
  Forall (fun m => N.of_nat (length m) <= 1073741824)%N ts -> unread d = [] -> derr d = None -> roomy d -> Nleft r = 0%N -> rest (R r) = stream -> length ts < fuel ->
  session fuel unmarshal d r = Some (ts, EUnmarshal).
Proof.
  intros T U Lp. induction ts as [|t' ts IH]; intros stream ms d r fuel S Ts A L Eu Ed Rm E0 Er Lf; (destruct fuel as [|fuel]; [cbn in Lf; lia|]); cbn [session app] in *.
  - inversion S as [|f m s ms' Fr S']; subst. destruct (header_frame r f t s E0 Fr Lp ltac:(congruence)) as (r1 & H1 & En & Er1 & Ef1).
    destruct (Decode_ok t [] s [] d r1) as (d' & r' & y1 & y2 & HD & _); try assumption; try (rewrite app_nil_r; assumption); [constructor|].
    unfold ReadMessage. rewrite H1, HD. cbn [app]. rewrite U. reflexivity.
  - inversion S as [|f m s ms' Fr S']; subst. inversion_clear Ts as [|? ? T1 T2]. inversion_clear A as [|? ? A1 A2]. inversion_clear L as [|? ? L1 L2].
    destruct (message_ok unmarshal t' [] s [] d r f) as (d' & r' & y1 & y2 & HM & Ey & Eu2 & Ed2 & Rm2 & En2 & Er2 & Ef2); try assumption; try (rewrite app_nil_r; assumption); [constructor|congruence|].
    symmetry in Ey. apply app_eq_nil in Ey. destruct Ey as [-> ->]. rewrite HM. cbn [app]. rewrite (IH s ms d' r' fuel); auto; [cbn [length] in Lf; lia].
Qed.
Lemma requests_bad stream msgs w x l ms fin sch fuel : is_stream stream (map fst msgs ++ (w ++ x) :: ms) -> Forall (fun m => a_message (fst m) (snd m)) msgs ->
  Forall (fun m => N.of_nat (length (fst m)) <= 1073741824)%N msgs -> length msgs < fuel ->
  space w -> jtext (VObj l) x -> (N.of_nat (nesting (VObj l)) <= 10000)%N -> (N.of_nat (length (w ++ x)) <= 1073741824)%N -> ~ checked l (b "method") a_string ->
  exists ps, requests fuel (mkSrc stream fin sch 0) = Some (ps, EUnmarshal) /\ Forall2 (fun m p => a_packet (fst m) (VObj (snd m)) p) msgs ps.
Proof.
  intros St F L Lf W J Ln Lx C. unfold requests.
  assert (B : is_request (w ++ x) = false).
  { assert (Jd : jdocument (VObj l) (w ++ x)) by (exists w, x, []; split; [exact W|]; split; [constructor|]; split; [exact J|]; rewrite app_nil_r; reflexivity).
    destruct (packet_repeated _ _ Jd) as [_ P]. unfold is_request. destruct (request_packet (w ++ x)) as [p|]; [|reflexivity]. exfalso. apply C, P. eauto. }
  assert (O : Forall object_text (map fst msgs)).
  { rewrite Forall_map. eapply Forall_impl; [|exact F]. intros [t l'] (w' & x' & W' & J' & E' & Ln' & _). cbn [fst snd] in *. subst t. eapply rfc_object; eassumption. }
  assert (A : Forall (accepted is_request) (map fst msgs)).
  { rewrite Forall_map. eapply Forall_impl; [|exact F]. intros [t l'] M w' W'. cbn [fst snd] in *. destruct (message_request t l' w' M W') as (p & E & _). unfold is_request. rewrite E. reflexivity. }
  assert (T : object_text (w ++ x)) by (eapply rfc_object; eassumption).
  rewrite (session_bad is_request (map fst msgs) (w ++ x) T B Lx stream ms NewDecoder (NewFrameLimitedReader (mkSrc stream fin sch 0)) fuel St O A); [|rewrite Forall_map; exact L|reflexivity|reflexivity|apply le_n|reflexivity|reflexivity|rewrite map_length; exact Lf].
  eexists. split; [reflexivity|]. clear St L Lf O A. induction F as [|[t l'] msgs M F IH]; [constructor|]. cbn [map flat_map fst snd] in *. destruct (message_request t l' [] M ltac:(constructor)) as (p & E & P). cbn [app] in E, P. rewrite E. cbn [app]. constructor; [exact P|exact IH].
Qed.

(** ** Lisp *)
Lemma lisp_texts : EnsureFrameLisp = concat (map (fun s => s ++ [ascii_of_nat 10])
   [[]; b "(if (and (symbolp 'linkremark-ensure-frame) (fboundp 'linkremark-ensure-frame))"; b "    (linkremark-ensure-frame)"; b "  (or (memq 'x (mapcar #'framep (frame-list)))";
    b "      (select-frame (make-frame '((name . ""bURL"") (window-system . x))))))"]) /\
  CheckOrgProtocolLisp = b "(and (memq 'org-protocol features) 'org-protocol)".
Proof. split; vm_compute; reflexivity. Qed.
