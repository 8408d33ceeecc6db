(** Properties C118 and C53: messages that are not requests (pkg/webextensions/server.go), Lisp expressions that are evaluated (pkg/burl_emacs/emacs.go). *)
From Verif Require Import GoBase Utf8 JsonSpec Json JsonProofs Emacs Frame FrameSpec Stream StreamSpec StreamWitness Backend Server Unmarshal UnmarshalSpec BadRequest.

(** C118.  A message with a method that is not a string ends reading after requests before it, whatever is after it and however the stream ends. *)
Theorem C118_bad : forall stream msgs w x l ms fin sch fuel, is_stream stream (map fst msgs ++ (w ++ x) :: ms) -> Forall (fun m => a_message (fst m) (snd m)) msgs ->
  Forall (fun m => N.of_nat (length (fst m)) <= 1073741824)%N msgs -> length msgs < fuel ->
  space w -> jtext (VObj l) x -> (N.of_nat (nesting (VObj l)) <= 10000)%N -> (N.of_nat (length (w ++ x)) <= 1073741824)%N -> ~ checked l (b "method") a_string ->
  exists ps, requests fuel (mkSrc stream fin sch 0) = Some (ps, EUnmarshal) /\ Forall2 (fun m p => a_packet (fst m) (VObj (snd m)) p) msgs ps.
Proof. exact requests_bad. Qed.
Print Assumptions C118_bad.

Definition ex_bad : json := JObj [(b "method", JStr (b "burl.visit")); (b "Method", JInt 1)].
Definition ex_bad_members : list (list rune * value) := match value_of ex_bad with VObj l => l | _ => [] end.
Example C118_example : jtext (VObj ex_bad_members) (encode ex_bad) /\ ~ checked ex_bad_members (b "method") a_string /\
  a_message (b "{}") [] /\ is_stream (concat (map ex_frame [b "{}"; encode ex_bad; b "{}"])) ([b "{}"] ++ ([] ++ encode ex_bad) :: [b "{}"]) /\
  requests 5 (mkSrc (ex_frame (b "{}") ++ ex_frame (encode ex_bad) ++ ex_frame (b "{}")) EOF (fun i => Nat.modulo i 7) 0) = Some ([mkPacket None [] None], EUnmarshal).
Proof.
  split; [exact (encode_ok ex_bad)|]. split.
  { intros C. destruct (C (VNum (b "1"))) as (s & [[E _]|(rs & E & _)]); try discriminate. eexists. split; [right; left; vm_compute; reflexivity|apply UnmarshalProofs.fold_name; vm_compute; reflexivity]. }
  split. { exists [], (b "{}"). split; [constructor|]. split; [exact (encode_ok (JObj []))|]. split; [reflexivity|]. split; [vm_compute; discriminate|]. split; [intros [|] ? ? ? ? ? ? ? E; discriminate E|intros v (k & [] & _)]. }
  split; [apply (ex_framed [b "{}"; encode ex_bad; b "{}"]); repeat constructor|vm_compute; reflexivity].
Qed.

(** C53.  Texts of the expressions. *)
Theorem C53_lisp : EnsureFrameLisp = concat (map (fun s => s ++ [ascii_of_nat 10])
   [[]; b "(if (and (symbolp 'linkremark-ensure-frame) (fboundp 'linkremark-ensure-frame))"; b "    (linkremark-ensure-frame)"; b "  (or (memq 'x (mapcar #'framep (frame-list)))";
    b "      (select-frame (make-frame '((name . ""bURL"") (window-system . x))))))"]) /\
  CheckOrgProtocolLisp = b "(and (memq 'org-protocol features) 'org-protocol)".
Proof. exact lisp_texts. Qed.
Print Assumptions C53_lisp.
