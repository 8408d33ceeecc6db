(** Lemmas about messages that are not objects. *)
From Coq Require Import ZifyBool ZifyNat ZifyN.
From Verif Require Import GoBase Utf8 JsonSpec Json JsonProofs Stdin StdinProofs BadStart Backend Server Unmarshal UnmarshalSpec Client ResponseProofs ParseProofs PacketProofs BadRequest Frame FrameSpec FrameProofs Stream StreamSpec StreamProofs StreamMain StreamMore StreamRfc Viable.

Lemma readValue_plain x s0 tail : goes reset x s0 -> fst (sstep s0 32) = scanEnd -> forall fuel s n d r m, roomy d ->
  Datatypes.S (length m) < fuel -> n <= length (unread d) -> goes reset (firstn n (unread d)) s ->
  Nleft r = N.of_nat (length m) -> rest (R r) = m ++ tail -> unread d ++ m = x ->
  exists d' r', readValue fuel s n None d r = (Ok (length x), d', r') /\ unread d' = x /\ derr d' = derr d /\ roomy d' /\ Nleft r' = 0%N /\ rest (R r') = tail /\ fin (R r') = fin (R r).
Proof.
  intros G0 Sp. induction fuel as [|fuel IH]; intros s n d r m Rm Lf Ln G E Er Eu; [lia|]. cbn [readValue]. rewrite skip_more, unread_length.
  assert (P : exists s', goes reset (unread d) s') by (rewrite <- Eu in G0; eapply scan_prefix, G0).
  destruct P as (s' & G'). assert (Sm : scan_bytes s (skipn n (unread d)) = SMore s').
  { unfold goes in G'. rewrite <- (firstn_skipn n (unread d)), scan_app, G in G'. destruct (scan_bytes s (skipn n (unread d))); try discriminate. exact G'. }
  rewrite Sm. destruct m as [|c m].
  - unfold refill. fold (unread d). unfold lr_read. rewrite E. cbn [length N.of_nat N.eqb]. rewrite app_nil_r in Eu. rewrite app_nil_r.
    destruct fuel as [|fuel]; [cbn in Lf; lia|]. cbn [readValue scanp dbuf Nat.add]. rewrite skipn_all. cbn [scan_bytes]. rewrite Eu in G'. unfold goes in *. rewrite G0 in G'. injection G' as <-.
    destruct (sstep s0 32) as [k s3] eqn:Ek. cbn [fst] in Sp. subst k. rewrite Nat.sub_0_r, Eu. eexists _, r. split; [reflexivity|]. unfold unread at 1, roomy. cbn [scanp dbuf derr dcap skipn]. split; [reflexivity|]. split; [reflexivity|].
    split; [|auto]. rewrite <- Eu. assert (length (unread d) <= dcap d) by (unfold unread, roomy in *; rewrite skipn_length; lia). destruct (_ <? _); lia.
  - destruct (refill_ok d r (c :: m) tail Rm ltac:(discriminate) E Er) as (m1 & m2 & d' & r' & -> & Es & N1 & Eu' & En & Er' & Ef & Ed & Rm').
    assert (L1 : 0 < length m1) by (destruct m1; [congruence|cbn; lia]). rewrite Es, app_length in Lf.
    destruct (IH s' (length (unread d)) d' r' m2) as (d2 & r2 & H & Hu & Hd & Hr & Hn & Ht & Hf); try assumption; try lia.
    + rewrite Eu', app_length. lia.
    + rewrite Eu', firstn_app, Nat.sub_diag, firstn_O, app_nil_r, firstn_all. exact G'.
    + rewrite Eu', <- app_assoc, <- Es. exact Eu.
    + exists d2, r2. split; [exact H|]. split; [exact Hu|]. split; [congruence|]. split; [exact Hr|]. split; [exact Hn|]. split; [exact Ht|congruence].
Qed.
Lemma Decode_plain x s0 tail d r : goes reset x s0 -> fst (sstep s0 32) = scanEnd -> unread d = [] -> derr d = None -> roomy d -> Nleft r = N.of_nat (length x) -> rest (R r) = x ++ tail ->
  exists d' r', Decode d r = (Ok x, d', r') /\ unread d' = [] /\ derr d' = None /\ roomy d' /\ Nleft r' = 0%N /\ rest (R r') = tail /\ fin (R r') = fin (R r).
Proof.
  intros G Sp Eu Ed Rm En Er. unfold Decode. rewrite Ed.
  destruct (readValue_plain x s0 tail G Sp (2 + length (rest (R r))) reset 0 d r x) as (d' & r' & -> & Hu & Hd & Hr & Hn & Ht & Hf); try assumption; [rewrite Er, app_length; lia|lia|apply goes_nil|rewrite Eu; reflexivity|].
  eexists _, r'. fold (unread d'). rewrite Hu, firstn_all. split; [reflexivity|]. split; [unfold unread; cbn [scanp dbuf]; rewrite skip_more, Hu; apply skipn_all|]. cbn [derr]. split; [congruence|]. auto.
Qed.
(** Texts that end together with a frame *)
Definition plain (x : str) : Prop := exists s, goes reset x s /\ fst (sstep s 32) = scanEnd.
Lemma session_plain unmarshal s1 (ts : list str) f (x : str) s2 en sch fuel : is_stream s1 ts -> Forall object_text ts -> Forall (accepted unmarshal) ts -> Forall (fun m => N.of_nat (length m) <= 1073741824)%N ts ->
  plain x -> is_frame f x -> (N.of_nat (length x) <= 1073741824)%N ->
  exists d r, unread d = [] /\ derr d = None /\ roomy d /\ Nleft r = 0%N /\ rest (R r) = s2 /\ fin (R r) = en /\
  session (length ts + Datatypes.S fuel) unmarshal NewDecoder (NewFrameLimitedReader (mkSrc (s1 ++ f ++ s2) en sch 0)) =
    if unmarshal x then match session fuel unmarshal d r with Some (l, e) => Some (ts ++ x :: l, e) | None => None end else Some (ts, EUnmarshal).
Proof.
  intros S T A L (s & G & Sp) Fr Lx. destruct (some_exact unmarshal ts (f ++ s2) s1 NewDecoder (NewFrameLimitedReader (mkSrc (s1 ++ f ++ s2) en sch 0)) S T A L) as (d & r & E & Eu & Ed & Rm & En & Er & Ef); auto; [apply le_n|].
  destruct (header_frame r f _ s2 En Fr Lx Er) as (r1 & Eh & E1 & E2 & E3). destruct (Decode_plain x s s2 d r1 G Sp Eu Ed Rm E1 E2) as (d2 & r2 & HD & Hu & Hd & Hr & Hn & Ht & Hf).
  exists d2, r2. split; [exact Hu|]. split; [exact Hd|]. split; [exact Hr|]. split; [exact Hn|]. split; [exact Ht|]. split; [rewrite Hf, E3, Ef; reflexivity|].
  rewrite (session_some _ _ _ _ _ _ _ _ E). cbn [session]. unfold ReadMessage. rewrite Eh, HD. destruct (unmarshal x); [|rewrite app_nil_r; reflexivity]. destruct (session fuel unmarshal d2 r2) as [[l e]|]; reflexivity.
Qed.
Lemma after_plain w x s : space w -> goes reset x s -> after s [] -> plain (w ++ x).
Proof. intros W G A. exists s. split; [eapply goes_app; [apply space_begin, W|exact G]|]. rewrite (after_step s [] 32 A) by (unfold follows; cbn; tauto). reflexivity. Qed.
Lemma plain_word w x v : space w -> jtext v x -> (forall l, v <> VObj l) -> (forall l, v <> VArr l) -> plain (w ++ x).
Proof.
  intros W J NO NA. inversion J as [| | |t N E1 E2|s t St E1 E2| | | |]; subst; try (exfalso; eapply NO; reflexivity); try (exfalso; eapply NA; reflexivity);
    try (eapply (after_plain w _ (mkScan stateEndValue []) W); [vm_compute; reflexivity|split; [reflexivity|left; reflexivity]]).
  - destruct (number_goes [] x N) as (s & G & A). eapply after_plain; eassumption.
  - eapply (after_plain w _ (mkScan stateEndValue []) W); [apply string_goes; [eapply rfc_string, St|cbn; auto]|split; [reflexivity|left; reflexivity]].
Qed.
Lemma stream_split ts : forall stream x ms, is_stream stream (ts ++ x :: ms) -> exists s1 f s2, stream = s1 ++ f ++ s2 /\ is_stream s1 ts /\ is_frame f x /\ is_stream s2 ms.
Proof.
  induction ts as [|t ts IH]; intros stream x ms S; cbn [app] in S; inversion S as [|f m s ms' Fr S']; subst.
  - exists [], f, s. repeat split; try assumption. constructor.
  - destruct (IH _ _ _ S') as (s1 & f1 & s2 & -> & S1 & F1 & S2). exists (f ++ s1), f1, s2. rewrite <- app_assoc. repeat split; try assumption. constructor; assumption.
Qed.
Definition messages (msgs : list (str * list (list rune * value))) : Prop := Forall (fun m => a_message (fst m) (snd m)) msgs.
Lemma messages_objects msgs : messages msgs -> Forall object_text (map fst msgs) /\ Forall (accepted is_request) (map fst msgs).
Proof.
  intros F. split.
  - rewrite Forall_map. eapply Forall_impl; [|exact F]. intros [t l'] (w' & x' & W' & J' & E' & Ln' & _). cbn [fst snd] in *. subst t. eapply rfc_object; eassumption.
  - rewrite Forall_map. eapply Forall_impl; [|exact F]. intros [t l'] M w' W'. cbn [fst snd] in *. destruct (message_request t l' w' M W') as (p & E & _). unfold is_request. rewrite E. reflexivity.
Qed.
Lemma messages_packets msgs : messages msgs -> Forall2 (fun m p => a_packet (fst m) (VObj (snd m)) p) msgs (flat_map (fun t => match request_packet t with Some p => [p] | None => [] end) (map fst msgs)).
Proof.
  intros F. induction F as [|[t l'] msgs M F IH]; [constructor|]. cbn [map flat_map fst snd] in *. destruct (message_request t l' [] M ltac:(constructor)) as (p & E & P). cbn [app] in E, P. rewrite E. cbn [app]. constructor; [exact P|exact IH].
Qed.
Lemma word_packet w x v : space w -> jtext v x -> (v = VNull -> request_packet (w ++ x) = Some (mkPacket None [] None)) /\ ((forall l, v <> VObj l) -> v <> VNull -> is_request (w ++ x) = false).
Proof.
  intros W J. assert (P : parse (w ++ x) = Some v) by (apply document_parsed; exists w, x, []; split; [exact W|]; split; [constructor|]; split; [exact J|]; rewrite app_nil_r; reflexivity).
  unfold is_request, request_packet, read_object. rewrite P. split; [intros ->; reflexivity|]. intros N1 N2. destruct v; try reflexivity; [congruence|exfalso; eapply N1; reflexivity].
Qed.
Lemma requests_null stream msgs w msgs' sch fuel : is_stream stream (map fst msgs ++ (w ++ b "null") :: map fst msgs') -> Forall (fun m => a_message (fst m) (snd m)) (msgs ++ msgs') ->
  Forall (fun m => N.of_nat (length (fst m)) <= 1073741824)%N (msgs ++ msgs') -> space w -> (N.of_nat (length (w ++ b "null")) <= 1073741824)%N -> Datatypes.S (length (msgs ++ msgs')) < fuel ->
  exists ps ps', requests fuel (mkSrc stream EOF sch 0) = Some (ps ++ mkPacket None [] None :: ps', EHeader (Io EOF)) /\
    Forall2 (fun m p => a_packet (fst m) (VObj (snd m)) p) msgs ps /\ Forall2 (fun m p => a_packet (fst m) (VObj (snd m)) p) msgs' ps'.
Proof.
  intros S F L W Lx Lf. apply Forall_app in F. destruct F as [F F']. apply Forall_app in L. destruct L as [L L']. rewrite app_length in Lf.
  destruct (stream_split _ _ _ _ S) as (s1 & f & s2 & -> & S1 & Fr & S2). destruct (messages_objects _ F) as [O A]. destruct (messages_objects _ F') as [O' A'].
  destruct (session_plain is_request s1 (map fst msgs) f (w ++ b "null") s2 EOF sch (fuel - length msgs - 1) S1 O A) as (d & r & Hu & Hd & Hr & Hn & Ht & Hf & HS); [rewrite Forall_map; exact L|apply (plain_word w _ VNull W jt_null); discriminate|exact Fr|exact Lx|].
  rewrite map_length in HS. replace (length msgs + Datatypes.S (fuel - length msgs - 1)) with fuel in HS by lia. unfold requests. rewrite HS.
  destruct (word_packet w (b "null") VNull W jt_null) as [P _]. specialize (P eq_refl). assert (Q : is_request (w ++ b "null") = true) by (unfold is_request; rewrite P; reflexivity). rewrite Q.
  rewrite (session_exact is_request (map fst msgs') s2 d r); auto; [|rewrite Forall_map; exact L'|rewrite map_length; lia].
  eexists _, _. rewrite flat_map_app. cbn [flat_map]. rewrite P. cbn [app]. split; [reflexivity|]. split; apply messages_packets; assumption.
Qed.
Lemma requests_scalar stream msgs w x v ms fin sch fuel : is_stream stream (map fst msgs ++ (w ++ x) :: ms) -> Forall (fun m => a_message (fst m) (snd m)) msgs ->
  Forall (fun m => N.of_nat (length (fst m)) <= 1073741824)%N msgs -> space w -> jtext v x -> v <> VNull -> (forall l, v <> VObj l) -> (forall l, v <> VArr l) -> (N.of_nat (length (w ++ x)) <= 1073741824)%N -> length msgs < fuel ->
  exists ps, requests fuel (mkSrc stream fin sch 0) = Some (ps, EUnmarshal) /\ Forall2 (fun m p => a_packet (fst m) (VObj (snd m)) p) msgs ps.
Proof.
  intros S F L W J NN NO NA Lx Lf. destruct (stream_split _ _ _ _ S) as (s1 & f & s2 & -> & S1 & Fr & S2). destruct (messages_objects _ F) as [O A].
  destruct (session_plain is_request s1 (map fst msgs) f (w ++ x) s2 fin sch (fuel - length msgs - 1) S1 O A) as (d & r & Hu & Hd & Hr & Hn & Ht & Hf & HS); [rewrite Forall_map; exact L|eapply plain_word; eassumption|exact Fr|exact Lx|].
  rewrite map_length in HS. replace (length msgs + Datatypes.S (fuel - length msgs - 1)) with fuel in HS by lia. unfold requests. rewrite HS.
  rewrite (proj2 (word_packet w x v W J) NO NN). eexists. split; [reflexivity|]. apply messages_packets, F.
Qed.

(** ** A witness *)
Lemma ex_empty_message : a_message (b "{}") [].
Proof. exists [], (b "{}"). split; [constructor|]. split; [exact (JsonProofs.encode_ok (JObj []))|]. split; [reflexivity|]. split; [vm_compute; discriminate|]. split; [intros [|] ? ? ? ? ? ? ? E; discriminate E|intros v (k & [] & _)]. Qed.

(** ** Clients *)
Lemma accepted_response f ts : Forall (accepted (is_response f)) ts -> Forall2 (fun t h => response_header f t = Some h) ts (flat_map (fun t => match response_header f t with Some h => [h] | None => [] end) ts).
Proof.
  induction 1 as [|t ts A F IH]; [constructor|]. cbn [flat_map]. specialize (A [] ltac:(constructor)). cbn [app] in A. unfold is_response in A. destruct (response_header f t) as [h|] eqn:E; [|discriminate]. cbn [app]. constructor; assumption.
Qed.
Lemma responses_scalar f stream (ts : list str) w x v ms fin sch fuel : is_stream stream (ts ++ (w ++ x) :: ms) -> Forall object_text ts -> Forall (accepted (is_response f)) ts -> Forall (fun m => N.of_nat (length m) <= 1073741824)%N ts ->
  space w -> jtext v x -> (forall l, v <> VObj l) -> (forall l, v <> VArr l) -> (N.of_nat (length (w ++ x)) <= 1073741824)%N -> length ts < fuel ->
  exists hs, responses f fuel (mkSrc stream fin sch 0) = Some (hs, EUnmarshal) /\ Forall2 (fun t h => response_header f t = Some h) ts hs.
Proof.
  intros S O A L W J NO NA Lx Lf. destruct (stream_split _ _ _ _ S) as (s1 & fr & s2 & -> & S1 & Fr & S2).
  destruct (session_plain (is_response f) s1 ts fr (w ++ x) s2 fin sch (fuel - length ts - 1) S1 O A L) as (d & r & _ & _ & _ & _ & _ & _ & HS); [eapply plain_word; eassumption|exact Fr|exact Lx|].
  assert (Q : is_response f (w ++ x) = false).
  { unfold is_response. rewrite (response_other f (w ++ x) v); [reflexivity| |exact NO]. exists w, x, []. split; [exact W|]. split; [constructor|]. split; [exact J|]. rewrite app_nil_r. reflexivity. }
  rewrite Q in HS. assert (H : session fuel (is_response f) NewDecoder (NewFrameLimitedReader (mkSrc (s1 ++ fr ++ s2) fin sch 0)) = Some (ts, EUnmarshal)).
  { etransitivity; [|exact HS]. f_equal. lia. }
  unfold responses. rewrite H. eexists. split; [reflexivity|]. apply accepted_response, A.
Qed.
