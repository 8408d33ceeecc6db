(** Lemmas about messages that are arrays. *)
From Coq Require Import ZifyBool ZifyNat ZifyN.
From Verif Require Import GoBase Utf8 JsonSpec Json JsonProofs Stdin StdinProofs BadStart Backend Server Unmarshal UnmarshalSpec ParseProofs PacketProofs Frame FrameSpec FrameProofs Stream StreamSpec StreamProofs StreamMain StreamMore StreamRfc Viable NullMessage.

Lemma readValue_last z c s0 y : goes reset z s0 -> scan_bytes s0 [c] = SEnd 1 -> forall fuel s n d r, roomy d ->
  length (rest (R r)) < fuel -> n <= length (unread d) -> goes reset (firstn n (unread d)) s ->
  (N.of_nat (length z) < N.of_nat (length (unread d)) + Nleft r)%N -> unread d ++ rest (R r) = (z ++ [c]) ++ y ->
  exists d' r' y', readValue fuel s n None d r = (Ok (length (z ++ [c])), d', r') /\ unread d' = (z ++ [c]) ++ y'.
Proof.
  intros G0 B. assert (BZ : forall x, scan_bytes reset ((z ++ [c]) ++ x) = SEnd (length (z ++ [c]))) by (intros x; rewrite !scan_app, G0, B, app_length; reflexivity).
  induction fuel as [|fuel IH]; intros s n d r Rm Lf Ln G E Eu; [lia|]. cbn [readValue]. rewrite skip_more, unread_length.
  destruct (prefix_cases _ _ _ _ Eu) as [(y1 & Ez & _)|(q & Nq & Ez & Em)].
  - assert (Sb : exists k, scan_bytes s (skipn n (unread d)) = SEnd k /\ n + k = length (z ++ [c])).
    { pose proof (BZ y1) as X. rewrite <- Ez, <- (firstn_skipn n (unread d)), scan_app, G in X. rewrite firstn_length_le in X by exact Ln. destruct (scan_bytes s (skipn n (unread d))) as [k| |]; try discriminate. exists k. split; [reflexivity|]. cbn [shift] in X. congruence. }
    destruct Sb as (k & -> & <-). exists d, r, y1. split; [reflexivity|exact Ez].
  - assert (P : (exists s', goes reset (unread d) s') /\ length (unread d) <= length z).
    { destruct (exists_last Nq) as (q' & c' & ->). rewrite app_assoc in Ez. apply app_inj_tail in Ez. destruct Ez as [-> _]. split; [eapply scan_prefix, G0|rewrite app_length; lia]. }
    destruct P as [(s' & G') Lz]. assert (Sm : scan_bytes s (skipn n (unread d)) = SMore s').
    { unfold goes in G'. rewrite <- (firstn_skipn n (unread d)), scan_app, G in G'. destruct (scan_bytes s (skipn n (unread d))); try discriminate. exact G'. }
    rewrite Sm. assert (Nm : rest (R r) <> []) by (rewrite Em; destruct q; [congruence|discriminate]).
    destruct (refill_part d r Rm ltac:(lia) Nm) as (m & d' & r' & -> & N1 & Es & Eu' & En & Rm').
    assert (L1 : 0 < length m) by (destruct m; [congruence|cbn; lia]). rewrite Es, app_length in Lf.
    apply (IH s' (length (unread d)) d' r'); try assumption; try lia.
    + rewrite Eu', app_length. lia.
    + rewrite Eu', firstn_app, Nat.sub_diag, firstn_O, app_nil_r, firstn_all. exact G'.
    + rewrite Eu', app_length. lia.
    + rewrite Eu', <- app_assoc, <- Es. exact Eu.
Qed.
(** The end of an array is found exactly at its last byte. *)
Lemma array_end w l x : space w -> jtext (VArr l) x -> (N.of_nat (nesting (VArr l)) <= 10000)%N -> exists z s, w ++ x = z ++ b "]" /\ goes reset z s /\ scan_bytes s (b "]") = SEnd 1.
Proof.
  intros W J L. pose proof (proj1 rfc_text _ _ J _ (le_n _)) as G. assert (E : exists y, x = "["%char :: y) by (inversion J; subst; eexists; reflexivity). destruct E as (y & ->).
  assert (P : goes reset (w ++ b "[") (mkScan stateBeginValueOrEmpty [parseArrayValue])) by (eapply goes_app; [apply space_begin, W|reflexivity]).
  remember (nesting (VArr l)) as n eqn:En. clear En. remember ("["%char :: y) as q eqn:Eq. destruct G as [n t I|n t H|n t (y' & _ & ->)|n w' W'|n t H|n w' W'|n t H]; try discriminate.
  - destruct I as [<-|[<-|[<-|[]]]]; discriminate.
  - assert (D : forall v, jtext v t -> jdocument v t) by (intros v V; exists [], t, []; split; [constructor|]; split; [constructor|]; split; [exact V|rewrite app_nil_r; reflexivity]).
    discriminate (document_same _ _ _ (D _ J) (D _ (jt_num _ H))).
  - exists ((w ++ b "[") ++ w'). eexists. split; [rewrite <- !app_assoc; reflexivity|]. split; [eapply goes_app; [exact P|apply space_begin0, W']|reflexivity].
  - destruct (proj1 (proj2 json_goes) _ _ H []) as [_ (s & G & A)]; [unfold fits; cbn [length]; lia|]. exists ((w ++ b "[") ++ t), s. split; [rewrite <- !app_assoc; reflexivity|]. split; [eapply goes_app; [exact P|exact G]|].
    cbn [scan_bytes b list_ascii_of_string]. rewrite (after_step _ _ _ A) by (unfold follows; cbn; tauto). reflexivity.
Qed.
Lemma requests_array s1 msgs h size w x l y fin sch fuel : is_stream s1 (map fst msgs) -> Forall (fun m => a_message (fst m) (snd m)) msgs -> Forall (fun m => N.of_nat (length (fst m)) <= 1073741824)%N msgs ->
  space w -> jtext (VArr l) x -> (N.of_nat (nesting (VArr l)) <= 10000)%N -> is_header h size -> (N.of_nat (length (w ++ x)) <= size <= 1073741824)%N -> length msgs < fuel ->
  exists ps, requests fuel (mkSrc (s1 ++ h ++ w ++ x ++ y) fin sch 0) = Some (ps, EUnmarshal) /\ Forall2 (fun m p => a_packet (fst m) (VObj (snd m)) p) msgs ps.
Proof.
  intros S F L W J Ln Hh [Lx Ls] Lf. destruct (messages_objects _ F) as [O A]. rewrite (app_assoc w x y). assert (Q : is_request (w ++ x) = false) by (apply (word_packet w x (VArr l) W J); discriminate).
  destruct (array_end w l x W J Ln) as (z & s & E0 & G & B). rewrite E0 in *.
  destruct (some_exact is_request (map fst msgs) (h ++ (z ++ b "]") ++ y) s1 NewDecoder (NewFrameLimitedReader (mkSrc (s1 ++ h ++ (z ++ b "]") ++ y) fin sch 0)) S O A) as (d & r & E & Eu & Ed & Rm & En & Er & _); auto; [rewrite Forall_map; exact L|apply le_n|].
  unfold requests. replace fuel with (length (map fst msgs) + Datatypes.S (fuel - length msgs - 1)) by (rewrite map_length; lia). rewrite (session_some _ _ _ _ _ _ _ _ E). cbn [session]. unfold ReadMessage.
  destruct (BadStart.header_any r h size _ En Hh Ls Er) as (r1 & -> & E1 & E2 & _). unfold Decode. rewrite Ed.
  destruct (readValue_last z "]"%char s y G B (2 + length (rest (R r1))) reset 0 d r1) as (d' & r' & y' & -> & Hu); try assumption.
  - lia.
  - lia.
  - apply goes_nil.
  - rewrite Eu, E1. rewrite app_length in Lx. cbn [length b list_ascii_of_string] in *. lia.
  - rewrite Eu, E2. reflexivity.
  - fold (unread d'). rewrite Hu, firstn_app, Nat.sub_diag, firstn_O, app_nil_r, firstn_all. change [("]"%char)] with (b "]"). rewrite Q. eexists. split; [reflexivity|]. rewrite app_nil_r. apply messages_packets, F.
Qed.
