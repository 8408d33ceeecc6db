(** Lemmas about a client and a server that are connected to each other. *)
From Coq Require Import Permutation ZifyBool ZifyNat ZifyN.
From Verif Require Import GoBase LinkTypes ServerLive Utf8 JsonSpec Json JsonProofs Frame FrameSpec FrameProofs Stream StreamSpec StreamProofs StreamMain StreamSound StreamBytes StreamRfc ParseProofs Emacs Backend BackendSpec ReplySpec
  Server ServerSpec ServerProofs ServerMain Tools Unmarshal UnmarshalSpec UnmarshalProofs PacketProofs Client ClientSpec ClientProofs ClientMain ResponseProofs CutProofs EndSpec.

(** ** Bytes of the server *)
Lemma right_answer c tr k a : right c tr k a -> exists p, nth_error (received tr) (k - 1) = Some p /\ answer_to c tr (k - 1) p a.
Proof.
  intros (p & N & [(msg & E & ->)|(q & i & o & r & E & St & L & ->)]); exists p; (split; [exact N|]).
  - apply at_bad. rewrite <- E. apply readRequest_meaning.
  - apply at_reply with q i o; [rewrite <- E; apply readRequest_meaning|exact St|exact L].
Qed.
Lemma fit_frame c tr k a t : fit c tr -> right c tr k a -> response (idof (received tr) k) a = Done t -> is_frame (fr t) t.
Proof.
  intros F R E. destruct (right_answer _ _ _ _ R) as (p & N & A). unfold idof in E. rewrite N in E. destruct (fr_framed t) as (h & _ & _ & H). apply H. eapply F; eassumption.
Qed.
Lemma frames_stream (done : list (nat * str)) : Forall (fun kt => is_frame (fr (snd kt)) (snd kt)) done -> is_stream (stream done) (map snd done).
Proof. induction 1 as [|kt done F _ IH]; [constructor|]. cbn [stream flat_map map]. constructor; [exact F|exact IH]. Qed.
Lemma nodup_snoc (l : list nat) k : NoDup l -> ~ In k l -> NoDup (l ++ [k]).
Proof. intros D N. apply (Permutation_NoDup (Permutation_cons_append l k)). constructor; assumption. Qed.
Lemma output_stream c g input tr s : srun c (start g input) tr s -> ~ In VFail tr -> fit c tr ->
  exists done out, is_stream out (map snd done) /\ beginning (sent tr) out /\ NoDup (map fst done) /\ Forall (fun kt => responds c tr (fst kt) (snd kt)) done.
Proof.
  intros R NF Ft. destruct (server_inv _ _ _ _ _ R) as (qs & ts & done & I). pose proof (i_core _ _ _ _ _ _ _ _ I (failed_in _ NF)) as K.
  destruct (renumbered_ok _ _ _ _ _ _ _ K) as (A1 & A2 & A3 & A4 & A5). rewrite <- (i_sent _ _ _ _ _ _ _ _ I).
  destruct K as [K1 K2 K3 K4 K5 K6 K7 K8 K9].
  assert (Fs : Forall (fun kt => is_frame (fr (snd kt)) (snd kt)) done) by (eapply Forall_impl; [|exact K5]; intros kt (_ & a & Ra & T); eapply fit_frame; eassumption).
  assert (Es : map snd (renumbered done) = map snd done) by (unfold renumbered; rewrite map_map; reflexivity).
  assert (Z : cout (sconn s) = stream done \/ exists k todo, In (k, SWrite todo) (senders s)).
  { destruct (locked (sconn s)) eqn:L; [|left; apply K9; reflexivity].
    destruct (filter holding (map snd (senders s))) as [|x [|]] eqn:F; cbn in K8; try discriminate. clear K8.
    assert (J : In x (map snd (senders s)) /\ holding x = true) by (rewrite <- filter_In, F; left; reflexivity).
    destruct J as [J Hx]. apply in_map_iff in J. destruct J as ([k x'] & Ex & J). cbn [snd] in Ex. subst x'.
    rewrite Forall_forall in K7. specialize (K7 _ J). destruct x; try discriminate Hx; cbn [valid] in K7; try (left; apply K7). right. eauto. }
  destruct Z as [->|(k & todo & J)].
  - exists (renumbered done), (stream done). rewrite Es. split; [apply frames_stream, Fs|]. split; [exists []; rewrite app_nil_r; reflexivity|]. auto.
  - rewrite Forall_forall in K7. pose proof (K7 _ J) as V. cbn [valid] in V. destruct V as (V1 & (a & V2 & V3) & w & V4 & ->).
    exists (renumbered done ++ [(k - 1, cbuf (sconn s))]), (stream done ++ fr (cbuf (sconn s))). rewrite !map_app, Es. cbn [map fst snd].
    assert (Rk : 1 <= k) by (apply K2, in_or_app; right; apply (in_map fst) in J; exact J).
    split; [apply StreamBytes.stream_snoc; [apply frames_stream, Fs|eapply fit_frame; eassumption]|]. split; [exists todo; rewrite <- V4, app_assoc; reflexivity|]. split.
    + apply nodup_snoc; [exact A1|]. intros J'. apply A5 in J'. destruct J' as (k' & E & J'). assert (k' = k) as ->; [|contradiction].
      apply in_map_iff in J'. destruct J' as (kt & <- & J'). rewrite Forall_forall in K5. apply K5 in J'. lia.
    + apply Forall_app. split; [exact A2|]. constructor; [|constructor]. cbn [fst snd]. eapply right_responds; eassumption.
Qed.

Lemma output_closed c g input tr s : srun c (start g input) tr s -> In VClose tr -> ~ In VFail tr -> fit c tr ->
  received tr = input /\ exists done, is_stream (sent tr) (map snd done) /\ Permutation (map fst done) (seq 0 (length input)) /\ Forall (fun kt => responds c tr (fst kt) (snd kt)) done.
Proof.
  intros R IC NF Ft. assert (Cl : sreader s = RClosed /\ Forall (fun x => cjob x = JSend SOver) (scalls s)).
  { apply in_split in IC. destruct IC as (tr0 & tr1 & ->). assert (tr1 = []) as -> by (eapply server_fatal_last; [exact R|left; reflexivity]). destruct (srun_snoc _ _ _ _ _ R) as (s1 & _ & St).
    inversion St; subst; try (match goal with H : send _ _ VClose _ |- _ => inversion H end). auto. }
  destruct Cl as [Cl Ov]. destruct (server_inv _ _ _ _ _ R) as (qs & ts & done & I). pose proof (i_core _ _ _ _ _ _ _ _ I (failed_in _ NF)) as K.
  destruct (renumbered_ok _ _ _ _ _ _ _ K) as (A1 & A2 & A3 & A4 & A5). pose proof (i_input _ _ _ _ _ _ _ _ I) as Hi. pose proof (i_seq _ _ _ _ _ _ _ _ I) as Hs. rewrite (i_reader _ _ _ _ _ _ _ _ I (or_introl Cl)), app_nil_r in Hi.
  split; [symmetry; exact Hi|]. rewrite <- (i_sent _ _ _ _ _ _ _ _ I). destruct K as [K1 K2 K3 K4 K5 K6 K7 K8 K9]. destruct (all_over _ Ov) as (B1 & B2 & B3). unfold senders in K3, K7, K8. rewrite Cl in K3, K7, K8. cbn [reader_senders app] in K3, K7, K8.
  rewrite B2 in K8. destruct (locked (sconn s)) eqn:Lk; [discriminate K8|]. destruct (K9 eq_refl) as [_ O]. rewrite O. clear K9 K8.
  exists (renumbered done). replace (map snd (renumbered done)) with (map snd done) by (unfold renumbered; rewrite map_map; reflexivity).
  split; [apply frames_stream; eapply Forall_impl; [|exact K5]; intros kt (_ & a & Ra & T); eapply fit_frame; eassumption|]. split; [|exact A2].
  rewrite Hi, <- Hs. apply NoDup_Permutation; [exact A1|apply seq_NoDup|]. intros k. rewrite A5, in_seq. split.
  - intros (k' & -> & J). apply in_map_iff in J. destruct J as (kt & <- & J). rewrite Forall_forall in K5. apply K5 in J. lia.
  - intros R'. exists (Datatypes.S k). split; [lia|]. destruct (K3 (Datatypes.S k)) as [J|[J|J]]; [lia|rewrite B1 in J; contradiction| |exact J].
    apply in_map_iff in J. destruct J as ([k' x] & E & J). cbn [fst] in E. subst k'. rewrite Forall_forall in B3, K7. pose proof (B3 _ J) as Ex. cbn [snd] in Ex. subst x. exact (K7 _ J).
Qed.

(** ** Texts of responses *)
Lemma id_same o i i' : id_shown o i -> id_shown o i' -> i = i'.
Proof.
  destruct o as [t|]; cbn [id_shown]; [|congruence]. intros J J'. apply text_document, document_parsed in J. apply text_document, document_parsed in J'. congruence.
Qed.
Lemma inner_in tr i l : In l (of_thread i (inner tr)) -> In (VBack i l) tr.
Proof.
  unfold of_thread. intros H. apply in_map_iff in H. destruct H as ([j l'] & <- & H). apply filter_In in H. destruct H as [H E]. cbn [fst snd] in *. apply Nat.eqb_eq in E. subst j.
  induction tr as [|x tr IH]; [contradiction|]. destruct x; cbn [inner] in H; try (right; apply IH, H). destruct H as [[= <- <-]|H]; [left; reflexivity|right; apply IH, H].
Qed.
Lemma shown_cut o i r e t : id_shown o i -> response_shown o r e t -> exists x w, t = x ++ w /\ space w /\ (exists w0 y, space w0 /\ x = w0 ++ y /\ jtext (VObj (reply3 i r e)) y) /\ forall w', space w' -> response_shown o r e (w' ++ x).
Proof.
  intros I S. destruct (S i I) as (w0 & y & w & W0 & W & J & ->). exists (w0 ++ y), w. split; [rewrite app_assoc; reflexivity|]. split; [exact W|]. split; [exists w0, y; auto|].
  intros w' W' i' I'. rewrite (id_same _ _ _ I' I). exists (w' ++ w0), y, []. split; [apply Forall_app; auto|]. split; [constructor|]. split; [exact J|]. rewrite app_nil_r, app_assoc. reflexivity.
Qed.
(** Depth of results *)
Lemma mnest_same l l' : Permutation l l' -> mnest l = mnest l'.
Proof. induction 1 as [|x l l' _ IH|x y l|l1 l2 l3 _ IH1 _ IH2]; unfold mnest in *; cbn [fold_right]; lia. Qed.
Lemma object_nest v l : ReplySpec.object v l -> nesting v = Datatypes.S (mnest l).
Proof. intros (l' & P & ->). cbn [nesting]. fold (mnest l'). rewrite (mnest_same _ _ P). reflexivity. Qed.
Lemma number_flat n v : number n v -> nesting v = 0.
Proof. intros (d & [(_ & -> & _)|(_ & -> & _)]); reflexivity. Qed.
Lemma props_flat p ps : props_shown p ps -> mnest ps = 0.
Proof. intros [path| |h n N]; try reflexivity. unfold mnest. cbn [fold_right snd]. rewrite (number_flat _ _ N). reflexivity. Qed.
Lemma mnest_app l1 l2 : mnest (l1 ++ l2) = Nat.max (mnest l1) (mnest l2).
Proof. unfold mnest. induction l1 as [|x l IH]; [reflexivity|]. cbn [app fold_right]. lia. Qed.
Lemma links_flat ls vs : Forall2 link_shown ls vs -> lnest vs <= 1.
Proof.
  unfold lnest. induction 1 as [|l v ls vs (n & N & O) _ IH]; cbn [fold_right]; [lia|]. rewrite (object_nest _ _ O), mnest_app. unfold mnest. cbn [fold_right snd ReplySpec.text nesting]. rewrite (number_flat _ _ N).
  destruct (list_eq_dec ascii_dec (Description l) []); cbn [fold_right snd ReplySpec.text nesting]; lia.
Qed.
Lemma shown_nest c : forall v, shown c v -> nesting v <= 3 + 2 * levels c.
Proof.
  induction c as [k t ls|k t p ch IH] using cnode_ind'; intros v H.
  - inversion H as [|k0 t0 ls0 vs kn tn v0 F K T O|]; subst. rewrite (object_nest _ _ O). apply links_flat in F. unfold mnest. cbn [fold_right snd ReplySpec.text nesting]. fold (lnest vs). rewrite (number_flat _ _ K), (number_flat _ _ T). cbn [levels]. lia.
  - inversion H as [k0 t0 c v0 Sc| |k0 t0 p0 ch0 vs kn tn ps v0 _ L K T P O]; subst.
    + apply Forall_inv in IH. apply IH in Sc. cbn [levels fold_right]. lia.
    + rewrite (object_nest _ _ O), mnest_app, (props_flat _ _ P). unfold mnest. cbn [fold_right snd nesting]. fold (lnest vs). rewrite (number_flat _ _ K), (number_flat _ _ T). cbn [levels].
      enough (lnest vs <= 3 + 2 * fold_right (fun x n => Nat.max (levels x) n) 0 ch) by lia. clear O H. induction L as [|c w cs vs' Sc L IHl]; unfold lnest; cbn [fold_right]; [lia|]. fold (lnest vs').
      pose proof (Forall_inv IH _ Sc). specialize (IHl (Forall_inv_tail IH)). lia.
Qed.
Lemma texts_flat l : lnest (map ReplySpec.text l) = 0.
Proof. unfold lnest. induction l as [|x l IH]; [reflexivity|]. cbn [map fold_right]. rewrite IH. reflexivity. Qed.
Lemma result_nest r v : result_shown r v -> (forall c, r = PMentions c -> (N.of_nat (levels c) <= 4998)%N) -> (N.of_nat (nesting v) <= 9999)%N.
Proof.
  intros H L. destruct H as [e|f ver caps v O|p s v O|c v Sc| |urls vs F|urls v O]; try (cbn; lia).
  - rewrite (object_nest _ _ O). unfold mnest. cbn [fold_right snd ReplySpec.text nesting]. destruct caps as [|x caps]; [cbn; lia|]. set (l := x :: caps). cbn [nesting]. fold (lnest (map ReplySpec.text l)). rewrite texts_flat. cbn. lia.
  - rewrite (object_nest _ _ O). cbn. lia.
  - apply shown_nest in Sc. specialize (L c eq_refl). lia.
  - cbn [nesting]. fold (lnest vs). enough (lnest vs <= 1) by lia. unfold lnest. clear L. induction F as [|u v us vs O F IH]; cbn [fold_right]; [lia|]. rewrite (object_nest _ _ O). cbn [mnest fold_right snd ReplySpec.text nesting]. lia.
  - rewrite (object_nest _ _ O). unfold mnest. cbn [fold_right snd nesting]. fold (lnest (map ReplySpec.text urls)). rewrite texts_flat. cbn. lia.
Qed.
Lemma responds_cut c tr k p n t : shallow tr -> nth_error (received tr) k = Some p -> id_shown (pid p) (numbered n) -> responds c tr k t ->
  exists x w, t = x ++ w /\ space w /\ object_text x /\ forall w', space w' -> responds c tr k (w' ++ x).
Proof.
  intros Sh N I R. destruct R as [p' e N' M S|p' q j o e N' M T P S|p' q j o r v N' M T P Ne Rs S]; rewrite N in N'; injection N' as <-.
  - destruct (shown_cut _ _ _ _ _ I S) as (x & w & -> & W & (w0 & y & W0 & -> & J) & H). exists (w0 ++ y), w. split; [reflexivity|]. split; [exact W|]. split; [|intros w' W'; eapply re_bad; [exact N|exact M|apply H, W']].
    eapply rfc_object; [exact W0|exact J|]. cbn. lia.
  - destruct (shown_cut _ _ _ _ _ I S) as (x & w & -> & W & (w0 & y & W0 & -> & J) & H). exists (w0 ++ y), w. split; [reflexivity|]. split; [exact W|]. split; [|intros w' W'; eapply re_error; [exact N|exact M|exact T|exact P|apply H, W']].
    eapply rfc_object; [exact W0|exact J|]. cbn. lia.
  - destruct (shown_cut _ _ _ _ _ I S) as (x & w & -> & W & (w0 & y & W0 & -> & J) & H). exists (w0 ++ y), w. split; [reflexivity|]. split; [exact W|]. split; [|intros w' W'; eapply re_result; [exact N|exact M|exact T|exact P|exact Ne|exact Rs|apply H, W']].
    eapply rfc_object; [exact W0|exact J|]. assert (L : (N.of_nat (nesting v) <= 9999)%N) by (eapply result_nest; [exact Rs|]; intros c0 ->; eapply Sh, inner_in, P). unfold reply3, numbered. cbn [nesting fold_right snd]. lia.
Qed.

(** ** Requests *)
Definition request_ok (float_ok : str -> bool) (message : meth -> str -> str) (qn : request * N) (p : packet) : Prop :=
  meaning (go_decoders float_ok message) p (Ok (fst qn)) /\ id_shown (pid p) (numbered (snd qn)) /\ (snd qn <= 18446744073709551615)%N.
Definition packets_of (txs : list str) : list packet := flat_map (fun t => match request_packet t with Some p => [p] | None => [] end) txs.
Lemma requests_split float_ok message qns ts : Forall2 (fun qn t => asks_for float_ok (fst qn) (snd qn) t) qns ts ->
  exists ms : list (str * str), ts = map (fun m : str * str => fst m ++ snd m) ms /\ Forall (fun m : str * str => object_text (fst m) /\ space (snd m)) ms /\
     Forall2 (fun qn (m : str * str) => forall w, space w -> exists p, request_packet (w ++ fst m) = Some p /\ request_ok float_ok message qn p) qns ms.
Proof.
  induction 1 as [|qn t qns ts A F IH]; [exists []; repeat constructor|]. destruct IH as (ms & -> & O & P).
  destruct A as (x & w & l & rs & m & v & vs & -> & W & M & Hm & Sv & Hp & T & Wn & Hi & L). exists ((x, w) :: ms). split; [reflexivity|]. split.
  - constructor; [|exact O]. cbn [fst snd]. split; [|exact W]. destruct M as (w0 & y & W0 & J & -> & Ln & _). eapply rfc_object; eassumption.
  - constructor; [|exact P]. cbn [fst snd]. intros w' W'. destruct (message_request _ _ _ M W') as (p & E & Ap). exists p. split; [exact E|]. destruct M as (_ & _ & _ & _ & _ & _ & D & _).
    split; [|split; [eapply id_exact; eassumption|exact L]]. apply (meaning_exact float_ok message _ _ _ rs m v vs (fst qn) Ap D Hm Sv Hp T), Wn.
Qed.
Lemma packets_spaced float_ok message qns ms : Forall2 (fun qn (m : str * str) => forall w, space w -> exists p, request_packet (w ++ fst m) = Some p /\ request_ok float_ok message qn p) qns ms ->
  forall txs k, Forall2 spaced txs (firstn k ms) -> Forall2 (request_ok float_ok message) (firstn k qns) (packets_of txs).
Proof.
  induction 1 as [|qn m qns ms A P IH]; intros txs k Sp.
  - rewrite firstn_nil in *. inversion Sp; subst. constructor.
  - destruct k as [|k]; cbn [firstn] in *; [inversion Sp; subst; constructor|]. inversion Sp as [|t m' txs' l' (w & W & E) Sp']; subst. unfold packets_of. cbn [flat_map]. destruct (A w W) as (p & Ep & R). rewrite Ep. cbn [app]. constructor; [exact R|apply IH, Sp'].
Qed.
Lemma requests_cut float_ok message qns ts out z fin sch fuel ps e : Forall2 (fun qn t => asks_for float_ok (fst qn) (snd qn) t) qns ts -> is_stream out ts -> beginning z out -> requests fuel (mkSrc z fin sch 0) = Some (ps, e) ->
  exists k, Forall2 (request_ok float_ok message) (firstn k qns) ps.
Proof.
  intros F St B H. unfold requests in H. destruct (session fuel is_request _ _) as [[txs e']|] eqn:Se; [|discriminate]. injection H as <- <-.
  destruct (requests_split float_ok message _ _ F) as (ms & -> & O & P). destruct (session_cut _ _ _ _ _ _ _ _ _ St O B Se) as (k & _ & Sp). exists k. exact (packets_spaced _ _ _ _ P _ _ Sp).
Qed.
Lemma requests_whole float_ok message qns ts out fin sch fuel ps : Forall2 (fun qn t => asks_for float_ok (fst qn) (snd qn) t) qns ts -> is_stream out ts -> requests fuel (mkSrc out fin sch 0) = Some (ps, EHeader (Io EOF)) ->
  Forall2 (request_ok float_ok message) qns ps.
Proof.
  intros F St H. unfold requests in H. destruct (session fuel is_request _ _) as [[txs e']|] eqn:Se; [|discriminate]. injection H as <- ->.
  destruct (requests_split float_ok message _ _ F) as (ms & -> & O & P). pose proof (session_whole _ _ _ _ _ _ _ St O Se) as Sp. rewrite <- (firstn_all ms) in Sp.
  pose proof (packets_spaced _ _ _ _ P _ _ Sp) as K. rewrite <- (Forall2_size _ _ _ P), firstn_all in K. exact K.
Qed.

(** ** Responses *)
Definition response_ok (c : config) (tr : list slabel) (h : N * result str str) : Prop :=
  exists k p, nth_error (received tr) k = Some p /\ id_shown (pid p) (numbered (fst h)) /\ obtained c tr k (snd h).
Lemma responds_received c tr k t : responds c tr k t -> exists p, nth_error (received tr) k = Some p.
Proof. intros [p e N _ _|p q i o e N _ _ _ _|p q i o r v N _ _ _ _ _ _]; exists p; exact N. Qed.
Definition answer_ok (c : config) (tr : list slabel) (kt : nat * str) (h : N * result str str) : Prop :=
  exists p, nth_error (received tr) (fst kt) = Some p /\ id_shown (pid p) (numbered (fst h)) /\ obtained c tr (fst kt) (snd h).
Definition identified (tr : list slabel) : Prop := forall k p, nth_error (received tr) k = Some p -> exists n, id_shown (pid p) (numbered n) /\ (n <= 18446744073709551615)%N.
Lemma responses_split f c tr done : shallow tr -> identified tr -> Forall (fun kt => responds c tr (fst kt) (snd kt)) done ->
  exists ms : list (str * str), map snd done = map (fun m : str * str => fst m ++ snd m) ms /\ Forall (fun m : str * str => object_text (fst m) /\ space (snd m)) ms /\
     Forall2 (fun kt (m : str * str) => forall w, space w -> exists h, response_header f (w ++ fst m) = Some h /\ answer_ok c tr kt h) done ms.
Proof.
  intros Sh Id. induction 1 as [|[k t] done Rt Re IH]; [exists []; repeat constructor|]. destruct IH as (ms & E & O & P). cbn [fst snd] in Rt. destruct (responds_received _ _ _ _ Rt) as (p & N). destruct (Id _ _ N) as (n & In & Ln).
  destruct (responds_cut _ _ _ _ _ _ Sh N In Rt) as (x & w & -> & W & Ob & Rw). exists ((x, w) :: ms). cbn [map fst snd]. split; [rewrite E; reflexivity|]. split; [constructor; auto|]. constructor; [|exact P]. cbn [fst]. intros w' W'.
  destruct (server_reply f c tr k p n _ N In Ln (Rw _ W')) as (r & Er & Obt). exists (n, r). split; [exact Er|]. exists p. auto.
Qed.
Definition headers_of (f : str -> bool) (txs : list str) : list (N * result str str) := flat_map (fun t => match response_header f t with Some h => [h] | None => [] end) txs.
Lemma headers_spaced f c tr done ms : Forall2 (fun kt (m : str * str) => forall w, space w -> exists h, response_header f (w ++ fst m) = Some h /\ answer_ok c tr kt h) done ms ->
  forall txs k, Forall2 spaced txs (firstn k ms) -> Forall2 (answer_ok c tr) (firstn k done) (headers_of f txs).
Proof.
  induction 1 as [|kt m done ms A P IH]; intros txs k Sp.
  - rewrite firstn_nil in *. inversion Sp; subst. constructor.
  - destruct k as [|k]; cbn [firstn] in *; [inversion Sp; subst; constructor|]. inversion Sp as [|t m' txs' l' (w & W & E) Sp']; subst. unfold headers_of. cbn [flat_map]. destruct (A w W) as (p & Ep & R). rewrite Ep. cbn [app]. constructor; [exact R|apply IH, Sp'].
Qed.
Lemma responses_cut c g input tr s f z fin sch fuel hs e : srun c (start g input) tr s -> ~ In VFail tr -> fit c tr -> shallow tr -> identified tr ->
  beginning z (sent tr) -> responses f fuel (mkSrc z fin sch 0) = Some (hs, e) -> Forall (response_ok c tr) hs.
Proof.
  intros R NF Ft Sh Id (zr & Z) H. destruct (output_stream _ _ _ _ _ R NF Ft) as (done & out & St & (zo & B) & _ & Re). unfold responses in H. destruct (session fuel (is_response f) _ _) as [[txs e']|] eqn:Se; [|discriminate]. injection H as <- <-.
  destruct (responses_split f c tr done Sh Id Re) as (ms & E & O & P). rewrite E in St. assert (Bz : beginning z out) by (exists (zr ++ zo); rewrite B, Z, app_assoc; reflexivity). destruct (session_cut _ _ _ _ _ _ _ _ _ St O Bz Se) as (k & _ & Sp).
  pose proof (headers_spaced _ _ _ _ _ P _ _ Sp) as K. fold (headers_of f txs). clear - K. induction K as [|kt h l l' (p & A) F IH]; constructor; [exists (fst kt), p; exact A|exact IH].
Qed.
Lemma responses_whole c g input tr s f fin sch fuel hs : srun c (start g input) tr s -> In VClose tr -> ~ In VFail tr -> fit c tr -> shallow tr -> identified tr ->
  responses f fuel (mkSrc (sent tr) fin sch 0) = Some (hs, EHeader (Io EOF)) -> received tr = input /\ exists done : list (nat * str), Permutation (map fst done) (seq 0 (length input)) /\ Forall2 (answer_ok c tr) done hs.
Proof.
  intros R IC NF Ft Sh Id H. destruct (output_closed _ _ _ _ _ R IC NF Ft) as (Er & done & St & Pm & Re). split; [exact Er|]. unfold responses in H. destruct (session fuel (is_response f) _ _) as [[txs e']|] eqn:Se; [|discriminate]. injection H as <- ->.
  destruct (responses_split f c tr done Sh Id Re) as (ms & E & O & P). rewrite E in St. pose proof (session_whole _ _ _ _ _ _ _ St O Se) as Sp. rewrite <- (firstn_all ms) in Sp.
  pose proof (headers_spaced _ _ _ _ _ P _ _ Sp) as K. rewrite <- (Forall2_size _ _ _ P), firstn_all in K. exists done. split; [exact Pm|exact K].
Qed.

(** ** Calls *)
Lemma heard_in q r tr : In (XHeader q r) tr -> In (q, r) (heard tr).
Proof. induction tr as [|l tr IH]; [contradiction|]. intros [->|I]; [left; reflexivity|]. destruct l; cbn [heard]; try (apply IH, I). right. apply IH, I. Qed.
Lemma sends_in i q tr : In (XSend i q) tr -> In (i, q) (sends tr).
Proof. induction tr as [|l tr IH]; [contradiction|]. intros [->|I]; [left; reflexivity|]. destruct l; cbn [sends]; try (apply IH, I). right. apply IH, I. Qed.
Lemma numbered_same n n' : numbered n = numbered n' -> n = n'.
Proof. unfold numbered. intros E. pose proof (integer_value (Z.of_N n)) as V1. pose proof (integer_value (Z.of_N n')) as V2. injection E as E. rewrite E, V2 in V1. injection V1 as V1. lia. Qed.
Lemma nth_map_some {A B} (f : A -> B) l k y : nth_error (map f l) k = Some y -> exists x, nth_error l k = Some x /\ y = f x.
Proof. revert k. induction l as [|x l IH]; intros [|k] H; cbn in H; try discriminate; [injection H as <-; exists x; auto|apply IH, H]. Qed.
Lemma Forall2_right {A B} (P : A -> B -> Prop) l l' k y : Forall2 P l l' -> nth_error l' k = Some y -> exists x, nth_error l k = Some x /\ P x y.
Proof. intros F. revert k. induction F as [|x y' l l' H F IH]; intros [|k] E; cbn in E; try discriminate; [injection E as <-; exists x; auto|apply IH, E]. Qed.
Lemma Forall2_left {A B} (P : A -> B -> Prop) l l' k x : Forall2 P l l' -> nth_error l k = Some x -> exists y, nth_error l' k = Some y /\ P x y.
Proof. intros F. revert k. induction F as [|x' y l l' H F IH]; intros [|k] E; cbn in E; try discriminate; [injection E as <-; exists y; auto|apply IH, E]. Qed.
Lemma nth_firstn_some {A} k : forall n (l : list A) x, nth_error (firstn n l) k = Some x -> nth_error l k = Some x.
Proof. induction k as [|k IH]; intros [|n] [|y l] x H; cbn in H; try discriminate; [exact H|exact (IH _ _ _ H)]. Qed.
(** The [k]-th request has number [k]. *)
Lemma sends_nth body tr s k iq : Client.crun body new_client tr s -> nth_error (sends tr) k = Some iq -> snd iq = N.of_nat k.
Proof.
  intros R H. destruct (numbers _ _ _ R) as [E _]. assert (K : nth_error (map snd (sends tr)) k = Some (snd iq)) by (rewrite (map_nth_error snd _ _ H); reflexivity).
  rewrite E in K. apply nth_map_some in K. destruct K as (k' & K & ->). f_equal.
  assert (L : k < length (seq 0 (length (sends tr)))) by (apply nth_error_Some; rewrite K; discriminate). rewrite seq_length in L. apply (nth_error_nth _ _ 0) in K. rewrite seq_nth in K by exact L. symmetry. exact K.
Qed.
Lemma known body ctr cs float_ok message (Q : nat -> request) n input : Client.crun body new_client ctr cs ->
  Forall2 (request_ok float_ok message) (firstn n (map (fun iq : nat * N => (Q (fst iq), snd iq)) (sends ctr))) input -> forall k p, nth_error input k = Some p ->
  exists i, nth_error (sends ctr) k = Some (i, N.of_nat k) /\ meaning (go_decoders float_ok message) p (Ok (Q i)) /\ id_shown (pid p) (numbered (N.of_nat k)) /\ (N.of_nat k <= 18446744073709551615)%N.
Proof.
  intros Rc Pk k p N. destruct (Forall2_right _ _ _ _ _ Pk N) as (qn & Hq & M & Is & L). apply nth_firstn_some in Hq. apply nth_map_some in Hq. destruct Hq as ([i' q'] & Hs & ->). cbn [fst snd] in *.
  pose proof (sends_nth _ _ _ _ _ Rc Hs) as E. cbn [snd] in E. subst q'. exists i'. auto.
Qed.
Lemma part_of {A} (x y : list A) k p : beginning x y -> nth_error x k = Some p -> nth_error y k = Some p.
Proof. intros (z & ->) N. rewrite nth_error_app1; [exact N|]. apply nth_error_Some. rewrite N. discriminate. Qed.
Lemma obtained_handled c g input str s k p q r : srun c (start g input) str s -> nth_error (received str) k = Some p -> meaning (c_dec c) p (Ok q) -> obtained c str k r -> handled c g str k q r.
Proof.
  intros Rs N M Ob. destruct (server_calls _ _ _ _ _ Rs) as (_ & qs & tss & Cd & Stp).
  assert (Call : forall j o, nth_error (started 0 str) j = Some (k, o) -> nth_error qs j = Some (o, q)).
  { intros j o Hj. destruct (Forall2_left _ _ _ _ _ Cd Hj) as ([o' q'] & Hn & E & p' & N' & M'). cbn [fst snd] in *. subst o'. rewrite N in N'. injection N' as <-. pose proof (meaning_same _ _ _ _ M M') as E. injection E as <-. exact Hn. }
  destruct Ob as [p' e1 N' M'|p' q' j o e1 N' M' Hj Rp'|p' q' j o r0 v y N' M' Hj Rp' Ne Rv Jv].
  - rewrite N in N'. injection N' as <-. pose proof (meaning_same _ _ _ _ M M') as E. discriminate E.
  - eapply hd_reply; [exact Cd|exact Stp|exact Hj|apply Call, Hj|exact Rp'|constructor].
  - eapply hd_reply; [exact Cd|exact Stp|exact Hj|apply Call, Hj|exact Rp'|econstructor; eassumption].
Qed.
Lemma asks_renamed float_ok (Q : nat -> request) l ts : Forall2 (fun iq t => asks_for float_ok (Q (fst iq)) (snd iq) t) l ts ->
  Forall2 (fun qn t => asks_for float_ok (fst qn) (snd qn) t) (map (fun iq : nat * N => (Q (fst iq), snd iq)) l) ts.
Proof. induction 1; cbn [map]; constructor; auto. Qed.
Lemma connected body ctr cs float_ok message (Q : nat -> request) ts out z fin sch fuel input e c g str s f z' fin' sch' fuel' hs e' :
  Client.crun body new_client ctr cs -> Forall2 (fun iq t => asks_for float_ok (Q (fst iq)) (snd iq) t) (sends ctr) ts -> is_stream out ts ->
  beginning z out -> requests fuel (mkSrc z fin sch 0) = Some (input, e) -> c_dec c = go_decoders float_ok message -> srun c (start g input) str s -> ~ In VFail str -> fit c str -> shallow str ->
  beginning z' (sent str) -> responses f fuel' (mkSrc z' fin' sch' 0) = Some (hs, e') -> beginning (heard ctr) hs ->
  forall i x, In (XDone i x) ctr -> responded x -> exists k r, In (XSend i (N.of_nat k)) ctr /\ handled c g str k (Q i) r /\ settled body i r x.
Proof.
  intros Rc Ask St B Rq Dec Rs NF Ft Sh B' Rp (hr & Hh) i x I Rd.
  destruct (requests_cut float_ok message _ _ _ _ _ _ _ _ _ (asks_renamed _ _ _ _ Ask) St B Rq) as (n & Pk). destruct (server_calls _ _ _ _ _ Rs) as (Hi & _).
  pose proof (known _ _ _ _ _ _ _ _ Rc Pk) as Kn.
  assert (All : Forall (response_ok c str) hs).
  { eapply responses_cut; [exact Rs|exact NF|exact Ft|exact Sh| |exact B'|exact Rp]. intros k p N. destruct (Kn k p (part_of _ _ _ _ Hi N)) as (i' & _ & _ & H & L). eauto. }
  destruct (in_split _ _ I) as (t1 & t2 & ->). assert (J : justified body t1 i x).
  { replace (t1 ++ XDone i x :: t2) with ((t1 ++ [XDone i x]) ++ t2) in Rc by (rewrite <- app_assoc; reflexivity). destruct (crun_split _ _ _ _ _ Rc) as (s1 & R1 & _). eapply reasons, R1. }
  destruct J as [q r x Sd Hd Se|e0| | | |]; try contradiction.
  assert (Hq : In (q, r) hs) by (rewrite Hh; apply in_or_app; left; apply heard_in, in_or_app; left; exact Hd).
  rewrite Forall_forall in All. destruct (All _ Hq) as (k & p & N & Is & Ob). cbn [fst snd] in *. destruct (Kn k p (part_of _ _ _ _ Hi N)) as (i' & Hs & M & Is' & _).
  pose proof (numbered_same _ _ (id_same _ _ _ Is Is')) as ->. assert (Sd' : In (XSend i (N.of_nat k)) (t1 ++ XDone i x :: t2)) by (apply in_or_app; left; exact Sd).
  assert (i' = i) as ->.
  { apply sends_in in Sd'. apply In_nth_error in Sd'. destruct Sd' as (k' & Hk'). pose proof (sends_nth _ _ _ _ _ Rc Hk') as E. cbn [snd] in E. apply Nnat.Nat2N.inj in E. subst k'. rewrite Hs in Hk'. congruence. }
  exists k, r. split; [exact Sd'|]. split; [|exact Se]. rewrite <- Dec in M. eapply obtained_handled; eassumption.
Qed.
Lemma in_sends i q tr : In (i, q) (sends tr) -> In (XSend i q) tr.
Proof. induction tr as [|l tr IH]; [contradiction|]. destruct l; cbn [sends]; try (intros I; right; apply IH, I). intros [[= -> ->]|I]; [left; reflexivity|right; apply IH, I]. Qed.
Lemma all_answered body ctr cs float_ok message (Q : nat -> request) ts out fin sch fuel input c g str s f fin' sch' fuel' hs :
  Client.crun body new_client ctr cs -> Forall2 (fun iq t => asks_for float_ok (Q (fst iq)) (snd iq) t) (sends ctr) ts -> is_stream out ts ->
  requests fuel (mkSrc out fin sch 0) = Some (input, EHeader (Io EOF)) -> c_dec c = go_decoders float_ok message -> srun c (start g input) str s -> In VClose str -> ~ In VFail str -> fit c str -> shallow str ->
  responses f fuel' (mkSrc (sent str) fin' sch' 0) = Some (hs, EHeader (Io EOF)) ->
  Permutation (map fst hs) (map snd (sends ctr)) /\ Forall (fun h => exists i k, fst h = N.of_nat k /\ In (XSend i (fst h)) ctr /\ handled c g str k (Q i) (snd h)) hs.
Proof.
  intros Rc Ask St Rq Dec Rs Cl NF Ft Sh Rp. pose proof (requests_whole float_ok message _ _ _ _ _ _ _ (asks_renamed _ _ _ _ Ask) St Rq) as Pk. rewrite <- (firstn_all (map _ (sends ctr))) in Pk.
  pose proof (known _ _ _ _ _ _ _ _ Rc Pk) as Kn. rewrite firstn_all in Pk. destruct (server_calls _ _ _ _ _ Rs) as (Hi & _).
  assert (Id : identified str) by (intros k p N; destruct (Kn k p (part_of _ _ _ _ Hi N)) as (i' & _ & _ & H & L); eauto).
  destruct (responses_whole _ _ _ _ _ _ _ _ _ _ Rs Cl NF Ft Sh Id Rp) as (Er & done & Pm & Fa).
  assert (Num : forall kt h, answer_ok c str kt h -> fst h = N.of_nat (fst kt) /\ exists i, In (XSend i (fst h)) ctr /\ handled c g str (fst kt) (Q i) (snd h)).
  { intros [k t] [n r] (p & N & Is & Ob). cbn [fst snd] in *. destruct (Kn k p (part_of _ _ _ _ Hi N)) as (i & Hs & M & Is' & _). pose proof (numbered_same _ _ (id_same _ _ _ Is Is')) as ->.
    split; [reflexivity|]. exists i. split; [apply in_sends, (nth_error_In _ _ Hs)|]. rewrite <- Dec in M. eapply obtained_handled; eassumption. }
  split.
  - destruct (numbers _ _ _ Rc) as [E _]. rewrite E. assert (El : length input = length (sends ctr)) by (rewrite <- (Forall2_size _ _ _ Pk), map_length; reflexivity). rewrite <- El.
    replace (map fst hs) with (map N.of_nat (map fst done)); [apply Permutation_map, Pm|]. clear - Fa Num. induction Fa as [|kt h done hs A F IH]; [reflexivity|]. cbn [map]. rewrite IH, (proj1 (Num _ _ A)). reflexivity.
  - clear - Fa Num. induction Fa as [|kt h done hs A F IH]; constructor; [|exact IH]. destruct (Num _ _ A) as (E & i & H). exists i, (fst kt). auto.
Qed.
