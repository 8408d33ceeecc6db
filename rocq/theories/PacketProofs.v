(** Lemmas about messages with requests. *)
From Coq Require Import ZifyBool ZifyNat ZifyN.
From Verif Require Import GoBase Utf8 JsonSpec Json Emacs Frame FrameSpec Stream StreamSpec StreamProofs StreamMain StreamRfc Backend ReplySpec Server ServerSpec ServerProofs ServerLive ReplyProofs JsonProofs Tools Unmarshal UnmarshalSpec ParseProofs UnmarshalProofs.

(** ** Parameters *)
Lemma unmarshal_ok A B message (d : dec A) zero (f : A -> B) R t v vs x : implements d zero f R -> jdocument (VArr (v :: vs)) t -> tidy v ->
  (unmarshal message d zero f t = Ok x <-> R v x).
Proof.
  intros [_ P] J T. unfold unmarshal. rewrite (document_parsed _ _ J). cbn [d_params]. specialize (P v x T). destruct (d v zero) as [a ok]. cbn [fst snd] in P. rewrite <- P. destruct ok; split; intros H.
  - injection H as <-. auto.
  - destruct H as [_ <-]. reflexivity.
  - discriminate.
  - destruct H. discriminate.
Qed.
Lemma rmap_ok E A B (f : A -> B) (r : result E A) q : rmap f r = Ok q <-> exists x, q = f x /\ r = Ok x.
Proof. destruct r as [a|e]; cbn [rmap]; split; [intros H; injection H as <-; eauto|intros (x & -> & H); injection H as ->; reflexivity|discriminate|intros (x & _ & H); discriminate]. Qed.
Lemma ex_iff A (P Q : A -> Prop) : (forall x, P x <-> Q x) -> (exists x, P x) <-> (exists x, Q x).
Proof. intros H. split; intros (x & K); exists x; apply H, K. Qed.
Lemma params_exact float_ok message m t v vs q : jdocument (VArr (v :: vs)) t -> tidy v -> (argument (go_decoders float_ok message) m t = Ok q <-> wants float_ok m v q).
Proof.
  intros J T. destruct m; cbn [argument go_decoders d_hello d_capture d_mentions d_visit d_search d_set wants]; rewrite rmap_ok; apply ex_iff; intros x.
  all: apply and_iff_compat_l.
  - apply (unmarshal_ok _ _ _ _ _ _ _ t v vs x (hello_implements float_ok) J T).
  - apply (unmarshal_ok _ _ _ _ _ _ _ t v vs x (capture_implements float_ok) J T).
  - apply (unmarshal_ok _ _ _ _ _ _ _ t v vs x mentions_implements J T).
  - apply (unmarshal_ok _ _ _ _ _ _ _ t v vs x visit_implements J T).
  - apply (unmarshal_ok _ _ _ _ _ _ _ t v vs x search_implements J T).
  - apply (unmarshal_ok _ _ _ _ _ _ _ t v vs x set_implements J T).
Qed.
(** The same as an empty object *)
Lemma params_none float_ok message m t : jdocument (VArr []) t -> argument (go_decoders float_ok message) m t = argument (go_decoders float_ok message) m (b "[{}]").
Proof. intros J. destruct m; cbn [argument go_decoders d_hello d_capture d_mentions d_visit d_search d_set]; unfold unmarshal; rewrite (document_parsed _ _ J); reflexivity. Qed.
Lemma params_bad float_ok message m t v : jdocument v t -> v <> VNull -> (forall l, v <> VArr l) -> argument (go_decoders float_ok message) m t = Err (message m t).
Proof.
  intros J N A. assert (E : forall X (d : dec X) a, d_params d v a = (a, false)) by (intros; destruct v; try reflexivity; [contradiction|exfalso; eapply A; reflexivity]).
  destruct m; cbn [argument go_decoders d_hello d_capture d_mentions d_visit d_search d_set]; unfold unmarshal; rewrite (document_parsed _ _ J), E; reflexivity.
Qed.
Lemma params_error float_ok message m t e : argument (go_decoders float_ok message) m t = Err e -> e = message m t.
Proof.
  destruct m; cbn [argument go_decoders d_hello d_capture d_mentions d_visit d_search d_set]; unfold unmarshal; destruct (parse t) as [v|]; cbn [rmap];
    try (intros H; injection H as <-; reflexivity); destruct (d_params _ v _) as [a []]; cbn [rmap]; intros H; (discriminate || (injection H as <-; reflexivity)).
Qed.

(** ** Members of a message *)
Definition key (m : member) : list rune := fst (fst m).
Lemma members_raw l t : jmembers l t -> begins t /\ exists ms, reads_members ms t /\ map fst ms = l /\ Forall (fun m => jtext (snd (fst m)) (snd m) /\ exists y z, t = y ++ snd m ++ z) ms.
Proof.
  intros H. split; [apply (proj2 (proj2 json_read) _ _ H)|]. induction H as [w1 w2 w3 w4 k kt v t W1 W2 W3 W4 (y & J & ->) R|w1 w2 w3 w4 k kt v t l x W1 W2 W3 W4 (y & J & ->) R H (ms & Rl & <- & F)].
  - exists [(k, v, t)]. split; [apply members_one; try assumption; [apply chars_read, J|apply json_read, R]|]. split; [reflexivity|]. constructor; [|constructor]. split; [exact R|].
    exists (w1 ++ (quote :: y ++ [quote]) ++ w2 ++ b ":" ++ w3), w4. cbn [snd]. rewrite <- !app_assoc. reflexivity.
  - exists ((k, v, t) :: ms). split; [apply members_more; try assumption; [apply chars_read, J|apply json_read, R]|]. split; [reflexivity|]. constructor.
    + split; [exact R|]. exists (w1 ++ (quote :: y ++ [quote]) ++ w2 ++ b ":" ++ w3), (w4 ++ b "," ++ x). cbn [snd]. rewrite <- !app_assoc. reflexivity.
    + eapply Forall_impl; [|exact F]. intros m (Jm & p & q & ->). split; [exact Jm|]. exists (w1 ++ (quote :: y ++ [quote]) ++ w2 ++ b ":" ++ w3 ++ t ++ w4 ++ b "," ++ p), q. rewrite <- !app_assoc. reflexivity.
Qed.
Lemma members_get A B (step : A -> member -> A * bool) (get : A -> B) name (upd : member -> B -> B) : (forall p m, get (fst (step p m)) = if same_fold (key m) name then upd m (get p) else get p) -> forall ms p, different (map fst ms) ->
  (forall m, In m ms -> same_fold (key m) name = true -> get (fst (members step ms p)) = upd m (get p)) /\ ((forall m, In m ms -> same_fold (key m) name = false) -> get (fst (members step ms p)) = get p).
Proof.
  intros G. induction ms as [|m ms IH]; intros p D; [split; [intros m []|reflexivity]|].
  assert (E : fst (members step (m :: ms) p) = fst (members step ms (fst (step p m)))). { cbn [members]. destruct (step p m) as [p1 ok]. cbn [fst]. destruct (members step ms p1). reflexivity. }
  rewrite E. clear E. destruct (IH (fst (step p m)) (different_tail _ _ D)) as [IH1 IH2]. rewrite G in IH1, IH2. split.
  - intros m' [<-|I] F.
    + rewrite F in IH2. apply IH2. intros m' I. destruct (same_fold (key m') name) eqn:F'; [|reflexivity]. exfalso. destruct m as [[k v] t], m' as [[k' v'] t']. unfold key in *. cbn [fst] in *.
      eapply (different_head k v (map fst ms) name v' D); [apply fold_name, F|]. exists k'. split; [apply (in_map fst _ _ I)|apply fold_name, F'].
    + rewrite (IH1 m' I F). destruct (same_fold (key m) name) eqn:F'; [|reflexivity]. exfalso. destruct m as [[k v] t], m' as [[k' v'] t']. unfold key in *. cbn [fst] in *.
      eapply (different_head k v (map fst ms) name v' D); [apply fold_name, F'|]. exists k'. split; [apply (in_map fst _ _ I)|apply fold_name, F].
  - intros N. pose proof (N m (or_introl eq_refl)) as F. rewrite F in IH2. apply IH2. intros m' I. apply N. right. exact I.
Qed.
Lemma packet_flag ms : forall p, snd (members packet_member ms p) = forallb (fun m => if same_fold (key m) (b "method") then snd (d_string (snd (fst m)) []) else true) ms.
Proof.
  induction ms as [|[[k v] t] ms IH]; intros p; [reflexivity|]. cbn [members forallb]. unfold key at 1. cbn [fst snd].
  assert (E : snd (packet_member p (k, v, t)) = if same_fold k (b "method") then snd (d_string v []) else true).
  { cbn [packet_member]. destruct (same_fold k (b "method")); [|destruct (same_fold k (b "params")); [reflexivity|destruct (same_fold k (b "id")); reflexivity]]. rewrite (proj1 string_implements v [] (pmethod p)). destruct (d_string v (pmethod p)). reflexivity. }
  destruct (packet_member p (k, v, t)) as [p1 ok]. specialize (IH p1). destruct (members packet_member ms p1) as [p2 ok2]. cbn [snd] in *. congruence.
Qed.
Lemma names_apart k : same_fold k (b "method") = true -> same_fold k (b "params") = false /\ same_fold k (b "id") = false.
Proof.
  intros H. apply fold_same in H. split; [destruct (same_fold k (b "params")) eqn:E|destruct (same_fold k (b "id")) eqn:E]; try reflexivity; apply fold_same in E; rewrite H in E; vm_compute in E; discriminate E.
Qed.
Lemma names_apart2 k : same_fold k (b "params") = true -> same_fold k (b "id") = false.
Proof. intros H. apply fold_same in H. destruct (same_fold k (b "id")) eqn:E; [|reflexivity]. apply fold_same in E. rewrite H in E. vm_compute in E. discriminate E. Qed.
Lemma get_method p m : pmethod (fst (packet_member p m)) = if same_fold (key m) (b "method") then fst (d_string (snd (fst m)) (pmethod p)) else pmethod p.
Proof.
  destruct m as [[k v] t]. unfold key. cbn [packet_member fst snd]. destruct (same_fold k (b "method")); [destruct (d_string v (pmethod p)); reflexivity|]. destruct (same_fold k (b "params")); [reflexivity|]. destruct (same_fold k (b "id")); reflexivity.
Qed.
Lemma get_params p m : pparams (fst (packet_member p m)) = if same_fold (key m) (b "params") then raw (snd (fst m)) (snd m) else pparams p.
Proof.
  destruct m as [[k v] t]. unfold key. cbn [packet_member fst snd]. destruct (same_fold k (b "method")) eqn:E; [destruct (names_apart k E) as [-> _]; destruct (d_string v (pmethod p)); reflexivity|]. destruct (same_fold k (b "params")); [reflexivity|]. destruct (same_fold k (b "id")); reflexivity.
Qed.
Lemma get_id p m : pid (fst (packet_member p m)) = if same_fold (key m) (b "id") then raw (snd (fst m)) (snd m) else pid p.
Proof.
  destruct m as [[k v] t]. unfold key. cbn [packet_member fst snd]. destruct (same_fold k (b "method")) eqn:E; [destruct (names_apart k E) as [_ ->]; destruct (d_string v (pmethod p)); reflexivity|]. destruct (same_fold k (b "params")) eqn:F; [rewrite (names_apart2 k F); reflexivity|]. destruct (same_fold k (b "id")); reflexivity.
Qed.
Lemma has_member (ms : list member) name : (exists v t k, In (k, v, t) ms /\ same_fold k name = true /\ has (map fst ms) name v) \/ ((forall m, In m ms -> same_fold (key m) name = false) /\ forall v, ~ has (map fst ms) name v).
Proof.
  destruct (has_dec (map fst ms) name) as [(v & k & I & F)|N].
  - left. apply in_map_iff in I as ([[k' v'] t] & E & I). cbn [fst] in E. injection E as -> ->. exists v, t, k. split; [exact I|]. split; [apply fold_name, F|]. exists k. split; [apply (in_map fst _ _ I)|exact F].
  - right. split; [|exact N]. intros [[k v] t] I. unfold key. cbn [fst]. destruct (same_fold k name) eqn:F; [|reflexivity]. exfalso. apply (N v). exists k. split; [apply (in_map fst _ _ I)|apply fold_name, F].
Qed.
Definition nothing : packet := mkPacket None [] None.
Lemma members_packet t l ms : map fst ms = l -> different l -> Forall (fun m => jtext (snd (fst m)) (snd m) /\ exists y z, t = y ++ snd m ++ z) ms ->
  (snd (members packet_member ms nothing) = true -> a_packet t (VObj l) (fst (members packet_member ms nothing))) /\ (snd (members packet_member ms nothing) = true <-> checked l (b "method") a_string).
Proof.
  intros <- D F. split.
  - intros K. rewrite packet_flag, forallb_forall in K. right. eexists. split; [reflexivity|]. split; [|split].
    + destruct (members_get _ _ packet_member pmethod (b "method") (fun m x => fst (d_string (snd (fst m)) x)) get_method ms nothing D) as [G1 G2]. destruct (has_member ms (b "method")) as [(v & x & k & I & E & H)|[N1 N2]].
      * rewrite (G1 _ I E). apply fi_given with v; [exact H|]. specialize (K _ I). unfold key in K. cbn [fst snd] in *. rewrite E in K. destruct v; try discriminate K; [left; split; reflexivity|right; eauto].
      * rewrite (G2 N1). apply fi_absent, N2.
    + destruct (members_get _ _ packet_member pparams (b "params") (fun m _ => raw (snd (fst m)) (snd m)) get_params ms nothing D) as [G1 G2]. destruct (has_member ms (b "params")) as [(v & x & k & I & E & H)|[N1 N2]].
      * rewrite (G1 _ I E). apply fi_given with v; [exact H|]. rewrite Forall_forall in F. destruct (F _ I) as (J & y & z & Et). cbn [fst snd] in *.
        destruct v; cbn [raw]; [left; auto|..]; (right; split; [discriminate|]; exists x, y, z; auto).
      * rewrite (G2 N1). apply fi_absent, N2.
    + destruct (members_get _ _ packet_member pid (b "id") (fun m _ => raw (snd (fst m)) (snd m)) get_id ms nothing D) as [G1 G2]. destruct (has_member ms (b "id")) as [(v & x & k & I & E & H)|[N1 N2]].
      * rewrite (G1 _ I E). apply fi_given with v; [exact H|]. rewrite Forall_forall in F. destruct (F _ I) as (J & y & z & Et). cbn [fst snd] in *.
        destruct v; cbn [raw]; [left; auto|..]; (right; split; [discriminate|]; exists x, y, z; auto).
      * rewrite (G2 N1). apply fi_absent, N2.
  - rewrite packet_flag, forallb_forall. split.
    + intros K v (k & I & E). apply in_map_iff in I as ([[k' v'] x] & Ek & I). cbn [fst] in Ek. injection Ek as -> ->. specialize (K _ I). unfold key in K. cbn [fst snd] in K. rewrite (proj2 (fold_name _ _) E) in K. unfold a_string. destruct v; try discriminate K; [exists []; auto|eexists; right; eauto].
    + intros C [[k v] x] I. unfold key. cbn [fst snd]. destruct (same_fold k (b "method")) eqn:E; [|reflexivity]. destruct (C v) as (s & [[-> _]|(rs & -> & _)]); [|reflexivity..]. exists k. split; [apply (in_map fst _ _ I)|apply fold_name, E].
Qed.
Lemma text_in_more w w' t v o : text_in t v o -> text_in (w ++ t ++ w') v o.
Proof. intros [H|(N & x & y & z & -> & -> & J)]; [left; exact H|]. right. split; [exact N|]. exists x, (w ++ y), (z ++ w'). split; [reflexivity|]. split; [rewrite <- !app_assoc; reflexivity|exact J]. Qed.
Lemma field_more A l name (R R' : value -> A -> Prop) zero x : (forall v a, R v a -> R' v a) -> field l name R zero x -> field l name R' zero x.
Proof. intros H [v a K E|K]; [apply fi_given with v; auto|apply fi_absent, K]. Qed.
Lemma packet_more w w' t v p : a_packet t v p -> a_packet (w ++ t ++ w') v p.
Proof.
  intros [[-> (A & B & C)]|(l & -> & A & B & C)]; [left; split; [reflexivity|]|right; eexists; split; [reflexivity|]]; (split; [exact A|]; split; (eapply field_more; [intros ? ? H; apply text_in_more, H|assumption])).
Qed.
Lemma object_of_members A (step : A -> member -> A * bool) zero w w' l tx ms : space w -> reads_members ms tx -> map fst ms = l -> l <> [] -> parse (w ++ (b "{" ++ tx ++ b "}") ++ w') = Some (VObj l) ->
  read_object step zero (w ++ (b "{" ++ tx ++ b "}") ++ w') = if snd (members step ms zero) then Some (fst (members step ms zero)) else None.
Proof.
  intros W R E N P. unfold read_object. rewrite P. rewrite <- !app_assoc. change (b "{" ++ tx ++ b "}" ++ w') with ("{"%char :: tx ++ "}"%char :: w'). rewrite (skip_space w) by (exact W || (cbn; intuition discriminate)).
  rewrite R by (unfold budget_of; rewrite app_length; cbn [length]; lia). destruct l as [|m0 l0]; [congruence|]. destruct (members step ms zero) as [q []]; reflexivity.
Qed.
Lemma packet_exact t l : jdocument (VObj l) t -> different l ->
  (forall p, request_packet t = Some p -> a_packet t (VObj l) p) /\ ((exists p, request_packet t = Some p) <-> checked l (b "method") a_string).
Proof.
  intros J D. pose proof (document_parsed _ _ J) as P. destruct J as (w & x & w' & W & W' & J & ->). inversion J as [| | | | | | |v0 V0 E0|l0 tx M E0]; subst.
  - assert (E : request_packet (w ++ (b "{" ++ v0 ++ b "}") ++ w') = Some nothing) by (unfold request_packet, read_object; rewrite P; reflexivity). rewrite E. split.
    + intros p H. injection H as <-. right. exists []. split; [reflexivity|]. split; [|split]; apply fi_absent; intros v (k & [] & _).
    + split; [intros _ v (k & [] & _)|eauto].
  - destruct (members_raw _ _ M) as (_ & ms & R & E & F). assert (N : l <> []) by (destruct M; discriminate). unfold request_packet. fold nothing. rewrite (object_of_members _ packet_member nothing w w' l tx ms W R E N P). destruct (members_packet _ l ms E D F) as [A B].
    destruct (snd (members packet_member ms nothing)).
    + split; [|split; [intros _; apply B; reflexivity|eauto]]. intros p H. injection H as <-. apply packet_more. apply packet_more. apply A. reflexivity.
    + split; [discriminate|]. split; [intros (p & H); discriminate|intros C; apply B in C; discriminate].
Qed.
Lemma packet_other t v : jdocument v t -> (forall l, v <> VObj l) -> request_packet t = match v with VNull => Some (mkPacket None [] None) | _ => None end.
Proof. intros J N. unfold request_packet, read_object. rewrite (document_parsed _ _ J). destruct v; try reflexivity. exfalso. eapply N. reflexivity. Qed.

(** ** Requests of a message *)
Lemma field_given A l name (R : value -> A -> Prop) zero x v : different l -> has l name v -> field l name R zero x -> R v x.
Proof. intros D H [v' a H' E|N]; [rewrite (has_unique _ _ _ _ D H H'); exact E|exfalso; eapply N, H]. Qed.
Lemma packet_inv t l p : a_packet t (VObj l) p -> field l (b "method") a_string [] (pmethod p) /\ field l (b "params") (text_in t) None (pparams p) /\ field l (b "id") (text_in t) None (pid p).
Proof. intros [[E _]|(l' & E & H)]; [discriminate|]. injection E as <-. exact H. Qed.
Lemma text_document v x : jtext v x -> jdocument v x.
Proof. intros J. exists [], x, []. split; [constructor|]. split; [constructor|]. split; [exact J|rewrite app_nil_r; reflexivity]. Qed.
Lemma meaning_exact float_ok message t l p rs m v vs q : a_packet t (VObj l) p -> different l -> has l (b "method") (VStr rs) -> serves (string_of rs) m -> has l (b "params") (VArr (v :: vs)) -> tidy v ->
  (meaning (go_decoders float_ok message) p (Ok q) <-> wants float_ok m v q).
Proof.
  intros P D M S A T. destruct (packet_inv _ _ _ P) as (F1 & F2 & _). apply (field_given _ _ _ _ _ _ _ D M) in F1. apply (field_given _ _ _ _ _ _ _ D A) in F2.
  destruct F1 as [[F1 _]|(rs' & F1 & E1)]; [discriminate|]. injection F1 as <-. destruct F2 as [[F2 _]|(_ & x & y & z & E2 & _ & J)]; [discriminate|].
  rewrite <- (params_exact float_ok message m x v vs q (text_document _ _ J) T). rewrite <- E1 in S.
  assert (E : readRequest (go_decoders float_ok message) p = argument (go_decoders float_ok message) m x) by (unfold readRequest; rewrite (proj2 (route_exact _ _) S), E2; reflexivity).
  rewrite <- E. split; [apply meaning_ok|intros H; rewrite <- H; apply readRequest_meaning].
Qed.
Lemma id_exact t l p i : a_packet t (VObj l) p -> different l -> has l (b "id") i -> id_shown (pid p) i.
Proof.
  intros P D H. destruct (packet_inv _ _ _ P) as (_ & _ & F). apply (field_given _ _ _ _ _ _ _ D H) in F. destruct F as [[-> ->]|(_ & x & y & z & -> & _ & J)]; [reflexivity|exact J].
Qed.
Lemma id_absent t l p : a_packet t (VObj l) p -> (forall v, ~ has l (b "id") v) -> pid p = None.
Proof. intros P N. destruct (packet_inv _ _ _ P) as (_ & _ & F). inversion F as [v a H E|H E]; [exfalso; eapply N, H|reflexivity]. Qed.
Lemma response_id c tr k t0 l p i t : nth_error (received tr) k = Some p -> a_packet t0 (VObj l) p -> different l -> (has l (b "id") i \/ (i = VNull /\ forall v, ~ has l (b "id") v)) -> responds c tr k t ->
  exists result error, jdocument (VObj [(ReplySpec.name (b "id"), i); (ReplySpec.name (b "result"), result); (ReplySpec.name (b "error"), error)]) t.
Proof.
  intros N P D H R. assert (I : id_shown (pid p) i) by (destruct H as [H|[-> H]]; [eapply id_exact; eassumption|rewrite (id_absent _ _ _ P H); reflexivity]).
  destruct R as [p' e N' _ S|p' q j o e N' _ _ _ S|p' q j o r v N' _ _ _ _ _ S]; rewrite N in N'; injection N' as <-; specialize (S i I); eauto.
Qed.

(** ** Streams *)
Lemma message_request t l w : a_message t l -> space w -> exists p, request_packet (w ++ t) = Some p /\ a_packet (w ++ t) (VObj l) p.
Proof.
  intros (w0 & x & W0 & J & -> & _ & D & C) W. assert (Jd : jdocument (VObj l) (w ++ w0 ++ x)).
  { exists (w ++ w0), x, []. split; [apply Forall_app; split; assumption|]. split; [constructor|]. split; [exact J|]. rewrite app_nil_r, <- app_assoc. reflexivity. }
  destruct (packet_exact _ _ Jd D) as [A B]. destruct (proj2 B C) as (p & E). exists p. auto.
Qed.
Lemma requests_exact stream msgs sch fuel : is_stream stream (map fst msgs) -> Forall (fun m => a_message (fst m) (snd m)) msgs -> Forall (fun m => N.of_nat (length (fst m)) <= 1073741824)%N msgs -> length msgs < fuel ->
  exists ps, requests fuel (mkSrc stream EOF sch 0) = Some (ps, EHeader (Io EOF)) /\ Forall2 (fun m p => a_packet (fst m) (VObj (snd m)) p) msgs ps.
Proof.
  intros St F L Lf. unfold requests. rewrite (session_browser is_request stream (map fst msgs) sch fuel); [|exact St| | |rewrite Forall_map; exact L|rewrite map_length; exact Lf].
  - eexists. split; [reflexivity|]. clear St L Lf. induction F as [|[t l] msgs M F IH]; [constructor|]. cbn [map flat_map fst snd] in *. destruct (message_request t l [] M ltac:(constructor)) as (p & E & P). cbn [app] in E, P. rewrite E. cbn [app]. constructor; [exact P|exact IH].
  - rewrite Forall_map. eapply Forall_impl; [|exact F]. intros [t l] (w & x & W & J & -> & Ln & _). cbn [fst snd] in *. eapply rfc_object; eassumption.
  - rewrite Forall_map. eapply Forall_impl; [|exact F]. intros [t l] M w W. cbn [fst snd] in *. destruct (message_request t l w M W) as (p & E & _). unfold is_request. rewrite E. reflexivity.
Qed.

(** ** Requests of the client *)
Definition whole (v : value) (i : value) (method : str) : list (list rune * value) := [(runes_of (b "method"), VStr (runes_of method)); (runes_of (b "params"), VArr [v]); (runes_of (b "id"), i)].
Lemma whole_different v i method : different (whole v i method).
Proof.
  intros l1 k1 v1 l2 k2 v2 l3 nm E F1 F2. apply fold_name, fold_same in F1. apply fold_name, fold_same in F2. rewrite <- F1 in F2. clear F1. unfold whole in E.
  destruct l1 as [|m1 [|m2 [|m3 [|]]]]; cbn [app] in E; try discriminate E; destruct l2 as [|n1 [|n2 [|]]]; cbn [app] in E; try discriminate E; injection E as; subst; vm_compute in F2; discriminate F2.
Qed.
Lemma client_packet method query id : exists p, request_packet (client_request method query id) = Some p /\ pmethod p = string_of (runes_of method) /\ (exists x, pparams p = Some x /\ jtext (VArr [value_of query]) x) /\ id_shown (pid p) (value_of (JInt id)).
Proof.
  assert (J : jdocument (VObj (whole (value_of query) (value_of (JInt id)) method)) (client_request method query id)).
  { unfold client_request. eexists [], (encode _), eol. split; [constructor|]. split; [constructor; [cbn; tauto|constructor]|]. split; [|reflexivity]. exact (encode_ok (JObj [(b "method", JStr method); (b "params", JArr [query]); (b "id", JInt id)])). }
  pose proof (whole_different (value_of query) (value_of (JInt id)) method) as D. destruct (packet_exact _ _ J D) as [A B].
  assert (H1 : has (whole (value_of query) (value_of (JInt id)) method) (b "method") (VStr (runes_of method))) by (eexists; split; [left; reflexivity|apply fold_name; reflexivity]).
  assert (H2 : has (whole (value_of query) (value_of (JInt id)) method) (b "params") (VArr [value_of query])) by (eexists; split; [right; left; reflexivity|apply fold_name; reflexivity]).
  assert (H3 : has (whole (value_of query) (value_of (JInt id)) method) (b "id") (value_of (JInt id))) by (eexists; split; [right; right; left; reflexivity|apply fold_name; reflexivity]).
  destruct (proj2 B) as (p & E). { intros v H. rewrite (has_unique _ _ _ _ D H H1). eexists. right. eauto. }
  exists p. split; [exact E|]. pose proof (A p E) as P. destruct (packet_inv _ _ _ P) as (F1 & F2 & _). apply (field_given _ _ _ _ _ _ _ D H1) in F1. apply (field_given _ _ _ _ _ _ _ D H2) in F2.
  split; [destruct F1 as [[F1 _]|(rs & F1 & F)]; [discriminate|injection F1 as <-; exact F]|]. split; [destruct F2 as [[F2 _]|(_ & x & y & z & Ex & _ & Jx)]; [discriminate|eauto]|]. eapply id_exact; eassumption.
Qed.
Lemma strings_decoded l : forall st, @d_elements str [] d_string (map value_of (map JStr l)) st = (map sent_text l ++ skipn (length l) st, true) \/ st <> [].
Proof.
  intros st. destruct st as [|x st]; [left|right; discriminate]. rewrite skipn_nil, app_nil_r. induction l as [|s l IH]; [reflexivity|]. cbn [map d_elements value_of d_string]. rewrite IH. reflexivity.
Qed.
Lemma slice_decoded l : exists s, @d_slice str [] d_string (VArr (map value_of (map JStr l))) (@no_elements str) = (s, true) /\ elements s = map sent_text l.
Proof.
  destruct l as [|x l]; [eexists; split; reflexivity|]. destruct (strings_decoded (x :: l) []) as [E|E]; [|congruence]. rewrite skipn_nil, app_nil_r in E. eexists. split; [cbn [map d_slice]; cbn [map] in E; unfold no_elements at 1; cbn [store]; rewrite E; reflexivity|].
  unfold elements. cbn [store slen]. change (Datatypes.length (value_of (JStr x) :: map value_of (map JStr l))) with (Datatypes.length (map value_of (map JStr (x :: l)))). rewrite !map_length, <- (map_length sent_text (x :: l)). apply firstn_all.
Qed.
Lemma client_decoded pi queries q float_ok message : client_query pi queries q -> exists method m query, subcommand pi queries = CCall method query /\ serves (string_of (runes_of method)) m /\
  forall x, jtext (VArr [value_of query]) x -> argument (go_decoders float_ok message) m x = Ok q.
Proof.
  intros H. destruct H as [urls|prefixes|uri|path|path line n E R].
  - exists (b "linkremark.urlMentions"), MUrlMentions. eexists. split; [reflexivity|]. split; [apply route_exact; reflexivity|]. intros x J. cbn [argument go_decoders d_mentions]. unfold unmarshal. rewrite (document_parsed _ _ (text_document _ _ J)).
    cbn [value_of map d_params fst snd]. unfold mentions_query, d_struct, d_fields. change (runes_of (b "variants")) with (bytesN (b "variants")). unfold find_field. change (same_fold (bytesN (b "variants")) (b "variants")) with true. cbn match. unfold keep. cbn [fst snd].
    destruct (slice_decoded urls) as (s & E & <-). match goal with |- context [d_slice ?z ?d ?v ?n] => replace (d_slice z d v n) with (s, true) by (symmetry; exact E) end. reflexivity.
  - exists (b "linkremark.linkSet"), MLinkSet. eexists. split; [reflexivity|]. split; [apply route_exact; reflexivity|]. intros x J. cbn [argument go_decoders d_set]. unfold unmarshal. rewrite (document_parsed _ _ (text_document _ _ J)).
    cbn [value_of map d_params fst snd]. unfold set_query, d_struct, d_fields. change (runes_of (b "prefix")) with (bytesN (b "prefix")). unfold find_field. change (same_fold (bytesN (b "prefix")) (b "prefix")) with true. cbn match.
    destruct (slice_decoded prefixes) as (s & E & <-). match goal with |- context [d_slice ?z ?d ?v ?n] => replace (d_slice z d v n) with (s, true) by (symmetry; exact E) end. reflexivity.
  - exists (b "linkremark.capture"), MCapture. eexists. split; [reflexivity|]. split; [apply route_exact; reflexivity|]. intros x J. cbn [argument go_decoders d_capture]. unfold unmarshal. rewrite (document_parsed _ _ (text_document _ _ J)). reflexivity.
  - exists (b "linkremark.visit"), MVisit. eexists. split; [reflexivity|]. split; [apply route_exact; reflexivity|]. intros x J. cbn [argument go_decoders d_visit]. unfold unmarshal. rewrite (document_parsed _ _ (text_document _ _ J)). reflexivity.
  - exists (b "linkremark.visit"), MVisit. exists (JObj [(b "file", JStr path); (b "lineNo", JInt n)]). split; [cbn; rewrite E; reflexivity|]. split; [apply route_exact; reflexivity|]. intros x J. cbn [argument go_decoders d_visit]. unfold unmarshal. rewrite (document_parsed _ _ (text_document _ _ J)).
    assert (P : parse_int64 (integer n) = Some n) by (apply parse_int_ok; split; [apply integer_value|exact R]). revert P. cbn [value_of map fst snd d_params]. generalize (integer n). intros t P. unfold location, d_struct, d_fields. cbn -[parse_int64]. unfold keep, d_int. rewrite P. reflexivity.
Qed.
Lemma client_round pi queries q float_ok message : client_query pi queries q -> exists method query, subcommand pi queries = CCall method query /\
  forall id, exists p i, request_packet (client_request method query id) = Some p /\ meaning (go_decoders float_ok message) p (Ok q) /\ number id i /\ id_shown (pid p) i.
Proof.
  intros H. destruct (client_decoded pi queries q float_ok message H) as (method & m & query & E & S & A). exists method, query. split; [exact E|]. intros id. destruct (client_packet method query id) as (p & R & M & (x & X & J) & I).
  exists p, (value_of (JInt id)). split; [exact R|]. split; [|split; [apply number_ok|exact I]]. rewrite <- (A x J). rewrite <- M in S.
  replace (argument (go_decoders float_ok message) m x) with (readRequest (go_decoders float_ok message) p) by (unfold readRequest; rewrite (proj2 (route_exact _ _) S), X; reflexivity). apply readRequest_meaning.
Qed.
