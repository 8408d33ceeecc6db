(** Lemmas about decoding of responses. *)
From Coq Require Import ZifyBool ZifyNat ZifyN.
From Verif Require Import GoBase Utf8 JsonSpec Json JsonProofs Frame FrameSpec Stream StreamSpec StreamMain StreamRfc Emacs Backend BackendSpec ReplyJson ReplySpec Server ServerSpec ServerProofs ServerLive Tools Unmarshal UnmarshalSpec ParseProofs UnmarshalProofs PacketProofs Client ClientSpec.

Lemma uint_literal t n : jnumber t -> (parse_uint64 t = Some n <-> t = integer (Z.of_N n) /\ (n <= 18446744073709551615)%N).
Proof.
  intros (sign & int & frac & exp & -> & S & I & F & X). fold (number_text int) in I. split.
  - unfold parse_uint64. destruct (sign ++ int ++ frac ++ exp) as [|c0 s0] eqn:E0; [discriminate|]. rewrite <- E0. destruct (digits_value (sign ++ int ++ frac ++ exp) 0) as [m|] eqn:D; [|discriminate]. destruct (m <=? 18446744073709551615)%Z eqn:L; [|discriminate]. intros H. injection H as <-.
    pose proof (value_grows _ _ _ D ltac:(lia)) as P. pose proof (digits_isdig _ _ _ D) as G. apply Forall_app in G as [G1 G]. apply Forall_app in G as [G2 G]. apply Forall_app in G as [G3 G4].
    assert (E1 : sign = []). { destruct S as [->| ->]; [reflexivity|]. inversion G1 as [|? ? Q]; subst. vm_compute in Q. exfalso. destruct Q as [Q _]. apply Q. reflexivity. }
    subst sign. cbn [app] in *. destruct F as [->|(d & _ & ->)]; [|inversion G3 as [|? ? Q]; vm_compute in Q; destruct Q as [Q _]; exfalso; apply Q; reflexivity].
    destruct X as [->|(e & sg & d & Ie & _ & _ & ->)]; [|inversion_clear G4 as [|? ? Q]; cbn in Ie; destruct Ie as [<-|[<-|[]]]; vm_compute in Q; destruct Q as [_ Q]; exfalso; apply Q; reflexivity].
    rewrite !app_nil_r in *. pose proof (value_decimal _ _ I D) as E. rewrite Z2N.id by lia. split; [|lia]. unfold integer. replace (m <? 0)%Z with false by lia. exact E.
  - intros [E L]. rewrite E. unfold parse_uint64, integer. replace (Z.of_N n <? 0)%Z with false by lia. pose proof (decimal_value (Z.of_N n) ltac:(lia)) as V. pose proof (decimal_text (Z.of_N n) ltac:(lia)) as T.
    destruct (decimal (Z.of_N n)) as [|c x] eqn:Ed; [destruct T as [T|[[T _] _]]; [discriminate|congruence]|]. rewrite V. replace (Z.of_N n <=? 18446744073709551615)%Z with true by lia. rewrite N2Z.id. reflexivity.
Qed.
Lemma number_member v x : jtext v x -> forall t, v = VNum t -> jnumber t.
Proof. intros [] t' E; try discriminate E. injection E as <-. assumption. Qed.

(** ** Members *)
Lemma apart_id k : same_fold k (b "id") = true -> same_fold k (b "result") = false /\ same_fold k (b "error") = false.
Proof.
  intros H. apply fold_same in H. split; [destruct (same_fold k (b "result")) eqn:E|destruct (same_fold k (b "error")) eqn:E]; try reflexivity; apply fold_same in E; rewrite H in E; vm_compute in E; discriminate E.
Qed.
Lemma apart_result k : same_fold k (b "result") = true -> same_fold k (b "error") = false.
Proof. intros H. apply fold_same in H. destruct (same_fold k (b "error")) eqn:E; [|reflexivity]. apply fold_same in E. rewrite H in E. vm_compute in E. discriminate E. Qed.
Lemma get_rid f p m : rid (fst (rep_member f p m)) = if same_fold (key m) (b "id") then fst (d_uint (snd (fst m)) (rid p)) else rid p.
Proof.
  destruct m as [[k v] t]. unfold key. cbn [rep_member fst snd]. destruct (same_fold k (b "id")); [destruct (d_uint v (rid p)); reflexivity|]. destruct (same_fold k (b "result")); [reflexivity|]. destruct (same_fold k (b "error")); reflexivity.
Qed.
Lemma get_result f p m : rresult (fst (rep_member f p m)) = if same_fold (key m) (b "result") then raw (snd (fst m)) (snd m) else rresult p.
Proof.
  destruct m as [[k v] t]. unfold key. cbn [rep_member fst snd]. destruct (same_fold k (b "id")) eqn:E; [destruct (apart_id k E) as [-> _]; destruct (d_uint v (rid p)); reflexivity|]. destruct (same_fold k (b "result")); [reflexivity|]. destruct (same_fold k (b "error")); reflexivity.
Qed.
Lemma get_error f p m : rerror (fst (rep_member f p m)) = if same_fold (key m) (b "error") then snd (fst m) else rerror p.
Proof.
  destruct m as [[k v] t]. unfold key. cbn [rep_member fst snd]. destruct (same_fold k (b "id")) eqn:E; [destruct (apart_id k E) as [_ ->]; destruct (d_uint v (rid p)); reflexivity|]. destruct (same_fold k (b "result")) eqn:F; [rewrite (apart_result k F); reflexivity|]. destruct (same_fold k (b "error")); reflexivity.
Qed.
Lemma rep_flag f ms : forall p, snd (members (rep_member f) ms p) =
  forallb (fun m => if same_fold (key m) (b "id") then snd (d_uint (snd (fst m)) 0%N) else if same_fold (key m) (b "error") then floats f (snd (fst m)) else true) ms.
Proof.
  induction ms as [|[[k v] t] ms IH]; intros p; [reflexivity|]. cbn [members forallb]. unfold key at 1 2. cbn [fst snd].
  assert (E : snd (rep_member f p (k, v, t)) = if same_fold k (b "id") then snd (d_uint v 0%N) else if same_fold k (b "error") then floats f v else true).
  { cbn [rep_member]. destruct (same_fold k (b "id")); [destruct v; try reflexivity; cbn [d_uint]; match goal with |- context [parse_uint64 ?x] => destruct (parse_uint64 x) end; reflexivity|]. destruct (same_fold k (b "result")) eqn:F; [rewrite (apart_result k F); reflexivity|]. destruct (same_fold k (b "error")); reflexivity. }
  destruct (rep_member f p (k, v, t)) as [p1 ok]. specialize (IH p1). destruct (members (rep_member f) ms p1) as [p2 ok2]. cbn [snd] in *. congruence.
Qed.
Definition no_rep : rep := mkRep 0 None VNull.
Lemma error_nonempty rs : match string_of rs with [] => b "unspecified error" | e => e end = error_text rs.
Proof.
  destruct rs as [|r rs]; [reflexivity|]. unfold error_text. destruct (string_of (r :: rs)) eqn:E; [|reflexivity]. exfalso. unfold string_of, strN in E. cbn [map concat] in E. rewrite map_app in E. apply app_eq_nil in E as [E _]. revert E. unfold encode_rune, encode1.
  repeat match goal with |- context [if ?c then _ else _] => destruct c end; discriminate.
Qed.
Lemma members_rep f t l ms : map fst ms = l -> different l -> Forall (fun m => jtext (snd (fst m)) (snd m) /\ exists y z, t = y ++ snd m ++ z) ms ->
  (forall h, snd (members (rep_member f) ms no_rep) = true -> rep_header (fst (members (rep_member f) ms no_rep)) = Some h -> a_response t l h) /\
  ((exists h, snd (members (rep_member f) ms no_rep) = true /\ rep_header (fst (members (rep_member f) ms no_rep)) = Some h) <-> exists h, a_response t l h).
Proof.
  intros <- D F. rewrite Forall_forall in F. pose proof (rep_flag f ms no_rep) as Fl0.
  match type of Fl0 with _ = forallb ?g ms => pose proof (forallb_forall g ms) as Fl; rewrite <- Fl0 in Fl; clear Fl0 end.
  destruct (members_get _ _ (rep_member f) rid (b "id") (fun m x => fst (d_uint (snd (fst m)) x)) (get_rid f) ms no_rep D) as [I1 I2].
  destruct (members_get _ _ (rep_member f) rresult (b "result") (fun m _ => raw (snd (fst m)) (snd m)) (get_result f) ms no_rep D) as [R1 R2].
  destruct (members_get _ _ (rep_member f) rerror (b "error") (fun m _ => snd (fst m)) (get_error f) ms no_rep D) as [E1 E2].
  assert (Er : (exists v, has (map fst ms) (b "error") v /\ rerror (fst (members (rep_member f) ms no_rep)) = v) \/ ((forall v, ~ has (map fst ms) (b "error") v) /\ rerror (fst (members (rep_member f) ms no_rep)) = VNull)).
  { destruct (has_member ms (b "error")) as [(v & x & k & I & E & H)|[N1 N2]]; [left; exists v; split; [exact H|apply (E1 _ I E)]|right; split; [exact N2|apply E2, N1]]. }
  assert (Rr : (exists v, has (map fst ms) (b "result") v /\ text_in t v (rresult (fst (members (rep_member f) ms no_rep)))) \/ ((forall v, ~ has (map fst ms) (b "result") v) /\ rresult (fst (members (rep_member f) ms no_rep)) = None)).
  { destruct (has_member ms (b "result")) as [(v & x & k & I & E & H)|[N1 N2]]; [left; exists v; split; [exact H|]|right; split; [exact N2|apply R2, N1]].
    rewrite (R1 _ I E). destruct (F _ I) as (J & y & z & Et). cbn [fst snd] in *. destruct v; cbn [raw]; [left; auto|..]; (right; split; [discriminate|]; exists x, y, z; auto). }
  set (p := fst (members (rep_member f) ms no_rep)) in *.
  match goal with |- (?A /\ _) => assert (Sound : A) end.
  { intros h K0 H. pose proof (proj1 Fl K0) as K. cbn beta in K. unfold rep_header in H. split.
    + assert (Hn : fst h = rid p). { destruct (rerror p), (rresult p); try discriminate H; injection H as <-; reflexivity. } rewrite Hn.
      destruct (has_member ms (b "id")) as [(v & x & k & I & E & Hv)|[N1 N2]].
      * rewrite (I1 _ I E). apply fi_given with v; [exact Hv|]. specialize (K _ I). unfold key in K. cbn [fst snd] in *. rewrite E in K. destruct v as [| |t0| | |]; try discriminate K; [left; split; reflexivity|]. cbn [d_uint] in *. destruct (parse_uint64 t0) as [n|] eqn:P; [|discriminate K]. cbn [fst].
        destruct (F _ I) as (J & _). cbn [fst snd] in J. apply (uint_literal t0 n (number_member _ _ J _ eq_refl)) in P as [-> P]. right. auto.
      * rewrite (I2 N1). apply fi_absent, N2.
    + destruct (rerror p) eqn:Ep; try discriminate H.
      * destruct (rresult p) as [x|] eqn:Rp; [|discriminate H]. injection H as <-. cbn [snd]. destruct Rr as [(v & Hv & Tv)|[_ Rr]]; [|discriminate Rr]. apply an_result with v; [|exact Hv| |exact Tv].
        -- intros v' H'. destruct Er as [(v'' & H'' & E'')|[N _]]; [rewrite (has_unique _ _ _ _ D H' H''), <- E''; reflexivity|exfalso; exact (N _ H')].
        -- destruct Tv as [[_ Tv]|[Tv _]]; [discriminate Tv|exact Tv].
      * rewrite error_nonempty in H. injection H as <-. cbn [snd]. destruct Er as [(v & Hv & <-)|[_ Er]]; [|discriminate Er]. apply an_error, Hv. }
  split; [exact Sound|]. split; [intros (h & K & H); exists h; exact (Sound h K H)|].
  intros ([n r] & Fi & An). cbn [fst snd] in *.
  assert (K : forall m, In m ms -> (if same_fold (key m) (b "id") then snd (d_uint (snd (fst m)) 0%N) else if same_fold (key m) (b "error") then floats f (snd (fst m)) else true) = true).
  { intros [[k v] x] I. unfold key. cbn [fst snd]. pose proof (F _ I) as (J & _). cbn [fst snd] in J. destruct (same_fold k (b "id")) eqn:Ek.
    - assert (Hv : has (map fst ms) (b "id") v) by (exists k; split; [apply (in_map fst _ _ I)|apply fold_name, Ek]). apply (field_given _ _ _ _ _ _ _ D Hv) in Fi. destruct Fi as [[-> _]|[-> L]]; [reflexivity|]. cbn [d_uint].
      rewrite (proj2 (uint_literal _ n (number_member _ _ J _ eq_refl)) (conj eq_refl L)). reflexivity.
    - destruct (same_fold k (b "error")) eqn:Ek2; [|reflexivity]. assert (Hv : has (map fst ms) (b "error") v) by (exists k; split; [apply (in_map fst _ _ I)|apply fold_name, Ek2]). destruct An as [rs H|v' y N _ _ _]; [rewrite (has_unique _ _ _ _ D Hv H)|rewrite (N _ Hv)]; reflexivity. }
  assert (Hd : exists h, rep_header p = Some h).
  { unfold rep_header. destruct An as [rs H|v y N H Nv T].
    - destruct Er as [(v & Hv & ->)|[N _]]; [|exfalso; exact (N _ H)]. rewrite (has_unique _ _ _ _ D Hv H). eauto.
    - assert (E : rerror p = VNull) by (destruct Er as [(v' & Hv & ->)|[_ E]]; [apply N, Hv|exact E]). rewrite E. destruct Rr as [(v' & Hv & [[-> _]|(_ & x & _ & _ & -> & _)])|[N' _]]; [|eauto|exfalso; exact (N' _ H)]. exfalso. apply Nv. exact (has_unique _ _ _ _ D H Hv). }
  destruct Hd as (h & Hd). exists h. split; [apply Fl, K|exact Hd].
Qed.
Lemma response_exact f t l : jdocument (VObj l) t -> different l ->
  (forall h, response_header f t = Some h -> a_response t l h) /\ ((exists h, response_header f t = Some h) <-> exists h, a_response t l h).
Proof.
  intros J D. pose proof (document_parsed _ _ J) as P. destruct J as (w & x & w' & W & W' & J & ->). inversion J as [| | | | | | |v0 V0 E0|l0 tx M E0]; subst.
  - assert (E : response_header f (w ++ (b "{" ++ v0 ++ b "}") ++ w') = None) by (unfold response_header, response_rep, read_object; rewrite P; reflexivity). rewrite E. split; [discriminate|]. split; [intros (h & H); discriminate H|].
    intros (h & _ & [rs (k & [] & _)|v y _ (k & [] & _)]).
  - destruct (members_raw _ _ M) as (B & ms & R & El & F). subst l.
    assert (F' : Forall (fun m => jtext (snd (fst m)) (snd m) /\ exists y z, w ++ (b "{" ++ tx ++ b "}") ++ w' = y ++ snd m ++ z) ms).
    { eapply Forall_impl; [|exact F]. intros m (Jm & y & z & ->). split; [exact Jm|]. exists (w ++ b "{" ++ y), (z ++ b "}" ++ w'). rewrite <- !app_assoc. reflexivity. }
    assert (Nl : map fst ms <> []) by (inversion M; discriminate).
    pose proof (object_of_members _ (rep_member f) no_rep w w' _ tx ms W R eq_refl Nl P) as E. destruct (members_rep f _ _ ms eq_refl D F') as [A C]. unfold response_header, response_rep. fold no_rep. rewrite E. split.
    + intros h H. destruct (snd (members (rep_member f) ms no_rep)) eqn:K; [|discriminate H]. exact (A h eq_refl H).
    + rewrite <- C. destruct (snd (members (rep_member f) ms no_rep)); (split; intros (h & H)); [eauto|exists h; apply H|discriminate H|destruct H; discriminate].
Qed.
Lemma response_other f t v : jdocument v t -> (forall l, v <> VObj l) -> response_header f t = None.
Proof. intros J N. unfold response_header, response_rep, read_object. rewrite (document_parsed _ _ J). destruct v; try reflexivity. exfalso. eapply N. reflexivity. Qed.

(** ** Responses of the server *)
Definition reply3 (i r e : value) : list (list rune * value) := [(ReplySpec.name (b "id"), i); (ReplySpec.name (b "result"), r); (ReplySpec.name (b "error"), e)].
Lemma reply3_different i r e : different (reply3 i r e).
Proof.
  intros l1 k1 v1 l2 k2 v2 l3 nm E F1 F2. apply fold_name, fold_same in F1. apply fold_name, fold_same in F2. rewrite <- F1 in F2. clear F1. unfold reply3 in E.
  destruct l1 as [|m1 [|m2 [|m3 [|]]]]; cbn [app] in E; try discriminate E; destruct l2 as [|n1 [|n2 [|]]]; cbn [app] in E; try discriminate E; injection E as; subst; vm_compute in F2; discriminate F2.
Qed.
Lemma reply3_has i r e : has (reply3 i r e) (b "id") i /\ has (reply3 i r e) (b "result") r /\ has (reply3 i r e) (b "error") e.
Proof. split; [|split]; (eexists; split; [cbn; eauto|apply fold_name; reflexivity]). Qed.
Lemma shown_object c v : shown c v -> v <> VNull.
Proof. induction 1 as [? ? ? ? ? IH|? ? ? ? ? ? ? ? ? ? (l & _ & ->)|? ? ? ? ? ? ? ? ? ? ? ? ? ? (l & _ & ->)]; [exact IH|discriminate|discriminate]. Qed.
Lemma result_given r v : result_shown r v -> (forall e, r <> PError e) -> v <> VNull.
Proof.
  intros H N. destruct H as [e|f ver caps v (l & _ & ->)|p s v (l & _ & ->)|c v H| |urls vs H|urls v (l & _ & ->)]; try discriminate; [exfalso; eapply N; reflexivity|eapply shown_object, H].
Qed.
Definition numbered (n : N) : value := VNum (integer (Z.of_N n)).
Lemma header3_error f t n r rs : jdocument (VObj (reply3 (numbered n) r (VStr rs))) t -> (n <= 18446744073709551615)%N -> response_header f t = Some (n, Err (error_text rs)).
Proof.
  intros J L. pose proof (reply3_different (numbered n) r (VStr rs)) as D. destruct (reply3_has (numbered n) r (VStr rs)) as (H1 & H2 & H3). destruct (response_exact f t _ J D) as [A B].
  destruct (proj2 B) as ([m a] & E). { exists (n, Err (error_text rs)). split; [apply fi_given with (numbered n); [exact H1|right; auto]|apply an_error, H3]. }
  rewrite E. destruct (A _ E) as [F An]. cbn [fst snd] in *. apply (field_given _ _ _ _ _ _ _ D H1) in F. destruct F as [[F _]|[F Lm]]; [discriminate|].
  assert (Em : m = n). { pose proof (integer_value (Z.of_N m)) as V1. pose proof (integer_value (Z.of_N n)) as V2. injection F as F. rewrite <- F, V2 in V1. injection V1 as V1. lia. } subst m. f_equal. f_equal.
  destruct An as [rs' H|v x N H _ _]; [pose proof (has_unique _ _ _ _ D H H3) as E'; injection E' as ->; reflexivity|]. specialize (N _ H3). discriminate N.
Qed.
Lemma header3_result f t n v : jdocument (VObj (reply3 (numbered n) v VNull)) t -> (n <= 18446744073709551615)%N -> v <> VNull -> exists x, response_header f t = Some (n, Ok x) /\ jtext v x.
Proof.
  intros J L Nv. pose proof (reply3_different (numbered n) v VNull) as D. destruct (reply3_has (numbered n) v VNull) as (H1 & H2 & H3). destruct (response_exact f t _ J D) as [A B].
  destruct (proj2 B) as ([m a] & E).
  { destruct J as (w & y & w' & _ & _ & J & ->). assert (T : exists x, text_in y v (Some x)).
    { inversion J as [| | | | | | | |l0 tx M E0]; subst. destruct (members_raw _ _ M) as (_ & ms & _ & El & F). destruct ms as [|m0 [|[[k1 v1] x1] ms]]; try discriminate El. injection El as _ _ Ev _. subst v1. rewrite Forall_forall in F. destruct (F _ (or_intror (or_introl eq_refl))) as (Jx & y1 & y2 & ->). cbn [fst snd] in *.
      exists x1. right. split; [exact Nv|]. exists x1, (b "{" ++ y1), (y2 ++ b "}"). rewrite <- !app_assoc. auto. }
    destruct T as (x & T). exists (n, Ok x). split; [apply fi_given with (numbered n); [exact H1|right; auto]|]. apply an_result with v; [|exact H2|exact Nv|apply text_in_more, T]. intros v' H'. exact (has_unique _ _ _ _ D H' H3). }
  rewrite E. destruct (A _ E) as [F An]. cbn [fst snd] in *. apply (field_given _ _ _ _ _ _ _ D H1) in F. destruct F as [[F _]|[F Lm]]; [discriminate|].
  assert (Em : m = n). { pose proof (integer_value (Z.of_N m)) as V1. pose proof (integer_value (Z.of_N n)) as V2. injection F as F. rewrite <- F, V2 in V1. injection V1 as V1. lia. } subst m.
  destruct An as [rs' H|v' x N H _ T]; [pose proof (has_unique _ _ _ _ D H H3) as E'; discriminate E'|]. exists x. split; [reflexivity|]. rewrite (has_unique _ _ _ _ D H H2) in T. destruct T as [[_ T]|(_ & x' & _ & _ & Ex & _ & Jx)]; [discriminate|]. injection Ex as <-. exact Jx.
Qed.
Lemma server_reply f c tr k p n t : nth_error (received tr) k = Some p -> id_shown (pid p) (numbered n) -> (n <= 18446744073709551615)%N -> responds c tr k t -> exists r, response_header f t = Some (n, r) /\ obtained c tr k r.
Proof.
  intros N I L R. destruct R as [p' e N' M S|p' q j o e N' M T P S|p' q j o r v N' M T P Ne Rs S]; rewrite N in N'; injection N' as <-; specialize (S _ I).
  - eexists. split; [eapply header3_error; eassumption|]. eapply ob_bad; eassumption.
  - eexists. split; [eapply header3_error; eassumption|]. eapply ob_error; eassumption.
  - destruct (header3_result f t n v S L (result_given _ _ Rs Ne)) as (x & E & J). exists (Ok x). split; [exact E|]. eapply ob_result; eassumption.
Qed.
Lemma client_server pi queries q float_ok message : client_query pi queries q -> exists method query, subcommand pi queries = CCall method query /\
  forall n, (n <= 18446744073709551615)%N -> exists p, request_packet (client_request method query (Z.of_N n)) = Some p /\ meaning (go_decoders float_ok message) p (Ok q) /\
  forall f c tr k t, nth_error (received tr) k = Some p -> responds c tr k t -> exists r, response_header f t = Some (n, r) /\ obtained c tr k r.
Proof.
  intros H. destruct (client_decoded pi queries q float_ok message H) as (method & m & query & E & S & A). exists method, query. split; [exact E|]. intros n L. destruct (client_packet method query (Z.of_N n)) as (p & R & M & (x & X & J) & I).
  exists p. split; [exact R|]. split; [|intros f c tr k t N Re; eapply server_reply; eassumption]. rewrite <- (A x J). rewrite <- M in S.
  replace (argument (go_decoders float_ok message) m x) with (readRequest (go_decoders float_ok message) p) by (unfold readRequest; rewrite (proj2 (route_exact _ _) S), X; reflexivity). apply readRequest_meaning.
Qed.
Lemma body_value f oops v x : jtext v x -> (forall t, occurs t v -> f t = true) -> any_body f oops x = Ok v.
Proof. intros J F. unfold any_body. rewrite (document_parsed _ _ (text_document _ _ J)). rewrite (proj2 (floats_ok f v)); [reflexivity|exact F]. Qed.

(** ** Responses of a stream *)
Lemma response_more w w' t l h : a_response t l h -> a_response (w ++ t ++ w') l h.
Proof. intros [A B]. split; [exact A|]. destruct B as [rs H|v x N H Nv T]; [apply an_error, H|apply an_result with v; auto; apply text_in_more, T]. Qed.
Lemma message_response f t l w : response_message t l -> space w -> exists h, response_header f (w ++ t) = Some h /\ a_response (w ++ t) l h.
Proof.
  intros (w0 & x & W0 & J & -> & _ & D & h0 & H) W. assert (Jd : jdocument (VObj l) (w ++ w0 ++ x)).
  { exists (w ++ w0), x, []. split; [apply Forall_app; split; assumption|]. split; [constructor|]. split; [exact J|]. rewrite app_nil_r, <- app_assoc. reflexivity. }
  destruct (response_exact f _ _ Jd D) as [A B]. destruct (proj2 B) as (h & E); [exists h0; pose proof (response_more w [] _ _ _ H) as K; rewrite app_nil_r in K; exact K|]. exists h. auto.
Qed.
Lemma responses_some f ts msgs : Forall2 (fun t m => exists w, space w /\ t = w ++ fst m) ts msgs -> Forall (fun m => response_message (fst m) (snd m)) msgs ->
  Forall2 (fun m h => exists w, space w /\ a_response (w ++ fst m) (snd m) h) msgs (flat_map (fun t => match response_header f t with Some h => [h] | None => [] end) ts).
Proof.
  induction 1 as [|t m ts msgs (w & W & ->) F IH]; intros M; [constructor|]. inversion_clear M as [|? ? M1 M2]. cbn [flat_map]. destruct (message_response f (fst m) (snd m) w M1 W) as (h & E & A). rewrite E. constructor; [exists w; auto|apply IH, M2].
Qed.
Lemma newlines_spaced ts : Forall2 (fun t t' => exists w, space w /\ t = w ++ t') (with_newlines ts) ts.
Proof.
  destruct ts as [|t ts]; [constructor|]. constructor; [exists []; split; [constructor|reflexivity]|]. induction ts as [|t' ts IH]; [constructor|]. cbn [map]. constructor; [exists newline; split; [constructor; [cbn; tauto|constructor]|reflexivity]|exact IH].
Qed.
Lemma responses_exact f stream msgs sch fuel : is_stream stream (map (fun m => fst m ++ newline) msgs) -> Forall (fun m => response_message (fst m) (snd m)) msgs -> Forall (fun m => N.of_nat (length (fst m)) < 1073741824)%N msgs -> length msgs < fuel ->
  exists k hs e, responses f fuel (mkSrc stream EOF sch 0) = Some (hs, e) /\ Forall2 (fun m h => exists w, space w /\ a_response (w ++ fst m) (snd m) h) (firstn k msgs) hs /\
    ((k = length msgs /\ e = EHeader (Io EOF)) \/ (0 < k <= length msgs /\ e = EHeader ErrReadBody)).
Proof.
  intros St F L Lf. unfold responses.
  assert (P : session fuel (is_response f) NewDecoder (NewFrameLimitedReader (mkSrc stream EOF sch 0)) = Some (with_newlines (map fst msgs), EHeader (Io EOF)) \/
    exists k, 0 < k <= length (map fst msgs) /\ session fuel (is_response f) NewDecoder (NewFrameLimitedReader (mkSrc stream EOF sch 0)) = Some (with_newlines (firstn k (map fst msgs)), EHeader ErrReadBody)).
  { apply session_go; [rewrite map_map; exact St| | |rewrite Forall_map; exact L|rewrite map_length; exact Lf].
    - rewrite Forall_map. eapply Forall_impl; [|exact F]. intros [t l] M. cbn [fst snd] in *. destruct M as (w & x & W & J & -> & Ln & _). eapply rfc_object; eassumption.
    - rewrite Forall_map. eapply Forall_impl; [|exact F]. intros [t l] M w W. cbn [fst snd] in *. destruct (message_response f t l w M W) as (h & E & _). unfold is_response. rewrite E. reflexivity. }
  assert (Sp : forall ms, Forall2 (fun t (m : str * list (list rune * value)) => exists w, space w /\ t = w ++ fst m) (with_newlines (map fst ms)) ms).
  { intros ms. pose proof (newlines_spaced (map fst ms)) as H. revert H. generalize (with_newlines (map fst ms)). induction ms as [|m ms IH]; intros ts H; inversion H; subst; constructor; auto. }
  rewrite map_length in P. destruct P as [-> |(k & K & ->)].
  - exists (length msgs). eexists _, _. split; [reflexivity|]. rewrite firstn_all. split; [apply responses_some; [apply Sp|exact F]|left; auto].
  - exists k. eexists _, _. split; [reflexivity|]. split; [|right; auto]. rewrite firstn_map. apply responses_some; [apply Sp|]. apply Forall_forall. intros m I. rewrite Forall_forall in F. apply F. rewrite <- (firstn_skipn k msgs). apply in_or_app. left. exact I.
Qed.
(** ** A message without a number *)
Lemma single_response f t rs : jdocument (VObj [(ReplySpec.name (b "error"), VStr rs)]) t -> response_header f t = Some (0%N, Err (error_text rs)).
Proof.
  intros J. assert (D : different [(ReplySpec.name (b "error"), VStr rs)]). { intros l1 k1 v1 l2 k2 v2 l3 nm E _ _. destruct l1 as [|? [|]]; cbn [app] in E; try discriminate E; destruct l2; discriminate E. }
  assert (H : has [(ReplySpec.name (b "error"), VStr rs)] (b "error") (VStr rs)) by (eexists; split; [left; reflexivity|apply fold_name; reflexivity]).
  assert (N : forall v, ~ has [(ReplySpec.name (b "error"), VStr rs)] (b "id") v). { intros v (k & [I|[]] & S). injection I as <- _. apply fold_name in S. vm_compute in S. discriminate S. }
  destruct (response_exact f t _ J D) as [A B]. destruct (proj2 B) as ([n r] & E). { exists (0%N, Err (error_text rs)). split; [apply fi_absent, N|apply an_error, H]. }
  rewrite E. destruct (A _ E) as [F An]. cbn [fst snd] in *. inversion F as [v a K|]; subst; [exfalso; exact (N _ K)|]. f_equal. f_equal.
  destruct An as [rs' H'|v x N' H' _ _]; [pose proof (has_unique _ _ _ _ D H' H) as E'; injection E' as ->; reflexivity|]. specialize (N' _ H). discriminate N'.
Qed.

(** ** The command *)
Lemma command_started args stdin stdout start name rest : In (AStart name rest) (snd (NewClientCommand args stdin stdout start)) <-> args = name :: rest /\ stdin = None /\ stdout = None.
Proof.
  unfold NewClientCommand. destruct args as [|n l], stdin, stdout, start; cbn [snd In]; split; try (intros [H|H]; [discriminate H|]); try tauto; try (intros (E & E1 & E2); try discriminate E; try discriminate E1; try discriminate E2).
  all: try (intros [H|[H|H]]; try discriminate H; try tauto; try (destruct H as [H|[]]; try discriminate H; injection H as -> ->; auto)).
  all: try (injection E as -> ->; tauto).
  all: try (intuition discriminate).
  all: try (destruct H as [H|[H|[]]]; try discriminate H; injection H as -> ->; auto).
Qed.
Lemma command_ok args stdin stdout start : (exists name rest, In (AStart name rest) (snd (NewClientCommand args stdin stdout start)) /\ start = None) <-> fst (NewClientCommand args stdin stdout start) = Ok tt.
Proof.
  split.
  - intros (name & rest & I & ->). apply command_started in I as (-> & -> & ->). reflexivity.
  - intros H. unfold NewClientCommand in H. destruct args as [|name rest]; [discriminate H|]. destruct stdin; [discriminate H|]. destruct stdout; [discriminate H|]. destruct start; [discriminate H|]. exists name, rest. split; [apply command_started|]; auto.
Qed.
Lemma command_usage args stdin stdout start : fst (NewClientCommand args stdin stdout start) = Err ErrNoCommand <-> args = [].
Proof. unfold NewClientCommand. destruct args as [|name rest]; [split; reflexivity|]. destruct stdin; [split; discriminate|]. destruct stdout; [split; discriminate|]. destruct start; split; discriminate. Qed.
Lemma command_close close wait : snd (ClientCommand_Close close wait) = [AClose; AWait] /\ (fst (ClientCommand_Close close wait) = None <-> close = None /\ wait = None) /\
  (forall e, close = Some e -> fst (ClientCommand_Close close wait) = Some e).
Proof. split; [reflexivity|]. split; [|intros e ->; reflexivity]. destruct close, wait; cbn; split; intuition discriminate. Qed.
