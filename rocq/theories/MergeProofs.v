(** Proofs for responses with repeated members. *)
From Coq Require Import ZifyBool ZifyNat ZifyN.
From Verif Require Import GoBase Utf8 JsonSpec Json JsonProofs Backend Server Unmarshal UnmarshalSpec ParseProofs UnmarshalProofs PacketProofs RepeatSpec RepeatProofs Client ClientSpec ResponseProofs MergeSpec.

Lemma rep_gathered A B (step : A -> member -> A * bool) (get : A -> B) name (upd : member -> B -> B) (P : value -> B -> B -> Prop) :
  (forall p m, get (fst (step p m)) = if same_fold (key m) name then upd m (get p) else get p) -> forall ms p, (forall m x, In m ms -> same_fold (key m) name = true -> P (snd (fst m)) x (upd m x)) ->
  gathered P name (map fst ms) (get p) (get (fst (members step ms p))).
Proof.
  intros G. induction ms as [|m ms IH]; intros p H; [constructor|].
  assert (E : fst (members step (m :: ms) p) = fst (members step ms (fst (step p m)))). { cbn [members]. destruct (step p m) as [p1 ok]. cbn [fst]. destruct (members step ms p1). reflexivity. }
  rewrite E. clear E. specialize (IH (fst (step p m)) (fun m x I => H m x (or_intror I))). destruct m as [[k v] t]. cbn [map fst]. rewrite G in IH. unfold key in IH at 1. cbn [fst] in IH. destruct (same_fold k name) eqn:F.
  - apply ga_same with (upd (k, v, t) (get p)); [apply fold_name, F|exact (H _ (get p) (or_introl eq_refl) F)|exact IH].
  - apply ga_other; [apply fold_no, F|exact IH].
Qed.
(** What is gathered is the same. *)
Lemma gathered_same A (P : value -> A -> A -> Prop) (R : A -> A -> Prop) name l : (forall v x x' y y', R x x' -> P v x y -> P v x' y' -> R y y') ->
  forall x x' y y', R x x' -> gathered P name l x y -> gathered P name l x' y' -> R y y'.
Proof.
  intros S. induction l as [|[k v] l IH]; intros x x' y y' H G G'.
  - inversion G; inversion G'; subst. exact H.
  - inversion G as [|? ? ? ? z ? N1 P1 G1|? ? ? ? ? N1 G1]; inversion G' as [|? ? ? ? z' ? N2 P2 G2|? ? ? ? ? N2 G2]; subst; try contradiction.
    + exact (IH _ _ _ _ (S _ _ _ _ _ H P1 P2) G1 G2).
    + exact (IH _ _ _ _ H G1 G2).
Qed.
Lemma call_types : forall v x, jtext v x -> (snd (d_uint v 0%N) = true <-> exists n, a_call v n).
Proof.
  intros v x J. unfold a_call. destruct v as [| |t| | |]; cbn [d_uint snd]; try (split; [discriminate|intros (n & [[E _]|[E _]]); discriminate E]).
  - split; [exists 0%N; auto|reflexivity].
  - pose proof (number_member _ _ J _ eq_refl) as Jt. destruct (parse_uint64 t) as [n|] eqn:P; cbn [snd].
    + split; [|reflexivity]. intros _. apply (uint_literal _ _ Jt) in P. destruct P as [-> L]. exists n. right. auto.
    + split; [discriminate|]. intros (n & [[E _]|[E L]]); [discriminate E|]. injection E as ->. rewrite (proj2 (uint_literal _ _ Jt) (conj eq_refl L)) in P. discriminate P.
Qed.
Lemma any_checked f v : floats f v = true <-> exists y, anything f v y.
Proof.
  rewrite <- (any_types f v). destruct v; cbn [d_any snd]; tauto.
Qed.
Lemma rep_suitable f ms p : Forall (fun m => exists x, jtext (snd (fst m)) x) ms -> (snd (members (rep_member f) ms p) = true <-> suitable f (map fst ms)).
Proof.
  intros F. rewrite Forall_forall in F. rewrite rep_flag, forallb_forall. split.
  - intros K. split; intros v (k & I & E); apply in_map_iff in I as ([[k' v'] y] & Em & I); cbn [fst] in Em; injection Em as -> ->; specialize (K _ I); unfold key in K; cbn [fst snd] in K; pose proof (proj2 (fold_name _ _) E) as E'.
    + rewrite E' in K. destruct (F _ I) as (x & J). exact (proj1 (call_types _ _ J) K).
    + destruct (same_fold k (b "id")) eqn:E1; [destruct (apart_id k E1) as [_ X]; congruence|]. rewrite E' in K. apply any_checked, K.
  - intros [C1 C2] [[k v] y] I. unfold key. cbn [fst snd]. pose proof (in_map fst _ _ I) as I'. cbn [fst] in I'. destruct (same_fold k (b "id")) eqn:E1.
    + destruct (F _ I) as (x & J). apply (call_types _ _ J). apply C1. exists k. split; [exact I'|apply fold_name, E1].
    + destruct (same_fold k (b "error")) eqn:E2; [|reflexivity]. apply any_checked, C2. exists k. split; [exact I'|apply fold_name, E2].
Qed.
Lemma rep_merged f t ms : Forall (fun m => jtext (snd (fst m)) (snd m) /\ exists y z, t = y ++ snd m ++ z) ms ->
  let p := fst (members (rep_member f) ms no_rep) in snd (members (rep_member f) ms no_rep) = true ->
  gathered put_call (b "id") (map fst ms) 0%N (rid p) /\ gathered put_value (b "error") (map fst ms) VNull (rerror p) /\ gathered (put_text t) (b "result") (map fst ms) None (rresult p).
Proof.
  intros F p Fl. rewrite rep_flag, forallb_forall in Fl. rewrite Forall_forall in F. split; [|split].
  - apply (rep_gathered _ _ (rep_member f) rid (b "id") (fun m x => fst (d_uint (snd (fst m)) x)) put_call (get_rid f) ms no_rep).
    intros [[k v] y] x I E. specialize (Fl _ I). rewrite E in Fl. cbn [fst snd] in *. destruct (F _ I) as (J & _). cbn [fst snd] in J. destruct v as [| |tx| | |]; try discriminate Fl; [left; auto|]. cbn [d_uint] in *.
    destruct (parse_uint64 tx) as [n|] eqn:P; [|discriminate Fl]. apply (uint_literal tx n (number_member _ _ J _ eq_refl)) in P as [-> L]. right. auto.
  - apply (rep_gathered _ _ (rep_member f) rerror (b "error") (fun m _ => snd (fst m)) put_value (get_error f) ms no_rep). intros m x I E. reflexivity.
  - apply (rep_gathered _ _ (rep_member f) rresult (b "result") (fun m _ => raw (snd (fst m)) (snd m)) (put_text t) (get_result f) ms no_rep).
    intros [[k v] x] a I E. destruct (F _ I) as (J & y & z & Et). cbn [fst snd] in *. unfold put_text. destruct v; cbn [raw]; [left; auto|..]; (right; split; [discriminate|]; exists x, y, z; auto).
Qed.
Lemma header_merged f t ms h : Forall (fun m => jtext (snd (fst m)) (snd m) /\ exists y z, t = y ++ snd m ++ z) ms -> snd (members (rep_member f) ms no_rep) = true ->
  rep_header (fst (members (rep_member f) ms no_rep)) = Some h -> merged_response t (map fst ms) h.
Proof.
  intros F Fl H. destruct (rep_merged f t ms F Fl) as (G1 & G2 & G3). set (p := fst (members (rep_member f) ms no_rep)) in *. unfold rep_header in H. destruct (rerror p) as [| | |rs| |] eqn:Ep; try discriminate H.
  - destruct (rresult p) as [x|] eqn:Rp; [|discriminate H]. injection H as <-. split; [exact G1|]. exists VNull, (Some x). split; [exact G2|]. split; [exact G3|]. right. split; [reflexivity|]. exists x. auto.
  - rewrite error_nonempty in H. injection H as <-. split; [exact G1|]. exists (VStr rs), (rresult p). split; [exact G2|]. split; [exact G3|]. left. exists rs. auto.
Qed.
Lemma header_exists f t ms h : Forall (fun m => jtext (snd (fst m)) (snd m) /\ exists y z, t = y ++ snd m ++ z) ms -> snd (members (rep_member f) ms no_rep) = true ->
  merged_response t (map fst ms) h -> exists h', rep_header (fst (members (rep_member f) ms no_rep)) = Some h'.
Proof.
  intros F Fl (_ & err & res & G2' & G3' & H). destruct (rep_merged f t ms F Fl) as (_ & G2 & G3). set (p := fst (members (rep_member f) ms no_rep)) in *.
  assert (E : rerror p = err). { eapply (gathered_same _ put_value eq); [|reflexivity|exact G2|exact G2']. unfold put_value. congruence. }
  assert (R : (rresult p = None <-> res = None)).
  { eapply (gathered_same _ (put_text t) (fun x y : option str => x = None <-> y = None)); [|apply iff_refl|exact G3|exact G3']. intros v x x' y y' _ [[V ->]|(V & a & _ & _ & -> & _)] [[V' ->]|(V' & a' & _ & _ & -> & _)]; try contradiction; [tauto|]. split; discriminate. }
  unfold rep_header. rewrite E. destruct H as [(rs & -> & _)|(-> & x & -> & _)]; [eauto|]. destruct (rresult p) as [y|]; [eauto|]. exfalso. pose proof (proj1 R eq_refl). discriminate.
Qed.
Lemma response_merged f t l : jdocument (VObj l) t ->
  (forall h, response_header f t = Some h -> merged_response t l h) /\ ((exists h, response_header f t = Some h) <-> suitable f l /\ exists h, merged_response t l h).
Proof.
  intros J. pose proof (document_parsed _ _ J) as P. destruct J as (w & x & w' & W & W' & J & ->). inversion J as [| | | | | | |v0 V0 E0|l0 tx M E0]; subst.
  - assert (E : response_header f (w ++ (b "{" ++ v0 ++ b "}") ++ w') = None) by (unfold response_header, response_rep, read_object; rewrite P; reflexivity). rewrite E. split; [discriminate|]. split; [intros (h & H); discriminate H|].
    intros (_ & h & _ & err & res & G2 & G3 & H). inversion G2; inversion G3; subst. destruct H as [(rs & E1 & _)|(_ & y & E1 & _)]; discriminate E1.
  - destruct (members_raw _ _ M) as (B & ms & R & El & F). subst l.
    assert (F' : Forall (fun m => jtext (snd (fst m)) (snd m) /\ exists y z, w ++ (b "{" ++ tx ++ b "}") ++ w' = y ++ snd m ++ z) ms).
    { eapply Forall_impl; [|exact F]. intros m (Jm & y & z & ->). split; [exact Jm|]. exists (w ++ b "{" ++ y), (z ++ b "}" ++ w'). rewrite <- !app_assoc. reflexivity. }
    assert (Nl : map fst ms <> []) by (inversion M; discriminate).
    assert (F2 : Forall (fun m => exists x, jtext (snd (fst m)) x) ms) by (eapply Forall_impl; [|exact F]; intros m (Jm & _); eauto).
    pose proof (object_of_members _ (rep_member f) no_rep w w' _ tx ms W R eq_refl Nl P) as E. unfold response_header, response_rep. fold no_rep. rewrite E. pose proof (rep_suitable f ms no_rep F2) as Su.
    set (t := w ++ (b "{" ++ tx ++ b "}") ++ w') in *. pose proof (fun h => header_merged f t ms h) as A. pose proof (fun h => header_exists f t ms h) as C. destruct (snd (members (rep_member f) ms no_rep)).
    + split; [intros h H; exact (A h F' eq_refl H)|]. split; [intros (h & H); split; [apply Su; reflexivity|exists h; exact (A h F' eq_refl H)]|]. intros (_ & h & H). exact (C h F' eq_refl H).
    + split; [discriminate|]. split; [intros (h & H); discriminate H|]. intros (Q & _). apply Su in Q. discriminate Q.
Qed.
