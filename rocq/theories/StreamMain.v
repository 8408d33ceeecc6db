(** Lemmas about sessions. *)
From Coq Require Import ZifyBool ZifyNat ZifyN.
From Verif Require Import GoBase JsonSpec Frame FrameSpec FrameProofs Stream StreamSpec StreamProofs.

Definition unread (d : decoder) : str := skipn (scanp d) (dbuf d).
Lemma skip_sum {A} k n : forall l : list A, skipn (k + n) l = skipn n (skipn k l).
Proof. induction k as [|k IH]; intros l; [reflexivity|]. destruct l as [|x l]; [cbn; destruct n; reflexivity|]. apply IH. Qed.
Lemma skip_more d n : skipn (scanp d + n) (dbuf d) = skipn n (unread d).
Proof. apply skip_sum. Qed.
Lemma unread_length d : length (dbuf d) - scanp d = length (unread d).
Proof. unfold unread. rewrite skipn_length. reflexivity. Qed.
Lemma prefix_cases {A} (z m x y : list A) : z ++ m = x ++ y -> (exists y1, z = x ++ y1 /\ y = y1 ++ m) \/ (exists q, q <> [] /\ x = z ++ q /\ m = q ++ y).
Proof.
  revert x. induction z as [|a z IH]; intros x E; cbn [app] in E.
  - destruct x as [|a x]; [left; exists []; auto|]. right. exists (a :: x). split; [discriminate|]. auto.
  - destruct x as [|a' x]; cbn [app] in E; [left; exists (a :: z); auto|]. injection E as <- E. destruct (IH _ E) as [(y1 & -> & ->)|(q & N & -> & ->)]; [left; exists y1; auto|right; exists q; auto].
Qed.
(** Length of a slice is not greater than its capacity. *)
Definition roomy (d : decoder) : Prop := length (dbuf d) <= dcap d.
(** One refill when the frame is not exhausted *)
Lemma refill_ok d r m tail : roomy d -> m <> [] -> Nleft r = N.of_nat (length m) -> rest (R r) = m ++ tail ->
  exists m1 m2 d' r', refill d r = (None, d', r') /\ m = m1 ++ m2 /\ m1 <> [] /\ unread d' = unread d ++ m1 /\ Nleft r' = N.of_nat (length m2) /\ rest (R r') = m2 ++ tail /\
    fin (R r') = fin (R r) /\ derr d' = derr d /\ roomy d'.
Proof.
  intros Rm N E Er. unfold refill. fold (unread d). set (cap := if _ : bool then _ else _).
  assert (Lu : length (unread d) <= dcap d) by (unfold unread, roomy in *; rewrite skipn_length; lia).
  assert (K : cap - length (unread d) <> 0) by (unfold cap, minRead; destruct (Nat.ltb_spec (dcap d - length (unread d)) 512); lia).
  assert (Lc : length (unread d) <= cap) by (unfold cap; destruct (_ <? _); lia).
  pose proof (lr_read_spec (cap - length (unread d)) r) as S. destruct (lr_read (cap - length (unread d)) r) as [[bs [e|]] r'].
  - destruct S as (_ & _ & [[Z _]|(_ & Z & _)]); exfalso; [destruct m; [congruence|cbn [length] in E; lia]|rewrite Er in Z; destruct m; [congruence|discriminate]].
  - destruct S as (_ & Es & Ef & Lb & En & Lk & Nb & _). rewrite Er in Es. symmetry in Es. rewrite E in Lb.
    destruct (prefix_cases _ _ _ _ Es) as [(y1 & Eb & Et)|(q & Nq & Eb & Et)].
    + assert (y1 = []). { destruct y1; [reflexivity|]. rewrite Eb, app_length in Lb. cbn [length] in Lb. lia. } subst y1. rewrite app_nil_r in Eb. subst bs.
      exists m, [], (mkDec (unread d ++ m) 0 cap (derr d)), r'. split; [reflexivity|]. rewrite app_nil_r. split; [reflexivity|]. split; [exact N|]. split; [reflexivity|]. split; [cbn; lia|]. split; [symmetry; exact Et|]. split; [exact Ef|]. split; [reflexivity|]. unfold roomy. cbn [dbuf dcap]. rewrite app_length. lia.
    + exists bs, q, (mkDec (unread d ++ bs) 0 cap (derr d)), r'. split; [reflexivity|]. split; [exact Eb|]. split; [intros Z; specialize (Nb Z); contradiction|]. split; [reflexivity|].
      split; [rewrite En, E, Eb, app_length; lia|]. split; [exact Et|]. split; [exact Ef|]. split; [reflexivity|]. unfold roomy. cbn [dbuf dcap]. rewrite app_length. lia.
Qed.

Lemma readValue_ok t y tail w : space w -> object_text t -> forall fuel s n d r m, roomy d ->
  length m < fuel -> n <= length (unread d) -> goes reset (firstn n (unread d)) s ->
  Nleft r = N.of_nat (length m) -> rest (R r) = m ++ tail -> unread d ++ m = w ++ t ++ y ->
  exists d' r' y1 y2, readValue fuel s n None d r = (Ok (length (w ++ t)), d', r') /\ y = y1 ++ y2 /\ unread d' = (w ++ t) ++ y1 /\
    Nleft r' = N.of_nat (length y2) /\ rest (R r') = y2 ++ tail /\ fin (R r') = fin (R r) /\ derr d' = derr d /\ roomy d'.
Proof.
  intros W T. induction fuel as [|fuel IH]; intros s n d r m Rm Lf Ln G E Er Eu; [lia|].
  cbn [readValue]. rewrite skip_more, unread_length. rewrite app_assoc in Eu. destruct (prefix_cases _ _ _ _ Eu) as [(y1 & Ez & Ey)|(q & Nq & Ez & Em)].
  - assert (S : scan_bytes s (skipn n (unread d)) = SEnd (length (w ++ t) - n) /\ n <= length (w ++ t)).
    { pose proof (proj1 (object_scan w t y1 W T)) as S. rewrite app_assoc, <- Ez in S. rewrite <- (firstn_skipn n (unread d)), scan_app, G in S.
      rewrite firstn_length_le in S by exact Ln. destruct (scan_bytes s (skipn n (unread d))) as [k| |]; try discriminate. cbn [shift] in S. injection S as S. split; [f_equal; lia|lia]. }
    destruct S as [-> Le]. exists d, r, y1, m. split; [f_equal; f_equal; f_equal; lia|]. split; [exact Ey|]. auto 10.
  - destruct (proj2 (object_scan w t y W T) (unread d)) as (s' & G'); [eauto|].
    assert (S : scan_bytes s (skipn n (unread d)) = SMore s').
    { unfold goes in G'. rewrite <- (firstn_skipn n (unread d)), scan_app, G in G'. destruct (scan_bytes s (skipn n (unread d))); try discriminate. exact G'. }
    rewrite S. assert (Nm : m <> []) by (rewrite Em; destruct q; [congruence|discriminate]).
    destruct (refill_ok d r m tail Rm Nm E Er) as (m1 & m2 & d' & r' & -> & Es & N1 & Eu' & En & Er' & Ef & Ed & Rm').
    assert (L1 : 0 < length m1) by (destruct m1; [congruence|cbn; lia]). rewrite Es, app_length in Lf.
    destruct (IH s' (length (unread d)) d' r' m2) as (d2 & r2 & y1 & y2 & HM & Ey & Eu2 & En2 & Er2 & Ef2 & Ed2 & Rm2); try assumption; try lia.
    + rewrite Eu', app_length. lia.
    + rewrite Eu', firstn_app, Nat.sub_diag, firstn_O, app_nil_r, firstn_all. exact G'.
    + rewrite Eu', <- app_assoc, <- Es, Eu, <- app_assoc. reflexivity.
    + exists d2, r2, y1, y2. split; [exact HM|]. split; [exact Ey|]. split; [exact Eu2|]. split; [exact En2|]. split; [exact Er2|]. split; [congruence|]. split; [congruence|exact Rm2].
Qed.
Lemma Decode_ok t y tail w d r : space w -> object_text t -> unread d = w -> derr d = None -> roomy d -> Nleft r = N.of_nat (length (t ++ y)) -> rest (R r) = (t ++ y) ++ tail ->
  exists d' r' y1 y2, Decode d r = (Ok (w ++ t), d', r') /\ y = y1 ++ y2 /\ unread d' = y1 /\ derr d' = None /\ roomy d' /\
    Nleft r' = N.of_nat (length y2) /\ rest (R r') = y2 ++ tail /\ fin (R r') = fin (R r).
Proof.
  intros W T Eu Ed Rm En Er. unfold Decode. rewrite Ed.
  destruct (readValue_ok t y tail w W T (2 + length (rest (R r))) reset 0 d r (t ++ y)) as (d' & r' & y1 & y2 & HM & Ey & Eu2 & En2 & Er2 & Ef2 & Ed2 & Rm2); try assumption.
  - rewrite Er, !app_length. lia.
  - lia.
  - apply goes_nil.
  - rewrite Eu, app_assoc. reflexivity.
  - rewrite HM. eexists _, r', y1, y2. fold (unread d'). rewrite Eu2, firstn_app, Nat.sub_diag, firstn_O, app_nil_r, firstn_all. split; [reflexivity|]. split; [exact Ey|].
    split; [unfold unread at 1; cbn [scanp dbuf]; rewrite skip_more, Eu2, skipn_app, Nat.sub_diag, skipn_all; reflexivity|]. cbn [derr]. split; [congruence|]. auto 10.
Qed.
Lemma header_frame r f m tail : Nleft r = 0%N -> is_frame f m -> (N.of_nat (length m) <= 1073741824)%N -> rest (R r) = f ++ tail ->
  exists r', ReadHeader r = (Ok tt, r') /\ Nleft r' = N.of_nat (length m) /\ rest (R r') = m ++ tail /\ fin (R r') = fin (R r).
Proof.
  intros H0 (h & Hh & ->) L Er. pose proof (ReadHeader_spec r H0) as S. rewrite <- app_assoc in Er. destruct (ReadHeader r) as [[[]|e] r'].
  - destruct S as (h' & Hh' & Er' & Ef & _). rewrite Er in Er'. apply app_eq_prefix in Er'; [|rewrite (header_length _ _ Hh), (header_length _ _ Hh'); reflexivity]. destruct Er' as [-> Et].
    exists r'. split; [reflexivity|]. split; [|auto]. apply header_decode in Hh. apply header_decode in Hh'. congruence.
  - exfalso. destruct S as [(h' & size & Hh' & Er' & _ & G & _)|(Ls & _)].
    + rewrite Er in Er'. apply app_eq_prefix in Er'; [|rewrite (header_length _ _ Hh), (header_length _ _ Hh'); reflexivity]. destruct Er' as [-> _].
      apply header_decode in Hh. apply header_decode in Hh'. unfold MaxInSize in G. lia.
    + rewrite Er, app_length, (header_length _ _ Hh) in Ls. lia.
Qed.
Lemma header_eof r : Nleft r = 0%N -> rest (R r) = [] -> fin (R r) = EOF -> exists r', ReadHeader r = (Err (Io EOF), r').
Proof.
  intros H0 Er Ef. pose proof (ReadHeader_spec r H0) as S. destruct (ReadHeader r) as [[[]|e] r'].
  - destruct S as (h & Hh & E & _). rewrite Er in E. apply header_length in Hh. destruct h; discriminate.
  - destruct S as [(h & size & Hh & E & _)|(_ & _ & _ & _ & ->)]; [rewrite Er in E; apply header_length in Hh; destruct h; discriminate|]. rewrite Ef, Er. eauto.
Qed.
(** One message *)
Lemma message_ok unmarshal t y tail w d r f : space w -> object_text t -> accepted unmarshal t -> unread d = w -> derr d = None -> roomy d -> Nleft r = 0%N ->
  is_frame f (t ++ y) -> (N.of_nat (length (t ++ y)) <= 1073741824)%N -> rest (R r) = f ++ tail ->
  exists d' r' y1 y2, ReadMessage unmarshal d r = (Ok (w ++ t), d', r') /\ y = y1 ++ y2 /\ unread d' = y1 /\ derr d' = None /\ roomy d' /\
    Nleft r' = N.of_nat (length y2) /\ rest (R r') = y2 ++ tail /\ fin (R r') = fin (R r).
Proof.
  intros W T A Eu Ed Rm E0 F L Er. destruct (header_frame r f (t ++ y) tail E0 F L Er) as (r1 & H1 & En & Er1 & Ef1).
  destruct (Decode_ok t y tail w d r1 W T Eu Ed Rm En Er1) as (d' & r' & y1 & y2 & HD & Ey & Eu2 & Ed2 & Rm2 & En2 & Er2 & Ef2). exists d', r', y1, y2. unfold ReadMessage. rewrite H1, HD, (A w W).
  split; [reflexivity|]. rewrite <- Ef1. auto 10.
Qed.
Lemma session_exact unmarshal ts : forall stream d r fuel, is_stream stream ts -> Forall object_text ts -> Forall (accepted unmarshal) ts ->
  Forall (fun m => N.of_nat (length m) <= 1073741824)%N ts -> unread d = [] -> derr d = None -> roomy d -> Nleft r = 0%N -> rest (R r) = stream -> fin (R r) = EOF -> length ts < fuel ->
  session fuel unmarshal d r = Some (ts, EHeader (Io EOF)).
Proof.
  induction ts as [|t ts IH]; intros stream d r fuel S T A L Eu Ed Rm E0 Er Ef Lf; (destruct fuel as [|fuel]; [cbn in Lf; lia|]); cbn [session].
  - inversion S; subst. destruct (header_eof r E0 ltac:(congruence) Ef) as (r' & HH). unfold ReadMessage. rewrite HH. reflexivity.
  - inversion S as [|f m s ms Fr S']; subst. inversion_clear T as [|? ? T1 T2]. inversion_clear A as [|? ? A1 A2]. inversion_clear L as [|? ? L1 L2].
    destruct (message_ok unmarshal t [] s [] d r f) as (d' & r' & y1 & y2 & HM & Ey & Eu2 & Ed2 & Rm2 & En2 & Er2 & Ef2); try assumption; try (rewrite app_nil_r; assumption); [constructor|congruence|].
    symmetry in Ey. apply app_eq_nil in Ey. destruct Ey as [-> ->]. rewrite HM. cbn [app]. rewrite (IH s d' r' fuel); auto; [congruence|cbn [length] in Lf; lia].
Qed.
Lemma session_browser unmarshal stream ts sch fuel : is_stream stream ts -> Forall object_text ts -> Forall (accepted unmarshal) ts ->
  Forall (fun m => N.of_nat (length m) <= 1073741824)%N ts -> length ts < fuel ->
  session fuel unmarshal NewDecoder (NewFrameLimitedReader (mkSrc stream EOF sch 0)) = Some (ts, EHeader (Io EOF)).
Proof. intros. eapply session_exact; eauto. apply le_n. Qed.

(** ** Newlines after messages *)
Lemma stuck_message unmarshal d r : Nleft r <> 0%N -> ReadMessage unmarshal d r = (Err (EHeader ErrReadBody), d, r).
Proof. intros N. unfold ReadMessage, ReadHeader. destruct (N.eqb_spec (Nleft r) 0); [contradiction|]. reflexivity. Qed.
Lemma newline_space : space newline. Proof. constructor; [cbn; tauto|constructor]. Qed.
Lemma newline_split y1 y2 : newline = y1 ++ y2 -> (y1 = newline /\ y2 = []) \/ (y1 = [] /\ y2 = newline).
Proof. unfold newline. destruct y1 as [|c y1]; intros E; [right; auto|]. injection E as <- E. symmetry in E. apply app_eq_nil in E. destruct E as [-> ->]. auto. Qed.
Lemma session_newlines unmarshal ts : forall stream d r fuel, is_stream stream (map (fun t => t ++ newline) ts) -> Forall object_text ts -> Forall (accepted unmarshal) ts ->
  Forall (fun m => N.of_nat (length m) < 1073741824)%N ts -> unread d = newline -> derr d = None -> roomy d -> Nleft r = 0%N -> rest (R r) = stream -> fin (R r) = EOF -> length ts < fuel ->
  session fuel unmarshal d r = Some (map (fun x => newline ++ x) ts, EHeader (Io EOF)) \/
  exists k, 0 < k <= length ts /\ session fuel unmarshal d r = Some (map (fun x => newline ++ x) (firstn k ts), EHeader ErrReadBody).
Proof.
  induction ts as [|t ts IH]; intros stream d r fuel S T A L Eu Ed Rm E0 Er Ef Lf; (destruct fuel as [|fuel]; [cbn in Lf; lia|]); cbn [session map].
  - left. inversion S; subst. destruct (header_eof r E0 ltac:(congruence) Ef) as (r' & HH). unfold ReadMessage. rewrite HH. reflexivity.
  - cbn [map] in S. inversion S as [|f m s ms Fr S']; subst. inversion_clear T as [|? ? T1 T2]. inversion_clear A as [|? ? A1 A2]. inversion_clear L as [|? ? L1 L2].
    destruct (message_ok unmarshal t newline s newline d r f) as (d' & r' & y1 & y2 & HM & Ey & Eu2 & Ed2 & Rm2 & En2 & Er2 & Ef2); try assumption; [apply newline_space|rewrite app_length; cbn [length newline]; lia|congruence|].
    rewrite HM. apply newline_split in Ey. destruct Ey as [[-> ->]|[-> ->]].
    + destruct (IH s d' r' fuel) as [->|(k & K & ->)]; auto; [congruence|cbn [length] in Lf; lia|]. right. exists (Datatypes.S k). cbn [length firstn map]. split; [lia|reflexivity].
    + right. exists 1. split; [cbn; lia|]. destruct fuel as [|fuel]; [cbn in Lf; lia|]. cbn [session]. rewrite stuck_message by (rewrite En2; discriminate). reflexivity.
Qed.
Lemma session_go unmarshal stream ts sch fuel : is_stream stream (map (fun t => t ++ newline) ts) -> Forall object_text ts -> Forall (accepted unmarshal) ts ->
  Forall (fun m => N.of_nat (length m) < 1073741824)%N ts -> length ts < fuel ->
  session fuel unmarshal NewDecoder (NewFrameLimitedReader (mkSrc stream EOF sch 0)) = Some (with_newlines ts, EHeader (Io EOF)) \/
  exists k, 0 < k <= length ts /\ session fuel unmarshal NewDecoder (NewFrameLimitedReader (mkSrc stream EOF sch 0)) = Some (with_newlines (firstn k ts), EHeader ErrReadBody).
Proof.
  intros S T A L Lf. destruct fuel as [|fuel]; [lia|]. destruct ts as [|t ts]; [left; apply session_browser; auto; constructor|].
  cbn [map session] in *. inversion S as [|f m s ms Fr S']; subst. inversion_clear T as [|? ? T1 T2]. inversion_clear A as [|? ? A1 A2]. inversion_clear L as [|? ? L1 L2].
  destruct (message_ok unmarshal t newline s [] NewDecoder (NewFrameLimitedReader (mkSrc (f ++ s) EOF sch 0)) f) as (d' & r' & y1 & y2 & HM & Ey & Eu2 & Ed2 & Rm2 & En2 & Er2 & Ef2);
    try assumption; try reflexivity; [constructor|apply le_n|rewrite app_length; cbn [length newline]; lia|].
  rewrite HM. cbn [app]. apply newline_split in Ey. destruct Ey as [[-> ->]|[-> ->]].
  - destruct (session_newlines unmarshal ts s d' r' fuel) as [->|(k & K & ->)]; auto; [cbn [length] in Lf; lia|]. right. exists (Datatypes.S k). cbn [length firstn with_newlines]. split; [lia|reflexivity].
  - right. exists 1. split; [cbn; lia|]. destruct fuel as [|fuel]; [cbn in Lf; lia|]. cbn [session]. rewrite stuck_message by (rewrite En2; discriminate). reflexivity.
Qed.
