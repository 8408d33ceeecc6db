(** Statements of the properties of framing, assembled from FrameProofs.v. *)
From Verif Require Import GoBase Frame FrameSpec FrameProofs.
From Coq Require Import Lia ZifyBool ZifyNat ZifyN.
Ltac Zify.zify_post_hook ::= Z.div_mod_to_equations.

Lemma write_messages ms : forall o, Forall fits32 ms ->
  fold_left (fun w m => snd (WriteFrame (fbw_write m w))) ms (mkFbw [] (mkSink o None)) =
  mkFbw [] (mkSink (o ++ concat (map frame_bytes ms)) None).
Proof.
  induction ms as [|m ms IH]; intros o H; cbn [fold_left map concat].
  - rewrite app_nil_r. reflexivity.
  - inversion H; subst. unfold fbw_write at 2. cbn [buf W app].
    rewrite WriteFrame_good by assumption. cbn [snd]. rewrite IH by assumption.
    rewrite <- app_assoc. reflexivity.
Qed.

Lemma round_trip (ms : list str) (sch sizes : nat -> nat) :
  Forall (fun m => N.of_nat (length m) <= 1073741824)%N ms ->
  exists fuel0, forall fuel, fuel0 <= fuel ->
  let w := fold_left (fun w m => snd (WriteFrame (fbw_write m w))) ms (mkFbw [] (mkSink [] None)) in
  read_all fuel sizes 0 (NewFrameLimitedReader (mkSrc (out (W w)) EOF sch 0)) = Some (ms, Io EOF).
Proof.
  intros H. exists (total_length ms). intros fuel Hf.
  assert (F : Forall fits32 ms) by (eapply Forall_impl; [exact bounded_fits|exact H]).
  rewrite write_messages by exact F. cbn [out W app].
  apply read_all_ok; [|assumption]. apply rep_init; [apply concat_frames; assumption|exact H].
Qed.

Lemma frame_boundary stream ms sch (calls : list call) :
  is_stream stream ms -> Forall (fun m => N.of_nat (length m) <= 1073741824)%N ms ->
  exists s, arun (Frames [] ms) (fst (crun (NewFrameLimitedReader (mkSrc stream EOF sch 0)) calls)) s.
Proof.
  intros A B. destruct (run_refines calls _ _ (rep_init stream ms sch A B)) as (s & X & _). eauto.
Qed.

Lemma reads_bounded calls : forall r,
  exists tl, rest (R r) = concat (map data_of (reads_before_header (fst (crun r calls)))) ++ tl /\
  (N.of_nat (length (concat (map data_of (reads_before_header (fst (crun r calls)))))) <= Nleft r)%N.
Proof.
  induction calls as [|c calls IH]; intros r; cbn [crun].
  - exists (rest (R r)). cbn. split; [reflexivity|lia].
  - destruct c as [|k]; cbn [cstep].
    + destruct (N.eqb_spec (Nleft r) 0) as [E|E].
      * pose proof (ReadHeader_spec r E) as S. destruct (ReadHeader r) as [[u|e] r'].
        -- destruct (crun r' calls). cbn. exists (rest (R r)). split; [reflexivity|lia].
        -- (* a failed header: no data afterwards unless another header is accepted *)
           destruct (IH r') as (tl & A & B). destruct (crun r' calls) as [tr r'']. cbn in *.
           destruct S as [(h & sz & Hh & S1 & _ & _ & S2 & _)|(S1 & S2 & _)].
           ++ rewrite S2 in B. assert (concat (map data_of (reads_before_header tr)) = []) as Z.
              { destruct (concat _); [reflexivity|cbn in B; lia]. }
              rewrite Z. exists (rest (R r)). split; [reflexivity|cbn; lia].
           ++ rewrite S2 in A. symmetry in A. apply app_eq_nil in A. destruct A as [Z _].
              rewrite Z. exists (rest (R r)). split; [reflexivity|cbn; lia].
      * rewrite ReadHeader_early by assumption.
        destruct (IH r) as (tl & A & B). destruct (crun r calls) as [tr r'']. cbn in *. eauto.
    + pose proof (lr_read_spec k r) as S. destruct (lr_read k r) as [[bs [e|]] r'].
      * destruct S as (-> & -> & _). destruct (IH r) as (tl & A & B).
        destruct (crun r calls) as [tr r'']. cbn in *. eauto.
      * destruct S as (S1 & S2 & S3 & S4 & S5 & _). destruct (IH r') as (tl & A & B).
        destruct (crun r' calls) as [tr r'']. cbn [fst reads_before_header map concat data_of snd] in *.
        exists tl. rewrite S2, A, <- app_assoc. split; [reflexivity|]. rewrite app_length. lia.
Qed.

Lemma declared_size r r' calls :
  Nleft r = 0%N -> ReadHeader r = (Ok tt, r') ->
  exists h size, is_header h size /\
  (N.of_nat (length (concat (map data_of (reads_before_header (fst (crun r' calls)))))) <= size)%N /\
  exists tl, rest (R r) = h ++ concat (map data_of (reads_before_header (fst (crun r' calls)))) ++ tl.
Proof.
  intros H E. pose proof (ReadHeader_spec r H) as S. rewrite E in S.
  destruct S as (h & Hh & A & _). destruct (reads_bounded calls r') as (tl & B & C).
  exists h, (Nleft r'). split; [assumption|]. split; [assumption|]. exists tl. congruence.
Qed.

Lemma header_errors r : Nleft r = 0%N -> fin (R r) = EOF ->
  let s := rest (R r) in
  (s = [] -> fst (ReadHeader r) = Err (Io EOF)) /\
  (0 < length s < 4 -> fst (ReadHeader r) = Err (Io UnexpectedEOF)) /\
  (forall h size tl, is_header h size -> s = h ++ tl ->
     fst (ReadHeader r) = (if N.leb size 1073741824 then Ok tt else Err TooLargeError) /\
     rest (R (snd (ReadHeader r))) = tl).
Proof.
  intros H F s. pose proof (ReadHeader_spec r H) as S. fold s in S. rewrite F in S.
  destruct (ReadHeader r) as [[u|e] r']; cbn [fst snd].
  - destruct S as (h & Hh & A & _ & M).
    assert (4 <= length s) as L by (rewrite A, app_length, (header_length _ _ Hh); lia).
    split; [intros Z; rewrite Z in L; cbn in L; lia|]. split; [lia|].
    intros h' size tl Hh' Es. rewrite Es in A.
    apply app_eq_prefix in A; [|rewrite (header_length _ _ Hh), (header_length _ _ Hh'); reflexivity].
    destruct A as [-> ->]. split; [|reflexivity].
    apply header_decode in Hh. apply header_decode in Hh'. unfold MaxInSize in M.
    destruct (N.leb_spec size 1073741824); [destruct u; reflexivity|lia].
  - destruct S as [(h & sz & Hh & A & _ & M & _ & ->)|(L & A & _ & _ & ->)].
    + assert (4 <= length s) as L by (rewrite A, app_length, (header_length _ _ Hh); lia).
      split; [intros Z; rewrite Z in L; cbn in L; lia|]. split; [lia|].
      intros h' size tl Hh' Es. rewrite Es in A.
      apply app_eq_prefix in A; [|rewrite (header_length _ _ Hh), (header_length _ _ Hh'); reflexivity].
      destruct A as [-> ->]. split; [|reflexivity].
      apply header_decode in Hh. apply header_decode in Hh'. unfold MaxInSize in M.
      destruct (N.leb_spec size 1073741824); [lia|reflexivity].
    + split; [intros ->; reflexivity|]. split.
      * destruct s; [cbn; lia|reflexivity].
      * intros h size tl Hh Es. rewrite Es, app_length, (header_length _ _ Hh) in L. lia.
Qed.

Lemma no_header_reads sizes : forall r, reads_before_header (fst (crun r (map CRead sizes))) = fst (crun r (map CRead sizes)).
Proof.
  induction sizes as [|k sizes IH]; intros r; [reflexivity|]. cbn [map crun cstep].
  destruct (lr_read k r) as [[bs [e|]] r']; specialize (IH r');
    destruct (crun r' (map CRead sizes)) as [tr r'']; cbn [fst reads_before_header] in *; congruence.
Qed.

Lemma no_data r e r' sizes : Nleft r = 0%N ->
  ReadHeader r = (Err e, r') ->
  concat (map data_of (fst (crun r' (map CRead sizes)))) = [].
Proof.
  intros H E. pose proof (ReadHeader_spec r H) as S. rewrite E in S.
  destruct (reads_bounded (map CRead sizes) r') as (tl & A & B). rewrite no_header_reads in *.
  destruct S as [(h & sz & Hh & S1 & _ & _ & S2 & _)|(S1 & S2 & _)].
  - rewrite S2 in B. destruct (concat _); [reflexivity|cbn in B; lia].
  - rewrite S2 in A. symmetry in A. apply app_eq_nil in A. tauto.
Qed.

Lemma resume_refuted :
  ~ (forall r e r', Nleft r = 0%N -> ReadHeader r = (Err e, r') ->
     exists e', fst (ReadHeader r') = Err e').
Proof.
  intros H.
  set (r := NewFrameLimitedReader (mkSrc (map ascii_of_nat [1;0;0;64;2;0;0;0;65;66]) EOF (fun _ => 9) 0)).
  destruct (H r TooLargeError (snd (ReadHeader r)) eq_refl) as (e' & E).
  - vm_compute. reflexivity.
  - vm_compute in E. discriminate E.
Qed.

Lemma writer_history cs ms p :
  messages [] cs = (ms, p) -> Forall (fun m => N.of_nat (length m) < 4294967296)%N ms ->
  let w := fold_left wstep cs (mkFbw [] (mkSink [] None)) in
  is_stream (out (W w)) ms /\ buf w = p.
Proof.
  intros E F. cbn zeta. rewrite history; rewrite E; cbn [fst snd buf W out app]; [|exact F].
  split; [apply concat_frames; exact F|reflexivity].
Qed.

Lemma one_frame m o : (N.of_nat (length m) < 4294967296)%N ->
  exists f, is_frame f m /\
  WriteFrame (mkFbw m (mkSink o None)) = (Ok tt, mkFbw [] (mkSink (o ++ f) None)).
Proof.
  intros H. exists (frame_bytes m). split; [apply frame_bytes_is_frame; exact H|].
  apply WriteFrame_good; exact H.
Qed.

Lemma failing_stream m o k : (N.of_nat (length m) < 4294967296)%N ->
  exists f, is_frame f m /\
  let '(res, w') := WriteFrame (mkFbw m (mkSink o (Some k))) in
  out (W w') = o ++ firstn k f /\ (res = Ok tt <-> length f <= k).
Proof.
  intros H. exists (frame_bytes m). split; [apply frame_bytes_is_frame; exact H|].
  apply WriteFrame_budget; exact H.
Qed.

Lemma close_spec errR errW s :
  let '(ret, s') := Split_Close errR errW s in
  rclosed s' = true /\ wclosed s' = true /\ pending s' = [] /\
  (forall e, errR = Some e -> ret = Some (CloseR e)) /\
  (forall e, errR = None -> errW = Some e -> ret = Some (CloseW e)) /\
  (ret = Some ErrOutBufferNotEmpty <-> errR = None /\ errW = None /\ pending s <> []) /\
  (ret = None <-> errR = None /\ errW = None /\ pending s = []).
Proof.
  unfold Split_Close. cbn. destruct errR, errW, (pending s) as [|c t]; cbn;
    repeat split; intros; try tauto; try congruence; intuition congruence.
Qed.
