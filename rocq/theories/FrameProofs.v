(** Lemmas about framing. *)
From Verif Require Import GoBase Frame FrameSpec.
From Coq Require Import Lia ZifyBool ZifyNat ZifyN.
Ltac Zify.zify_post_hook ::= Z.div_mod_to_equations.

(** ** Headers *)
Lemma byte_bound c : (N_of_ascii c < 256)%N.
Proof. apply N_ascii_bounded. Qed.

Lemma le32_decode4 a b c d :
  le32_decode [a; b; c; d] =
  (N_of_ascii a + 256 * N_of_ascii b + 65536 * N_of_ascii c + 16777216 * N_of_ascii d)%N.
Proof. unfold le32_decode; cbn [fold_right]. lia. Qed.

Lemma encode_is_header v : (v < 2 ^ 32)%N -> is_header (le32_encode v) v.
Proof.
  intros H. unfold le32_encode, is_header; cbn [map].
  do 4 eexists. split; [reflexivity|]. unfold byte_value.
  rewrite !N_ascii_embedding by (apply N.mod_lt; discriminate).
  assert (E1 : (v / 65536 = v / 256 / 256)%N) by (rewrite N.div_div by discriminate; reflexivity).
  assert (E2 : (v / 16777216 = v / 256 / 256 / 256)%N) by (rewrite !N.div_div by discriminate; reflexivity).
  rewrite E1, E2. change (2 ^ 32)%N with 4294967296%N in H. clear E1 E2.
  set (q1 := (v / 256)%N). assert (v = 256 * q1 + v mod 256)%N by (apply N.div_mod; discriminate).
  set (q2 := (q1 / 256)%N). assert (q1 = 256 * q2 + q1 mod 256)%N by (apply N.div_mod; discriminate).
  set (q3 := (q2 / 256)%N). assert (q2 = 256 * q3 + q2 mod 256)%N by (apply N.div_mod; discriminate).
  assert (q3 < 256)%N.
  { unfold q3, q2, q1. rewrite !N.div_div by discriminate. apply N.div_lt_upper_bound; [discriminate|lia]. }
  rewrite (N.mod_small q3 256) by assumption.
  generalize dependent (v mod 256)%N. generalize dependent (q1 mod 256)%N. generalize dependent (q2 mod 256)%N.
  intros. lia.
Qed.

Lemma header_decode h v : is_header h v -> le32_decode h = v.
Proof.
  intros (a & b & c & d & -> & ->). rewrite le32_decode4. reflexivity.
Qed.

Lemma header_length h v : is_header h v -> length h = 4.
Proof. intros (a & b & c & d & -> & _). reflexivity. Qed.

Lemma header_unique h1 h2 v : is_header h1 v -> is_header h2 v -> h1 = h2.
Proof.
  intros (a & b & c & d & -> & ->) (a' & b' & c' & d' & -> & E). unfold byte_value in E.
  pose proof (byte_bound a); pose proof (byte_bound b); pose proof (byte_bound c); pose proof (byte_bound d).
  pose proof (byte_bound a'); pose proof (byte_bound b'); pose proof (byte_bound c'); pose proof (byte_bound d').
  assert (N_of_ascii a = N_of_ascii a' /\ N_of_ascii b = N_of_ascii b' /\ N_of_ascii c = N_of_ascii c' /\ N_of_ascii d = N_of_ascii d') as (A & B & C & D) by lia.
  rewrite <- (ascii_N_embedding a), <- (ascii_N_embedding b), <- (ascii_N_embedding c), <- (ascii_N_embedding d).
  rewrite A, B, C, D. rewrite !ascii_N_embedding. reflexivity.
Qed.

Lemma header_any a b c d : is_header [a; b; c; d] (le32_decode [a; b; c; d]).
Proof. exists a, b, c, d. split; [reflexivity|]. apply le32_decode4. Qed.

(** ** Reads *)
Lemma src_read_spec k s :
  match src_read k s with
  | (bs, None, s') =>
      rest s = bs ++ rest s' /\ fin s' = fin s /\ length bs <= k /\ (bs = [] -> k = 0) /\
      (k = 0 -> s' = s)
  | (bs, Some e, s') => bs = [] /\ s' = s /\ rest s = [] /\ e = fin s /\ k <> 0
  end.
Proof.
  unfold src_read. destruct k as [|k].
  - cbn. repeat split; auto.
  - destruct (rest s) as [|c t] eqn:E.
    + repeat split; auto.
    + cbn [rest fin]. set (n := Nat.min (S k) (S (sched s (tick s)))).
      assert (n <> 0) by (unfold n; lia).
      repeat split.
      * symmetry. apply firstn_skipn.
      * rewrite firstn_length. unfold n. lia.
      * intros F. destruct n; [lia|discriminate].
      * discriminate.
Qed.

Lemma lr_read_spec k r :
  match lr_read k r with
  | (bs, None, r') =>
      Nleft r <> 0%N /\ rest (R r) = bs ++ rest (R r') /\ fin (R r') = fin (R r) /\
      (N.of_nat (length bs) <= Nleft r)%N /\
      Nleft r' = (Nleft r - N.of_nat (length bs))%N /\ length bs <= k /\
      (bs = [] -> k = 0) /\ (k = 0 -> r' = r)
  | (bs, Some e, r') => bs = [] /\ r' = r /\
      ((Nleft r = 0%N /\ e = EOF) \/ (Nleft r <> 0%N /\ rest (R r) = [] /\ e = fin (R r) /\ k <> 0))
  end.
Proof.
  unfold lr_read. destruct (N.eqb_spec (Nleft r) 0) as [E|E].
  - repeat split; auto.
  - set (k' := if N.ltb (Nleft r) (N.of_nat k) then N.to_nat (Nleft r) else k).
    assert (Hk : k' <= k /\ (N.of_nat k' <= Nleft r)%N /\ (k' = 0 -> k = 0)).
    { unfold k'. destruct (N.ltb_spec (Nleft r) (N.of_nat k)); lia. }
    pose proof (src_read_spec k' (R r)) as S.
    destruct (src_read k' (R r)) as [[bs [e|]] s'].
    + destruct S as (-> & -> & A & B & C). split; [reflexivity|].
      cbn [length]. rewrite N.sub_0_r. split; [destruct r; reflexivity|]. right.
      split; [assumption|]. split; [assumption|]. split; [assumption|]. lia.
    + cbn [R Nleft]. destruct S as (A & B & C & D & F).
      split; [assumption|]. split; [assumption|]. split; [assumption|].
      split; [lia|]. split; [reflexivity|]. split; [lia|].
      split; [intros X; specialize (D X); lia|].
      intros ->. assert (k' = 0) as K by lia. specialize (F K). subst s'.
      assert (bs = []) by (destruct bs; [reflexivity|cbn in C; lia]). subst bs.
      cbn [length]. rewrite N.sub_0_r. destruct r; reflexivity.
Qed.

Lemma read_full_spec need : forall fuel acc r,
  need <= fuel -> Nleft r = N.of_nat need ->
  match read_full fuel need acc r with
  | (Ok bs, r') => exists d, bs = acc ++ d /\ length d = need /\ rest (R r) = d ++ rest (R r') /\
                     fin (R r') = fin (R r) /\ Nleft r' = 0%N
  | (Err e, r') => length (rest (R r)) < need /\ rest (R r') = [] /\ fin (R r') = fin (R r) /\
                   Nleft r' = (Nleft r - N.of_nat (length (rest (R r))))%N /\
                   e = Io (match fin (R r) with
                           | EOF => match acc ++ rest (R r) with [] => EOF | _ => UnexpectedEOF end
                           | x => x end)
  end.
Proof.
  induction need as [need IH] using lt_wf_ind. intros fuel acc r Hf Hn.
  destruct need as [|need].
  - assert (E : read_full fuel 0 acc r = (Ok acc, r)) by (destruct fuel; reflexivity). rewrite E.
    exists []. rewrite app_nil_r. repeat split; auto.
  - destruct fuel as [|fuel]; [lia|]. cbn [read_full].
    pose proof (lr_read_spec (S need) r) as S.
    destruct (lr_read (Datatypes.S need) r) as [[bs [e|]] r'] eqn:E.
    + destruct S as (-> & -> & [(A & B)|(A & B & C & D)]); [lia|].
      rewrite B, app_nil_r. subst e.
      destruct (fin (R r)) eqn:F; cbn [length]; rewrite ?N.sub_0_r; repeat split; auto; lia.
    + destruct S as (A & B & C & D & F & G & H & _).
      assert (length bs <> 0) as L.
      { destruct bs; [|discriminate]. specialize (H eq_refl). discriminate. }
      assert (Datatypes.S need - length bs < Datatypes.S need) as Hlt by lia.
      assert (Datatypes.S need - length bs <= fuel) as Hf' by lia.
      assert (Nleft r' = N.of_nat (Datatypes.S need - length bs)) as Hn' by lia.
      pose proof (IH _ Hlt fuel (acc ++ bs) r' Hf' Hn') as I.
      destruct (read_full fuel (Datatypes.S need - length bs) (acc ++ bs) r') as [[d|e] r''].
      * destruct I as (d' & -> & I1 & I2 & I3 & I4). exists (bs ++ d').
        rewrite app_assoc, app_length. split; [reflexivity|]. split; [lia|].
        rewrite B, I2, <- app_assoc. rewrite I3, I4. auto.
      * destruct I as (I1 & I2 & I3 & I4 & I5).
        rewrite B, app_length. split; [lia|]. split; [assumption|]. split; [congruence|].
        split; [lia|]. rewrite I5, C, <- app_assoc. reflexivity.
Qed.

(** What ReadHeader does on any byte stream. *)
Lemma ReadHeader_spec r : Nleft r = 0%N ->
  match ReadHeader r with
  | (Ok _, r') => exists h, is_header h (Nleft r') /\ rest (R r) = h ++ rest (R r') /\
                    fin (R r') = fin (R r) /\ (Nleft r' <= MaxInSize)%N
  | (Err e, r') =>
      (exists h size, is_header h size /\ rest (R r) = h ++ rest (R r') /\ fin (R r') = fin (R r) /\
          (MaxInSize < size)%N /\ Nleft r' = 0%N /\ e = TooLargeError) \/
      (length (rest (R r)) < 4 /\ rest (R r') = [] /\ fin (R r') = fin (R r) /\
          Nleft r' = (4 - N.of_nat (length (rest (R r))))%N /\
          e = Io (match fin (R r) with
                  | EOF => match rest (R r) with [] => EOF | _ => UnexpectedEOF end
                  | x => x end))
  end.
Proof.
  intros H0. unfold ReadHeader. rewrite H0. cbn [N.eqb negb].
  pose proof (read_full_spec 4 4 [] (mkFlr (R r) 4) (le_n _) eq_refl) as S.
  destruct (read_full 4 4 [] (mkFlr (R r) 4)) as [[d|e] r'].
  - destruct S as (d' & -> & L & A & B & C). cbn [app R Nleft] in *.
    destruct d' as [|a [|b [|c [|x [|]]]]]; try discriminate L.
    pose proof (header_any a b c x) as Hh. set (h := [a; b; c; x]) in *.
    destruct (N.ltb_spec MaxInSize (le32_decode h)).
    + left. exists h, (le32_decode h). repeat split; auto.
    + exists h. cbn [R Nleft]. repeat split; auto.
  - right. cbn [R Nleft app] in S. destruct S as (A & B & C & D & E). repeat split; auto.
Qed.

Lemma ReadHeader_early r : Nleft r <> 0%N -> ReadHeader r = (Err ErrReadBody, r).
Proof.
  intros H. unfold ReadHeader. destruct (N.eqb_spec (Nleft r) 0); [contradiction|reflexivity].
Qed.

(** ** Refinement of the abstract reader *)
Definition bounded (m : str) : Prop := (N.of_nat (length m) <= MaxInSize)%N.

Inductive rep : flr -> astate -> Prop :=
| rep_frames r cur todo s :
    rest (R r) = cur ++ s -> is_stream s todo -> Nleft r = N.of_nat (length cur) ->
    Forall bounded todo -> fin (R r) = EOF -> rep r (Frames cur todo)
| rep_ended r : rest (R r) = [] -> fin (R r) = EOF -> Nleft r = 4%N -> rep r Ended.

Lemma app_eq_prefix {A} (l1 r1 l2 r2 : list A) :
  l1 ++ r1 = l2 ++ r2 -> length l1 = length l2 -> l1 = l2 /\ r1 = r2.
Proof.
  revert l2; induction l1 as [|x l1 IH]; intros [|y l2] E L; try discriminate; auto.
  inversion E; subst. injection L as L. destruct (IH _ H1 L); subst; auto.
Qed.

Lemma app_prefix_le {A} (d t cur s : list A) :
  d ++ t = cur ++ s -> length d <= length cur -> exists cur', cur = d ++ cur' /\ t = cur' ++ s.
Proof.
  revert cur; induction d as [|x d IH]; intros cur E L.
  - exists cur; auto.
  - destruct cur as [|y cur]; [cbn in L; lia|]. inversion E; subst. cbn in L.
    destruct (IH cur) as (c' & -> & ->); [assumption|lia|]. exists c'; auto.
Qed.

Lemma step_refines r s c : rep r s ->
  exists s', astep s c (fst (cstep r c)) s' /\ rep (snd (cstep r c)) s'.
Proof.
  intros H. destruct c as [|k]; cbn [cstep].
  - inversion H as [r0 cur todo t E St N B F | r0 E F N]; subst.
    + destruct cur as [|c cur].
      * pose proof (ReadHeader_spec r N) as S. cbn [app] in E. revert E.
        inversion St as [|f m s' ms (h & Hh & ->) St' Es Et]; subst; intros E.
        -- destruct (ReadHeader r) as [[u|e] r']; cbn [fst snd].
           ++ destruct S as (h & Hh & A & _). rewrite E in A. apply header_length in Hh.
              destruct h; [discriminate Hh|discriminate A].
           ++ destruct S as [(h & sz & Hh & A & _)|(_ & A & B' & C & D)].
              ** rewrite E in A. apply header_length in Hh.
                 destruct h; [discriminate Hh|discriminate A].
              ** rewrite F, E in D. subst e. eexists; split; [apply a_header_eof|].
                 constructor; [assumption|congruence|]. rewrite C, E. reflexivity.
        -- inversion B as [|? ? Bm Bt]; subst.
           destruct (ReadHeader r) as [[u|e] r']; cbn [fst snd].
           ++ destruct S as (h' & Hh' & A & Fi & M).
              rewrite E, <- app_assoc in A. symmetry in A.
              apply app_eq_prefix in A; [|rewrite (header_length _ _ Hh), (header_length _ _ Hh'); reflexivity].
              destruct A as [-> A].
              assert (Nleft r' = N.of_nat (length m)) as Nm.
              { apply header_decode in Hh'. apply header_decode in Hh. congruence. }
              eexists; split; [apply a_header|].
              econstructor; eauto. congruence.
           ++ exfalso. destruct S as [(h' & sz & Hh' & A & Fi & M & _)|(L & _)].
              ** rewrite E, <- app_assoc in A. symmetry in A.
                 apply app_eq_prefix in A; [|rewrite (header_length _ _ Hh), (header_length _ _ Hh'); reflexivity].
                 destruct A as [-> _]. apply header_decode in Hh'. apply header_decode in Hh.
                 unfold bounded in Bm. lia.
              ** rewrite E, !app_length, (header_length _ _ Hh) in L. lia.
      * rewrite ReadHeader_early by (rewrite N; cbn; lia). cbn [fst snd].
        eexists; split; [apply a_header_early|]. econstructor; eauto.
    + rewrite ReadHeader_early by (rewrite N; lia). cbn [fst snd].
      eexists; split; [apply a_header_ended|]. constructor; auto.
  - pose proof (lr_read_spec k r) as S.
    destruct (lr_read k r) as [[bs [e|]] r'].
    + destruct S as (-> & -> & S).
      inversion H as [r0 cur todo t E St N B F | r0 E F N]; subst; cbn [fst snd].
      * destruct cur as [|c cur].
        -- destruct S as [(_ & ->)|(S & _)]; [|contradiction].
           eexists; split; [apply a_read_end|]. econstructor; eauto.
        -- exfalso. destruct S as [(S & _)|(_ & S & _)]; [cbn in N; lia|]. rewrite E in S. discriminate S.
      * destruct S as [(S & _)|(_ & _ & -> & K)]; [lia|]. rewrite F.
        eexists; split; [apply a_read_ended; assumption|]. constructor; auto.
    + destruct S as (A & B & C & D & Nn & L & Z & Z0).
      inversion H as [r0 cur todo t E St N Bd F | r0 E F N]; subst; cbn [fst snd].
      * destruct bs as [|x bs].
        -- pose proof (Z eq_refl) as ->. rewrite (Z0 eq_refl) in *.
           destruct cur as [|c cur]; [cbn in N; lia|].
           eexists; split; [apply a_read_0|]. econstructor; eauto.
        -- rewrite E in B. symmetry in B. apply app_prefix_le in B; [|lia].
           destruct B as (cur' & -> & Et).
           eexists; split; [apply a_read; [discriminate|assumption]|].
           econstructor; eauto; [|congruence]. rewrite Nn, N, app_length. lia.
      * rewrite E in B. symmetry in B. apply app_eq_nil in B. destruct B as [-> B].
        pose proof (Z eq_refl) as ->. rewrite (Z0 eq_refl) in *.
        eexists; split; [apply a_read_ended_0|]. constructor; auto.
Qed.

Lemma run_refines cs : forall r s, rep r s ->
  exists s', arun s (fst (crun r cs)) s' /\ rep (snd (crun r cs)) s'.
Proof.
  induction cs as [|c cs IH]; intros r s H; cbn [crun].
  - exists s; split; [constructor|assumption].
  - destruct (step_refines r s c H) as (s1 & A & B).
    destruct (cstep r c) as [rp r1]. cbn [fst snd] in *.
    destruct (IH _ _ B) as (s2 & C & D). destruct (crun r1 cs) as [tr r2]. cbn [fst snd] in *.
    exists s2; split; [econstructor; eauto|assumption].
Qed.

Lemma rep_init stream ms sch :
  is_stream stream ms -> Forall bounded ms ->
  rep (NewFrameLimitedReader (mkSrc stream EOF sch 0)) (Frames [] ms).
Proof. intros; econstructor; cbn; eauto. Qed.

(** ** Whole sessions *)
Lemma read_body_ok sizes todo : forall n cur, length cur <= n -> forall fuel t acc r,
  rep r (Frames cur todo) -> length cur < fuel ->
  exists t' r', read_body fuel sizes t acc r = Some (acc ++ cur, t', r') /\ rep r' (Frames [] todo).
Proof.
  induction n as [|n IH]; intros cur Hc fuel t acc r H Hf; (destruct fuel as [|fuel]; [lia|]);
    cbn [read_body]; destruct (step_refines r _ (CRead (S (sizes t))) H) as (s1 & A & B);
    destruct (cstep r (CRead (S (sizes t)))) as [rp r1]; cbn [fst snd] in *.
  - destruct cur; [|cbn in Hc; lia]. inversion A as [| | | |d cur0 todo0 k D L Ed | | | |]; subst.
    + apply app_eq_nil in Ed. destruct Ed as [-> ->]; cbn in D; congruence.
    + rewrite app_nil_r. eauto.
  - inversion A as [| | | |d cur0 todo0 k D L Ed | | | |]; subst.
    + rewrite app_length in Hc, Hf. destruct d as [|x d]; [contradiction|]. cbn [length] in Hc, Hf.
      destruct (IH cur0 ltac:(lia) fuel (S t) (acc ++ x :: d) r1 B ltac:(lia)) as (t' & r' & E & G).
      rewrite <- app_assoc in E. eauto.
    + rewrite app_nil_r. eauto.
Qed.

Definition total_length (ms : list str) : nat := fold_right (fun m n => 2 + length m + n) 2 ms.

Lemma read_all_ok sizes ms : forall fuel t r,
  rep r (Frames [] ms) -> total_length ms <= fuel ->
  read_all fuel sizes t r = Some (ms, Io EOF).
Proof.
  induction ms as [|m ms IH]; intros fuel t r H Hf;
    (destruct fuel as [|fuel]; [unfold total_length in Hf; cbn [fold_right] in Hf; lia|]); cbn [read_all];
    destruct (step_refines r _ CHeader H) as (s1 & A & B);
    destruct (cstep r CHeader) as [rp r1]; cbn [fst snd] in *; inversion A; subst.
  - reflexivity.
  - unfold total_length in Hf; cbn [fold_right] in Hf; fold (total_length ms) in Hf.
    destruct (read_body_ok sizes ms (length m) m (le_n _) fuel t [] r1 B ltac:(lia)) as (t' & r' & E & G).
    rewrite E. cbn [app]. rewrite (IH fuel t' r' G); [reflexivity|]. lia.
Qed.

(** ** Writer *)
Lemma sink_write_all p o : sink_write p (mkSink o None) = (length p, None, mkSink (o ++ p) None).
Proof. reflexivity. Qed.

Definition frame_bytes (m : str) : str := le32_encode (N.of_nat (length m)) ++ m.

Lemma frame_bytes_is_frame m : (N.of_nat (length m) < 2 ^ 32)%N -> is_frame (frame_bytes m) m.
Proof. intros. exists (le32_encode (N.of_nat (length m))). split; [apply encode_is_header; assumption|reflexivity]. Qed.

Lemma WriteFrame_good m o : (N.of_nat (length m) < 2 ^ 32)%N ->
  WriteFrame (mkFbw m (mkSink o None)) = (Ok tt, mkFbw [] (mkSink (o ++ frame_bytes m) None)).
Proof.
  intros H. unfold WriteFrame, frame_bytes. cbn [buf W]. rewrite N.mod_small by assumption.
  rewrite sink_write_all. destruct m as [|c m].
  - cbn [buffer_write_to]. cbn [length]. rewrite app_nil_r. reflexivity.
  - unfold buffer_write_to. rewrite sink_write_all. rewrite N.eqb_refl, <- app_assoc. reflexivity.
Qed.

Lemma WriteFrame_buf w : buf (snd (WriteFrame w)) = [].
Proof.
  unfold WriteFrame. destruct (sink_write _ _) as [[n1 [e1|]] s1]; [reflexivity|].
  destruct (buffer_write_to _ _) as [[n2 [e2|]] s2]; [reflexivity|].
  destruct (N.eqb _ _); reflexivity.
Qed.

Lemma WriteFrame_too_long w : (2 ^ 32 <= N.of_nat (length (buf w)))%N ->
  exists e, fst (WriteFrame w) = Err e.
Proof.
  intros H. unfold WriteFrame. set (size := (N.of_nat (length (buf w)) mod 2 ^ 32)%N).
  assert (size < 2 ^ 32)%N by (apply N.mod_lt; discriminate).
  destruct (sink_write _ _) as [[n1 [e1|]] s1]; [eexists; reflexivity|].
  unfold buffer_write_to. destruct (buf w) as [|c m] eqn:Eb; [cbn in H; lia|].
  unfold sink_write. destruct (budget s1) as [k|].
  - destruct (Nat.leb _ _); [|eexists; reflexivity].
    destruct (N.eqb_spec (N.of_nat (length (c :: m))) size); [lia|eexists; reflexivity].
  - destruct (N.eqb_spec (N.of_nat (length (c :: m))) size); [lia|eexists; reflexivity].
Qed.

Lemma le32_encode_length v : length (le32_encode v) = 4.
Proof. reflexivity. Qed.

Lemma WriteFrame_budget m o k : (N.of_nat (length m) < 2 ^ 32)%N ->
  let '(res, w') := WriteFrame (mkFbw m (mkSink o (Some k))) in
  out (W w') = o ++ firstn k (frame_bytes m) /\
  (res = Ok tt <-> length (frame_bytes m) <= k).
Proof.
  intros H. unfold WriteFrame, frame_bytes. cbn [buf W]. rewrite N.mod_small by assumption.
  rewrite app_length, le32_encode_length.
  unfold sink_write at 1. cbn [budget]. rewrite le32_encode_length.
  destruct (Nat.leb_spec 4 k) as [Hk|Hk].
  - cbn [out]. rewrite firstn_app, le32_encode_length, firstn_all2 by (rewrite le32_encode_length; lia).
    destruct m as [|c m].
    + cbn [buffer_write_to length N.of_nat N.eqb W out]. rewrite firstn_nil, app_nil_r.
      split; [reflexivity|]. split; [lia|reflexivity].
    + unfold buffer_write_to, sink_write. cbn [budget].
      destruct (Nat.leb_spec (length (c :: m)) (k - 4)).
      * rewrite N.eqb_refl. cbn [W out]. rewrite firstn_all2 by lia. rewrite <- app_assoc.
        split; [reflexivity|]. split; [lia|reflexivity].
      * cbn [W out]. rewrite <- app_assoc. split; [reflexivity|]. split; [discriminate|lia].
  - cbn [W out]. rewrite firstn_app, le32_encode_length.
    replace (k - 4) with 0 by lia. cbn [firstn]. rewrite app_nil_r.
    split; [reflexivity|]. split; [discriminate|lia].
Qed.

Definition fits32 (m : str) : Prop := (N.of_nat (length m) < 2 ^ 32)%N.

Lemma history cs : forall pend o,
  Forall fits32 (fst (messages pend cs)) ->
  fold_left wstep cs (mkFbw pend (mkSink o None)) =
  mkFbw (snd (messages pend cs)) (mkSink (o ++ concat (map frame_bytes (fst (messages pend cs)))) None).
Proof.
  induction cs as [|c cs IH]; intros pend o H; cbn [fold_left messages].
  - cbn. rewrite app_nil_r. reflexivity.
  - destruct c as [p| |]; cbn [wstep messages] in *.
    + apply IH. assumption.
    + destruct (messages [] cs) as [ms p] eqn:E. cbn [fst snd] in *.
      inversion H; subst. rewrite WriteFrame_good by assumption. cbn [snd].
      rewrite IH by (rewrite E; assumption). rewrite E. cbn [fst snd map concat].
      rewrite <- app_assoc. reflexivity.
    + apply IH. assumption.
Qed.

Lemma concat_frames ms : Forall fits32 ms -> is_stream (concat (map frame_bytes ms)) ms.
Proof.
  induction ms as [|m ms IH]; intros H; cbn [map concat]; [constructor|].
  inversion H; subst. constructor; [apply frame_bytes_is_frame; assumption|auto].
Qed.

Lemma is_frame_bytes f m : fits32 m -> is_frame f m -> f = frame_bytes m.
Proof.
  intros F (h & Hh & ->). unfold frame_bytes. f_equal.
  apply (header_unique _ _ _ Hh). apply encode_is_header. exact F.
Qed.

Lemma bounded_fits m : bounded m -> fits32 m.
Proof. unfold bounded, fits32, MaxInSize. change (2 ^ 32)%N with 4294967296%N. lia. Qed.
