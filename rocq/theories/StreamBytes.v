(** Lemmas about sessions: what is decoded from any stream *)
From Coq Require Import ZifyBool ZifyNat ZifyN.
From Verif Require Import GoBase JsonSpec Frame FrameSpec FrameProofs Stream StreamSpec StreamProofs StreamMain StreamSound.

(** ** Decoded texts are JSON values *)
Lemma goes_value x s : goes reset x s -> fst (sstep s 32) = scanEnd -> value_text x.
Proof.
  intros G E. assert (H : scan_bytes reset (x ++ [" "%char]) = SEnd (length x)).
  { rewrite scan_app. unfold goes in G. rewrite G. cbn [scan_bytes]. change (N_of_ascii " "%char) with 32%N. destruct (sstep s 32) as [k s']. cbn in E. subst k. cbn [shift]. rewrite Nat.add_0_r. reflexivity. }
  apply scan_value in H. rewrite firstn_app, Nat.sub_diag, firstn_all, app_nil_r in H. exact H.
Qed.
Lemma readValue_sound fuel : forall s n err d r k d' r', n <= length (unread d) -> goes reset (firstn n (unread d)) s -> readValue fuel s n err d r = (Ok k, d', r') -> value_text (firstn k (unread d')).
Proof.
  induction fuel as [|fuel IH]; intros s n err d r k d' r' Ln G H; cbn [readValue] in H; rewrite skip_more in H; rewrite unread_length in H.
  all: assert (A : scan_bytes reset (unread d) = shift n (scan_bytes s (skipn n (unread d)))) by (rewrite <- (firstn_skipn n (unread d)) at 1; rewrite scan_app; unfold goes in G; rewrite G, firstn_length_le by exact Ln; reflexivity).
  all: destruct (scan_bytes s (skipn n (unread d))) as [j| |s'] eqn:E; [injection H as <- <- <-; cbn [shift] in A; apply scan_value in A; exact A|discriminate H|]; cbn [shift] in A.
  all: destruct err as [[| |]|]; try discriminate H.
  1, 2: destruct (sstep s' 32) as [c s2] eqn:E2; destruct c; try discriminate H; injection H as <- <- <-; rewrite firstn_all; eapply goes_value; [exact A|rewrite E2; reflexivity].
  destruct (refill d r) as [[err' d2] r2] eqn:Er. eapply IH; [| |exact H].
  - unfold refill in Er. destruct (lr_read _ r) as [[bs e] r3]. injection Er as <- <- <-. unfold unread. cbn [scanp dbuf skipn]. rewrite app_length. lia.
  - unfold refill in Er. destruct (lr_read _ r) as [[bs e] r3]. injection Er as <- <- <-. unfold unread at 2. cbn [scanp dbuf skipn]. fold (unread d). rewrite firstn_app, Nat.sub_diag, firstn_all, app_nil_r. exact A.
Qed.
Lemma Decode_sound d r t d' r' : Decode d r = (Ok t, d', r') -> value_text t.
Proof.
  unfold Decode. destruct (derr d); [discriminate|]. destruct (readValue _ _ _ _ d r) as [[[k|e] d2] r2] eqn:E; [|discriminate]. intros H. injection H as <- <- <-.
  eapply readValue_sound; [| |exact E]; [lia|reflexivity].
Qed.
Lemma message_sound unmarshal d r t d' r' : ReadMessage unmarshal d r = (Ok t, d', r') -> value_text t /\ unmarshal t = true.
Proof.
  unfold ReadMessage. destruct (ReadHeader r) as [[u|e] r2]; [|discriminate]. destruct (Decode d r2) as [[[t2|e2] d2] r3] eqn:E; [|discriminate].
  destruct (unmarshal t2) eqn:U; [|discriminate]. intros H. injection H as <- <- <-. split; [eapply Decode_sound, E|exact U].
Qed.
Lemma session_sound unmarshal fuel : forall d r ts e, session fuel unmarshal d r = Some (ts, e) -> Forall (fun t => value_text t /\ unmarshal t = true) ts.
Proof.
  induction fuel as [|fuel IH]; intros d r ts e H; [discriminate|]. cbn [session] in H. destruct (ReadMessage unmarshal d r) as [[[t|e2] d2] r2] eqn:E.
  - destruct (session fuel unmarshal d2 r2) as [[l e2]|] eqn:E2; [|discriminate]. injection H as <- <-. constructor; [eapply message_sound, E|eapply IH, E2].
  - injection H as <- <-. constructor.
Qed.

(** ** They are consecutive bytes of bodies of frames *)
Lemma stream_snoc s ms f m : is_stream s ms -> is_frame f m -> is_stream (s ++ f) (ms ++ [m]).
Proof.
  induction 1 as [|f0 m0 s ms F _ IH]; intros H; cbn [app].
  - replace f with (f ++ []) by apply app_nil_r. constructor; [exact H|constructor].
  - rewrite <- app_assoc. constructor; [exact F|]. apply IH, H.
Qed.
(** [x]: all bytes of bodies that are fetched by the time the reader is [r] *)
Definition got (stream x : str) (r : flr) : Prop :=
  exists s ms, is_stream s ms /\
    ((Nleft r = 0%N /\ stream = s ++ rest (R r) /\ x = concat ms) \/
     (exists h m, is_header h (N.of_nat (length m) + Nleft r)%N /\ stream = s ++ h ++ m ++ rest (R r) /\ x = concat ms ++ m)).
Lemma got_bodies stream x r : got stream x r -> bodies stream x.
Proof.
  intros (s & ms & Hs & [(_ & -> & ->)|(h & m & Hh & -> & ->)]); exists s, ms, (rest (R r)); (split; [exact Hs|]); [left; auto|right].
  exists h, (N.of_nat (length m) + Nleft r)%N, m. split; [exact Hh|]. split; [lia|]. auto.
Qed.
Lemma got_header stream x r u r' : got stream x r -> ReadHeader r = (Ok u, r') -> got stream x r'.
Proof.
  intros G H. destruct (N.eq_dec (Nleft r) 0) as [Z|Z]; [|rewrite (ReadHeader_early r Z) in H; discriminate]. pose proof (ReadHeader_spec r Z) as S. rewrite H in S. destruct S as (h & Hh & Er & _).
  assert (K : exists s ms, is_stream s ms /\ stream = s ++ rest (R r) /\ x = concat ms).
  { destruct G as (s & ms & Hs & [(_ & -> & ->)|(h0 & m & H0 & -> & ->)]); [eauto|]. rewrite Z, N.add_0_r in H0. exists (s ++ h0 ++ m), (ms ++ [m]). split; [apply stream_snoc; [exact Hs|exists h0; auto]|].
    rewrite <- !app_assoc, concat_app. cbn [concat]. rewrite app_nil_r. auto. }
  destruct K as (s & ms & Hs & -> & ->). exists s, ms. split; [exact Hs|]. right. exists h, []. split; [cbn; exact Hh|]. rewrite Er, app_nil_r. auto.
Qed.
Lemma got_refill stream c d r e d' r' : got stream (c ++ unread d) r -> refill d r = (e, d', r') -> got stream (c ++ unread d') r'.
Proof.
  intros G H. unfold refill in H. fold (unread d) in H. set (k := _ - _) in H. pose proof (lr_read_spec k r) as S. destruct (lr_read k r) as [[bs er] r2]. injection H as <- <- <-. unfold unread at 1. cbn [scanp dbuf skipn]. destruct er as [er|].
  - destruct S as (-> & -> & _). rewrite app_nil_r. exact G.
  - destruct S as (Nz & Es & _ & Lb & En & _). destruct G as (s & ms & Hs & [(Z & _)|(h & m & Hh & -> & Ex)]); [contradiction|]. exists s, ms. split; [exact Hs|]. right. exists h, (m ++ bs).
    split; [rewrite app_length; replace (N.of_nat (length m + length bs) + Nleft r2)%N with (N.of_nat (length m) + Nleft r)%N by lia; exact Hh|]. rewrite Es, !app_assoc, Ex. auto.
Qed.
Lemma got_value stream c fuel : forall s n err d r k d' r', got stream (c ++ unread d) r -> readValue fuel s n err d r = (Ok k, d', r') -> got stream (c ++ unread d') r'.
Proof.
  induction fuel as [|fuel IH]; intros s n err d r k d' r' G H; cbn [readValue] in H; destruct (scan_bytes _ _) as [j| |s'].
  all: try (injection H as <- <- <-; exact G); try discriminate H.
  all: destruct err as [[| |]|]; try discriminate H.
  1, 2: destruct (sstep s' 32) as [q s2]; destruct q; try discriminate H; injection H as <- <- <-; exact G.
  destruct (refill d r) as [[err' d2] r2] eqn:Er. eapply IH; [|exact H]. eapply got_refill; [exact G|exact Er].
Qed.
Lemma got_message stream c unmarshal d r t d' r' : got stream (c ++ unread d) r -> ReadMessage unmarshal d r = (Ok t, d', r') -> got stream ((c ++ t) ++ unread d') r'.
Proof.
  intros G. unfold ReadMessage. destruct (ReadHeader r) as [[u|e] r2] eqn:Eh; [|discriminate]. pose proof (got_header _ _ _ _ _ G Eh) as G2. destruct (Decode d r2) as [[[t2|e2] d2] r3] eqn:E; [|discriminate].
  destruct (unmarshal t2); [|discriminate]. intros H. injection H as <- <- <-. unfold Decode in E. destruct (derr d); [discriminate|]. destruct (readValue _ _ _ _ d r2) as [[[k|e] d3] r4] eqn:Ev; [|discriminate]. injection E as <- <- <-.
  pose proof (got_value _ _ _ _ _ _ _ _ _ _ _ G2 Ev) as G3. rewrite <- app_assoc. unfold unread at 1. cbn [scanp dbuf]. rewrite skip_more. fold (unread d3). rewrite firstn_skipn. exact G3.
Qed.
Lemma session_got stream unmarshal fuel : forall c d r ts e, got stream (c ++ unread d) r -> session fuel unmarshal d r = Some (ts, e) -> exists z, bodies stream (c ++ concat ts ++ z).
Proof.
  induction fuel as [|fuel IH]; intros c d r ts e G H; [discriminate|]. cbn [session] in H. destruct (ReadMessage unmarshal d r) as [[[t|e2] d2] r2] eqn:E.
  - destruct (session fuel unmarshal d2 r2) as [[l e2]|] eqn:E2; [|discriminate]. injection H as <- <-. destruct (IH (c ++ t) d2 r2 l e2 (got_message _ _ _ _ _ _ _ _ G E) E2) as (z & B). exists z. cbn [concat]. rewrite <- !app_assoc in *. exact B.
  - injection H as <- <-. exists (unread d). eapply got_bodies. exact G.
Qed.
Lemma session_bodies unmarshal stream fin sch fuel ts e : session fuel unmarshal NewDecoder (NewFrameLimitedReader (mkSrc stream fin sch 0)) = Some (ts, e) -> exists z, bodies stream (concat ts ++ z).
Proof.
  intros H. eapply (session_got stream unmarshal fuel [] NewDecoder); [|exact H]. exists [], []. split; [constructor|]. left. auto.
Qed.
Lemma session_values unmarshal stream fin sch fuel ts e : session fuel unmarshal NewDecoder (NewFrameLimitedReader (mkSrc stream fin sch 0)) = Some (ts, e) -> Forall (fun t => value_text t /\ unmarshal t = true) ts.
Proof. apply session_sound. Qed.

(** ** A session ends *)
Lemma refill_any d r e d' r' : roomy d -> refill d r = (e, d', r') -> roomy d' /\ length (rest (R r')) <= length (rest (R r)) /\ (e = None -> length (rest (R r')) < length (rest (R r))).
Proof.
  intros Rm. unfold refill. fold (unread d). set (cap := if _ : bool then _ else _).
  assert (Lu : length (unread d) <= dcap d) by (unfold unread, roomy in *; rewrite skipn_length; lia).
  assert (K : length (unread d) < cap) by (unfold cap, minRead; destruct (Nat.ltb_spec (dcap d - length (unread d)) 512); lia).
  pose proof (lr_read_spec (cap - length (unread d)) r) as S. destruct (lr_read (cap - length (unread d)) r) as [[bs [e'|]] r2]; intros H; injection H as <- <- <-.
  - destruct S as (-> & -> & _). unfold roomy. cbn [dbuf dcap]. rewrite app_nil_r. split; [lia|]. split; [lia|discriminate].
  - destruct S as (_ & Es & _ & _ & _ & Lk & Nb & _). rewrite Es, app_length. unfold roomy. cbn [dbuf dcap]. rewrite app_length. split; [lia|]. split; [lia|]. intros _. destruct bs; [specialize (Nb eq_refl); lia|cbn [length]; lia].
Qed.
Lemma value_fuel fuel : forall s n err d r, roomy d -> (err = None -> length (rest (R r)) < fuel) ->
  fst (fst (readValue fuel s n err d r)) <> Err EFuel /\ roomy (snd (fst (readValue fuel s n err d r))) /\ length (rest (R (snd (readValue fuel s n err d r)))) <= length (rest (R r)).
Proof.
  induction fuel as [|fuel IH]; intros s n err d r Rm L; cbn [readValue]; destruct (scan_bytes _ _) as [j| |s']; try (cbn [fst snd]; split; [discriminate|auto]).
  all: destruct err as [[| |]|]; try (specialize (L eq_refl); lia); try (cbn [fst snd]; split; [discriminate|auto]).
  1, 2: destruct (sstep s' 32) as [q s2]; destruct q; cbn [fst snd]; split; try discriminate; auto.
  destruct (refill d r) as [[e d2] r2] eqn:Er. destruct (refill_any _ _ _ _ _ Rm Er) as (Rm2 & L2 & L3). specialize (IH s' (length (dbuf d) - scanp d) e d2 r2 Rm2). destruct IH as (A & B & C); [intros Ee; specialize (L eq_refl); specialize (L3 Ee); lia|].
  split; [exact A|]. split; [exact B|]. lia.
Qed.
(** The error is none of those that stay for lack of fuel. *)
Definition proper (e : rerr) : Prop := e <> EDecode EFuel /\ e <> EHeader FuelOut.
Definition fresh (d : decoder) : Prop := roomy d /\ derr d = None.
Lemma value_err fuel : forall s n err d r k d' r', readValue fuel s n err d r = (Ok k, d', r') -> derr d' = derr d.
Proof.
  induction fuel as [|fuel IH]; intros s n err d r k d' r' H; cbn [readValue] in H; destruct (scan_bytes _ _) as [j| |s']; try (injection H as <- <- <-; reflexivity); try discriminate H.
  all: destruct err as [[| |]|]; try discriminate H.
  1, 2: destruct (sstep s' 32) as [q s2]; destruct q; try discriminate H; injection H as <- <- <-; reflexivity.
  destruct (refill d r) as [[e d2] r2] eqn:Er. apply IH in H. rewrite H. unfold refill in Er. destruct (lr_read _ r) as [[bs e2] r3]. injection Er as <- <- <-. reflexivity.
Qed.
Lemma message_proper unmarshal d r : fresh d ->
  match ReadMessage unmarshal d r with
  | (Ok _, d', r') => fresh d' /\ length (rest (R r')) + 4 <= length (rest (R r))
  | (Err e, _, _) => proper e
  end.
Proof.
  intros [Rm Ed]. unfold ReadMessage. destruct (N.eq_dec (Nleft r) 0) as [Z|Z]; [|rewrite (ReadHeader_early r Z); split; discriminate].
  pose proof (ReadHeader_spec r Z) as S. destruct (ReadHeader r) as [[u|e] r2].
  - destruct S as (h & Hh & Er & _). apply header_length in Hh. assert (L : length (rest (R r)) = 4 + length (rest (R r2))) by (rewrite Er, app_length, Hh; reflexivity).
    unfold Decode. rewrite Ed. destruct (value_fuel (2 + length (rest (R r2))) reset 0 None d r2 Rm ltac:(lia)) as (A & B & C).
    destruct (readValue _ _ _ _ d r2) as [[[k|e] d3] r3] eqn:E; cbn [fst snd] in *; [|split; congruence]. apply value_err in E. destruct (unmarshal _); [|split; discriminate].
    split; [split; [exact B|cbn [derr]; rewrite E; exact Ed]|]. lia.
  - destruct S as [(h & size & _ & _ & _ & _ & _ & ->)|(_ & _ & _ & _ & ->)]; split; discriminate.
Qed.
Lemma session_end unmarshal fuel : forall d r, fresh d -> length (rest (R r)) / 4 < fuel -> exists ts e, session fuel unmarshal d r = Some (ts, e) /\ proper e /\ 4 * length ts <= length (rest (R r)).
Proof.
  induction fuel as [|fuel IH]; intros d r F L; [lia|]. cbn [session]. pose proof (message_proper unmarshal d r F) as M. destruct (ReadMessage unmarshal d r) as [[[t|e] d2] r2].
  - destruct M as (F2 & L2). assert (L3 : length (rest (R r2)) / 4 < fuel). { pose proof (Nat.div_le_mono _ _ 4 ltac:(lia) L2) as D. rewrite <- (Nat.mul_1_l 4) in D at 1. rewrite Nat.div_add in D by lia. lia. }
    destruct (IH d2 r2 F2 L3) as (ts & e & -> & P & Ln). exists (t :: ts), e. split; [reflexivity|]. split; [exact P|]. cbn [length]. lia.
  - exists [], e. split; [reflexivity|]. split; [exact M|]. cbn. lia.
Qed.
Lemma session_total unmarshal stream fin sch fuel : length stream / 4 < fuel ->
  exists ts e, session fuel unmarshal NewDecoder (NewFrameLimitedReader (mkSrc stream fin sch 0)) = Some (ts, e) /\ e <> EDecode EFuel /\ e <> EHeader FuelOut /\ 4 * length ts <= length stream.
Proof.
  intros L. destruct (session_end unmarshal fuel NewDecoder (NewFrameLimitedReader (mkSrc stream fin sch 0))) as (ts & e & E & (A & B) & C); [split; [unfold roomy; cbn; lia|reflexivity]|exact L|]. exists ts, e. auto.
Qed.
