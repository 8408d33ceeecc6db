(** Lemmas about sessions over a part of a stream. *)
From Coq Require Import ZifyBool ZifyNat ZifyN.
From Verif Require Import GoBase JsonSpec Frame FrameSpec FrameProofs Stream StreamSpec StreamProofs StreamMain StreamSound StreamBytes ParseProofs BackendSpec.

Lemma header_same h n n' : is_header h n -> is_header h n' -> n = n'.
Proof. intros (a & c & d & e & -> & ->) (a' & c' & d' & e' & E & ->). injection E as <- <- <- <-. reflexivity. Qed.
Lemma header_four h n : is_header h n -> length h = 4.
Proof. intros (a & c & d & e & -> & _). reflexivity. Qed.
Lemma split_same (x y x' y' : str) : x ++ y = x' ++ y' -> length x = length x' -> x = x' /\ y = y'.
Proof. revert x'. induction x as [|c x IH]; intros [|c' x'] E L; try discriminate L; [auto|]. injection E as -> E. injection L as L. destruct (IH _ E L) as [-> ->]. auto. Qed.
Lemma shorter (x y x' y' : str) : x ++ y = x' ++ y' -> length x <= length x' -> beginning x x'.
Proof.
  revert x'. induction x as [|c x IH]; intros x' E L; [exists x'; reflexivity|]. destruct x' as [|c' x']; [cbn in L; lia|]. injection E as -> E. cbn in L. destruct (IH _ E ltac:(lia)) as (z & ->). exists z. reflexivity.
Qed.
(** Bodies of frames of a beginning of a stream *)
Lemma bodies_cut stream ms z x : is_stream stream ms -> beginning z stream -> bodies z x -> beginning x (concat ms).
Proof.
  intros St (rest & E) (s & ms' & y & S & H). revert stream ms St z rest E x H. induction S as [|f m s ms' (h & Hh & ->) S IH]; intros stream ms St z rest E x H.
  - destruct H as [(_ & ->)|(h & size & m & Hh & Lm & -> & ->)]; [exists (concat ms); reflexivity|]. cbn [app concat] in *. destruct St as [|f0 m0 s0 ms (h0 & H0 & ->) St].
    + destruct h; [destruct Hh as (? & ? & ? & ? & X & _); discriminate X|discriminate E].
    + rewrite <- !app_assoc in E. symmetry in E. destruct (split_same _ _ _ _ E ltac:(rewrite (header_four _ _ Hh), (header_four _ _ H0); reflexivity)) as [-> E']. pose proof (header_same _ _ _ Hh H0) as ->.
      assert (L : length m <= length m0) by lia. destruct (shorter _ _ _ _ E' L) as (q & ->). cbn [concat]. exists (q ++ concat ms). rewrite <- app_assoc. reflexivity.
  - assert (K : exists z', z = h ++ m ++ z') by (destruct H as [(-> & _)|(h' & size & m' & _ & _ & -> & _)]; eexists; rewrite <- !app_assoc; reflexivity). destruct K as (z' & Ez). subst z.
    destruct St as [|f0 m0 s0 ms (h0 & H0 & ->) St]; [destruct h; [destruct Hh as (? & ? & ? & ? & X & _); discriminate X|discriminate E]|].
    rewrite <- !app_assoc in E. symmetry in E. destruct (split_same _ _ _ _ E ltac:(rewrite (header_four _ _ Hh), (header_four _ _ H0); reflexivity)) as [-> E']. pose proof (header_same _ _ _ Hh H0) as Em.
    destruct (split_same _ _ _ _ E' ltac:(lia)) as [-> E2]. symmetry in E2.
    assert (K : exists x', x = m0 ++ x' /\ ((z' = s ++ y /\ x' = concat ms') \/ (exists h size m, is_header h size /\ (N.of_nat (length m) <= size)%N /\ z' = s ++ h ++ m ++ y /\ x' = concat ms' ++ m))).
    { destruct H as [(Ez & ->)|(h' & size & m' & H' & L' & Ez & ->)]; rewrite <- !app_assoc in Ez; apply app_inv_head, app_inv_head in Ez; cbn [concat]; rewrite <- ?app_assoc; eexists; (split; [reflexivity|]); [left; auto|right; eauto 10]. }
    destruct K as (x' & -> & K). destruct (IH _ _ St _ _ E2 _ K) as (q & Eq). cbn [concat]. exists q. rewrite Eq, <- app_assoc. reflexivity.
Qed.
(** Spaces before a text *)
Lemma leading w x w' y c c' : space w -> space w' -> isSpace (N_of_ascii c) = false -> isSpace (N_of_ascii c') = false -> w ++ c :: x = w' ++ c' :: y -> w = w' /\ c = c' /\ x = y.
Proof.
  revert w'. induction w as [|d w IH]; intros w' W W' C C' E; destruct w' as [|d' w']; cbn [app] in E; injection E as -> E.
  - auto.
  - inversion_clear W'. apply space_is in H. congruence.
  - inversion_clear W. apply space_is in H. congruence.
  - inversion_clear W. inversion_clear W'. destruct (IH w') as (-> & -> & ->); auto.
Qed.
Lemma no_text w z x y c : space w -> isSpace (N_of_ascii c) = false -> w = z ++ c :: x ++ y -> False.
Proof. intros W C ->. unfold space in W. rewrite Forall_forall in W. specialize (W c ltac:(apply in_or_app; right; left; reflexivity)). apply space_is in W. congruence. Qed.
(** Texts of values within objects that are separated by spaces *)
Definition spaced (t : str) (m : str * str) : Prop := exists w, space w /\ t = w ++ fst m.
Lemma texts_cut ms : Forall (fun m : str * str => object_text (fst m) /\ space (snd m)) ms -> forall ts w, space w -> Forall value_text ts -> beginning (concat ts) (w ++ concat (map (fun m : str * str => fst m ++ snd m) ms)) ->
  exists k, k <= length ms /\ Forall2 spaced ts (firstn k ms).
Proof.
  induction 1 as [|[t0 s0] ms [Ot Sp] F IH]; intros ts w W V (z & E); (destruct ts as [|t ts]; [exists 0; split; [lia|constructor]|]).
  all: pose proof (Forall_inv V) as (w1 & n & x & W1 & Ln & G & ->); pose proof (Forall_inv_tail V) as V'; clear V.
  - cbn [map concat] in E. rewrite app_nil_r in E. destruct (text_first _ _ G) as (c & x' & -> & C & _). exfalso. eapply (no_text w w1 x' (concat ts ++ z) c W C). rewrite E. cbn [concat]. rewrite <- !app_assoc. reflexivity.
  - cbn [map concat fst snd] in E, Ot, Sp. assert (K : object_text (w1 ++ x)).
    { destruct Ot as (w0 & n0 & x0 & W0 & G0 & L0 & ->). destruct (text_first _ _ G) as (c & x' & -> & C & _).
      assert (E' : (w ++ w0) ++ "{"%char :: (x0 ++ s0 ++ concat (map (fun m : str * str => fst m ++ snd m) ms)) = w1 ++ c :: (x' ++ concat ts ++ z)) by (rewrite <- ?app_assoc in *; cbn [app] in *; rewrite <- ?app_assoc in *; exact E).
      apply leading in E'; [|apply Forall_app; auto|exact W1|reflexivity|exact C]. destruct E' as (<- & <- & _). exists (w ++ w0), n, x'. split; [apply Forall_app; auto|]. auto. }
    assert (E2 : w ++ t0 ++ (s0 ++ concat (map (fun m : str * str => fst m ++ snd m) ms)) = (w1 ++ x) ++ (concat ts ++ z)) by (rewrite <- ?app_assoc in *; exact E).
    destruct (object_scan w t0 (s0 ++ concat (map (fun m : str * str => fst m ++ snd m) ms)) W Ot) as [S1 _]. destruct (object_scan [] (w1 ++ x) (concat ts ++ z) ltac:(constructor) K) as [S2 _]. cbn [app] in S2. rewrite <- E2, S1 in S2. injection S2 as L.
    rewrite app_assoc in E2. destruct (split_same _ _ _ _ E2 L) as [Et E3]. destruct (IH ts s0 Sp V' (ex_intro _ z E3)) as (k & Lk & H). exists (S k). cbn [length firstn]. split; [lia|]. constructor; [exists w; split; [exact W|]; symmetry; exact Et|exact H].
Qed.
(** What is decoded from a beginning of a stream of objects: some of them *)
Lemma session_cut unmarshal stream ms z fin sch fuel ts e : is_stream stream (map (fun m : str * str => fst m ++ snd m) ms) -> Forall (fun m : str * str => object_text (fst m) /\ space (snd m)) ms -> beginning z stream ->
  session fuel unmarshal NewDecoder (NewFrameLimitedReader (mkSrc z fin sch 0)) = Some (ts, e) -> exists k, k <= length ms /\ Forall2 spaced ts (firstn k ms).
Proof.
  intros St F B H. destruct (session_bodies _ _ _ _ _ _ _ H) as (y & Bd). destruct (bodies_cut _ _ _ _ St B Bd) as (q & Eq). apply session_sound in H.
  apply (texts_cut ms F ts []); [constructor|eapply Forall_impl; [|exact H]; intros t [V _]; exact V|]. exists (y ++ q). cbn [app]. rewrite Eq, <- app_assoc. reflexivity.
Qed.

(** ** All messages are read if reading ends where the stream ends *)
Lemma stream_same s ms : is_stream s ms -> forall ms', is_stream s ms' -> ms = ms'.
Proof.
  induction 1 as [|f m s ms (h & Hh & ->) S IH]; intros ms' S'.
  - inversion S' as [|f' m' s' ms2 (h' & Hh' & ->) S2 E]; [reflexivity|]. destruct Hh' as (? & ? & ? & ? & -> & _). discriminate E.
  - inversion S' as [E|f' m' s' ms2 (h' & Hh' & ->) S2 E]; subst; [destruct Hh as (? & ? & ? & ? & -> & _); discriminate E|].
    rewrite <- !app_assoc in E. destruct (split_same _ _ _ _ E ltac:(rewrite (header_four _ _ Hh), (header_four _ _ Hh'); reflexivity)) as [<- E2]. pose proof (header_same _ _ _ Hh Hh') as L.
    destruct (split_same _ _ _ _ E2 ltac:(lia)) as [<- <-]. f_equal. apply IH, S2.
Qed.
(** [n] headers have been read. *)
Definition counted (n : nat) (stream : str) (r : flr) : Prop :=
  exists s ms, is_stream s ms /\
    ((Nleft r = 0%N /\ stream = s ++ rest (R r) /\ length ms = n) \/
     (exists h m, is_header h (N.of_nat (length m) + Nleft r)%N /\ stream = s ++ h ++ m ++ rest (R r) /\ S (length ms) = n)).
Lemma counted_whole n stream r : counted n stream r -> Nleft r = 0%N -> exists s ms, is_stream s ms /\ stream = s ++ rest (R r) /\ length ms = n.
Proof.
  intros (s & ms & Hs & [(_ & -> & <-)|(h0 & m & H0 & -> & <-)]) Z; [eauto|]. rewrite Z, N.add_0_r in H0. exists (s ++ h0 ++ m), (ms ++ [m]). split; [apply stream_snoc; [exact Hs|exists h0; auto]|]. rewrite <- !app_assoc, app_length. cbn [length]. split; [reflexivity|lia].
Qed.
Lemma counted_header n stream r u r' : counted n stream r -> ReadHeader r = (Ok u, r') -> counted (S n) stream r'.
Proof.
  intros G H. destruct (N.eq_dec (Nleft r) 0) as [Z|Z]; [|rewrite (ReadHeader_early r Z) in H; discriminate]. pose proof (ReadHeader_spec r Z) as S. rewrite H in S. destruct S as (h & Hh & Er & _).
  destruct (counted_whole _ _ _ G Z) as (s & ms & Hs & -> & <-). exists s, ms. split; [exact Hs|]. right. exists h, []. split; [cbn; exact Hh|]. rewrite Er. auto.
Qed.
Lemma counted_refill n stream d r e d' r' : counted n stream r -> refill d r = (e, d', r') -> counted n stream r'.
Proof.
  intros G H. unfold refill in H. fold (unread d) in H. set (k := _ - _) in H. pose proof (lr_read_spec k r) as S. destruct (lr_read k r) as [[bs er] r2]. injection H as <- <- <-. destruct er as [er|].
  - destruct S as (-> & -> & _). exact G.
  - destruct S as (Nz & Es & _ & Lb & En & _). destruct G as (s & ms & Hs & [(Z & _)|(h & m & Hh & -> & Ex)]); [contradiction|]. exists s, ms. split; [exact Hs|]. right. exists h, (m ++ bs).
    split; [rewrite app_length; replace (N.of_nat (length m + length bs) + Nleft r2)%N with (N.of_nat (length m) + Nleft r)%N by lia; exact Hh|]. rewrite Es, <- !app_assoc. auto.
Qed.
Lemma counted_value n stream fuel : forall s k0 err d r k d' r', counted n stream r -> readValue fuel s k0 err d r = (Ok k, d', r') -> counted n stream r'.
Proof.
  induction fuel as [|fuel IH]; intros s k0 err d r k d' r' G H; cbn [readValue] in H; destruct (scan_bytes _ _) as [j| |s'].
  all: try (injection H as <- <- <-; exact G); try discriminate H.
  all: destruct err as [[| |]|]; try discriminate H.
  1, 2: destruct (sstep s' 32) as [q s2]; destruct q; try discriminate H; injection H as <- <- <-; exact G.
  destruct (refill d r) as [[err' d2] r2] eqn:Er. eapply IH; [|exact H]. eapply counted_refill; [exact G|exact Er].
Qed.
Lemma counted_message n stream unmarshal d r t d' r' : counted n stream r -> ReadMessage unmarshal d r = (Ok t, d', r') -> counted (S n) stream r'.
Proof.
  intros G. unfold ReadMessage. destruct (ReadHeader r) as [[u|e] r2] eqn:Eh; [|discriminate]. pose proof (counted_header _ _ _ _ _ G Eh) as G2. destruct (Decode d r2) as [[[t2|e2] d2] r3] eqn:E; [|discriminate].
  destruct (unmarshal t2); [|discriminate]. intros H. injection H as <- <- <-. unfold Decode in E. destruct (derr d); [discriminate|]. destruct (readValue _ _ _ _ d r2) as [[[k|e] d3] r4] eqn:Ev; [|discriminate]. injection E as <- <- <-.
  eapply counted_value; [exact G2|exact Ev].
Qed.
Lemma session_counted stream unmarshal fuel : forall n d r ts, counted n stream r -> session fuel unmarshal d r = Some (ts, EHeader (Io EOF)) -> exists ms, is_stream stream ms /\ length ms = n + length ts.
Proof.
  induction fuel as [|fuel IH]; intros n d r ts G H; [discriminate|]. cbn [session] in H. destruct (ReadMessage unmarshal d r) as [[[t|e2] d2] r2] eqn:E.
  - destruct (session fuel unmarshal d2 r2) as [[l e2]|] eqn:E2; [|discriminate]. injection H as <- ->. destruct (IH (S n) d2 r2 l (counted_message _ _ _ _ _ _ _ _ G E) E2) as (ms & Sm & L). exists ms. split; [exact Sm|]. cbn [length]. lia.
  - injection H as <- ->. unfold ReadMessage in E. destruct (ReadHeader r) as [[u|e] r3] eqn:Eh; [destruct (Decode d r3) as [[[t2|e2] d3] r4]; [destruct (unmarshal t2)|]; discriminate|]. injection E as -> _ _.
    destruct (N.eq_dec (Nleft r) 0) as [Z|Z]; [|rewrite (ReadHeader_early r Z) in Eh; discriminate]. pose proof (ReadHeader_spec r Z) as S. rewrite Eh in S. destruct S as [(h & size & _ & _ & _ & _ & _ & X)|(_ & _ & _ & _ & X)]; [discriminate X|].
    destruct (counted_whole _ _ _ G Z) as (s & ms & Hs & -> & <-). exists ms. split; [|rewrite Nat.add_0_r; reflexivity]. destruct (rest (R r)) as [|c0 z0]; [rewrite app_nil_r; exact Hs|]. destruct (fin (R r)); discriminate X.
Qed.
Lemma session_whole unmarshal stream ms sch fin fuel ts : is_stream stream (map (fun m : str * str => fst m ++ snd m) ms) -> Forall (fun m : str * str => object_text (fst m) /\ space (snd m)) ms ->
  session fuel unmarshal NewDecoder (NewFrameLimitedReader (mkSrc stream fin sch 0)) = Some (ts, EHeader (Io EOF)) -> Forall2 spaced ts ms.
Proof.
  intros St F H. destruct (session_cut _ _ _ _ _ _ _ _ _ St F (ex_intro _ [] (eq_sym (app_nil_r _))) H) as (k & Lk & Sp).
  destruct (session_counted stream unmarshal fuel 0 NewDecoder (NewFrameLimitedReader (mkSrc stream fin sch 0)) ts) as (ms' & St' & L); [|exact H|].
  - exists [], []. split; [constructor|]. left. auto.
  - rewrite <- (stream_same _ _ St _ St'), map_length in L. cbn [plus] in L. assert (E : length ts = length (firstn k ms)) by (clear - Sp; induction Sp; cbn; congruence). rewrite firstn_length, <- L in E.
    rewrite firstn_all2 in Sp by lia. exact Sp.
Qed.
