(** Lemmas about sessions: streams that deliver everything, truncated messages. *)
From Coq Require Import ZifyBool ZifyNat ZifyN.
From Verif Require Import GoBase JsonSpec Frame FrameSpec FrameProofs Stream StreamSpec StreamProofs StreamMain.

(** ** Schedule of reads is the same *)
Lemma lr_sched k r : let '(_, _, r') := lr_read k r in sched (R r') = sched (R r).
Proof.
  unfold lr_read. destruct (N.eqb (Nleft r) 0); [reflexivity|]. unfold src_read. destruct (if N.ltb _ _ then _ else _); [reflexivity|]. destruct (rest (R r)); reflexivity.
Qed.
Lemma full_sched fuel : forall need acc r, sched (R (snd (read_full fuel need acc r))) = sched (R r).
Proof.
  induction fuel as [|fuel IH]; intros need acc r; destruct need as [|need]; cbn [read_full]; try reflexivity.
  pose proof (lr_sched (S need) r) as H. destruct (lr_read (S need) r) as [[bs [e|]] r']; [destruct e; exact H|]. rewrite IH. exact H.
Qed.
Lemma header_sched r : sched (R (snd (ReadHeader r))) = sched (R r).
Proof.
  unfold ReadHeader. destruct (negb _); [reflexivity|]. pose proof (full_sched 4 4 [] (mkFlr (R r) 4)) as H. destruct (read_full _ _ _ _) as [[bs|e] r']; [|exact H].
  destruct (N.ltb _ _); exact H.
Qed.

(** ** A stream that delivers as much as is requested *)
Definition greedy (r : flr) : Prop := forall i, length (rest (R r)) <= sched (R r) i.
Lemma greedy_read r m tail k : greedy r -> m <> [] -> 0 < k -> Nleft r = N.of_nat (length m) -> rest (R r) = m ++ tail ->
  exists r', lr_read k r = (firstn k m, None, r') /\ greedy r' /\ Nleft r' = N.of_nat (length (skipn k m)) /\ rest (R r') = skipn k m ++ tail.
Proof.
  intros G N K En Er. unfold lr_read. destruct (N.eqb_spec (Nleft r) 0) as [Z|_]; [destruct m; [congruence|rewrite En in Z; discriminate]|].
  set (k' := if N.ltb (Nleft r) (N.of_nat k) then N.to_nat (Nleft r) else k).
  assert (Hk : 0 < k' /\ k' <= length m /\ firstn k' m = firstn k m /\ skipn k' m = skipn k m).
  { unfold k'. assert (0 < length m) by (destruct m; [congruence|cbn; lia]). destruct (N.ltb_spec (Nleft r) (N.of_nat k)); [|repeat split; lia].
    rewrite En, Nat2N.id. rewrite !firstn_all2, !skipn_all2 by lia. auto. }
  destruct Hk as (K0 & K1 & Kf & Ks). unfold src_read. destruct k' as [|k0] eqn:Ek; [lia|]. rewrite <- Ek in *. clear Ek k0.
  pose proof (G (tick (R r))) as Gt. rewrite Er, app_length in Gt. destruct (rest (R r)) as [|c x] eqn:Ec; [destruct m; [congruence|discriminate]|]. rewrite Er.
  rewrite Nat.min_l by lia. rewrite firstn_app, skipn_app. replace (k' - length m) with 0 by lia. rewrite firstn_O, app_nil_r. cbn [skipn]. rewrite Kf, Ks.
  eexists. split; [reflexivity|]. cbn [R Nleft rest sched]. split; [|split; [|reflexivity]].
  - intros i. specialize (G i). rewrite Ec, Er in G. cbn [R rest sched]. rewrite app_length, skipn_length in *. lia.
  - rewrite <- Kf, firstn_length_le, En, <- Ks, skipn_length by lia. lia.
Qed.
Fixpoint caps (k : nat) : nat := match k with O => 0 | S k => 2 * caps k + 512 end.
Lemma caps_mono k j : caps k < caps j -> caps (S k) <= caps j.
Proof.
  assert (M : forall a b, a <= b -> caps a <= caps b). { intros a b L. induction L as [|b L IH]; [lia|]. cbn [caps]. lia. }
  intros L. destruct (Nat.lt_ge_cases k j) as [H|H]; [apply M; lia|]. apply M in H. lia.
Qed.
Lemma caps_value k : N.of_nat (caps k) = (512 * (2 ^ N.of_nat k - 1))%N.
Proof. induction k as [|k IH]; [reflexivity|]. cbn [caps]. rewrite Nat2N.inj_succ, N.pow_succ_r'. pose proof (N.pow_nonzero 2 (N.of_nat k) ltac:(discriminate)) as P. generalize dependent (2 ^ N.of_nat k)%N. intros p IH P. lia. Qed.
Lemma greedy_value t tail : object_text t -> forall fuel s k d r m, length m < fuel -> scanp d = 0 -> length (dbuf d) = caps k -> dcap d = caps k -> goes reset (dbuf d) s ->
  greedy r -> Nleft r = N.of_nat (length m) -> rest (R r) = m ++ tail -> dbuf d ++ m = t ++ newline -> caps k < length t ->
  let '(_, _, r') := readValue fuel s (length (dbuf d)) None d r in
  Nleft r' = 1%N /\ (exists j, length t = caps j) \/ Nleft r' = 0%N /\ ~ (exists j, length t = caps j).
Proof.
  intros T. induction fuel as [|fuel IH]; intros s k d r m Lf Es El Ec G Gr En Er Eu Lt; [lia|].
  assert (Lm : length m = S (length t) - caps k). { apply (f_equal (@length ascii)) in Eu. rewrite !app_length in Eu. cbn [length newline] in Eu. lia. }
  assert (Nm : m <> []) by (destruct m; [cbn [length] in Lm; lia|discriminate]).
  cbn [readValue]. rewrite Es, Nat.add_0_l, skipn_all. cbn [scan_bytes]. rewrite Nat.sub_0_r. unfold refill. rewrite Es. cbn [skipn]. rewrite El, Ec.
  destruct (Nat.ltb_spec (caps k - caps k) minRead) as [_|Z]; [|unfold minRead in Z; lia]. change (2 * caps k + minRead) with (caps (S k)).
  destruct (greedy_read r m tail (caps (S k) - caps k) Gr Nm ltac:(cbn [caps]; lia) En Er) as (r' & -> & Gr' & En' & Er').
  set (x := firstn (caps (S k) - caps k) m). assert (Em : m = x ++ skipn (caps (S k) - caps k) m) by (symmetry; apply firstn_skipn).
  set (m2 := skipn (caps (S k) - caps k) m) in *. set (d' := mkDec (dbuf d ++ x) 0 (caps (S k)) (derr d)).
  (* the next scan *)
  destruct (Nat.le_gt_cases (length t) (length (dbuf d ++ x))) as [L|L].
  - assert (SE : scan_bytes s (skipn (scanp d' + caps k) (dbuf d')) = SEnd (length t - caps k)).
    { cbn [scanp dbuf d' Nat.add]. rewrite <- El at 1. rewrite skipn_app, Nat.sub_diag, skipn_all. cbn [app skipn].
      pose proof (proj1 (object_scan [] t newline ltac:(constructor) T)) as S. cbn [app] in S. rewrite <- Eu, Em, app_assoc in S.
      assert (P : exists y1, dbuf d ++ x = t ++ y1). { rewrite Em, app_assoc in Eu. destruct (prefix_cases _ _ _ _ Eu) as [(y1 & E & _)|(q & Nq & E & _)]; [eauto|]. rewrite E, app_length in L. destruct q; [congruence|cbn [length] in L; lia]. }
      destruct P as (y1 & P). pose proof (proj1 (object_scan [] t y1 ltac:(constructor) T)) as S1. cbn [app] in S1. rewrite <- P, scan_app, G in S1.
      destruct (scan_bytes s x) as [n| |]; try discriminate. cbn [shift] in S1. injection S1 as S1. f_equal. lia. }
    destruct fuel as [|fuel]; [lia|]. cbn [readValue]. rewrite SE.
    assert (Lx : length (dbuf d ++ x) + length m2 = S (length t)). { rewrite <- app_length, <- app_assoc, <- Em, Eu, app_length. cbn. lia. }
    assert (Lx2 : length x <= caps (S k) - caps k) by (unfold x; rewrite firstn_length; lia). rewrite app_length in *.
    rewrite En'. destruct (Nat.eq_dec (length m2) 0) as [Z|NZ].
    + right. split; [lia|]. intros (j & Ej). assert (caps (S k) <= caps j) by (apply caps_mono; lia). lia.
    + left. assert (length m2 = 1) by lia. split; [lia|]. exists (S k). assert (length x = caps (S k) - caps k). { unfold x. rewrite firstn_length_le; [reflexivity|]. unfold m2 in NZ. rewrite skipn_length in NZ. lia. } cbn [caps] in *. lia.
  - assert (Lx : length x = caps (S k) - caps k).
    { unfold x. rewrite firstn_length. unfold x in L. rewrite app_length, firstn_length in L. lia. }
    assert (L2 : length (dbuf d ++ x) = caps (S k)) by (rewrite app_length, Lx, El; cbn [caps]; lia).
    assert (P : exists s', goes reset (dbuf d ++ x) s').
    { apply (proj2 (object_scan [] t newline ltac:(constructor) T)). cbn [app]. rewrite Em, app_assoc in Eu. destruct (prefix_cases _ _ _ _ Eu) as [(y1 & E & _)|(q & Nq & E & _)]; [|eauto].
      rewrite E, app_length in L. lia. }
    destruct P as (s' & G'). destruct fuel as [|fuel]; [lia|].
    assert (Sx : scan_bytes s x = SMore s'). { unfold goes in G'. rewrite scan_app, G in G'. destruct (scan_bytes s x); try discriminate. exact G'. }
    specialize (IH s' (S k) d' r' m2). rewrite <- El.
    assert (Q : readValue (S fuel) s (length (dbuf d)) None d' r' = readValue (S fuel) s' (length (dbuf d')) None d' r').
    { cbn [readValue scanp d' dbuf Nat.add]. rewrite skipn_app, Nat.sub_diag, !skipn_all. cbn [app skipn scan_bytes]. rewrite Sx. reflexivity. }
    rewrite Q. apply IH; try assumption; try reflexivity.
    + rewrite Em, app_length in Lf. cbn [caps] in *. lia.
    + cbn [d' dbuf]. rewrite <- app_assoc, <- Em. exact Eu.
    + rewrite <- L2. exact L.
Qed.
Lemma object_nonempty t : object_text t -> 0 < length t.
Proof. intros (w & n & x & _ & _ & _ & ->). rewrite app_length. cbn. lia. Qed.
Lemma header_fresh r : Nleft r = 0%N -> fst (ReadHeader r) <> Err ErrReadBody.
Proof.
  intros E H. pose proof (ReadHeader_spec r E) as S. destruct (ReadHeader r) as [[[]|e] r']; [discriminate|]. cbn [fst] in H. injection H as ->.
  destruct S as [(h & sz & _ & _ & _ & _ & _ & Z)|(_ & _ & _ & _ & Z)]; discriminate.
Qed.
Lemma greedy_first unmarshal stream t ms sch : is_stream stream ((t ++ newline) :: ms) -> object_text t -> accepted unmarshal t -> (N.of_nat (length t) < 1073741824)%N ->
  (forall i, length stream <= sch i) ->
  exists d' r', ReadMessage unmarshal NewDecoder (NewFrameLimitedReader (mkSrc stream EOF sch 0)) = (Ok t, d', r') /\
    (fst (ReadHeader r') = Err ErrReadBody <-> exists k, N.of_nat (length t) = (512 * (2 ^ k - 1))%N).
Proof.
  intros S T A L G. inversion S as [|f m s ms' Fr S']; subst. set (r := NewFrameLimitedReader (mkSrc (f ++ s) EOF sch 0)).
  destruct (header_frame r f (t ++ newline) s eq_refl Fr) as (r1 & H1 & En & Er1 & Ef1); [rewrite app_length; cbn; lia|reflexivity|].
  destruct (Decode_ok t newline s [] NewDecoder r1 ltac:(constructor) T eq_refl eq_refl (le_n _) En Er1) as (d' & r' & y1 & y2 & HD & Ey & _ & _ & _ & En2 & _).
  exists d', r'. unfold ReadMessage. rewrite H1, HD, (A []) by constructor. cbn [app]. split; [reflexivity|].
  assert (Gr : greedy r1). { pose proof (header_sched r) as Hs. rewrite H1 in Hs. cbn [snd] in Hs. intros i. rewrite Hs. specialize (G i). rewrite Er1. destruct Fr as (h & _ & ->). rewrite !app_length in G. unfold r. cbn [R NewFrameLimitedReader sched]. rewrite !app_length. lia. }
  pose proof (greedy_value t s T (2 + length (rest (R r1))) reset 0 NewDecoder r1 (t ++ newline)) as V. unfold Decode in HD. cbn [derr NewDecoder] in HD.
  change (length (dbuf NewDecoder)) with 0 in V. change (dbuf NewDecoder) with (@nil ascii) in V. cbn [app length] in V.
  destruct (readValue (2 + length (rest (R r1))) reset 0 None NewDecoder r1) as [[[n|e] d0] r0]; [|discriminate HD]. injection HD as _ _ Hr. subst r0.
  assert (P := object_nonempty t T). destruct V as [[V1 (j & V2)]|[V1 V2]]; try assumption; try reflexivity.
  - rewrite Er1, !app_length. lia.
  - split; [intros _; exists (N.of_nat j); rewrite V2; apply caps_value|]. intros _. unfold ReadHeader. rewrite V1. reflexivity.
  - split; [intros H; exfalso; exact (header_fresh _ V1 H)|]. intros (k & Ek). exfalso. apply V2. exists (N.to_nat k). apply Nat2N.inj. rewrite caps_value, N2Nat.id. exact Ek.
Qed.

(** ** Truncated messages *)
Definition inside (s : scanner) : Prop := parseState s <> [] /\ step s <> stateEndTop.
Lemma end_value s c k s' : do_EndValue s c = (k, s') -> parseState s <> [] -> inside s' \/ k = scanError \/ ((k = scanEndObject \/ k = scanEndArray) /\ s' = pop []).
Proof.
  unfold do_EndValue. destruct (parseState s) as [|p st] eqn:E; [congruence|]. intros H _.
  assert (P : inside (pop st) \/ pop st = pop []) by (destruct st; [auto|left; split; discriminate]).
  destruct (isSpace c); [injection H as <- <-; left; split; cbn [parseState step]; rewrite ?E; discriminate|].
  destruct p; [destruct (c =? 58)%N|destruct (c =? 44)%N; [|destruct (c =? 125)%N]|destruct (c =? 44)%N; [|destruct (c =? 93)%N]]; unfold go, fail in H; injection H as <- <-;
    try (left; split; cbn [parseState step]; rewrite ?E; discriminate); try (right; left; reflexivity).
  all: destruct P as [P|P]; [left; exact P|right; right; split; [auto|exact P]].
Qed.
Lemma inside_step s c k s' : inside s -> sstep s c = (k, s') -> inside s' \/ k = scanError \/ ((k = scanEndObject \/ k = scanEndArray) /\ s' = pop []).
Proof.
  intros [NE NT] H. destruct s as [f st]. cbn [parseState step] in *.
  assert (V : forall s0, parseState s0 <> [] -> do_EndValue s0 c = (k, s') -> inside s' \/ k = scanError \/ ((k = scanEndObject \/ k = scanEndArray) /\ s' = pop [])) by (intros s0 N0 H0; exact (end_value _ _ _ _ H0 N0)).
  unfold sstep in H. cbn [step parseState] in H. unfold do_BeginValue, do_BeginString, do_0, do_ESign, expect, hexa, push, go, fail in H. cbn [step parseState] in H.
  destruct f; try congruence;
  repeat match type of H with
    | (if ?x then _ else _) = _ => destruct x
    end;
  try (injection H as <- <-; first [left; split; cbn [parseState step]; (assumption || discriminate) | right; left; reflexivity]);
  try (eapply V; [|exact H]; cbn [parseState]; (assumption || discriminate)).
Qed.
Lemma inside_goes t : forall s s', inside s -> goes s t s' -> inside s'.
Proof.
  induction t as [|c t IH]; intros s s' I G; [injection G as <-; exact I|]. unfold goes in G. cbn [scan_bytes] in G. destruct (sstep s (N_of_ascii c)) as [k s1] eqn:E.
  assert (Z : forall s2, more (scan_bytes s2 t) = SMore s' -> goes s2 t s'). { intros s2. unfold goes. destruct (scan_bytes s2 t); try discriminate. auto. }
  destruct (inside_step _ _ _ _ I E) as [I1|[->|[K ->]]]; [|discriminate G|destruct K as [->| ->]; discriminate G].
  assert (J : forall s2 k2, do_EndValue s1 32 = (k2, s2) -> inside s2).
  { intros s2 k2. unfold do_EndValue. destruct (parseState s1) eqn:Es; [destruct I1; contradiction|]. cbn. intros H. injection H as <- <-. split; cbn [parseState step]; rewrite ?Es; discriminate. }
  destruct k; try discriminate G; try (eapply IH; [|apply Z, G]; assumption).
  all: destruct (do_EndValue s1 32) as [k2 s2] eqn:E2; destruct k2; try discriminate G; (eapply IH; [|apply Z, G]; eapply J; reflexivity).
Qed.
Lemma inside_space s : inside s -> fst (sstep s 32) <> scanEnd.
Proof.
  intros I E. destruct (sstep s 32) as [k s'] eqn:H. cbn [fst] in E. subst k. destruct s as [f st], I as [NE NT]. cbn [parseState step] in *.
  destruct f; try congruence; cbn in H; try discriminate; destruct st; try congruence; discriminate.
Qed.
(** Beginnings of an object: spaces or something inside of it *)
Lemma spaces_or z : (Forall (fun c => In (N_of_ascii c) [9; 10; 13; 32]%N) z) \/ exists z1 c z2, z = z1 ++ c :: z2 /\ space z1 /\ isSpace (N_of_ascii c) = false.
Proof.
  induction z as [|c z IH]; [left; constructor|].
  destruct (isSpace (N_of_ascii c)) eqn:E.
  - assert (I : In (N_of_ascii c) [9; 10; 13; 32]%N). { unfold isSpace in E. cbn. lia. } destruct IH as [F|(z1 & c' & z2 & -> & W & N)]; [left; constructor; assumption|].
    right. exists (c :: z1), c', z2. split; [reflexivity|]. split; [constructor; assumption|exact N].
  - right. exists [], c, z. split; [reflexivity|]. split; [constructor|exact E].
Qed.
Lemma nonspace_spaces z : Forall (fun c => In (N_of_ascii c) [9; 10; 13; 32]%N) z <-> nonSpace z = false.
Proof.
  unfold nonSpace. split.
  - induction 1 as [|c z I F IH]; [reflexivity|]. cbn [existsb]. rewrite IH, space_in by exact I. reflexivity.
  - intros E. apply Forall_forall. intros c I. destruct (isSpace (N_of_ascii c)) eqn:S; [unfold isSpace in S; cbn; lia|]. exfalso.
    assert (X : existsb (fun c => negb (isSpace (N_of_ascii c))) z = true) by (apply existsb_exists; exists c; rewrite S; auto). congruence.
Qed.
Lemma space_prefix (w z1 x z2 : str) (c : ascii) : w ++ x = z1 ++ c :: z2 -> space z1 -> isSpace (N_of_ascii c) = false -> space w -> exists z0, z1 = w ++ z0 /\ x = z0 ++ c :: z2.
Proof.
  revert z1. induction w as [|a w IH]; intros z1 E W N Ww; [exists z1; auto|]. inversion_clear Ww as [|? ? I Ww']. destruct z1 as [|a' z1]; injection E as -> E.
  - rewrite space_in in N by exact I. discriminate.
  - inversion_clear W. destruct (IH _ E) as (z0 & -> & ->); auto. exists z0. auto.
Qed.
Lemma object_begin z q : q <> [] -> object_text (z ++ q) -> exists s, goes reset z s /\ fst (sstep s 32) <> scanEnd.
Proof.
  intros Nq T. destruct (proj2 (object_scan [] (z ++ q) [] ltac:(constructor) T) z) as (s & G); [exists q; auto|]. exists s. split; [exact G|].
  destruct (spaces_or z) as [F|(z1 & c & z2 & -> & W & N)].
  - assert (E : goes reset z reset) by (apply space_begin, F). unfold goes in *. rewrite E in G. injection G as <-. discriminate.
  - destruct T as (w & n & x & Ww & _ & _ & E). rewrite <- app_assoc in E. cbn [app] in E. symmetry in E. destruct (space_prefix w z1 _ (z2 ++ q) c E W N Ww) as (z0 & -> & Ex).
    assert (Hc : z0 = [] /\ c = "{"%char).
    { destruct z0 as [|a z0]; cbn [app] in Ex; injection Ex as Ha _; [auto|].
      apply Forall_app in W. destruct W as [_ W]. inversion_clear W as [|? ? I _]. subst a. cbn in I. intuition discriminate. }
    destruct Hc as [-> ->]. rewrite app_nil_r in *.
    assert (G2 : goes reset (w ++ b "{") (mkScan stateBeginStringOrEmpty [parseObjectKey])) by (eapply goes_app; [apply space_begin, W|reflexivity]).
    apply inside_space. apply (inside_goes z2 (mkScan stateBeginStringOrEmpty [parseObjectKey])); [split; discriminate|].
    unfold goes in *. replace (w ++ "{"%char :: z2) with ((w ++ b "{") ++ z2) in G by (rewrite <- app_assoc; reflexivity). rewrite scan_app, G2 in G. destruct (scan_bytes _ z2); try discriminate. exact G.
Qed.
Definition ending (z : str) : ioerr := if nonSpace z then UnexpectedEOF else EOF.
Lemma readValue_cut w p q tail : q <> [] -> space w -> object_text (p ++ q) -> forall fuel s n d r m, roomy d ->
  S (length m) < fuel -> n <= length (unread d) -> goes reset (firstn n (unread d)) s ->
  Nleft r = N.of_nat (length m) -> rest (R r) = m ++ tail -> unread d ++ m = w ++ p ->
  exists d' r', readValue fuel s n None d r = (Err (EInput (ending (w ++ p))), d', r') /\ derr d' = Some (EInput (ending (w ++ p))) /\ Nleft r' = 0%N /\ rest (R r') = tail.
Proof.
  intros Nq W T. assert (T' : object_text ((w ++ p) ++ q)). { destruct T as (w' & l & x & W' & J & F & E). exists (w ++ w'), l, x. split; [apply Forall_app; auto|]. split; [exact J|]. split; [exact F|]. rewrite <- !app_assoc, E. reflexivity. }
  induction fuel as [|fuel IH]; intros s n d r m Rm Lf Ln G E Er Eu; [lia|].
  cbn [readValue]. rewrite skip_more, unread_length.
  assert (P : exists s', goes reset (unread d) s').
  { destruct (object_begin (unread d) (m ++ q)) as (s' & G' & _); [destruct m; [exact Nq|discriminate]| |eauto]. rewrite app_assoc, Eu. exact T'. }
  destruct P as (s' & G'). assert (Sm : scan_bytes s (skipn n (unread d)) = SMore s').
  { unfold goes in G'. rewrite <- (firstn_skipn n (unread d)), scan_app, G in G'. destruct (scan_bytes s (skipn n (unread d))); try discriminate. exact G'. }
  rewrite Sm. destruct m as [|c m].
  - (* the frame is exhausted *) unfold refill. fold (unread d). unfold lr_read. rewrite E. cbn [length N.of_nat N.eqb]. rewrite app_nil_r in Eu. rewrite app_nil_r.
    destruct fuel as [|fuel]; [cbn in Lf; lia|]. cbn [readValue scanp dbuf Nat.add]. rewrite skipn_all. cbn [scan_bytes].
    destruct (object_begin (w ++ p) q Nq T') as (s2 & G2 & Sp). rewrite Eu in G'. unfold goes in *. rewrite G2 in G'. injection G' as <-.
    destruct (sstep s2 32) as [k s3] eqn:Ek. rewrite Eu. cbn [fst] in Sp. destruct k; try congruence; (eexists _, r; split; [reflexivity|]; split; [reflexivity|]; split; [exact E|exact Er]).
  - destruct (refill_ok d r (c :: m) tail Rm ltac:(discriminate) E Er) as (m1 & m2 & d' & r' & -> & Es & N1 & Eu' & En & Er' & Ef & Ed & Rm').
    assert (L1 : 0 < length m1) by (destruct m1; [congruence|cbn; lia]). rewrite Es, app_length in Lf.
    destruct (IH s' (length (unread d)) d' r' m2) as (d2 & r2 & H); try assumption; try lia.
    + rewrite Eu', app_length. lia.
    + rewrite Eu', firstn_app, Nat.sub_diag, firstn_O, app_nil_r, firstn_all. exact G'.
    + rewrite Eu', <- app_assoc, <- Es. exact Eu.
    + exists d2, r2. exact H.
Qed.
Lemma Decode_sticky d r e : derr d = Some e -> Decode d r = (Err e, d, r).
Proof. intros H. unfold Decode. rewrite H. reflexivity. Qed.
Lemma session_cut unmarshal ts p q : q <> [] -> object_text (p ++ q) -> (N.of_nat (length p) <= 1073741824)%N -> forall stream ms d r fuel,
  is_stream stream (ts ++ p :: ms) -> Forall object_text ts -> Forall (accepted unmarshal) ts ->
  Forall (fun m => N.of_nat (length m) <= 1073741824)%N ts -> unread d = [] -> derr d = None -> roomy d -> Nleft r = 0%N -> rest (R r) = stream -> length ts < fuel ->
  session fuel unmarshal d r = Some (ts, EDecode (EInput (ending p))).
Proof.
  intros Nq T Lp. induction ts as [|t ts IH]; intros stream ms d r fuel S Ts A L Eu Ed Rm E0 Er Lf; (destruct fuel as [|fuel]; [cbn in Lf; lia|]); cbn [session app] in *.
  - inversion S as [|f m s ms' Fr S']; subst. destruct (header_frame r f p s E0 Fr Lp ltac:(congruence)) as (r1 & H1 & En & Er1 & Ef1). unfold ReadMessage. rewrite H1. unfold Decode. rewrite Ed.
    destruct (readValue_cut [] p q s Nq ltac:(constructor) T (2 + length (rest (R r1))) reset 0 d r1 p) as (d' & r' & -> & _); auto.
    + rewrite Er1, app_length. lia.
    + lia.
    + rewrite Eu. apply goes_nil.
    + rewrite Eu. reflexivity.
  - inversion S as [|f m s ms' Fr S']; subst. inversion_clear Ts as [|? ? T1 T2]. inversion_clear A as [|? ? A1 A2]. inversion_clear L as [|? ? L1 L2].
    destruct (message_ok unmarshal t [] s [] d r f) as (d' & r' & y1 & y2 & HM & Ey & Eu2 & Ed2 & Rm2 & En2 & Er2 & Ef2); try assumption; try (rewrite app_nil_r; assumption); [constructor|congruence|].
    symmetry in Ey. apply app_eq_nil in Ey. destruct Ey as [-> ->]. rewrite HM. cbn [app]. rewrite (IH s ms d' r' fuel); auto; [cbn [length] in Lf; lia].
Qed.
Lemma session_truncated unmarshal stream ts p q ms sch fin fuel : is_stream stream (ts ++ p :: ms) -> Forall object_text ts -> Forall (accepted unmarshal) ts ->
  Forall (fun m => N.of_nat (length m) <= 1073741824)%N ts -> q <> [] -> object_text (p ++ q) -> (N.of_nat (length p) <= 1073741824)%N -> length ts < fuel ->
  session fuel unmarshal NewDecoder (NewFrameLimitedReader (mkSrc stream fin sch 0)) = Some (ts, EDecode (EInput (ending p))).
Proof. intros. eapply session_cut with (d := NewDecoder); eauto; apply le_n. Qed.

(** ** Two objects in a frame *)
Lemma session_two unmarshal stream t1 t2 t3 ms sch fin fuel : is_stream stream ((t1 ++ t2) :: t3 :: ms) -> object_text t1 -> object_text t2 -> t3 <> [] -> accepted unmarshal t1 -> accepted unmarshal t2 ->
  (N.of_nat (length (t1 ++ t2)) <= 1073741824)%N -> (N.of_nat (length t3) <= 1073741824)%N -> 2 < fuel ->
  session fuel unmarshal NewDecoder (NewFrameLimitedReader (mkSrc stream fin sch 0)) = Some ([t1], EHeader ErrReadBody) \/
  session fuel unmarshal NewDecoder (NewFrameLimitedReader (mkSrc stream fin sch 0)) = Some ([t1; t2], EHeader ErrReadBody).
Proof.
  intros S T1 T2 N3 A1 A2 L1 L3 Lf. inversion S as [|f m s ms' Fr S']; subst. inversion S' as [|f3 m3 s3 ms3 Fr3 S3]; subst. destruct fuel as [|fuel]; [lia|]. cbn [session].
  destruct (message_ok unmarshal t1 t2 (f3 ++ s3) [] NewDecoder (NewFrameLimitedReader (mkSrc (f ++ f3 ++ s3) fin sch 0)) f) as (d' & r' & y1 & y2 & HM & Ey & Eu2 & Ed2 & Rm2 & En2 & Er2 & Ef2); try assumption; try reflexivity; [constructor|apply le_n|].
  rewrite HM. cbn [app]. destruct fuel as [|fuel]; [lia|]. cbn [session]. destruct y2 as [|c y2].
  - right. rewrite app_nil_r in Ey. subst y1. cbn [length app] in En2, Er2.
    destruct (header_frame r' f3 t3 s3 En2 Fr3 L3 Er2) as (r1 & H1 & En & _). unfold ReadMessage at 1. rewrite H1. unfold Decode. rewrite Ed2.
    assert (V : readValue (2 + length (rest (R r1))) reset 0 None d' r1 = (Ok (length (unread d')), d', r1)).
    { cbn [Nat.add readValue]. rewrite Nat.add_0_r. fold (unread d'). rewrite Eu2. pose proof (proj1 (object_scan [] t2 [] ltac:(constructor) T2)) as E. cbn [app] in E. rewrite app_nil_r in E. rewrite E. reflexivity. }
    rewrite V. fold (unread d'). rewrite Eu2, firstn_all. assert (A0 := A2 [] ltac:(constructor)); cbn [app] in A0; rewrite A0. destruct fuel as [|fuel]; [lia|]. cbn [session]. rewrite stuck_message; [reflexivity|].
    rewrite En. destruct t3; [congruence|discriminate].
  - left. rewrite stuck_message; [reflexivity|]. rewrite En2. discriminate.
Qed.

(** ** Truncated and blank frames *)
Lemma session_partial unmarshal stream ts p q ms sch fin fuel : is_stream stream (ts ++ p :: ms) -> Forall object_text ts -> Forall (accepted unmarshal) ts ->
  Forall (fun m => N.of_nat (length m) <= 1073741824)%N ts -> q <> [] -> object_text (p ++ q) -> ~ space p -> (N.of_nat (length p) <= 1073741824)%N -> length ts < fuel ->
  session fuel unmarshal NewDecoder (NewFrameLimitedReader (mkSrc stream fin sch 0)) = Some (ts, EDecode (EInput UnexpectedEOF)).
Proof.
  intros S T A L Nq O W Lp Lf. rewrite (session_truncated unmarshal stream ts p q ms sch fin fuel) by assumption. unfold ending. destruct (nonSpace p) eqn:E; [reflexivity|]. apply nonspace_spaces in E. contradiction.
Qed.
Lemma session_blank unmarshal stream ts p ms sch fin fuel : is_stream stream (ts ++ p :: ms) -> Forall object_text ts -> Forall (accepted unmarshal) ts ->
  Forall (fun m => N.of_nat (length m) <= 1073741824)%N ts -> space p -> (N.of_nat (length p) <= 1073741824)%N -> length ts < fuel ->
  session fuel unmarshal NewDecoder (NewFrameLimitedReader (mkSrc stream fin sch 0)) = Some (ts, EDecode (EInput EOF)).
Proof.
  intros S T A L W Lp Lf. rewrite (session_truncated unmarshal stream ts p (b "{}") ms sch fin fuel); try assumption; [|discriminate|].
  - unfold ending. rewrite (proj1 (nonspace_spaces p)) by exact W. reflexivity.
  - exists p, 1, (b "}"). split; [exact W|]. split; [apply (gt_obj0 0 []); constructor|]. split; [cbn; lia|reflexivity].
Qed.

(** ** Short messages from a stream that delivers as much as is requested *)
Lemma refill_sched d r : sched (R (snd (refill d r))) = sched (R r).
Proof. unfold refill. set (k := _ - _). pose proof (lr_sched k r) as H. destruct (lr_read k r) as [[bs e] r']. exact H. Qed.
Lemma value_sched fuel : forall s n err d r, sched (R (snd (readValue fuel s n err d r))) = sched (R r).
Proof.
  induction fuel as [|fuel IH]; intros s n err d r; cbn [readValue]; destruct (scan_bytes _ _) as [k| |s']; try reflexivity; destruct err as [[| |]|]; try reflexivity; try (destruct (sstep s' 32) as [[] ?]; reflexivity).
  pose proof (refill_sched d r) as H. destruct (refill d r) as [[e d'] r']. rewrite IH. exact H.
Qed.
Lemma message_sched unmarshal d r : sched (R (snd (ReadMessage unmarshal d r))) = sched (R r).
Proof.
  unfold ReadMessage. pose proof (header_sched r) as H. destruct (ReadHeader r) as [[?|?] r1]; [|exact H]. unfold Decode. destruct (derr d); [exact H|].
  pose proof (value_sched (2 + length (rest (R r1))) reset 0 None d r1) as H2. destruct (readValue _ _ _ _ _ _) as [[[k|e] d'] r']; cbn [snd] in *; [destruct (unmarshal _)|]; cbn [snd]; congruence.
Qed.
Lemma value_done fuel : forall s n err d r, Nleft r = 0%N -> Nleft (snd (readValue fuel s n err d r)) = 0%N.
Proof.
  induction fuel as [|fuel IH]; intros s n err d r Z; cbn [readValue]; destruct (scan_bytes _ _) as [k| |s']; try exact Z; destruct err as [[| |]|]; try exact Z; try (destruct (sstep s' 32) as [[] ?]; exact Z).
  unfold refill. unfold lr_read. rewrite Z. cbn [N.eqb]. apply IH. exact Z.
Qed.
Lemma short_message unmarshal t tail w d r f : greedy r -> space w -> object_text t -> accepted unmarshal t -> unread d = w -> derr d = None -> roomy d -> Nleft r = 0%N ->
  is_frame f (t ++ newline) -> length t < 512 -> rest (R r) = f ++ tail ->
  exists d' r', ReadMessage unmarshal d r = (Ok (w ++ t), d', r') /\ greedy r' /\ unread d' = newline /\ derr d' = None /\ roomy d' /\ Nleft r' = 0%N /\ rest (R r') = tail /\ fin (R r') = fin (R r).
Proof.
  intros G W T A Eu Ed Rm E0 F L Er. assert (Ln : length (t ++ newline) <= 512) by (rewrite app_length; cbn; lia).
  destruct (message_ok unmarshal t newline tail w d r f) as (d' & r' & y1 & y2 & HM & Ey & Eu2 & Ed2 & Rm2 & En2 & Er2 & Ef2); try assumption; [lia|].
  assert (Z : Nleft r' = 0%N).
  { destruct (header_frame r f (t ++ newline) tail E0 F ltac:(lia) Er) as (r1 & H1 & En & Er1 & _). unfold ReadMessage in HM. rewrite H1 in HM. unfold Decode in HM. rewrite Ed in HM.
    assert (V : Nleft (snd (readValue (2 + length (rest (R r1))) reset 0 None d r1)) = 0%N).
    { change (2 + length (rest (R r1))) with (Datatypes.S (Datatypes.S (length (rest (R r1))))). generalize (Datatypes.S (length (rest (R r1)))). intros fl. cbn [readValue]. rewrite Nat.add_0_r. fold (unread d). rewrite Eu. pose proof (space_begin [] w W) as Sb. unfold goes in Sb. change (mkScan stateBeginValue []) with reset in Sb. rewrite Sb. unfold refill. fold (unread d). rewrite Eu.
      assert (G1 : greedy r1). { intros i. pose proof (header_sched r) as Hs. rewrite H1 in Hs. cbn [snd] in Hs. rewrite Hs. specialize (G i). rewrite Er, app_length in G. rewrite Er1, app_length. destruct F as (h & _ & ->). rewrite app_length in G. lia. }
      set (c := if _ <? _ then _ else _). assert (K : 512 <= c - length w).
      { unfold c, minRead. assert (length w <= dcap d) by (rewrite <- Eu; unfold unread, roomy in *; rewrite skipn_length; lia). destruct (Nat.ltb_spec (dcap d - length w) 512); lia. }
      destruct (greedy_read r1 (t ++ newline) tail (c - length w) G1) as (r2 & -> & _ & Z & _); try assumption; try lia; [destruct t; discriminate|].
      rewrite skipn_all2 in Z by lia. apply value_done. exact Z. }
    destruct (readValue _ _ _ _ _ _) as [[[k|e] d0] r0]; cbn [snd] in V; [|discriminate HM]. destruct (unmarshal _); [|discriminate HM]. injection HM as _ _ <-. exact V. }
  exists d', r'. split; [exact HM|]. destruct y2; [|rewrite En2 in Z; discriminate Z]. rewrite app_nil_r in Ey. subst y1. cbn [app] in Er2. split; [|auto 10].
  intros i. pose proof (message_sched unmarshal d r) as Hs. rewrite HM in Hs. cbn [snd] in Hs. rewrite Hs, Er2. specialize (G i). rewrite Er, app_length in G. lia.
Qed.
Lemma short_loop unmarshal ts : forall stream d r fuel, greedy r -> is_stream stream (map (fun t => t ++ newline) ts) -> Forall object_text ts -> Forall (accepted unmarshal) ts ->
  Forall (fun m => length m < 512) ts -> unread d = newline -> derr d = None -> roomy d -> Nleft r = 0%N -> rest (R r) = stream -> fin (R r) = EOF -> length ts < fuel ->
  session fuel unmarshal d r = Some (map (fun x => newline ++ x) ts, EHeader (Io EOF)).
Proof.
  induction ts as [|t ts IH]; intros stream d r fuel G S T A L Eu Ed Rm E0 Er Ef Lf; (destruct fuel as [|fuel]; [cbn in Lf; lia|]); cbn [session map].
  - inversion S; subst. destruct (header_eof r E0 ltac:(congruence) Ef) as (r' & HH). unfold ReadMessage. rewrite HH. reflexivity.
  - inversion S as [|f m s ms Fr S']; subst. inversion_clear T as [|? ? T1 T2]. inversion_clear A as [|? ? A1 A2]. inversion_clear L as [|? ? L1 L2].
    destruct (short_message unmarshal t s newline d r f) as (d' & r' & -> & G' & Eu' & Ed' & Rm' & En' & Er' & Ef'); try assumption; [exact newline_space|congruence|].
    rewrite (IH s d' r' fuel); try assumption; [reflexivity|congruence|cbn [length] in Lf; lia].
Qed.
Lemma session_short unmarshal stream ts sch fuel : is_stream stream (map (fun t => t ++ newline) ts) -> Forall object_text ts -> Forall (accepted unmarshal) ts ->
  Forall (fun m => length m < 512) ts -> length ts < fuel -> (forall i, length stream <= sch i) ->
  session fuel unmarshal NewDecoder (NewFrameLimitedReader (mkSrc stream EOF sch 0)) = Some (with_newlines ts, EHeader (Io EOF)).
Proof.
  intros S T A L Lf G. destruct fuel as [|fuel]; [lia|]. destruct ts as [|t ts]; [apply session_browser; auto; constructor|].
  cbn [map session with_newlines] in *. inversion S as [|f m s ms Fr S']; subst. inversion_clear T as [|? ? T1 T2]. inversion_clear A as [|? ? A1 A2]. inversion_clear L as [|? ? L1 L2].
  destruct (short_message unmarshal t s [] NewDecoder (NewFrameLimitedReader (mkSrc (f ++ s) EOF sch 0)) f) as (d' & r' & -> & G' & Eu' & Ed' & Rm' & En' & Er' & Ef'); try assumption; try reflexivity; [constructor|apply le_n|].
  rewrite (short_loop unmarshal ts s d' r' fuel); try assumption; [reflexivity|cbn [length] in Lf; lia].
Qed.
