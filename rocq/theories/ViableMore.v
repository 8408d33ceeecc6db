(** Lemmas: every body of a frame that begins as an object contains an object, may be completed to an object, or has a wrong byte. *)
From Coq Require Import ZifyBool ZifyNat ZifyN.
From Verif Require Import GoBase JsonSpec Frame FrameSpec FrameProofs Stream StreamSpec StreamProofs StreamMain StreamMore StreamSound CutProofs Stdin StdinProofs BadStart Viable.

Lemma end_shift s x n : scan_bytes s x = SEnd n -> exists t y, x = t ++ y /\ length t = n.
Proof.
  revert s n. induction x as [|c x IH]; intros s n H; [discriminate|]. change (c :: x) with ([c] ++ x) in H. rewrite scan_app in H. destruct (scan_bytes s [c]) as [k| |s'] eqn:E; [|discriminate|].
  - injection H as <-. assert (K : k = 0 \/ k = 1).
    { cbn [scan_bytes] in E. destruct (sstep s (N_of_ascii c)) as [[] s1]; try discriminate; try (injection E as <-; auto); destruct (do_EndValue s1 32) as [[] s2]; try discriminate; injection E as <-; auto. }
    destruct K as [->| ->]; [exists [], (c :: x)|exists [c], x]; auto.
  - destruct (scan_bytes s' x) as [k| |] eqn:E2; try discriminate. injection H as <-. destruct (IH _ _ E2) as (t & y & -> & L). exists (c :: t), y. cbn [length]. split; [reflexivity|]. lia.
Qed.
Lemma value_long w x n : space w -> value_text (firstn n (w ++ "{"%char :: x)) -> exists x', firstn n (w ++ "{"%char :: x) = w ++ "{"%char :: x'.
Proof.
  intros W (w' & k & y & W' & L & G & E). destruct (text_first k y G) as (c & y' & -> & Sp & _).
  assert (Z : w ++ "{"%char :: x = w' ++ c :: (y' ++ skipn n (w ++ "{"%char :: x))) by (rewrite <- (firstn_skipn n (w ++ "{"%char :: x)) at 1; rewrite E, <- app_assoc; reflexivity).
  destruct (leading w x w' _ "{"%char c W W' eq_refl Sp Z) as (<- & <- & _). exists y'. exact E.
Qed.
Lemma bad_byte x : forall s, scan_bytes s x = SBad -> exists z c y s', x = z ++ c :: y /\ goes s z s' /\ scan_bytes s' [c] = SBad.
Proof.
  induction x as [|c x IH]; intros s H; [discriminate|]. change (c :: x) with ([c] ++ x) in H. rewrite scan_app in H. destruct (scan_bytes s [c]) as [k| |s1] eqn:E; [discriminate|exists [], c, x, s; auto using goes_nil|].
  destruct (scan_bytes s1 x) eqn:E2; try discriminate. destruct (IH _ E2) as (z & c' & y & s' & -> & G & B). exists (c :: z), c', y, s'. split; [reflexivity|]. split; [|exact B].
  unfold goes in *. change (c :: z) with ([c] ++ z). rewrite scan_app, E, G. reflexivity.
Qed.
Lemma completed w z s : space w -> goes reset (w ++ b "{" ++ z) s -> exists q, q <> [] /\ object_text (w ++ b "{" ++ z ++ q).
Proof.
  intros W G. assert (O : good s = true).
  { apply (good_goes z (mkScan stateBeginStringOrEmpty [parseObjectKey])); [reflexivity|]. unfold goes in *. rewrite app_assoc, scan_app, (brace_goes w W) in G. destruct (scan_bytes _ z); try discriminate. exact G. }
  destruct (complete s O) as (x & s2 & st & G2 & A & N & F). destruct (close st s2 A N F) as (y & Y). exists (x ++ y). split.
  - intros Z. apply app_eq_nil in Z. destruct Z as [_ ->]. discriminate Y.
  - apply value_object; [exact W|]. change (value_text (w ++ b "{" ++ z ++ x ++ y)). assert (E : scan_bytes reset (w ++ b "{" ++ z ++ x ++ y) = SEnd (length (w ++ b "{" ++ z ++ x ++ y))).
    { replace (w ++ b "{" ++ z ++ x ++ y) with ((w ++ b "{" ++ z) ++ x ++ y) by (rewrite <- !app_assoc; reflexivity). rewrite scan_app, G, scan_app, G2, Y. cbn [shift]. rewrite (app_length (w ++ b "{" ++ z)), (app_length x). f_equal. }
    apply scan_value in E. rewrite firstn_all in E. exact E.
Qed.
(** What may be found in a body *)
Definition holds_object (m : str) : Prop := exists t y, m = t ++ y /\ object_text t.
Definition unfinished (m : str) : Prop := exists q, q <> [] /\ object_text (m ++ q).
Definition wrong_byte (w y : str) : Prop := exists z q c x, y = z ++ c :: x /\ q <> [] /\ object_text (w ++ b "{" ++ z ++ q) /\ (forall x, ~ object_text (w ++ b "{" ++ z ++ c :: x)).
Lemma three w y : space w -> holds_object (w ++ b "{" ++ y) \/ unfinished (w ++ b "{" ++ y) \/ wrong_byte w y.
Proof.
  intros W. destruct (scan_bytes reset (w ++ b "{" ++ y)) as [n| |s] eqn:E.
  - left. exists (firstn n (w ++ b "{" ++ y)), (skipn n (w ++ b "{" ++ y)). split; [symmetry; apply firstn_skipn|]. apply scan_value in E. destruct (value_long w y n W E) as (x' & Ex). change ("{"%char :: y) with (b "{" ++ y) in Ex. rewrite Ex in *. apply value_object; assumption.
  - right. right. rewrite app_assoc, scan_app, (brace_goes w W) in E. destruct (scan_bytes _ y) eqn:E2; try discriminate. destruct (bad_byte _ _ E2) as (z & c & x & s' & -> & G & B).
    assert (Gz : goes reset (w ++ b "{" ++ z) s') by (rewrite app_assoc; eapply goes_app; [apply brace_goes, W|exact G]).
    destruct (completed w z s' W Gz) as (q & Nq & T). exists z, q, c, x. split; [reflexivity|]. split; [exact Nq|]. split; [exact T|]. intros x' T'.
    destruct (object_scan [] _ [] ltac:(constructor) T') as [X _]. cbn [app] in X. rewrite app_nil_r in X. replace (w ++ b "{" ++ z ++ c :: x') with ((w ++ b "{" ++ z) ++ [c] ++ x') in X by (rewrite <- !app_assoc; reflexivity).
    rewrite scan_app, Gz, scan_app, B in X. discriminate.
  - right. left. destruct (completed w y s W E) as (q & Nq & T). exists q. split; [exact Nq|]. rewrite <- !app_assoc. exact T.
Qed.
Lemma session_wrong unmarshal s1 ts f w y s2 fin sch fuel : is_stream s1 ts -> Forall object_text ts -> Forall (accepted unmarshal) ts -> Forall (fun m => N.of_nat (length m) <= 1073741824)%N ts ->
  space w -> is_frame f (w ++ b "{" ++ y) -> (N.of_nat (length (w ++ b "{" ++ y)) <= 1073741824)%N -> length ts < fuel ->
  session fuel unmarshal NewDecoder (NewFrameLimitedReader (mkSrc (s1 ++ f ++ s2) fin sch 0)) = Some (ts, EDecode ESyntax) <->
  exists z q c x, y = z ++ c :: x /\ q <> [] /\ object_text (w ++ b "{" ++ z ++ q) /\ (forall x, ~ object_text (w ++ b "{" ++ z ++ c :: x)).
Proof.
  intros S T A L W Fr Lx F. split.
  - intros H. destruct (three w y W) as [(t & y' & Em & O)|[(q & Nq & O)|X]]; [exfalso|exfalso|exact X].
    all: destruct (some_exact unmarshal ts (f ++ s2) s1 NewDecoder (NewFrameLimitedReader (mkSrc (s1 ++ f ++ s2) fin sch 0)) S T A L) as (d & r & E & Eu & Ed & Rm & En & Er & _); auto; [apply le_n|].
    all: replace fuel with (length ts + Datatypes.S (fuel - length ts - 1)) in H by lia; rewrite (session_some _ _ _ _ _ _ _ _ E) in H; cbn [session] in H; unfold ReadMessage in H.
    all: destruct (header_frame r f _ s2 En Fr Lx Er) as (r1 & Eh & E1 & E2 & _); rewrite Eh in H; unfold Decode in H; rewrite Ed in H.
    + destruct (readValue_ok t y' s2 [] ltac:(constructor) O (2 + length (rest (R r1))) reset 0 d r1 (w ++ b "{" ++ y)) as (d2 & r2 & y1 & y2 & HM & _); try assumption; [rewrite E2, (app_length _ s2); lia|lia|apply goes_nil|rewrite Eu; exact Em|].
      rewrite HM in H. destruct (unmarshal _); [|discriminate H]. destruct (session _ _ _ _) as [[l e]|]; [|discriminate]. injection H as H _. rewrite <- (app_nil_r ts) in H at 2. apply app_inv_head in H. discriminate.
    + destruct (readValue_cut [] (w ++ b "{" ++ y) q s2 Nq ltac:(constructor) O (2 + length (rest (R r1))) reset 0 d r1 (w ++ b "{" ++ y)) as (d2 & r2 & HM & _); try assumption; [rewrite E2, (app_length _ s2); lia|lia|apply goes_nil|rewrite Eu; reflexivity|].
      rewrite HM in H. discriminate.
  - intros (z & q & c & x & -> & Nq & O & H). destruct Fr as (h & Hh & ->). rewrite <- !app_assoc. cbn [app]. apply (session_broken unmarshal s1 ts h _ w z q c (x ++ s2) fin sch fuel S T A L W O Nq H Hh); [|exact F]. split; [|exact Lx]. rewrite !app_length. cbn [length]. lia.
Qed.
