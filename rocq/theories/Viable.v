(** Lemmas about messages that stop being beginnings of JSON objects at some byte. *)
From Coq Require Import ZifyBool ZifyNat ZifyN.
From Verif Require Import GoBase JsonSpec Frame FrameSpec FrameProofs Stream StreamSpec StreamProofs StreamMain StreamMore StreamSound CutProofs Stdin StdinProofs BadStart.

(** ** States of the scanner inside of an object *)
Definition vtop (p : pstate) : bool := match p with parseObjectKey => false | _ => true end.
Definition good (s : scanner) : bool :=
  match parseState s with
  | [] => false
  | p :: st =>
      forallb vtop st &&
      match step s with
      | stateBeginStringOrEmpty | stateBeginString => negb (vtop p)
      | stateEndValue | stateInString | stateInStringEsc | stateInStringEscU | stateInStringEscU1 | stateInStringEscU12 | stateInStringEscU123 => true
      | stateEndTop | stateError => false
      | _ => vtop p
      end
  end.
Lemma pop_good st : forallb vtop st = true -> good (pop st) = true \/ pop st = pop [].
Proof. destruct st as [|p st]; [auto|]. cbn [forallb]. rewrite andb_true_iff. intros [_ F]. left. unfold good, pop. cbn [parseState step]. rewrite F. reflexivity. Qed.
Definition next (k : code) (s' : scanner) : Prop := k = scanError \/ good s' = true /\ k <> scanEnd \/ ((k = scanEndObject \/ k = scanEndArray) /\ s' = pop []).
Lemma end_good f p st c k s' : forallb vtop st = true -> do_EndValue (mkScan f (p :: st)) c = (k, s') -> next k s'.
Proof.
  intros F. unfold do_EndValue. cbn [parseState]. pose proof (pop_good st F) as P. unfold go, fail. cbn [parseState].
  destruct (isSpace c); [intros H; injection H as <- <-; right; left; split; [unfold good; cbn [parseState step]; rewrite F; reflexivity|discriminate]|].
  destruct p; [destruct (c =? 58)%N|destruct (c =? 44)%N; [|destruct (c =? 125)%N]|destruct (c =? 44)%N; [|destruct (c =? 93)%N]]; intros H; injection H as <- <-; try (left; reflexivity);
    try (right; left; split; [unfold good; cbn [parseState step]; rewrite F; reflexivity|discriminate]).
  all: destruct P as [P|P]; [right; left; split; [exact P|discriminate]|right; right; auto].
Qed.
Lemma good_step s c k s' : good s = true -> sstep s c = (k, s') -> next k s'.
Proof.
  destruct s as [f [|p st]]; [discriminate|]. unfold good. cbn [parseState step]. rewrite andb_true_iff. intros [F G] H.
  unfold sstep in H. cbn [step parseState tl] in H. unfold do_BeginValue, do_BeginString, do_0, do_ESign, expect, hexa, push, go, fail in H. cbn [step parseState tl] in H.
  destruct f; try discriminate G;
  repeat match type of H with
    | (if ?x then _ else _) = _ => destruct x
    end;
  try (eapply end_good; [|exact H]; exact F);
  injection H as <- <-; try (left; reflexivity);
  right; left; (split; [unfold good; cbn [parseState step forallb]; rewrite ?F, ?G; destruct p; cbn in *; congruence|discriminate]).
Qed.
Lemma good_one s c : good s = true -> scan_bytes s [c] = SBad \/ scan_bytes s [c] = SEnd 1 \/ exists s', goes s [c] s' /\ good s' = true.
Proof.
  intros G. unfold goes. cbn [scan_bytes]. destruct (sstep s (N_of_ascii c)) as [k s'] eqn:E. destruct (good_step _ _ _ _ G E) as [->|[[G' N]|[K ->]]]; [auto| |destruct K as [->| ->]; right; left; reflexivity].
  assert (Z : exists s2, do_EndValue s' 32 = (scanSkipSpace, s2) /\ good s2 = true).
  { unfold do_EndValue. destruct s' as [f [|p st]]; [discriminate|]. cbn [parseState]. cbn [isSpace]. eexists. split; [reflexivity|]. unfold good in *. cbn [parseState step go] in *. apply andb_true_iff in G'. rewrite (proj1 G'). reflexivity. }
  destruct k; try congruence; try (left; reflexivity); try (right; right; eexists; split; [reflexivity|exact G']).
  all: destruct Z as (s2 & Z1 & Z2); rewrite Z1; right; right; eexists; split; [reflexivity|exact Z2].
Qed.
Lemma good_goes t : forall s s', good s = true -> goes s t s' -> good s' = true.
Proof.
  induction t as [|c t IH]; intros s s' G H; [injection H as <-; exact G|]. unfold goes in H. change (c :: t) with ([c] ++ t) in H. rewrite scan_app in H.
  destruct (good_one s c G) as [E|[E|(s1 & E & G1)]]; [rewrite E in H; discriminate|rewrite E in H; discriminate|]. rewrite E in H. apply (IH s1 s' G1). unfold goes. destruct (scan_bytes s1 t); try discriminate. exact H.
Qed.
(** Any value may be completed ... *)
Lemma complete s : good s = true -> exists x s' st, goes s x s' /\ after s' st /\ st <> [] /\ forallb vtop st = true.
Proof.
  destruct s as [f [|p st]]; [discriminate|]. unfold good. cbn [parseState step]. rewrite andb_true_iff. intros [F G].
  destruct f; try discriminate G; destruct p; try discriminate G;
  let t x := (exists (x : str); eexists; eexists; split; [unfold goes; cbn; reflexivity|split; [split; [reflexivity|cbn; tauto]|split; [discriminate|cbn; exact F]]]) in
  first [t (b "") | t (b "0") | t (b """") | t (b ":0") | t (b """:0") | t (b """"":0") | t (b "n""") | t (b "n"":0") | t (b "0000""") | t (b "0000"":0") | t (b "000""") | t (b "000"":0") | t (b "00""") | t (b "00"":0") | t (b "0""") | t (b "0"":0")
        | t (b "rue") | t (b "ue") | t (b "e") | t (b "alse") | t (b "lse") | t (b "se") | t (b "ull") | t (b "ll") | t (b "l")].
Qed.
(** ... and everything around it may be closed. *)
Lemma close st : forall s, after s st -> st <> [] -> forallb vtop st = true -> exists y, scan_bytes s y = SEnd (length y).
Proof.
  induction st as [|p st IH]; intros s A N F; [congruence|]. cbn [forallb] in F. apply andb_true_iff in F. destruct F as [Vp F].
  assert (Z : exists c k, sstep s (N_of_ascii c) = (k, pop st) /\ (k = scanEndObject \/ k = scanEndArray)).
  { destruct p; [discriminate|exists "}"%char, scanEndObject|exists "]"%char, scanEndArray]; (split; [rewrite (after_step _ _ _ A) by (unfold follows; cbn; tauto); reflexivity|auto]). }
  destruct Z as (c & k & E & K). destruct st as [|p2 st].
  - exists [c]. cbn [scan_bytes]. rewrite E. destruct K as [->| ->]; reflexivity.
  - pose proof (closes _ _ _ _ _ _ E eq_refl K) as G. destruct (IH _ (after_end p2 st) ltac:(discriminate) F) as (y & Y). exists (c :: y). change (c :: y) with ([c] ++ y) at 1. rewrite scan_app, G, Y. reflexivity.
Qed.
Lemma viable z s c : goes reset z s -> good s = true -> scan_bytes s [c] <> SBad -> exists q, scan_bytes reset (z ++ c :: q) = SEnd (length (z ++ c :: q)).
Proof.
  intros G O NB. destruct (good_one s c O) as [E|[E|(s1 & E & O1)]]; [contradiction| |].
  - exists []. rewrite scan_app, G, E, app_length. reflexivity.
  - destruct (complete s1 O1) as (x & s2 & st & G2 & A & N & F). destruct (close st s2 A N F) as (y & Y). exists (x ++ y). change (c :: x ++ y) with ([c] ++ x ++ y).
    rewrite scan_app, G, scan_app, E, scan_app, G2, Y. cbn [shift]. rewrite !app_length. cbn [length]. f_equal.
Qed.
Lemma brace_goes w : space w -> goes reset (w ++ b "{") (mkScan stateBeginStringOrEmpty [parseObjectKey]).
Proof. intros W. eapply goes_app; [apply space_begin, W|reflexivity]. Qed.
Lemma value_object w x : space w -> value_text (w ++ "{"%char :: x) -> object_text (w ++ "{"%char :: x).
Proof.
  intros W (w' & n & y & W' & L & G & E). destruct (text_first n y G) as (c & y' & -> & Sp & _). destruct (leading w x w' y' "{"%char c W W' eq_refl Sp E) as (<- & <- & <-). exists w, n, x. auto.
Qed.
Lemma broken w z q c : space w -> object_text (w ++ b "{" ++ z ++ q) -> q <> [] -> (forall x, ~ object_text (w ++ b "{" ++ z ++ c :: x)) ->
  exists s, goes reset (w ++ b "{" ++ z) s /\ scan_bytes s [c] = SBad.
Proof.
  intros W T Nq H. destruct (object_begin (w ++ b "{" ++ z) q Nq) as (s & G & _); [rewrite <- !app_assoc; exact T|]. exists s. split; [exact G|].
  assert (O : good s = true).
  { apply (good_goes z (mkScan stateBeginStringOrEmpty [parseObjectKey])); [reflexivity|]. unfold goes in *. rewrite app_assoc, scan_app, (brace_goes w W) in G. destruct (scan_bytes _ z); try discriminate. exact G. }
  destruct (scan_bytes s [c]) eqn:E; [exfalso|reflexivity|exfalso]; (destruct (viable _ s c G O) as (x & X); [congruence|]; apply (H x); rewrite <- !app_assoc in X; apply scan_value in X; rewrite firstn_all in X; apply value_object; assumption).
Qed.

(** ** Reading *)
Lemma scan_prefix x y s : goes reset (x ++ y) s -> exists s', goes reset x s'.
Proof. unfold goes. rewrite scan_app. destruct (scan_bytes reset x); try discriminate. eauto. Qed.
Lemma refill_part d r : roomy d -> Nleft r <> 0%N -> rest (R r) <> [] ->
  exists m d' r', refill d r = (None, d', r') /\ m <> [] /\ rest (R r) = m ++ rest (R r') /\ unread d' = unread d ++ m /\ (Nleft r = N.of_nat (length m) + Nleft r')%N /\ roomy d'.
Proof.
  intros Rm N E. unfold refill. fold (unread d). set (cap := if _ : bool then _ else _).
  assert (Lu : length (unread d) <= dcap d) by (unfold unread, roomy in *; rewrite skipn_length; lia).
  assert (K : cap - length (unread d) <> 0) by (unfold cap, minRead; destruct (Nat.ltb_spec (dcap d - length (unread d)) 512); lia).
  assert (Lc : length (unread d) <= cap) by (unfold cap; destruct (_ <? _); lia).
  pose proof (lr_read_spec (cap - length (unread d)) r) as S. destruct (lr_read (cap - length (unread d)) r) as [[bs [e|]] r'].
  - destruct S as (_ & _ & [[Z _]|(_ & Z & _)]); contradiction.
  - destruct S as (_ & Es & Ef & Lb & En & Lk & Nb & _). exists bs, (mkDec (unread d ++ bs) 0 cap (derr d)), r'. split; [reflexivity|]. split; [intros Z; specialize (Nb Z); contradiction|]. split; [exact Es|]. split; [reflexivity|].
    split; [lia|]. unfold roomy. cbn [dbuf dcap]. rewrite app_length. lia.
Qed.
Lemma readValue_bad z c s0 y : goes reset z s0 -> scan_bytes s0 [c] = SBad -> forall fuel s n d r, roomy d ->
  length (rest (R r)) < fuel -> n <= length (unread d) -> goes reset (firstn n (unread d)) s ->
  (N.of_nat (length z) < N.of_nat (length (unread d)) + Nleft r)%N -> unread d ++ rest (R r) = (z ++ [c]) ++ y ->
  exists d' r', readValue fuel s n None d r = (Err ESyntax, d', r').
Proof.
  intros G0 B. assert (BZ : forall x, scan_bytes reset ((z ++ [c]) ++ x) = SBad) by (intros x; rewrite !scan_app, G0, B; reflexivity).
  induction fuel as [|fuel IH]; intros s n d r Rm Lf Ln G E Eu; [lia|]. cbn [readValue]. rewrite skip_more, unread_length.
  destruct (prefix_cases _ _ _ _ Eu) as [(y1 & Ez & _)|(q & Nq & Ez & Em)].
  - assert (Sb : scan_bytes s (skipn n (unread d)) = SBad).
    { pose proof (BZ y1) as X. rewrite <- Ez, <- (firstn_skipn n (unread d)), scan_app, G in X. destruct (scan_bytes s (skipn n (unread d))); try discriminate. reflexivity. }
    rewrite Sb. eauto.
  - assert (P : (exists s', goes reset (unread d) s') /\ length (unread d) <= length z).
    { destruct (exists_last Nq) as (q' & c' & ->). rewrite app_assoc in Ez. apply app_inj_tail in Ez. destruct Ez as [-> _]. split; [eapply scan_prefix, G0|rewrite app_length; lia]. }
    destruct P as [(s' & G') Lz]. assert (Sm : scan_bytes s (skipn n (unread d)) = SMore s').
    { unfold goes in G'. rewrite <- (firstn_skipn n (unread d)), scan_app, G in G'. destruct (scan_bytes s (skipn n (unread d))); try discriminate. exact G'. }
    rewrite Sm. assert (Nm : rest (R r) <> []) by (rewrite Em; destruct q; [congruence|discriminate]).
    destruct (refill_part d r Rm ltac:(lia) Nm) as (m & d' & r' & -> & N1 & Es & Eu' & En & Rm').
    assert (L1 : 0 < length m) by (destruct m; [congruence|cbn; lia]). rewrite Es, app_length in Lf.
    apply (IH s' (length (unread d)) d' r'); try assumption; try lia.
    + rewrite Eu', app_length. lia.
    + rewrite Eu', firstn_app, Nat.sub_diag, firstn_O, app_nil_r, firstn_all. exact G'.
    + rewrite Eu', app_length. lia.
    + rewrite Eu', <- app_assoc, <- Es. exact Eu.
Qed.
Lemma session_broken unmarshal s1 ts h size w z q c x fin sch fuel : is_stream s1 ts -> Forall object_text ts -> Forall (accepted unmarshal) ts -> Forall (fun m => N.of_nat (length m) <= 1073741824)%N ts ->
  space w -> object_text (w ++ b "{" ++ z ++ q) -> q <> [] -> (forall x, ~ object_text (w ++ b "{" ++ z ++ c :: x)) ->
  is_header h size -> (N.of_nat (length (w ++ b "{" ++ z)) < size <= 1073741824)%N -> length ts < fuel ->
  session fuel unmarshal NewDecoder (NewFrameLimitedReader (mkSrc (s1 ++ h ++ w ++ b "{" ++ z ++ c :: x) fin sch 0)) = Some (ts, EDecode ESyntax).
Proof.
  intros S T A L W O Nq H Hh [Lx Ls] F. destruct (some_exact unmarshal ts (h ++ w ++ b "{" ++ z ++ c :: x) s1 NewDecoder (NewFrameLimitedReader (mkSrc (s1 ++ h ++ w ++ b "{" ++ z ++ c :: x) fin sch 0)) S T A L) as (d & r & E & Eu & Ed & Rm & En & Er & _); auto; [apply le_n|].
  replace fuel with (length ts + Datatypes.S (fuel - length ts - 1)) by lia. rewrite (session_some _ _ _ _ _ _ _ _ E). cbn [session]. unfold ReadMessage.
  destruct (header_any r h size _ En Hh Ls Er) as (r1 & -> & E1 & E2 & _). unfold Decode. rewrite Ed. destruct (broken w z q c W O Nq H) as (s & G & B).
  destruct (readValue_bad (w ++ b "{" ++ z) c s x G B (2 + length (rest (R r1))) reset 0 d r1) as (d' & r' & ->); try assumption.
  - lia.
  - lia.
  - apply goes_nil.
  - rewrite Eu, E1. cbn [length]. lia.
  - rewrite Eu, E2, <- !app_assoc. reflexivity.
  - rewrite app_nil_r. reflexivity.
Qed.

(** ** Witnesses: a member and a comma may be followed by another member but not by a closing brace *)
Lemma ex_viable : object_text (b "{" ++ b """a"":1," ++ b """b"":2}").
Proof. apply (value_object [] (b """a"":1," ++ b """b"":2}")); [constructor|]. apply (scan_value (b "{" ++ b """a"":1," ++ b """b"":2}") 13). vm_compute. reflexivity. Qed.
Lemma ex_broken x : ~ object_text (b "{" ++ b """a"":1," ++ "}"%char :: x).
Proof. intros T. destruct (object_scan [] _ [] ltac:(constructor) T) as [E _]. vm_compute in E. discriminate. Qed.
