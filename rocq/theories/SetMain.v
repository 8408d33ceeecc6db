(** Sets of links of a file. *)
From Coq Require Import ZifyBool ZifyNat ZifyN.
From Verif Require Import GoBase GoSlice Utf8 Utf8Proofs Utf8Dec Regex RegexParse RegexSpec RegexProofs Pieces Patterns RegexLex RegexWords
  Scanner ScannerSpec ScannerProofs LinkTypes Flags Emacs Extract ExtractSpec HeadingProofs SchemeProofs LinkProofs2 BracketProofs OrgProofs
  SetSpec SetProofs SetCompile.

(** ** Text of a prefix *)
Lemma no_error_valid s : ~ In rune_error (runes_of s) -> valid_utf8 s.
Proof.
  intros H. unfold runes_of in H. rewrite <- (strN_bytesN s). pose proof (bytesN_bound s) as B. revert B H. generalize (bytesN s). clear s. intros l B. revert l B.
  apply (decode_ind (fun l => ~ In rune_error (decodeN l) -> valid_utf8 (strN l))).
  - intros _. exists []. split; [constructor|reflexivity].
  - intros r s' Hr _ Hd IH H. rewrite Hd in H. destruct IH as (rs & F & E); [intros I; apply H; right; exact I|].
    exists (r :: rs). split; [auto|]. cbn [map concat]. rewrite !strN_app. rewrite E. reflexivity.
  - intros b0 s _ _ Hd _ _ H. exfalso. apply H. rewrite Hd. left. reflexivity.
Qed.
Lemma same_text_iff t q : valid_utf8 q -> runes_of t = runes_of q -> same_text t q.
Proof.
  intros V E. destruct (in_dec N.eq_dec rune_error (runes_of q)) as [I|I]; [right; auto|]. left.
  rewrite <- (string_runes q V), <- (string_runes t); [f_equal; exact E|]. apply no_error_valid. rewrite E. exact I.
Qed.

(** ** Matches *)
Definition none_re : re := RCls (mkCls false []).
Lemma none_words : is_words none_re [].
Proof. intros u pre mid post new. split; [intros (x & bs & _ & M & _); discriminate|intros (_ & x & [] & _)]. Qed.
Definition starts_q (qs : list str) (x more : str) : Prop := exists q t, In q qs /\ runes_of t = runes_of q /\ x = t ++ more.
Definition set_link_q (k : kind) (qs : list str) (line x : str) : Prop :=
  exists more, starts_q qs x more /\
    ((k = Org /\ exists d, bracket_link line (mkLink x d 0)) \/
     (k = Org /\ (exists pre post, line = pre ++ b "<" ++ x ++ b ">" ++ post) /\ ~ In ">"%char more) \/
     ((exists pre post, line = pre ++ x ++ post /\ boundary pre x) /\ more <> [] /\
      Forall (fun c => ~ In c (b "[]<>" ++ blanks)) more)).
Lemma set_link_full k filters qs line x : Forall2 full_prefix filters qs -> Forall valid_utf8 qs -> set_link_q k qs line x -> set_link k filters line x.
Proof.
  intros F V (more & (q & t & I & R & E) & H). exists more. split; [|exact H].
  assert (exists p, In p filters /\ full_prefix p q) as (p & Ip & P).
  { clear -F I. induction F as [|p q' ps qs Hp F IH]; [destruct I|]. destruct I as [<-|I]; [exists p; split; [left; reflexivity|exact Hp]|].
    destruct (IH I) as (p' & A & B). exists p'. split; [right; exact A|exact B]. }
  exists p, q, t. rewrite Forall_forall in V. split; [exact Ip|]. split; [exact P|]. split; [apply same_text_iff; auto|exact E].
Qed.
Lemma check_iff u g qs r x : prefix_re g qs -> compile r = Some (RSeq RBegin g) ->
  MatchString u (RSeq RBegin g) x = true <-> exists q rest, In q qs /\ runes_of x = runes_of q ++ map fst rest /\
     exists mid, pieces x = mid ++ rest /\ map fst mid = runes_of q.
Proof.
  intros P C. rewrite (MatchString_true u _ x (compile_ok _ _ C)). split.
  - intros (pre & mid & post & new & E & M). seq M l1 l2 n1 n2 M1. destruct M1 as (-> & -> & ->). apply P in M. destruct M as (-> & q & I & R).
    cbn [app] in E, R. exists q, post. split; [exact I|]. rewrite <- fst_pieces, E, map_app, R. split; [reflexivity|]. eauto.
  - intros (q & rest & I & _ & mid & E & R). exists [], mid, rest, []. split; [exact E|]. exists [], mid, [], []. split; [reflexivity|]. split; [reflexivity|].
    split; [cbn; auto|]. apply P. split; [reflexivity|]. eauto.
Qed.
Lemma check_starts u g qs r x : prefix_re g qs -> compile r = Some (RSeq RBegin g) -> MatchString u (RSeq RBegin g) x = true -> exists more, starts_q qs x more.
Proof.
  intros P C M. apply (check_iff _ _ _ _ _ P C) in M. destruct M as (q & rest & I & _ & mid & E & R). exists (text_of rest), q, (text_of mid).
  split; [exact I|]. split; [|rewrite <- text_app, <- E, text_pieces; reflexivity].
  rewrite <- fst_pieces. rewrite (pieces_part x [] mid rest E). exact R.
Qed.
Lemma runes_part s x y z : pieces s = x ++ y ++ z -> runes_of (text_of y) = map fst y.
Proof. intros E. rewrite <- fst_pieces, (pieces_part s x y z E). reflexivity. Qed.
Lemma app_part {A} (x y z w : list A) : x ++ (y ++ z) ++ w = x ++ y ++ (z ++ w).
Proof. rewrite <- app_assoc. reflexivity. Qed.

Lemma plain_match u n g qs line pre mid post new : prefix_re g qs -> Forall (fun q => runes_of q <> []) qs -> pieces line = pre ++ mid ++ post ->
  mlist u (set_plain_re n g) pre mid post new -> new = [(n, text_of mid)] /\ text_of mid <> [] /\ forall k, set_link_q k qs line (text_of mid).
Proof.
  intros P NE EP M. unfold set_plain_re in M. seq M l1 l2 n1 n2 M1. destruct M1 as (-> & WB & ->). destruct M as (n0 & M & ->).
  cbn [app] in EP. rewrite app_nil_r in *. cbn [app] in *. seq M la lb na nb Ma. apply P in Ma. destruct Ma as (-> & q & I & R).
  pose proof (pieces_shape line) as H. rewrite EP, !Forall_app in H. destruct H as (H0 & (Ha & Hb) & _).
  assert (NG : nb = []) by (eapply mlist_no_groups; [|exact M]; vm_compute; reflexivity). subst nb.
  assert (NB : lb <> []) by (eapply mlist_nullable; [|exact M]; vm_compute; reflexivity).
  split; [reflexivity|]. split. { apply text_ne; [apply Forall_app; auto|]. destruct la; [exact NB|discriminate]. }
  intros k. exists (text_of lb). split.
  - exists q, (text_of la). split; [exact I|]. split; [|apply text_app]. rewrite <- R. eapply runes_part. rewrite EP, app_part. reflexivity.
  - right. right. split; [|split].
    + exists (text_of pre), (text_of post). split; [apply (pieces_part_text _ _ _ _ EP)|]. apply boundary_ok; [exact H0|apply Forall_app; auto|].
      destruct la as [|pa la]; [|exact WB]. destruct lb as [|pb lb]; [congruence|exact WB].
    + apply text_ne; assumption.
    + eapply rejects_ok; [|exact Hb|exact M]. vm_compute. reflexivity.
Qed.
Lemma angle_match u n g qs line pre mid post new : prefix_re g qs -> Forall (fun q => runes_of q <> []) qs -> pieces line = pre ++ mid ++ post ->
  mlist u (set_angle_re n g) pre mid post new -> exists x, x <> [] /\ new = [(n, x)] /\ text_of mid = b "<" ++ x ++ b ">" /\ set_link_q Org qs line x.
Proof.
  intros P NE EP M. unfold set_angle_re in M. seq M l1 l2 n1 n2 M1. seq M l3 l4 n3 n4 M3. destruct M3 as (n0 & M3 & ->). seq M3 la lb na nb Ma. apply P in Ma. destruct Ma as (-> & q & I & R).
  pose proof (pieces_shape line) as H. rewrite EP, !Forall_app in H. destruct H as (H0 & (H1 & (Ha & Hb) & H4) & _).
  apply lit_text in M1, M; try assumption; try lia. destruct M1 as [T1 ->], M as [T4 ->].
  assert (NG : nb = []) by (eapply mlist_no_groups; [|exact M3]; vm_compute; reflexivity). subst nb.
  assert (NA : la <> []). { rewrite Forall_forall in NE. intros ->. apply (NE q I). rewrite <- R. reflexivity. }
  exists (text_of (la ++ lb)). split; [apply text_ne; [apply Forall_app; auto|]; destruct la; [congruence|discriminate]|]. split; [reflexivity|].
  assert (T : text_of (l1 ++ (la ++ lb) ++ l4) = b "<" ++ text_of (la ++ lb) ++ b ">").
  { rewrite (text_app l1), (text_app (la ++ lb) l4), T1, T4. reflexivity. }
  split; [exact T|]. exists (text_of lb). split.
  - exists q, (text_of la). split; [exact I|]. split; [|apply text_app]. rewrite <- R.
    apply (runes_part line (pre ++ l1) la (lb ++ l4 ++ post)). rewrite EP, <- !app_assoc. reflexivity.
  - right. left. split; [reflexivity|]. split.
    + exists (text_of pre), (text_of post). rewrite (pieces_part_text _ _ _ _ EP), T, <- !app_assoc. reflexivity.
    + pose proof (rejects_ok u reAng (b ">") _ lb _ _ ltac:(vm_compute; reflexivity) Hb M3) as F. rewrite Forall_forall in F. intros J. apply F in J. apply J. left. reflexivity.
Qed.
Lemma bracket_match u line pre mid post new : pieces line = pre ++ mid ++ post -> mlist u reBr pre mid post new ->
  exists x d tail, x <> [] /\ group (mkMatch (text_of mid) new) 1 = x /\ bracket_link line (mkLink x d 0) /\
    text_of mid = b "[[" ++ x ++ b "]" ++ tail ++ b "]" /\ ((d = [] /\ tail = []) \/ (d <> [] /\ tail = b "[" ++ d ++ b "]")).
Proof.
  intros EP M. pose proof (pieces_shape line) as H. rewrite EP, !Forall_app in H. destruct H as (H0 & H & _). pose proof (pieces_part_text _ _ _ _ EP) as TL.
  pose proof (link_shape u [] none_re none_re pre mid post new none_words none_words H (or_introl M)) as Sh.
  inversion Sh as [md g1 tail g2 NM NG ESC T D (p & q & SP) mm G1 G2 E1 E2|md g3' g4 x T [] Mx F Hg mm G1 G3 G4 G5 E1 E2|md g5' g6 x T [] Mx F Hg N6 WB mm G1 G3 G5 G6 E1 E2]; subst md mm.
  assert (Hg : Forall piece_ok g1). { rewrite SP, !Forall_app in H. apply H. } pose proof (text_ne _ Hg NG) as N1.
  exists (text_of g1), g2, tail. split; [exact N1|]. split; [exact G1|]. split; [|split; [exact T|exact D]]. split; [|split; [exact N1|apply escaped_text; assumption]].
  exists (text_of pre), tail, (text_of post). split; [|exact D]. rewrite TL, T, <- !app_assoc. reflexivity.
Qed.
Lemma org_key u g g' gp qs r line m : prefix_re g qs -> prefix_re g' qs -> prefix_re gp qs -> Forall (fun q => runes_of q <> []) qs ->
  compile r = Some (RSeq RBegin gp) -> In m (FindAll u (set_org_re g g') line) ->
  exists k, set_key true (RSeq RBegin gp) m = Done k /\ forall x, k = Some x -> set_link_q Org qs line x.
Proof.
  intros P P' Pp NE C I. apply FindAll_in in I. destruct I as (pre & mid & post & new & EP & M & ->). unfold set_key. destruct M as [M|[M|M]].
  - destruct (bracket_match _ _ _ _ _ _ EP M) as (x & d & tail & NX & G & B & _). rewrite G. destruct x as [|c x]; [congruence|].
    eexists. split; [reflexivity|]. intros y E. destruct (MatchString _ _ _) eqn:MS; [|discriminate]. injection E as <-.
    apply (check_starts _ _ _ _ _ Pp C) in MS. destruct MS as (more & MS). exists more. split; [exact MS|]. left. split; [reflexivity|]. eauto.
  - destruct (angle_match _ _ _ _ _ _ _ _ _ P NE EP M) as (x & NX & -> & T & S1). cbn [group]. 
    change (group (mkMatch (text_of mid) [(3, x)]) 1) with (@nil ascii). change (group (mkMatch (text_of mid) [(3, x)]) 3) with x.
    destruct x as [|c x]; [congruence|]. eexists. split; [reflexivity|]. intros y E. injection E as <-. exact S1.
  - destruct (plain_match _ _ _ _ _ _ _ _ _ P' NE EP M) as (-> & NX & S1).
    change (group (mkMatch (text_of mid) [(4, text_of mid)]) 1) with (@nil ascii). change (group (mkMatch (text_of mid) [(4, text_of mid)]) 3) with (@nil ascii).
    change (group (mkMatch (text_of mid) [(4, text_of mid)]) 4) with (text_of mid). specialize (S1 Org).
    destruct (text_of mid) as [|c x]; [congruence|]. eexists. split; [reflexivity|]. intros y E. injection E as <-. exact S1.
Qed.
Lemma txt_key u g gp qs r line m : prefix_re g qs -> prefix_re gp qs -> Forall (fun q => runes_of q <> []) qs ->
  compile r = Some (RSeq RBegin gp) -> In m (FindAll u (set_plain_re 1 g) line) ->
  exists k, set_key false (RSeq RBegin gp) m = Done k /\ forall x, k = Some x -> set_link_q Txt qs line x.
Proof.
  intros P Pp NE C I. apply FindAll_in in I. destruct I as (pre & mid & post & new & EP & M & ->). unfold set_key.
  destruct (plain_match _ _ _ _ _ _ _ _ _ P NE EP M) as (-> & NX & S1). specialize (S1 Txt).
  change (group (mkMatch (text_of mid) [(1, text_of mid)]) 1) with (text_of mid).
  destruct (text_of mid) as [|c x]; [congruence|]. eexists. split; [reflexivity|]. intros y E. destruct (MatchString _ _ _); [|discriminate]. injection E as <-. exact S1.
Qed.

(** ** Keys of the map *)
Lemma insert_in x y s : In y (insert_set x s) <-> In y s \/ y = x.
Proof.
  unfold insert_set. destruct (existsb _ s) eqn:E.
  - split; [auto|]. intros [I| ->]; [exact I|]. apply existsb_exists in E. destruct E as (z & I & E). apply str_eqb_eq in E. subst. exact I.
  - rewrite in_app_iff. cbn. intuition.
Qed.
Lemma insert_nodup x s : NoDup s -> NoDup (insert_set x s).
Proof.
  intros H. unfold insert_set. destruct (existsb _ s) eqn:E; [exact H|]. apply NoDup_app_remove_l with (l := []) in H || idtac.
  rewrite <- (rev_involutive (s ++ [x])). apply NoDup_rev. rewrite rev_app_distr. cbn. constructor; [|apply NoDup_rev, H].
  rewrite <- in_rev. intros I. assert (F : existsb (str_eqb x) s = true) by (apply existsb_exists; exists x; split; [exact I|apply str_eqb_refl]). congruence.
Qed.
Definition key_of (o : outcome (option str)) : list str := match o with Done (Some x) => [x] | _ => [] end.
Definition found_in (org : bool) (rl rp : re) (line : str) : list str := flat_map (fun m => key_of (set_key org rp m)) (FindAll (fun _ => false) rl line).
Lemma set_matches_ok org rp ms : Forall (fun m => exists k, set_key org rp m = Done k) ms -> forall s,
  exists s', set_matches org rp ms s = Done s' /\ (forall x, In x s' <-> In x s \/ In x (flat_map (fun m => key_of (set_key org rp m)) ms)) /\ (NoDup s -> NoDup s').
Proof.
  intros H. induction H as [|m ms (k & Hk) H IH]; intros s.
  - exists s. cbn. split; [reflexivity|]. intuition.
  - cbn [set_matches flat_map]. rewrite Hk. cbn [obind]. destruct (IH (match k with Some x => insert_set x s | None => s end)) as (s' & E & I & N).
    exists s'. split; [exact E|]. split.
    + intros x. rewrite I, in_app_iff. destruct k as [y|]; cbn [key_of]; [rewrite insert_in|]; cbn; intuition.
    + intros D. apply N. destruct k; [apply insert_nodup|]; exact D.
Qed.
Lemma set_lines_ok org rl rp lines : Forall (fun line => Forall (fun m => exists k, set_key org rp m = Done k) (FindAll (fun _ => false) rl line)) lines -> forall s,
  exists s', set_lines org rl rp lines s = Done s' /\ (forall x, In x s' <-> In x s \/ In x (flat_map (found_in org rl rp) lines)) /\ (NoDup s -> NoDup s').
Proof.
  intros H. induction H as [|l lines Hl H IH]; intros s.
  - exists s. cbn. split; [reflexivity|]. intuition.
  - cbn [set_lines flat_map]. destruct (set_matches_ok _ _ _ Hl s) as (s1 & -> & I1 & N1). cbn [obind]. destruct (IH s1) as (s' & E & I & N).
    exists s'. split; [exact E|]. split; [|auto]. intros x. rewrite I, I1, in_app_iff. fold (found_in org rl rp l). tauto.
Qed.

(** ** Files *)
Definition is_org (k : kind) : bool := match k with Org => true | Txt => false end.
Lemma full_ne p q : full_prefix p q -> prefix_ok p -> runes_of q <> [].
Proof.
  intros [[_ ->]|[_ ->]] (s & Nm & R); apply scheme_ne in Nm.
  - destruct R as [->|(x & -> & _)]; [exact Nm|]. destruct s; [congruence|discriminate].
  - change (p ++ b ":") with (p ++ ":"%char :: []). rewrite runes_split by reflexivity. destruct (runes_of p); discriminate.
Qed.
Lemma full_valid p q : full_prefix p q -> valid_utf8 q <-> valid_utf8 p.
Proof.
  intros [[_ ->]|[_ ->]]; [reflexivity|]. change (p ++ b ":") with (p ++ ":"%char :: []). rewrite valid_split by reflexivity.
  split; [tauto|]. intros V. split; [exact V|]. exists []. split; [constructor|reflexivity].
Qed.
Lemma base_ok filters : prefixes_ok filters -> exists qs, MakeLinkSetBase filters = Some (b "(?:" ++ joined qs ++ b ")") /\ Forall2 full_prefix filters qs /\
  Forall (fun q => runes_of q <> []) qs /\ qs <> [] /\ Forall valid_utf8 qs.
Proof.
  intros [NE H]. pose proof (set_base_ok filters) as B. unfold MakeLinkSetBase. destruct (set_base filters) as [base|].
  2:{ exfalso. apply Exists_exists in B. destruct B as (p & I & NP). rewrite Forall_forall in H. apply NP, H, I. }
  destruct B as (_ & qs & F & ->). exists qs. split; [destruct filters; [congruence|reflexivity]|]. split; [exact F|]. 
  assert (X : Forall (fun q => runes_of q <> [] /\ valid_utf8 q) qs).
  { clear NE. induction F as [|p q ps qs Hp F IH]; [constructor|]. inversion H as [|? ? [P V] H']. subst. constructor; [|apply IH; assumption].
    split; [eapply full_ne; eassumption|apply (full_valid _ _ Hp), V]. }
  split; [eapply Forall_impl; [|exact X]; intros q [A _]; exact A|]. split; [intros ->; inversion F; subst; congruence|]. eapply Forall_impl; [|exact X]; intros q [_ A]; exact A.
Qed.
Lemma patterns_ok k filters : prefixes_ok filters -> exists base rl gp qs, MakeLinkSetBase filters = Some base /\
  compile (set_pattern k base) = Some rl /\ compile (b "^" ++ base) = Some (RSeq RBegin gp) /\ prefix_re gp qs /\ Forall2 full_prefix filters qs /\ Forall valid_utf8 qs /\
  (k = Org -> exists g g', rl = set_org_re g g' /\ prefix_re g qs /\ prefix_re g' qs) /\
  forall line m, In m (FindAll (fun _ => false) rl line) -> exists o, set_key (is_org k) (RSeq RBegin gp) m = Done o /\ forall x, o = Some x -> set_link k filters line x.
Proof.
  intros H. destruct (base_ok _ H) as (qs & B & F & NR & NE & V). destruct (check_compile qs NR NE V) as (gp & Cp & Pp).
  destruct k.
  - destruct (org_compile qs NR NE V) as (g & g' & C & P & P'). eexists _, _, gp, qs. split; [exact B|]. split; [exact C|]. split; [exact Cp|].
    split; [exact Pp|]. split; [exact F|]. split; [exact V|]. split; [eauto|]. intros line m I.
    destruct (org_key _ _ _ _ _ _ _ _ P P' Pp NR Cp I) as (o & E & X). exists o. split; [exact E|]. intros x Ex. eapply set_link_full; eauto.
  - destruct (txt_compile qs NR NE V) as (g & C & P). eexists _, _, gp, qs. split; [exact B|]. split; [exact C|]. split; [exact Cp|].
    split; [exact Pp|]. split; [exact F|]. split; [exact V|]. split; [discriminate|]. intros line m I.
    destruct (txt_key _ _ _ _ _ _ _ P Pp NR Cp I) as (o & E & X). exists o. split; [exact E|]. intros x Ex. eapply set_link_full; eauto.
Qed.
(** A line that is a bracket link *)
Lemma runes_app_valid x y : valid_utf8 x -> runes_of (x ++ y) = runes_of x ++ runes_of y.
Proof.
  intros (rs & H & ->). unfold runes_of. rewrite bytesN_app, bytesN_strN by (apply encode_bound, H). rewrite decode_encode by exact H.
  induction H as [|r rs Hr H IH]; [reflexivity|]. cbn [map concat]. rewrite <- app_assoc, decode_encode1 by exact Hr. rewrite IH. reflexivity.
Qed.
Lemma set_nullable g g' : nullable (set_org_re g g') = false.
Proof.
  unfold set_org_re, set_angle_re, set_plain_re. cbn [nullable lit]. replace (nullable reBr) with false by (vm_compute; reflexivity).
  replace (nullable rePl) with false by (vm_compute; reflexivity). rewrite !andb_false_r. reflexivity.
Qed.
Lemma whole_key pat g g' gp qs rp u t d more q : compile pat = Some (set_org_re g g') -> compile rp = Some (RSeq RBegin gp) -> prefix_re gp qs ->
  prefix_re g qs -> prefix_re g' qs -> no_brackets t -> no_brackets d -> t = q ++ more -> In q qs -> valid_utf8 q -> runes_of q <> [] ->
  In t (flat_map (fun m => key_of (set_key true (RSeq RBegin gp) m)) (FindAll u (set_org_re g g') (bracket_line t d))).
Proof.
  intros C Cp Pp P P' NT ND Et Iq Vq Nq. assert (NE : t <> []). { rewrite Et. intros E. apply app_eq_nil in E. destruct E as [-> _]. apply Nq. reflexivity. }
  change (bracket_line t d) with (whole_link t d). set (line := whole_link t d).
  assert (FR : first_rune (pieces line) = Some 91%N) by (unfold line, whole_link; cbn [b list_ascii_of_string app]; rewrite pieces_ascii by (cbn; lia); reflexivity).
  assert (SH : forall mid post new, pieces line = mid ++ post -> mlist u (set_org_re g g') [] mid post new ->
                 post = [] /\ group (mkMatch (text_of mid) new) 1 = t).
  { intros mid post new E M. pose proof (pieces_shape line) as HP. rewrite E, Forall_app in HP. destruct HP as [H1 H2].
    assert (TL : line = text_of mid ++ text_of post) by (rewrite <- text_app, <- E, text_pieces; reflexivity). destruct M as [M|[M|M]].
    - destruct (bracket_match u line [] mid post new E M) as (x & d' & tail & NX & G & B & T & D). rewrite T in TL.
      destruct B as (_ & _ & ES). destruct (whole_unique t d _ _ _ _ NT ND TL ES D) as (X1 & X2 & X3). rewrite G. split; [|exact X1].
      destruct post as [|p0 post]; [reflexivity|]. exfalso. exact (text_ne _ H2 ltac:(discriminate) X3).
    - exfalso. unfold set_angle_re in M. seq M l1 l2 n1 n2 M1. rewrite Forall_app in H1. apply lit_text in M1; [|lia|apply H1]. destruct M1 as [T _].
      rewrite text_app, T in TL. discriminate TL.
    - exfalso. unfold set_plain_re in M. seq M l1 l2 n1 n2 M1. destruct M1 as (-> & WB & _). cbn [app] in E. rewrite <- E, FR in WB. discriminate. }
  destruct (FindAll_single u (set_org_re g g') line (compile_ok _ _ C) (set_nullable _ _)) as (new & EF & MF).
  { destruct (whole_exists u t d NE NT) as (new & M). exists (pieces line), [], new. rewrite app_nil_r. split; [reflexivity|]. left. exact M. }
  { intros mid post new E M. apply (SH _ _ _ E M). }
  rewrite EF. cbn [flat_map]. rewrite app_nil_r. destruct (SH (pieces line) [] new (eq_sym (app_nil_r _)) MF) as (_ & G1). rewrite text_pieces in G1.
  unfold set_key. rewrite G1. destruct t as [|c0 t0] eqn:E0; [congruence|]. rewrite <- E0 in *.
  replace (MatchString (fun _ => false) (RSeq RBegin gp) t) with true; [left; reflexivity|]. symmetry.
  apply (check_iff _ _ _ _ _ Pp Cp). pose proof (runes_app_valid q more Vq) as R. rewrite <- Et, <- fst_pieces in R. apply split_fst in R.
  destruct R as (mid & rest & E & R1 & R2). exists q, rest. split; [exact Iq|]. rewrite <- fst_pieces, E, map_app, R1. split; [reflexivity|]. eauto.
Qed.
Lemma set_file k content broken filters lines err : prefixes_ok filters -> seen_lines content broken lines err ->
  exists found, Forall (fun x => exists line, In line lines /\ set_link k filters line x) found /\
    (k = Org -> forall t d more, In (bracket_line t d) lines -> no_brackets t -> no_brackets d -> (exists p q, In p filters /\ full_prefix p q /\ t = q ++ more) -> In t found) /\
    forall chunk set, exists set', ExtractSet k chunk content broken filters set = Done (set', err) /\
      (forall x, In x set' <-> In x set \/ In x found) /\ (NoDup set -> NoDup set').
Proof.
  intros H Sn. destruct (patterns_ok k filters H) as (base & rl & gp & qs & B & C & Cp & Pp & F2 & V & OR & K).
  exists (flat_map (found_in (is_org k) rl (RSeq RBegin gp)) lines). split; [|split].
  - apply Forall_forall. intros x I. apply in_flat_map in I. destruct I as (line & Il & I). exists line. split; [exact Il|].
    unfold found_in in I. apply in_flat_map in I. destruct I as (m & Im & I). destruct (K line m Im) as (o & E & X). rewrite E in I.
    destruct o as [y|]; [|destruct I]. destruct I as [->|[]]. apply X. reflexivity.
  - intros Ek t d more Il NT ND (p & q & Ip & Fp & Et). apply in_flat_map. exists (bracket_line t d). split; [exact Il|]. subst k. destruct (OR eq_refl) as (g & g' & -> & P & P').
    eapply (whole_key _ g g' gp qs _ _ t d more q C Cp Pp); try assumption.
    + clear -F2 Ip Fp. induction F2 as [|p' q' ps qs Hp F IH]; [destruct Ip|]. destruct Ip as [->|Ip]; [|right; apply IH, Ip]. left.
      destruct Hp as [[A ->]|[A ->]], Fp as [[A' ->]|[A' ->]]; try contradiction; reflexivity.
    + rewrite Forall_forall in V. apply V. clear -F2 Ip Fp. induction F2 as [|p' q' ps qs Hp F IH]; [destruct Ip|]. destruct Ip as [->|Ip]; [|right; apply IH, Ip]. left.
      destruct Hp as [[A ->]|[A ->]], Fp as [[A' ->]|[A' ->]]; try contradiction; reflexivity.
    + eapply full_ne; [exact Fp|]. destruct H as [_ H]. rewrite Forall_forall in H. apply H, Ip.
  - intros chunk s. unfold ExtractSet. rewrite B, C, Cp. destruct (scan_seen broken chunk _ _ _ Sn) as (e & -> & Ee).
    destruct (set_lines_ok (is_org k) rl (RSeq RBegin gp) lines) with (s := s) as (s' & E & I & N).
    + apply Forall_forall. intros line _. apply Forall_forall. intros m Im. destruct (K line m Im) as (o & E & _). eauto.
    + exists s'. replace (match k with Org => true | Txt => false end) with (is_org k) by (destruct k; reflexivity). rewrite E. cbn [obind]. rewrite Ee. auto.
Qed.
Lemma set_rejected k chunk content broken filters set : ~ prefixes_ok filters -> ExtractSet k chunk content broken filters set = Done (set, Some EPrefix).
Proof.
  intros H. unfold ExtractSet. destruct (MakeLinkSetBase filters) as [base|] eqn:B; [|reflexivity].
  unfold MakeLinkSetBase in B. destruct filters as [|p0 ps] eqn:Ef; [discriminate|]. rewrite <- Ef in *. pose proof (set_base_ok filters) as SB.
  destruct (set_base filters) as [bs|]; [|discriminate]. destruct SB as (P & qs & F & ->).
  assert (Eb : base = b "(?:" ++ joined qs ++ b ")") by (cbn [option_map] in B; unfold joined; congruence).
  rewrite Eb, compile_valid; [reflexivity|]. intros V. apply H. split; [rewrite Ef; discriminate|]. clear -P F V.
  induction F as [|p q ps qs Hp F IH]; [constructor|]. inversion P. inversion V. subst. constructor; [|auto]. split; [assumption|]. apply (full_valid _ _ Hp). assumption.
Qed.
