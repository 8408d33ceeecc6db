(** Extraction of links from Org files as a whole. *)
From Coq Require Import ZifyBool ZifyNat ZifyN.
From Verif Require Import GoBase GoSlice Utf8 Utf8Proofs Utf8Dec Regex RegexParse RegexSpec RegexProofs Pieces Patterns Scanner ScannerSpec ScannerProofs
  LinkTypes LinkTree LinkHeap Emacs Extract ExtractSpec ExtractTree HeadingProofs SchemeProofs LinkProofs2 BracketProofs.

(** ** Lines *)
Lemma dropCR_all ls : Forall2 without_cr ls (map dropCR ls).
Proof. induction ls; constructor; auto using dropCR_ok. Qed.
Lemma without_cr_all ls lines : Forall2 without_cr ls lines -> lines = map dropCR ls.
Proof. intros F. induction F as [|l x ls lines H F IH]; [reflexivity|]. cbn. rewrite IH. f_equal. eapply without_cr_unique; [exact H|apply dropCR_ok]. Qed.
Lemma split_short ls : Forall short ls \/ exists x l y, ls = x ++ l :: y /\ Forall short x /\ ~ short l.
Proof.
  induction ls as [|l ls IH]; [left; constructor|]. assert (D : short l \/ ~ short l) by (unfold short; lia). destruct D as [D|D].
  - destruct IH as [IH|(x & m & y & -> & A & B)]; [left; constructor; assumption|]. right. exists (l :: x), m, y. auto.
  - right. exists [], l, ls. auto.
Qed.
Lemma scan_seen broken chunk content lines err : seen_lines content broken lines err ->
  exists e, scan_lines broken chunk content = Some (lines, e) /\ scan_error e = err.
Proof.
  intros (all & L & [(S & F & ->)|(x & l & y & -> & S & N & F & ->)]); rewrite (scan_lines_ok broken chunk content _ L); apply without_cr_all in F; subst lines.
  - rewrite expected_short by exact S. eexists. split; [reflexivity|]. destruct broken; reflexivity.
  - rewrite expected_long by assumption. eexists. split; [reflexivity|]. reflexivity.
Qed.
Lemma seen_exists content broken : exists lines err, seen_lines content broken lines err.
Proof.
  destruct (lines_exists content) as (all & L). destruct (split_short all) as [S|(x & l & y & -> & S & N)].
  - exists (map dropCR all), (if broken then Some ERead else None). exists all. split; [exact L|]. left. auto using dropCR_all.
  - exists (map dropCR x), (Some ETooLong). exists (x ++ l :: y). split; [exact L|]. right. exists x, l, y. auto using dropCR_all.
Qed.
Lemma seen_unique content broken lines err lines' err' : seen_lines content broken lines err -> seen_lines content broken lines' err' -> lines = lines' /\ err = err'.
Proof.
  intros A B. destruct (scan_seen broken (fun _ => 1%N) _ _ _ A) as (e & E & <-). destruct (scan_seen broken (fun _ => 1%N) _ _ _ B) as (e' & E' & <-).
  rewrite E in E'. injection E' as -> ->. auto.
Qed.

(** ** Headings *)
Lemma heading_at_ok n line : heading_at n line (heading_of n line).
Proof.
  destruct (heading_of n line) as [[level h]|] eqn:E; cbn [heading_at].
  - apply heading_of_iff in E. exact E.
  - intros (level & t & H). assert (X : heading_of n line = Some (level, mkHeading n t)) by (apply heading_of_iff; eauto). congruence.
Qed.
Lemma heading_at_unique n line h : heading_at n line h -> h = heading_of n line.
Proof.
  destruct h as [[level x]|]; cbn [heading_at].
  - intros H. symmetry. apply heading_of_iff. exact H.
  - intros H. destruct (heading_of n line) as [[level x]|] eqn:E; [|reflexivity]. exfalso. apply heading_of_iff in E. destruct E as (t & _ & E). apply H. eauto.
Qed.
Lemma headings_exists lines : forall n, exists hs, headings_of n lines hs.
Proof. induction lines as [|line lines IH]; intros n; [exists []; constructor|]. destruct (IH (S n)) as (hs & H). exists (heading_of n line :: hs). constructor; [apply heading_at_ok|exact H]. Qed.

(** ** Links *)
Lemma filtered_in f ls l : In l (filtered f ls) -> In l ls /\ passed f l.
Proof. destruct f as [f|]; cbn [filtered passed]; [|auto]. intros I. apply filter_In in I. exact I. Qed.
Lemma any_link_line ss line l n : any_link ss line l -> any_link ss line (mkLink (URL l) (Description l) n).
Proof. intros [H|[H|H]]; [left|right; left|right; right]; exact H. Qed.
Lemma link_at_ok variants ss c u f n line : variants_of variants ss -> UpdateRe variants = Some c ->
  Forall (link_at ss f n line) (filtered f (links_of u c n line)).
Proof.
  intros V U. apply Forall_forall. intros l I. apply filtered_in in I. destruct I as [I P]. unfold links_of in I. apply in_flat_map in I.
  destruct I as (m & Im & I). destruct (OrgLinkMatchIsUrl u c m) as [l0|] eqn:E; [|destruct I]. destruct I as [<-|[]].
  split; [reflexivity|]. split; [|exact P]. apply any_link_line.
  destruct (link_cases _ _ _ _ _ _ V U Im _ E) as [[H _]|[H|H]]; [left|right; left|right; right]; exact H.
Qed.

(** ** Documents *)
Definition doc (hs : list (option (nat * heading))) (lss : list (list link)) : document := combine hs lss.
Lemma doc_of_ok variants ss c u f : variants_of variants ss -> UpdateRe variants = Some c -> forall lines n hs, headings_of n lines hs ->
  exists lss, links_in (link_at ss f) n lines lss /\ doc_of u c f n lines = combine hs lss /\ levels_ok (combine hs lss) /\
    lss = map (fun p => filtered f (links_of u c (n + fst p) (snd p))) (combine (seq 0 (length lines)) lines).
Proof.
  intros V U. induction lines as [|line lines IH]; intros n hs H; inversion H as [|n' line' lines' h hs' H1 H2 E1 E2]; subst.
  - exists []. split; [constructor|]. split; [reflexivity|]. split; [constructor|reflexivity].
  - destruct (IH (S n) hs' H2) as (lss & A & B & C & D). exists (filtered f (links_of u c n line) :: lss). split; [|split; [|split]].
    + constructor; [apply (link_at_ok variants); assumption|exact A].
    + cbn [doc_of combine]. rewrite B. apply heading_at_unique in H1. rewrite <- H1. reflexivity.
    + cbn [combine]. constructor; [|exact C]. cbn [fst]. destruct h as [[level x]|]; [|exact I]. destruct H1 as (t & _ & L & _). exact L.
    + cbn [length seq combine map fst snd]. rewrite Nat.add_0_r. f_equal. rewrite D. rewrite <- seq_shift. 
      clear. generalize (seq 0 (length lines)). intros l. revert l. induction lines as [|x lines IH]; intros [|a l]; try reflexivity.
      cbn [map combine fst snd]. rewrite IH. do 3 f_equal. lia.
Qed.
Definition place (x : list (option heading) * link) : list props * link := (PNil :: map PHeading (fst x), snd x).

Lemma org_extract variants ss c u chunk f content broken lines err hs : variants_of variants ss -> UpdateRe variants = Some c ->
  seen_lines content broken lines err -> headings_of 1 lines hs ->
  exists t lss, OrgExtract u c chunk f content broken = Done (Some t, err) /\ links_in (link_at ss f) 1 lines lss /\
    paths t = map place (placed [] (combine hs lss)) /\
    lss = map (fun p => filtered f (links_of u c (1 + fst p) (snd p))) (combine (seq 0 (length lines)) lines).
Proof.
  intros V U S H. destruct (scan_seen broken chunk _ _ _ S) as (e & Es & Ee). destruct (doc_of_ok variants ss c u f V U lines 1 hs H) as (lss & A & B & C & D).
  rewrite <- B in C. destruct (org_lines_ok u c f lines 1 [] org_start (Inner PNil []) oinv_start C) as (st & t & seen & E & I & P).
  exists t, lss. unfold OrgExtract. rewrite Es, E. cbn [obind]. destruct I as [_ _ _ _ (sp & p & ts & _ & Eh & _ & _ & _ & _ & Dp)].
  rewrite Eh, read_root by lia. rewrite Ee. split; [reflexivity|]. split; [exact A|]. split; [|exact D]. rewrite P, B. reflexivity.
Qed.

(** ** Regular documents *)
Definition chain (above seen : list (nat * heading)) (k : nat) : Prop :=
  map fst above = seq 1 k /\ match seen with [] => k = 0 | (l, _) :: _ => l = k end /\
  forall i, i < k -> latest seen (S i) = nth_error (map snd above) i.
Lemma filter_true {A} (f : A -> bool) l : Forall (fun x => f x = true) l -> filter f l = l.
Proof. intros H. induction H as [|x l E H IH]; [reflexivity|]. cbn. rewrite E, IH. reflexivity. Qed.
Lemma filter_false {A} (f : A -> bool) l : Forall (fun x => f x = false) l -> filter f l = [].
Proof. intros H. induction H as [|x l E H IH]; [reflexivity|]. cbn. rewrite E, IH. reflexivity. Qed.
Lemma skipn_seq a n k : skipn n (seq a k) = seq (a + n) (k - n).
Proof. revert a k. induction n as [|n IH]; intros a k. { rewrite Nat.add_0_r, Nat.sub_0_r. reflexivity. } destruct k as [|k]; [reflexivity|]. cbn [seq skipn Nat.sub]. rewrite IH. f_equal. lia. Qed.
Lemma firstn_seq a n k : n <= k -> firstn n (seq a k) = seq a n.
Proof. revert a k. induction n as [|n IH]; intros a k L; [reflexivity|]. destruct k as [|k]; [lia|]. cbn [seq firstn]. rewrite IH by lia. reflexivity. Qed.
Lemma filter_below (above : list (nat * heading)) k level : map fst above = seq 1 k -> 1 <= level <= S k ->
  filter (fun x => fst x <? level) above = firstn (level - 1) above.
Proof.
  intros E L. rewrite <- (firstn_skipn (level - 1) above) at 1. rewrite filter_app.
  assert (E1 : map fst (firstn (level - 1) above) = seq 1 (level - 1)). { rewrite <- firstn_map, E, firstn_seq by lia. reflexivity. }
  assert (E2 : map fst (skipn (level - 1) above) = seq (1 + (level - 1)) (k - (level - 1))). { rewrite <- skipn_map, E. apply skipn_seq. }
  rewrite filter_true, filter_false; [apply app_nil_r| |].
  - apply Forall_forall. intros x I. apply (in_map fst) in I. rewrite E2 in I. apply in_seq in I. apply Nat.ltb_ge. lia.
  - apply Forall_forall. intros x I. apply (in_map fst) in I. rewrite E1 in I. apply in_seq in I. apply Nat.ltb_lt. lia.
Qed.
Lemma chain_enter above seen k level x : chain above seen k -> 1 <= level <= S k -> level <= 10 ->
  chain (enter above (Some (level, x))) ((effective level, x) :: seen) level.
Proof.
  intros (A & B & C) L L10. cbn [enter]. rewrite (filter_below _ _ _ A L). unfold effective. replace (10 <? level) with false by lia.
  assert (LA : length above = k) by (rewrite <- (map_length fst), A; apply seq_length).
  split; [|split; [reflexivity|]].
  - rewrite map_app, <- firstn_map, A, firstn_seq by lia. cbn [map fst]. replace (seq 1 level) with (seq 1 (level - 1 + 1)) by (f_equal; lia). rewrite seq_app. cbn [seq]. do 2 f_equal. lia.
  - intros i Hi. unfold latest. cbn [find fst]. destruct (Nat.eqb_spec level (S i)) as [E|N].
    + cbn [option_map snd]. rewrite map_app, nth_error_app2; rewrite map_length, firstn_length_le by lia; [|lia]. replace (i - (level - 1)) with 0 by lia. reflexivity.
    + fold (latest seen (S i)). rewrite C by lia. rewrite map_app, nth_error_app1 by (rewrite map_length, firstn_length_le; lia).
      rewrite <- firstn_map, nth_error_firstn by lia. reflexivity.
Qed.
Lemma chain_reported above seen k : chain above seen k -> reported seen = map Some (map snd above).
Proof.
  intros (A & B & C). assert (LA : length above = k) by (rewrite <- (map_length fst), A; apply seq_length).
  unfold reported. destruct seen as [|[l x] seen'] eqn:Es.
  - subst k. destruct above; [reflexivity|discriminate].
  - rewrite <- Es in *. subst l. apply list_ext. { rewrite !map_length, seq_length. lia. }
    intros i Hi. rewrite map_length, seq_length in Hi. rewrite !nth_error_map, nth_error_seq by lia. cbn [option_map plus]. rewrite C by lia. rewrite nth_error_map.
    destruct (nth_error above i) eqn:E; [reflexivity|]. apply nth_error_None in E. lia.
Qed.
Lemma regular_outline hs : forall above seen k lss, chain above seen k -> regular k hs ->
  placed seen (combine hs lss) = map (fun x => (map Some (fst x), snd x)) (outline above (combine hs lss)).
Proof.
  induction hs as [|h hs IH]; intros above seen k lss C R; [reflexivity|]. destruct lss as [|ls lss]; [reflexivity|]. cbn [combine placed outline].
  destruct h as [[level x]|]; cbn [regular] in R.
  - destruct R as (R1 & R2 & R3). pose proof (chain_enter _ _ _ _ x C R1 R2) as C'. rewrite (chain_reported _ _ _ C'). rewrite map_app. f_equal; [exact (eq_sym (map_map _ _ _))|]. eapply IH; eassumption.
  - cbn [enter]. rewrite (chain_reported _ _ _ C). rewrite map_app. f_equal; [exact (eq_sym (map_map _ _ _))|]. eapply IH; eassumption.
Qed.
Definition place_outline (x : list heading * link) : list props * link := (PNil :: map (fun h => PHeading (Some h)) (fst x), snd x).
Lemma org_regular variants ss c u chunk f content broken lines err hs : variants_of variants ss -> UpdateRe variants = Some c ->
  seen_lines content broken lines err -> headings_of 1 lines hs -> regular 0 hs ->
  exists t lss, OrgExtract u c chunk f content broken = Done (Some t, err) /\ links_in (link_at ss f) 1 lines lss /\ paths t = map place_outline (outline [] (combine hs lss)).
Proof.
  intros V U S H R. destruct (org_extract variants ss c u chunk f _ _ _ _ _ V U S H) as (t & lss & E & L & P & _). exists t, lss. split; [exact E|]. split; [exact L|].
  assert (C : chain [] [] 0) by (split; [reflexivity|split; [reflexivity|intros i Hi; lia]]).
  rewrite P, (regular_outline _ _ _ _ _ C R), map_map. apply map_ext. intros [x l]. unfold place, place_outline. cbn [fst snd]. rewrite map_map. reflexivity.
Qed.

(** ** Order and line numbers *)
Lemma placed_links d : forall seen, map snd (placed seen d) = flat_map snd d.
Proof. induction d as [|[h ls] d IH]; intros seen; [reflexivity|]. cbn [placed flat_map snd]. rewrite map_app, map_map, IH. cbn [snd]. rewrite map_id. reflexivity. Qed.
Lemma headings_length n lines hs : headings_of n lines hs -> length hs = length lines.
Proof. intros H. induction H; cbn; congruence. Qed.
Lemma links_length R n lines lss : links_in R n lines lss -> length lss = length lines.
Proof. intros H. induction H; cbn; congruence. Qed.
Lemma combine_snd {A B} (x : list A) : forall y : list B, length x = length y -> map snd (combine x y) = y.
Proof. induction x as [|a x IH]; intros [|c y] E; cbn in *; try discriminate; [reflexivity|]. rewrite IH by lia. reflexivity. Qed.
Lemma placed_all hs lss : length hs = length lss -> map snd (placed [] (combine hs lss)) = concat lss.
Proof. intros E. rewrite placed_links, flat_map_concat_map, combine_snd by exact E. reflexivity. Qed.
Lemma links_in_nth R lines lss n l : links_in R n lines lss -> In l (concat lss) -> exists k line, nth_error lines k = Some line /\ R (n + k) line l.
Proof.
  intros H. induction H as [|n line lines ls lss F H IH]; intros I; [destruct I|]. cbn [concat] in I. apply in_app_or in I. destruct I as [I|I].
  - exists 0, line. rewrite Nat.add_0_r. split; [reflexivity|]. rewrite Forall_forall in F. auto.
  - destruct (IH I) as (k & l' & E & Hl). exists (S k), l'. split; [exact E|]. rewrite Nat.add_succ_r. exact Hl.
Qed.
Lemma org_links_order variants ss c u chunk f content broken lines err : variants_of variants ss -> UpdateRe variants = Some c ->
  seen_lines content broken lines err ->
  exists t lss, OrgExtract u c chunk f content broken = Done (Some t, err) /\ links_in (link_at ss f) 1 lines lss /\ map snd (paths t) = concat lss.
Proof.
  intros V U S. destruct (headings_exists lines 1) as (hs & H). destruct (org_extract variants ss c u chunk f _ _ _ _ _ V U S H) as (t & lss & E & L & P & _).
  exists t, lss. split; [exact E|]. split; [exact L|]. rewrite P, map_map. cbn [place snd]. rewrite <- (placed_all hs).
  - apply map_ext. intros []. reflexivity.
  - rewrite (headings_length _ _ _ H), (links_length _ _ _ _ L). reflexivity.
Qed.
Lemma org_links_located variants ss c u chunk f content broken t err lines e : variants_of variants ss -> UpdateRe variants = Some c ->
  OrgExtract u c chunk f content broken = Done (Some t, err) -> seen_lines content broken lines e -> 
  forall p l, In (p, l) (paths t) -> 1 <= LineNo l /\ exists line, nth_error lines (LineNo l - 1) = Some line /\ any_link ss line l /\ passed f l.
Proof.
  intros V U E S p l I. destruct (org_links_order variants ss c u chunk f _ _ _ _ V U S) as (t' & lss & E' & L & P). rewrite E in E'. injection E' as <- <-.
  assert (J : In l (concat lss)) by (rewrite <- P; apply (in_map snd) in I; exact I).
  destruct (links_in_nth _ _ _ _ _ L J) as (k & line & N & Ln & A & F). rewrite Ln. split; [lia|]. exists line. replace (1 + k - 1) with k by lia. auto.
Qed.
