(** Results about extraction of links from a file that are used by properties. *)
From Coq Require Import Sorted ZifyBool ZifyNat ZifyN.
From Verif Require Import GoBase GoSlice Utf8 Utf8Dec Regex RegexParse Patterns Scanner ScannerSpec ScannerProofs LinkTypes LinkTree LinkHeap Emacs Extract
  ExtractSpec ExtractTree SchemeProofs LinkProofs2 BracketProofs OrgProofs TextSpec TextProofs.

Lemma any_link_part ss line l : any_link ss line l -> exists x y, line = x ++ URL l ++ y.
Proof.
  intros [((pre & tail & post & E & _) & _)|[(pre & w & x & post & E & _)|(pre & w & x & post & E & _)]]; rewrite E.
  - exists (pre ++ b "[["), (b "]" ++ tail ++ b "]" ++ post). rewrite <- !app_assoc. reflexivity.
  - exists (pre ++ b "<"), (b ">" ++ post). rewrite <- !app_assoc. reflexivity.
  - exists pre, post. reflexivity.
Qed.
Lemma org_part variants ss c u chunk f content broken t err lines e : variants_of variants ss -> UpdateRe variants = Some c ->
  OrgExtract u c chunk f content broken = Done (Some t, err) -> seen_lines content broken lines e ->
  forall p l, In (p, l) (paths t) -> 1 <= LineNo l /\ exists line x y, nth_error lines (LineNo l - 1) = Some line /\ line = x ++ URL l ++ y.
Proof.
  intros V U E S p l I. destruct (org_links_located _ _ _ _ _ _ _ _ _ _ _ _ V U E S _ _ I) as (N & line & L & A & _). split; [exact N|].
  destruct (any_link_part _ _ _ A) as (x & y & X). eauto.
Qed.

(** ** Any patterns *)
Lemma doc_levels u c f : forall lines n, levels_ok (doc_of u c f n lines).
Proof.
  induction lines as [|line lines IH]; intros n; [constructor|]. cbn [doc_of]. constructor; [|apply IH]. cbn [fst].
  pose proof (heading_at_ok n line) as H. destruct (heading_of n line) as [[level x]|]; [|exact I]. destruct H as (t & _ & L & _). exact L.
Qed.
Lemma doc_links u c f : forall lines n, flat_map snd (doc_of u c f n lines) = flat_map (fun p => filtered f (links_of u c (n + fst p) (snd p))) (combine (seq 0 (length lines)) lines).
Proof.
  induction lines as [|line lines IH]; intros n; [reflexivity|]. cbn [doc_of flat_map length seq combine fst snd]. rewrite Nat.add_0_r. f_equal. rewrite IH, <- seq_shift.
  generalize (seq 0 (length lines)). intros l. clear. revert l. induction lines as [|x lines IH]; intros [|a l]; try reflexivity.
  cbn [map combine flat_map fst snd]. rewrite IH. replace (n + S a) with (S n + a) by lia. reflexivity.
Qed.
Lemma org_total u c chunk f content broken lines err : seen_lines content broken lines err ->
  exists t, OrgExtract u c chunk f content broken = Done (Some t, err) /\
    map snd (paths t) = flat_map (fun p => filtered f (links_of u c (1 + fst p) (snd p))) (combine (seq 0 (length lines)) lines).
Proof.
  intros S. destruct (scan_seen broken chunk _ _ _ S) as (e & Es & Ee).
  destruct (org_lines_ok u c f lines 1 [] org_start (Inner PNil []) oinv_start (doc_levels u c f lines 1)) as (st & t & seen & E & I & P).
  exists t. unfold OrgExtract. rewrite Es, E. cbn [obind]. destruct I as [_ _ _ _ (sp & p & ts & _ & Eh & _ & _ & _ & _ & Dp)].
  rewrite Eh, read_root by lia. rewrite Ee. split; [reflexivity|]. rewrite P. cbn [paths flat_map map app]. rewrite map_map. cbn [snd].
  change (fun x : list (option heading) * link => snd x) with (@snd (list (option heading)) link). rewrite placed_links. apply doc_links.
Qed.
Lemma org_never_panics u c chunk f content broken : exists t err, OrgExtract u c chunk f content broken = Done (Some t, err).
Proof. destruct (seen_exists content broken) as (lines & err & S). destruct (org_total u c chunk f _ _ _ _ S) as (t & E & _). eauto. Qed.
Lemma links_line u c n line : Forall (fun l => LineNo l = n) (links_of u c n line).
Proof.
  apply Forall_forall. intros l I. unfold links_of in I. apply in_flat_map in I. destruct I as (m & _ & I). destruct (OrgLinkMatchIsUrl u c m); [|destruct I].
  destruct I as [<-|[]]. reflexivity.
Qed.
Lemma filtered_line u c f n line : Forall (fun l => LineNo l = n) (filtered f (links_of u c n line)).
Proof. apply Forall_forall. intros l I. apply filtered_in in I. destruct I as [I _]. pose proof (links_line u c n line) as H. rewrite Forall_forall in H. auto. Qed.
Lemma filter_flat {A B} (p : A -> bool) (g : B -> list A) l : filter p (flat_map g l) = flat_map (fun x => filter p (g x)) l.
Proof. induction l as [|x l IH]; [reflexivity|]. cbn [flat_map]. rewrite filter_app, IH. reflexivity. Qed.
Lemma only_line u c f lines : forall a k line, nth_error lines k = Some line ->
  filter (fun l => LineNo l =? 1 + a + k) (flat_map (fun p => filtered f (links_of u c (1 + fst p) (snd p))) (combine (seq a (length lines)) lines)) =
  filtered f (links_of u c (1 + a + k) line).
Proof.
  assert (NONE : forall lines a n, n < 1 + a -> filter (fun l => LineNo l =? n) (flat_map (fun p => filtered f (links_of u c (1 + fst p) (snd p))) (combine (seq a (length lines)) lines)) = []).
  { clear. induction lines as [|x lines IH]; intros a n L; [reflexivity|]. cbn [length seq combine flat_map fst snd]. rewrite filter_app, IH by lia. rewrite app_nil_r.
    apply filter_false. eapply Forall_impl; [|apply filtered_line]. intros l E. cbn beta in *. rewrite E. apply Nat.eqb_neq. lia. }
  induction lines as [|x lines IH]; intros a k line E; [destruct k; discriminate|]. cbn [length seq combine flat_map fst snd]. rewrite filter_app. destruct k as [|k].
  - injection E as ->. rewrite Nat.add_0_r. rewrite NONE by lia. rewrite app_nil_r. apply filter_true. eapply Forall_impl; [|apply filtered_line].
    intros l El. cbn beta in *. rewrite El. apply Nat.eqb_refl.
  - cbn [nth_error] in E. replace (1 + a + S k) with (1 + S a + k) by lia. rewrite (IH (S a) k line E).
    replace (filter _ (filtered f (links_of u c (1 + a) x))) with (@nil link); [reflexivity|]. symmetry. apply filter_false.
    eapply Forall_impl; [|apply filtered_line]. intros l El. cbn beta in *. rewrite El. apply Nat.eqb_neq. lia.
Qed.
Lemma org_line_links u c chunk f content broken t err lines e k line : OrgExtract u c chunk f content broken = Done (Some t, err) ->
  seen_lines content broken lines e -> nth_error lines k = Some line ->
  filter (fun l => LineNo l =? S k) (map snd (paths t)) = filtered f (links_of u c (S k) line).
Proof.
  intros E S N. destruct (org_total u c chunk f _ _ _ _ S) as (t' & E' & P). rewrite E in E'. injection E' as <- <-. rewrite P.
  exact (only_line u c f lines 0 k line N).
Qed.
(** Line numbers do not decrease. *)
Lemma sorted_same n ls : Forall (fun l => LineNo l = n) ls -> forall m rest, m <= n -> Forall (fun l => n <= LineNo l) rest -> StronglySorted le (map LineNo rest) ->
  StronglySorted le (map LineNo (ls ++ rest)) /\ Forall (fun l => m <= LineNo l) (ls ++ rest).
Proof.
  intros H. induction H as [|l ls E H IH]; intros m rest L F S.
  - cbn [app]. split; [exact S|]. eapply Forall_impl; [|exact F]. cbn. intros; lia.
  - destruct (IH n rest (le_n _) F S) as [S' F']. cbn [app map]. split.
    + constructor; [exact S'|]. rewrite E. apply Forall_map. exact F'.
    + constructor; [lia|]. eapply Forall_impl; [|exact F']. cbn. intros; lia.
Qed.
Lemma sorted_lines (g : nat -> str -> list link) : (forall n line, Forall (fun l => LineNo l = n) (g n line)) ->
  forall lines a, StronglySorted le (map LineNo (flat_map (fun p => g (1 + fst p) (snd p)) (combine (seq a (length lines)) lines))) /\
    Forall (fun l => 1 + a <= LineNo l) (flat_map (fun p => g (1 + fst p) (snd p)) (combine (seq a (length lines)) lines)).
Proof.
  intros G. induction lines as [|line lines IH]; intros a; [split; constructor|]. cbn [length seq combine flat_map fst snd].
  destruct (IH (S a)) as [S F]. apply (sorted_same (1 + a)); [apply G|lia| |exact S]. eapply Forall_impl; [|exact F]. cbn. intros; lia.
Qed.
Lemma org_sorted u c chunk f content broken t err : OrgExtract u c chunk f content broken = Done (Some t, err) -> StronglySorted le (map LineNo (map snd (paths t))).
Proof.
  intros E. destruct (seen_exists content broken) as (lines & e & S). destruct (org_total u c chunk f _ _ _ _ S) as (t' & E' & P). rewrite E in E'. injection E' as <- <-.
  rewrite P. apply (sorted_lines (fun n line => filtered f (links_of u c n line))). intros. apply filtered_line.
Qed.
Lemma links_in_sorted (R : nat -> str -> link -> Prop) : (forall n line l, R n line l -> LineNo l = n) -> forall lines n lss, links_in R n lines lss ->
  StronglySorted le (map LineNo (concat lss)) /\ Forall (fun l => n <= LineNo l) (concat lss).
Proof.
  intros HR lines n lss H. induction H as [|n line lines ls lss F H [S G]]; [split; constructor|]. cbn [concat]. apply (sorted_same n); [|lia| |exact S].
  - eapply Forall_impl; [|exact F]. intros l. apply HR.
  - eapply Forall_impl; [|exact G]. cbn. intros; lia.
Qed.

(** ** Text files *)
Lemma txt_never_panics u chunk f content broken : exists t err, TxtExtract u chunk f content broken = Done (Some t, err).
Proof. destruct (seen_exists content broken) as (lines & err & S). destruct (txt_extract u chunk f _ _ _ _ S) as (t & lss & E & _). eauto. Qed.
Lemma txt_paths u chunk f content broken t err lines e : TxtExtract u chunk f content broken = Done (Some t, err) -> seen_lines content broken lines e ->
  err = e /\ exists lss, links_in (text_link u f) 1 lines lss /\ paths t = map (fun l => ([PNil], l)) (concat lss).
Proof. intros E S. destruct (txt_extract u chunk f _ _ _ _ S) as (t' & lss & E' & L & P). rewrite E in E'. injection E' as <- <-. eauto. Qed.
Lemma txt_sorted u chunk f content broken t err : TxtExtract u chunk f content broken = Done (Some t, err) -> StronglySorted le (map LineNo (map snd (paths t))).
Proof.
  intros E. destruct (seen_exists content broken) as (lines & e & S). destruct (txt_paths _ _ _ _ _ _ _ _ _ E S) as (_ & lss & L & P). rewrite P, (map_map _ snd). cbn [snd]. rewrite map_id.
  eapply links_in_sorted; [|exact L]. intros n line l (H & _). exact H.
Qed.
Lemma txt_located u chunk f content broken t err lines e : TxtExtract u chunk f content broken = Done (Some t, err) -> seen_lines content broken lines e ->
  forall p l, In (p, l) (paths t) -> p = [PNil] /\ 1 <= LineNo l /\ exists line, nth_error lines (LineNo l - 1) = Some line /\ text_link u f (LineNo l) line l.
Proof.
  intros E S p l I. destruct (txt_paths _ _ _ _ _ _ _ _ _ E S) as (_ & lss & L & P). rewrite P in I. apply in_map_iff in I. destruct I as (l' & Ex & I). injection Ex as <- ->.
  split; [reflexivity|]. destruct (links_in_nth _ _ _ _ _ L I) as (k & line & N & T). pose proof T as (Ln & _). rewrite Ln. split; [lia|]. exists line.
  replace (1 + k - 1) with k by lia. auto.
Qed.
Lemma line_word_part line words w : line_words line words -> In w words -> exists x y, line = x ++ w ++ y.
Proof.
  intros (chars & ws & C & W & ->) I. apply in_map_iff in I. destruct I as (w0 & <- & I).
  assert (E : concat (map snd chars) = line) by apply C.
  rewrite <- E. clear E C. induction W as [|a t l P W IH|w1 N F|w1 a t l N F P W IH].
  - destruct I.
  - destruct (IH I) as (x & y & E). exists (snd a ++ x), y. cbn [map concat]. rewrite E, <- !app_assoc. reflexivity.
  - destruct I as [->|[]]. exists [], []. rewrite app_nil_r. reflexivity.
  - rewrite map_app, concat_app. destruct I as [->|I].
    + exists [], (concat (map snd (a :: t))). reflexivity.
    + destruct (IH I) as (x & y & E). exists (concat (map snd w1) ++ snd a ++ x), y. cbn [map concat]. rewrite E, <- !app_assoc. reflexivity.
Qed.
Lemma txt_part u chunk f content broken t err lines e : TxtExtract u chunk f content broken = Done (Some t, err) -> seen_lines content broken lines e ->
  forall p l, In (p, l) (paths t) -> 1 <= LineNo l /\ exists line x y, nth_error lines (LineNo l - 1) = Some line /\ line = x ++ URL l ++ y.
Proof.
  intros E S p l I. destruct (txt_located _ _ _ _ _ _ _ _ _ E S _ _ I) as (_ & N & line & L & (_ & _ & _ & _ & (words & w & x & y & W & Iw & Ew) & _)).
  split; [exact N|]. destruct (line_word_part _ _ _ W Iw) as (x' & y' & El). exists line, (x' ++ x), (y ++ y'). split; [exact L|]. rewrite El, Ew, <- !app_assoc. reflexivity.
Qed.

(** ** Links in brackets *)
Lemma bracket_eq t d : bracket_line t d = whole_link t d.
Proof. reflexivity. Qed.
Lemma bracket_exact variants ss c u chunk f content broken t err lines e k x d : variants_of variants ss -> NoDup (map written ss) -> UpdateRe variants = Some c ->
  OrgExtract u c chunk f content broken = Done (Some t, err) -> seen_lines content broken lines e ->
  nth_error lines k = Some (bracket_line x d) -> x <> [] -> no_brackets x -> no_brackets d ->
  (accepted ss x /\ passed f (mkLink x d (S k)) -> filter (fun l => LineNo l =? S k) (map snd (paths t)) = [mkLink x d (S k)]) /\
  (~ (accepted ss x /\ passed f (mkLink x d (S k))) -> filter (fun l => LineNo l =? S k) (map snd (paths t)) = []).
Proof.
  intros V ND U E Sn N NX BX BD. rewrite (org_line_links _ _ _ _ _ _ _ _ _ _ _ _ E Sn N). rewrite bracket_eq, (whole_links _ _ _ _ _ _ _ V U NX BX BD).
  assert (A : MatchString u (reScheme c) x = true <-> accepted ss x).
  { destruct ss as [|s0 ss0] eqn:Ess. { destruct V as [_ V]. inversion V. subst. discriminate. }
    rewrite <- Ess in *. assert (NE : ss <> []) by (rewrite Ess; discriminate).
    destruct (UpdateRe_ok _ _ V NE) as (c' & ss' & g3 & g5 & U' & _ & _ & OK & EQ & _ & _ & _ & CS). rewrite U in U'. injection U' as <-. rewrite (EQ ND) in *.
    apply accepted_iff; assumption. }
  assert (P : filtered f [mkLink x d (S k)] = if match f with Some g => g (mkLink x d 0) | None => true end then [mkLink x d (S k)] else []).
  { destruct f as [g|]; reflexivity. }
  assert (Q : passed f (mkLink x d (S k)) <-> match f with Some g => g (mkLink x d 0) | None => true end = true).
  { destruct f as [g|]; cbn; intuition. }
  rewrite Q, <- A. destruct (MatchString u (reScheme c) x).
  - rewrite P. destruct f as [g|]; [destruct (g _)|]; intuition congruence.
  - replace (filtered f []) with (@nil link) by (destruct f; reflexivity). intuition congruence.
Qed.
Lemma proper_accepted ss s w x : In s ss -> word s w -> accepted ss (w ++ b ":" ++ x).
Proof.
  destruct ss as [|s0 others]; [intros []|]. intros I W. destruct others as [|s1 others].
  - destruct I as [<-|[]]. exists w, x. auto.
  - assert (I' : s = s0 \/ In s (removelast (s1 :: others)) \/ s = last (s1 :: others) []).
    { destruct I as [<-|I]; [auto|]. right. rewrite (app_removelast_last [] (l := s1 :: others)) in I by discriminate. apply in_app_or in I. destruct I as [I|[<-|[]]]; auto. }
    cbn -[last removelast b]. destruct I' as [->|[I'| ->]].
    + left. eauto.
    + right. left. exists s, [], w, (b ":" ++ x). auto.
    + right. right. exists [], w, x. auto.
Qed.
Lemma bracket_proper variants ss c u chunk content broken t err lines e k s w x d : variants_of variants ss -> NoDup (map written ss) -> UpdateRe variants = Some c ->
  OrgExtract u c chunk None content broken = Done (Some t, err) -> seen_lines content broken lines e ->
  nth_error lines k = Some (bracket_line (w ++ b ":" ++ x) d) -> In s ss -> word s w -> no_brackets (w ++ b ":" ++ x) -> no_brackets d ->
  filter (fun l => LineNo l =? S k) (map snd (paths t)) = [mkLink (w ++ b ":" ++ x) d (S k)].
Proof.
  intros V ND U E S N I W BX BD. destruct (bracket_exact _ _ _ _ _ _ _ _ _ _ _ _ _ _ _ V ND U E S N) as [H _]; try assumption.
  - intros X. apply app_eq_nil in X. destruct X as [_ X]. discriminate.
  - apply H. split; [|exact Logic.I]. eapply proper_accepted; eassumption.
Qed.

(** ** Headings with trailing blanks *)
Lemma star_not_blank : ~ blank "*"%char.
Proof. unfold blank. cbn. lia. Qed.
Lemma stars_eq n : forall m x y, repeat ("*")%char n ++ x = repeat ("*")%char m ++ y -> (exists c x', x = c :: x' /\ c <> "*"%char) -> (exists c y', y = c :: y' /\ c <> "*"%char) -> n = m /\ x = y.
Proof.
  induction n as [|n IH]; intros [|m] x y E (c & x' & -> & C) (d & y' & -> & D); cbn [repeat app] in E.
  - auto.
  - injection E as E _. contradiction.
  - injection E as E _. congruence.
  - injection E as E. apply IH in E; eauto. destruct E as [-> E]. auto.
Qed.
Lemma blank_start bs : bs <> [] -> Forall blank bs -> forall x, exists c x', bs ++ x = c :: x' /\ c <> "*"%char.
Proof.
  intros N F x. destruct bs as [|c bs]; [congruence|]. apply Forall_inv in F. exists c, (bs ++ x). split; [reflexivity|]. intros ->. exact (star_not_blank F).
Qed.
Lemma trailing_blank n bs r title c : bs <> [] -> Forall blank bs -> ~ blank r -> blank c ->
  ~ exists level t, heading_line (repeat ("*")%char n ++ bs ++ (r :: title) ++ [c]) level t.
Proof.
  intros NB FB NR BC (level & t & _ & bs' & NB' & FB' & T & E).
  apply stars_eq in E; [|apply blank_start; assumption|apply blank_start; assumption]. destruct E as [_ E].
  destruct T as [->|(_ & _ & (x & y & -> & NY))].
  - rewrite app_nil_r in E. rewrite <- E in FB'. apply Forall_app in FB'. destruct FB' as [_ F]. apply Forall_inv in F. contradiction.
  - rewrite !app_assoc in E. apply app_inj_tail in E. destruct E as [_ <-]. contradiction.
Qed.
(** ** Reading in blocks of any sizes *)
Lemma chunk_org u c chunk chunk' f content broken : OrgExtract u c chunk f content broken = OrgExtract u c chunk' f content broken.
Proof. destruct (seen_exists content broken) as (lines & err & S). unfold OrgExtract. destruct (lines_exists content) as (all & L). rewrite !(scan_lines_ok broken _ content _ L). reflexivity. Qed.
Lemma chunk_txt u chunk chunk' f content broken : TxtExtract u chunk f content broken = TxtExtract u chunk' f content broken.
Proof. unfold TxtExtract. destruct (lines_exists content) as (all & L). rewrite !(scan_lines_ok broken _ content _ L). reflexivity. Qed.
Lemma same_org u c chunk chunk' f content broken content' broken' lines err : seen_lines content broken lines err -> seen_lines content' broken' lines err ->
  OrgExtract u c chunk f content broken = OrgExtract u c chunk' f content' broken'.
Proof.
  intros A B. destruct (scan_seen broken chunk _ _ _ A) as (e & E & X). destruct (scan_seen broken' chunk' _ _ _ B) as (e' & E' & X').
  unfold OrgExtract. rewrite E, E', X, X'. reflexivity.
Qed.
Lemma same_txt u chunk chunk' f content broken content' broken' lines err : seen_lines content broken lines err -> seen_lines content' broken' lines err ->
  TxtExtract u chunk f content broken = TxtExtract u chunk' f content' broken'.
Proof.
  intros A B. destruct (scan_seen broken chunk _ _ _ A) as (e & E & X). destruct (scan_seen broken' chunk' _ _ _ B) as (e' & E' & X').
  unfold TxtExtract. rewrite E, E', X, X'. reflexivity.
Qed.
Lemma org_scheme variants ss c u chunk f content broken t err lines e : variants_of variants ss -> UpdateRe variants = Some c ->
  OrgExtract u c chunk f content broken = Done (Some t, err) -> seen_lines content broken lines e ->
  forall p l line, In (p, l) (paths t) -> nth_error lines (LineNo l - 1) = Some line -> (forall x y, line <> x ++ b "[[" ++ y) ->
  exists w x, URL l = w ++ b ":" ++ x /\ with_scheme ss w.
Proof.
  intros V U E S p l line I N B. destruct (org_links_located _ _ _ _ _ _ _ _ _ _ _ _ V U E S _ _ I) as (_ & line' & L & A & _). rewrite N in L. injection L as <-.
  destruct A as [((pre & tail & post & X & _) & _)|[(pre & w & x & post & _ & X & W & _)|(pre & w & x & post & _ & X & W & _)]]; eauto.
  exfalso. exact (B _ _ X).
Qed.
Lemma lines_determined content broken : exists lines err, seen_lines content broken lines err /\
  (forall lines' err', seen_lines content broken lines' err' -> lines' = lines /\ err' = err) /\
  (forall u c chunk f, exists t, OrgExtract u c chunk f content broken = Done (Some t, err)) /\
  (forall u chunk f, exists t, TxtExtract u chunk f content broken = Done (Some t, err)).
Proof.
  destruct (seen_exists content broken) as (lines & err & S). exists lines, err. split; [exact S|]. split; [|split].
  - intros lines' err' S'. exact (seen_unique _ _ _ _ _ _ S' S).
  - intros u c chunk f. destruct (org_total u c chunk f _ _ _ _ S) as (t & E & _). eauto.
  - intros u chunk f. destruct (txt_extract u chunk f _ _ _ _ S) as (t & lss & E & _). eauto.
Qed.
Lemma org_placed variants ss c u chunk f content broken lines err hs : variants_of variants ss -> UpdateRe variants = Some c ->
  seen_lines content broken lines err -> headings_of 1 lines hs ->
  exists t lss, OrgExtract u c chunk f content broken = Done (Some t, err) /\ links_in (link_at ss f) 1 lines lss /\
    paths t = map (fun x => (PNil :: map PHeading (fst x), snd x)) (placed [] (combine hs lss)).
Proof. intros V U S H. destruct (org_extract _ _ _ u chunk f _ _ _ _ _ V U S H) as (t & lss & E & L & P & _). eauto. Qed.
Fixpoint heading_list (n : nat) (lines : list str) : list (option (nat * heading)) :=
  match lines with [] => [] | line :: lines' => heading_of n line :: heading_list (S n) lines' end.
Lemma headings_computed n lines hs : heading_list n lines = hs -> headings_of n lines hs.
Proof.
  revert n hs. induction lines as [|line lines IH]; intros n hs <-; cbn [heading_list]; constructor; [apply heading_at_ok|]. apply IH. reflexivity.
Qed.

