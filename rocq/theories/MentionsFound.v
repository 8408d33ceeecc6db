(** Links inside of lines of notes are mentioned. *)
From Coq Require Import Permutation ZifyBool ZifyNat ZifyN.
From Verif Require Import GoBase GoSlice Utf8 Utf8Dec Flags LinkTypes LinkTree Emacs Backend BackendSpec BackendMain BackendNotes LinkSpec LinkMain LinkAny
  Patterns Extract ExtractSpec ScannerSpec ScannerProofs ExtractTree TextSpec TextProofs ExtractMain Real ReplyJson ReplySpec ReplyProofs ReplyMain.
From Verif Require TextFoundSpec TextFoundMain OrgFoundSpec OrgFoundLines.

Lemma mentions_file e users bk qs g tr g' ts i o q c u sc chunk n src nm content broken lines :
  booted e users g -> steps e (initializer bk) (g, serving bk qs) tr (g', ts) ->
  nth_error qs i = Some (o, QMentions q) -> fair_orders o -> Forall valid_utf8 (mqVariants q) -> replied (of_thread i tr) (PMentions c) ->
  ext bk = real u sc chunk -> nth_error (srcFiles bk) n = Some src -> nth_error (initial_reads (map snd tr)) n = Some (nm, RData content broken) -> seen_lines content broken lines None ->
  let limit := match mqLimit q with Some l => l | None => 8 %Z end in (1 <= limit)%Z -> (ccount c <= limit)%Z -> (ccount c * limit <= maxint)%Z ->
  exists t, xtree (real u sc chunk) (fst src) content broken = Done (Some t, None) /\ forall ps l, In (ps, l) (paths t) -> wanted q (URL l) ->
  exists hs' l', In (PFileGroup :: PFile (snd src) :: map PHeading hs', l') (cpaths c) /\ URL l' = URL l /\ (fst src = Txt -> hs' = []) /\
    (fst src = Org -> forall hs, headings_of 1 lines hs -> regular 0 hs -> hs' = map Some (enclosing (LineNo l) hs)).
Proof.
  intros B St N F V8 R X Hs Hr Sn limit L1 L2 L3.
  destruct (mentions_real _ _ _ _ _ _ _ _ _ _ _ _ _ _ _ B St N F R X) as (tree & NF & f & W & P & L & C). pose proof (pruned_top _ _ _ P) as (T1 & _ & _).
  destruct (file_total u sc chunk (fst src) content broken) as (t & err & E). destruct (file_paths _ _ _ _ _ _ _ _ _ _ E Sn) as (-> & Pt).
  exists t. split; [exact E|]. intros ps l I Wt. destruct (Pt _ _ I) as (hs' & -> & HT & HO). pose proof (notes_have _ _ _ _ _ _ _ _ _ _ _ _ NF Hs Hr E _ _ I) as J. cbn [tl] in J.
  destruct (C ltac:(lia) ltac:(lia)) as (_ & Cc). specialize (Cc ltac:(lia) ltac:(lia)).
  destruct (complete_paths _ _ _ Cc _ _ J) as (l' & E1 & J'); [apply (W V8); exact Wt|]. exists hs', l'. auto.
Qed.
Lemma mentions_org e users bk qs g tr g' ts i o q c variants ss u sc chunk n src nm content broken lines k line ls x d :
  booted e users g -> steps e (initializer bk) (g, serving bk qs) tr (g', ts) ->
  nth_error qs i = Some (o, QMentions q) -> fair_orders o -> Forall valid_utf8 (mqVariants q) -> replied (of_thread i tr) (PMentions c) ->
  ext bk = real u sc chunk -> variants_of variants ss -> UpdateRe variants = Some sc -> OrgFoundSpec.simple_schemes ss ->
  nth_error (srcFiles bk) n = Some src -> fst src = Org ->
  nth_error (initial_reads (map snd tr)) n = Some (nm, RData content broken) -> seen_lines content broken lines None ->
  nth_error lines k = Some line -> OrgFoundSpec.shown ss true line ls -> In (x, d) ls -> OrgFoundSpec.proper ss x -> wanted q x ->
  let limit := match mqLimit q with Some l => l | None => 8 %Z end in (1 <= limit)%Z -> (ccount c <= limit)%Z -> (ccount c * limit <= maxint)%Z ->
  exists hs' l, In (PFileGroup :: PFile (snd src) :: map PHeading hs', l) (cpaths c) /\ URL l = x /\
    forall hs, headings_of 1 lines hs -> regular 0 hs -> hs' = map Some (enclosing (S k) hs).
Proof.
  intros B St N F V8 R X V U SI Hs Ko Hr Sn Hl Sh I Pr Wt limit L1 L2 L3.
  destruct (mentions_file _ _ _ _ _ _ _ _ _ _ _ _ _ _ _ _ _ _ _ _ _ B St N F V8 R X Hs Hr Sn L1 L2 L3) as (t & E & M).
  pose proof E as E'. rewrite Ko in E'. cbn [real xtree] in E'.
  destruct (OrgFoundLines.org_found _ _ _ _ _ _ _ _ _ _ _ _ _ _ _ _ _ V U SI E' Sn Hl Sh I Pr Logic.I) as (p & Ip).
  destruct (M _ _ Ip Wt) as (hs' & l' & J & E1 & _ & H). exists hs', l'. split; [exact J|]. split; [exact E1|]. exact (H Ko).
Qed.
Lemma mentions_txt e users bk qs g tr g' ts i o q c u sc chunk n src nm content broken lines k line words w s d p x :
  booted e users g -> steps e (initializer bk) (g, serving bk qs) tr (g', ts) ->
  nth_error qs i = Some (o, QMentions q) -> fair_orders o -> Forall valid_utf8 (mqVariants q) -> replied (of_thread i tr) (PMentions c) ->
  ext bk = real u sc chunk -> nth_error (srcFiles bk) n = Some src -> fst src = Txt ->
  nth_error (initial_reads (map snd tr)) n = Some (nm, RData content broken) -> seen_lines content broken lines None ->
  nth_error lines k = Some line -> line_words line words -> In w words -> TextFoundSpec.word_has u w s d p -> x = concat (map snd (s ++ d ++ p)) -> wanted q x ->
  let limit := match mqLimit q with Some l => l | None => 8 %Z end in (1 <= limit)%Z -> (ccount c <= limit)%Z -> (ccount c * limit <= maxint)%Z ->
  exists l, In ([PFileGroup; PFile (snd src)], l) (cpaths c) /\ URL l = x.
Proof.
  intros B St N F V8 R X Hs Ko Hr Sn Hl Lw Iw Wh -> Wt limit L1 L2 L3.
  destruct (mentions_file _ _ _ _ _ _ _ _ _ _ _ _ _ _ _ _ _ _ _ _ _ B St N F V8 R X Hs Hr Sn L1 L2 L3) as (t & E & M).
  pose proof E as E'. rewrite Ko in E'. cbn [real xtree] in E'.
  pose proof (TextFoundMain.text_found _ _ _ _ _ _ _ _ _ _ _ _ _ _ _ _ E' Sn Hl Lw Iw Wh _ eq_refl Logic.I) as Ip.
  destruct (M _ _ Ip Wt) as (hs' & l' & J & E1 & H & _). rewrite (H Ko) in J. exists l'. split; [exact J|exact E1].
Qed.
