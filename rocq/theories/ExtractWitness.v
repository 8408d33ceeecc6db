(** Witnesses of findings about extraction of links. *)
From Coq Require Import Sorted ZifyBool ZifyNat ZifyN.
From Verif Require Import GoBase GoSlice Utf8 Utf8Dec Regex RegexParse Patterns Scanner ScannerSpec ScannerProofs LinkTypes LinkTree LinkHeap Emacs Extract
  ExtractSpec ExtractTree OrgProofs ExtractMain.

(** ** Witnesses *)
Definition w_plain (s : string) : list schar := map (fun c => mkChar c false) (b s).
Lemma w_variants : variants_of [b "mid"; b "http"; b "doi"] [w_plain "mid"; w_plain "http"; w_plain "doi"].
Proof.
  split; [repeat constructor; try discriminate|]. constructor; [left; reflexivity|]. constructor; [left; reflexivity|]. constructor; [left; reflexivity|]. constructor.
Qed.
Definition w_lines (lines : list string) : str := concat (map (fun l => b l ++ [newline]) lines).
Lemma w_seen lines : Forall (fun l => ~ In newline (b l)) lines -> Forall (fun l => short (b l)) lines -> Forall (fun l => forall m, b l <> m ++ [ascii_of_nat 13]) lines ->
  seen_lines (w_lines lines) false (map b lines) None.
Proof.
  intros A B C. exists (map b lines). split.
  - clear B C. induction A as [|l lines H A IH]; [constructor|]. unfold w_lines. cbn [map concat]. rewrite <- app_assoc. constructor; [exact H|exact IH].
  - left. split; [apply Forall_map, B|]. split; [|reflexivity]. clear A B. induction C as [|l lines H C IH]; [constructor|]. constructor; [|exact IH]. apply cr_keep, H.
Qed.
Lemma no_cr l : ~ In (ascii_of_nat 13) l -> forall m, l <> m ++ [ascii_of_nat 13].
Proof. intros H m ->. apply H. apply in_or_app. right. left. reflexivity. Qed.
Definition line_check (l : string) : bool :=
  negb (existsb (fun c => Ascii.eqb c newline || Ascii.eqb c (ascii_of_nat 13)) (b l)) && N.ltb (N.of_nat (length (b l))) 65536.
Lemma seen_check lines l : forallb line_check lines = true -> In l lines -> ~ In newline (b l) /\ short (b l) /\ forall m, b l <> m ++ [ascii_of_nat 13].
Proof.
  intros F I. rewrite forallb_forall in F. specialize (F l I). unfold line_check in F. apply andb_true_iff in F. destruct F as [F S]. apply N.ltb_lt in S.
  apply negb_true_iff in F. assert (X : forall c, In c (b l) -> (Ascii.eqb c newline || Ascii.eqb c (ascii_of_nat 13))%bool = false).
  { intros c Ic. destruct (_ || _)%bool eqn:E; [|reflexivity]. rewrite <- F. symmetry. apply existsb_exists. eauto. }
  split; [|split; [exact S|]].
  - intros Ic. specialize (X _ Ic). rewrite Ascii.eqb_refl in X. discriminate.
  - apply no_cr. intros Ic. specialize (X _ Ic). rewrite Ascii.eqb_refl, orb_true_r in X. discriminate.
Qed.
Definition w_chunk : nat -> N := fun _ => 4096%N.
Definition w_run (variants : list str) (content : str) : option (list (list props * link)) :=
  match UpdateRe variants with
  | Some c => match OrgExtract (fun _ => false) c w_chunk None content false with Done (Some t, None) => Some (paths t) | _ => None end
  | None => None
  end.
Lemma run_ok variants content p : w_run variants content = Some p ->
  exists c t, UpdateRe variants = Some c /\ OrgExtract (fun _ => false) c w_chunk None content false = Done (Some t, None) /\ paths t = p.
Proof.
  unfold w_run. destruct (UpdateRe variants) as [c|]; [|discriminate]. destruct (OrgExtract _ _ _ _ _ _) as [[[t|] [e|]]|] eqn:E; try discriminate.
  intros X. injection X as <-. eauto.
Qed.
Lemma paren_run : w_run [b "(x)y"] (w_lines ["<xy:z>"]%string) = Some [([PNil], mkLink (b "xy:x") [] 1)].
Proof. vm_compute. reflexivity. Qed.
Lemma parentheses_refute : ~ forall variants c u chunk f content broken t err lines e,
  UpdateRe variants = Some c ->
  OrgExtract u c chunk f content broken = Done (Some t, err) -> seen_lines content broken lines e ->
  forall p l, In (p, l) (paths t) -> exists line x y, nth_error lines (LineNo l - 1) = Some line /\ line = x ++ URL l ++ y.
Proof.
  intros H. destruct (run_ok _ _ _ paren_run) as (c & t & U & E & P).
  assert (S : seen_lines (w_lines ["<xy:z>"]%string) false (map b ["<xy:z>"]%string) None).
  { apply w_seen; apply Forall_forall; intros l I; apply (fun H => seen_check _ _ H I); reflexivity. }
  assert (I : In ([PNil], mkLink (b "xy:x") [] 1) (paths t)) by (rewrite P; left; reflexivity).
  destruct (H _ _ _ _ _ _ _ _ _ _ _ U E S _ _ I) as (line & x & y & N & L). injection N as <-. cbn [URL] in L.
  apply (f_equal (fun s => contains s (b "xy:x"))) in L. change (contains (b "<xy:z>") (b "xy:x")) with false in L.
  symmetry in L. apply not_true_iff_false in L. apply L. apply contains_iff. eauto.
Qed.

Definition w_skipped : list string := ["* A"; "** B"; "* C"; "*** D"; "[[mid:x]]"]%string.
Definition w_heads : list (option (nat * heading)) :=
  [Some (1, mkHeading 1 (b "A")); Some (2, mkHeading 2 (b "B")); Some (1, mkHeading 3 (b "C")); Some (3, mkHeading 4 (b "D")); None].
Lemma skipped_heads : heading_list 1 (map b w_skipped) = w_heads.
Proof. vm_compute. reflexivity. Qed.
Lemma skipped_run : w_run [b "mid"; b "http"; b "doi"] (w_lines w_skipped) =
  Some [([PNil; PHeading (Some (mkHeading 3 (b "C"))); PHeading (Some (mkHeading 2 (b "B"))); PHeading (Some (mkHeading 4 (b "D")))], mkLink (b "mid:x") [] 5)].
Proof. vm_compute. reflexivity. Qed.
Lemma skipped_seen : seen_lines (w_lines w_skipped) false (map b w_skipped) None.
Proof.
  apply w_seen; apply Forall_forall; intros l I; apply (fun H => seen_check _ _ H I); reflexivity.
Qed.
Lemma skipped_outline (R : nat -> str -> link -> Prop) lss : (forall n line l, R n line l -> LineNo l = n) -> links_in R 1 (map b w_skipped) lss ->
  forall x, In x (outline [] (combine w_heads lss)) -> In (mkHeading 2 (b "B")) (fst x) -> LineNo (snd x) = 2.
Proof.
  intros HR L x I J. inversion L as [|? ? ? l1 ? L1 L']. subst. inversion L' as [|? ? ? l2 ? L2 L2']. subst. inversion L2' as [|? ? ? l3 ? L3 L3']. subst.
  inversion L3' as [|? ? ? l4 ? L4 L4']. subst. inversion L4' as [|? ? ? l5 ? L5 L5']. subst. inversion L5'. subst. clear L L' L2' L3' L4' L5'.
  unfold w_heads in I. cbn [combine outline enter filter app fst snd Nat.ltb Nat.leb map] in I. rewrite !in_app_iff, !in_map_iff in I.
  destruct I as [(l & <- & I)|[(l & <- & I)|[(l & <- & I)|[(l & <- & I)|[(l & <- & I)|[]]]]]]; cbn [fst snd In] in *.
  - destruct J as [J|[]]. discriminate.
  - rewrite Forall_forall in L2. exact (HR _ _ _ (L2 _ I)).
  - destruct J as [J|[]]. discriminate.
  - destruct J as [J|[J|[]]]; discriminate.
  - destruct J as [J|[J|[]]]; discriminate.
Qed.
Lemma skipped_refutes : ~ forall variants ss c u chunk f content broken lines err hs,
  variants_of variants ss -> UpdateRe variants = Some c ->
  seen_lines content broken lines err -> headings_of 1 lines hs ->
  exists t lss, OrgExtract u c chunk f content broken = Done (Some t, err) /\ links_in (link_at ss f) 1 lines lss /\
    paths t = map (fun x => (PNil :: map (fun h => PHeading (Some h)) (fst x), snd x)) (outline [] (combine hs lss)).
Proof.
  intros H. destruct (run_ok _ _ _ skipped_run) as (c & t & U & E & P).
  destruct (H _ _ _ (fun _ => false) w_chunk None _ _ _ _ _ w_variants U skipped_seen (headings_computed _ _ _ skipped_heads)) as (t' & lss & E' & L & P').
  rewrite E in E'. injection E' as <-. rewrite P in P'.
  pose proof (skipped_outline _ lss (fun n line l (r : link_at _ None n line l) => proj1 r) L) as Q.
  destruct (outline [] (combine w_heads lss)) as [|x xs]; [discriminate|]. cbn [map] in P'. injection P' as P1 P2 _.
  assert (J : In (mkHeading 2 (b "B")) (fst x)).
  { apply (f_equal (fun z => nth_error z 1)) in P1. symmetry in P1. apply nth_error_In in P1. apply in_map_iff in P1.
    destruct P1 as (h & Eh & Ih). injection Eh as ->. exact Ih. }
  specialize (Q x (or_introl eq_refl) J). rewrite <- P2 in Q. discriminate.
Qed.

Lemma other_run : w_run [b "mid"; b "http"; b "doi"] (b "[[file:http.txt]]") = Some [([PNil], mkLink (b "file:http.txt") [] 1)].
Proof. vm_compute. reflexivity. Qed.
Lemma other_scheme_refutes : ~ forall variants ss c u chunk f content broken t err,
  variants_of variants ss -> UpdateRe variants = Some c ->
  OrgExtract u c chunk f content broken = Done (Some t, err) ->
  forall p l, In (p, l) (paths t) -> exists w x, URL l = w ++ b ":" ++ x /\ with_scheme ss w.
Proof.
  intros H. destruct (run_ok _ _ _ other_run) as (c & t & U & E & P).
  assert (I : In ([PNil], mkLink (b "file:http.txt") [] 1) (paths t)) by (rewrite P; left; reflexivity).
  destruct (H _ _ _ _ _ _ _ _ _ _ w_variants U E _ _ I) as (w & x & EU & NW & s & Is & W). cbn [URL] in EU.
  assert (HD : exists z, w = "f"%char :: z). { destruct w as [|c0 w]; [congruence|]. injection EU as <- _. eauto. }
  destruct HD as (z & ->). cbn in Is. destruct Is as [<-|[<-|[<-|[]]]]; inversion W as [|? ? ? W' Q|? ? ? O]; try discriminate.
Qed.

(** ** Default schemes *)
Definition d_schemes : list (list schar) := [w_plain "doi"; w_plain "http" ++ [mkChar "s" true]; w_plain "mid"].
Lemma plain_word s w : word (map (fun c => mkChar c false) s) w <-> w = s.
Proof.
  split.
  - revert w. induction s as [|a s IH]; intros w W; inversion W; subst; [reflexivity|cbn; f_equal; auto|discriminate].
  - intros ->. induction s; cbn; [constructor|apply (word_take (mkChar a false)); assumption].
Qed.
Lemma default_schemes : exists ss, variants_of SchemeVariants ss /\ NoDup (map written ss) /\ UpdateRe SchemeVariants <> None /\
  forall w, (exists s, In s ss /\ word s w) <-> In w [b "doi"; b "http"; b "https"; b "mid"].
Proof.
  exists d_schemes. split; [|split; [|split]].
  - split; [repeat constructor; try discriminate|]. repeat (constructor; [left; reflexivity|]). constructor.
  - repeat constructor; cbn; intuition discriminate.
  - vm_compute. discriminate.
  - intros w. split.
    + intros (s & [<-|[<-|[<-|[]]]] & W).
      * apply plain_word in W. subst. cbn. auto.
      * cbn in W. repeat match goal with H : word (_ :: _) _ |- _ => inversion H; clear H; subst; try discriminate end; match goal with H : word [] _ |- _ => inversion H; subst end; cbn; auto.
      * apply plain_word in W. subst. cbn. auto 6.
    + intros [<-|[<-|[<-|[<-|[]]]]]; [exists (w_plain "doi")|exists (w_plain "http" ++ [mkChar "s" true])|exists (w_plain "http" ++ [mkChar "s" true])|exists (w_plain "mid")]; (split; [cbn; auto|]);
      cbn; repeat first [apply word_nil|refine (word_take (mkChar _ _) _ _ _)|refine (word_skip (mkChar _ _) _ _ _ _); [reflexivity|]].
Qed.
