(** Links inside of lines of Org files are in results. *)
From Coq Require Import ZifyBool ZifyNat ZifyN.
From Verif Require Import GoBase GoSlice Utf8 Utf8Proofs Utf8Dec Regex RegexParse RegexSpec RegexProofs Pieces RegexLex RegexWords Patterns
  LinkTypes LinkTree Extract ScannerSpec ExtractSpec HeadingProofs SchemeProofs LinkProofs2 BracketProofs TextFound OrgFoundSpec OrgFound OrgFoundMain ExtractMain.
From Verif Require Scanner.
Local Notation newline := Scanner.newline (only parsing).

Lemma shown_same ss ss' edge line ls : (forall s, In s ss' <-> In s ss) -> shown ss edge line ls -> shown ss' edge line ls.
Proof.
  intros E S. assert (W : forall w, with_scheme ss w -> with_scheme ss' w) by (intros w (N & s & Is & Ws); split; [exact N|]; exists s; rewrite E; auto).
  induction S as [edge x|edge a t d x ls Q NT NB ND S IH|edge a w y x ls Q WS NG S IH|edge a q w y x ls Q SEP WS WB PT PE S IH]; constructor; auto.
  destruct SEP as (A & B & C). split; [exact A|]. split; [exact B|]. destruct C as [(y0 & c & X & Y & Z)|C]; [left|right; exact C].
  exists y0, c. split; [exact X|]. split; [exact Y|]. intros s z Is. apply Z. apply E. exact Is.
Qed.
Lemma lines_break s ls : lines_of s ls -> Forall (fun l => ~ In newline l) ls.
Proof. intros L. induction L; constructor; auto. Qed.
Lemma without_cr_break x y : Forall2 without_cr x y -> Forall (fun l => ~ In newline l) x -> Forall (fun l => ~ In newline l) y.
Proof.
  intros F. induction F as [|l m x y H F IH]; intros N; [constructor|]. inversion N as [|? ? N1 N2]. subst. constructor; [|auto].
  destruct H as [l|l _]; [intros I; apply N1; apply in_or_app; left; exact I|exact N1].
Qed.
Lemma seen_break content broken lines e : seen_lines content broken lines e -> Forall (fun l => ~ In newline l) lines.
Proof.
  intros (all & L & H). apply lines_break in L. destruct H as [(_ & F & _)|(x & l & y & -> & _ & _ & F & _)].
  - exact (without_cr_break _ _ F L).
  - apply Forall_app in L. exact (without_cr_break _ _ F (proj1 L)).
Qed.
Lemma links_found variants ss c u n line ls x d : variants_of variants ss -> UpdateRe variants = Some c -> simple_schemes ss -> ~ In newline line ->
  shown ss true line ls -> In (x, d) ls -> proper ss x -> In (mkLink x d n) (links_of u c n line).
Proof.
  intros V U SI NL S I P. destruct (UpdateRe_all _ _ _ V U) as (ss' & g3 & g5 & EQ & NE & OK & L3 & L5 & RL & LK & W3 & W5 & CS).
  assert (SI' : simple_schemes ss') by (intros s y Is; apply SI; apply EQ; exact Is). apply (shown_same ss ss') in S; [|exact EQ].
  destruct (shown_found u ss' g3 g5 OK SI' W3 W5 L3 L5 LK _ _ _ S [] None 0 None (Datatypes.S (length (pieces line)))) with (t := x) (d := d) as (m & Im & Fm);
    [apply at_start|lia|exact NL|reflexivity|exact I|].
  unfold links_of. apply in_flat_map. exists m. unfold FindAll. rewrite RL. split; [exact Im|].
  assert (R : OrgLinkMatchIsUrl u c m = Some (mkLink x d 0)); [|rewrite R; left; reflexivity].
  destruct P as (w & y & -> & Nw & s & Is & W). unfold OrgLinkMatchIsUrl. destruct Fm as [[G1 G2]|(G1 & -> & w' & y' & E & Nw' & [[G3 G4]|(G3 & G5 & G6)])].
  - rewrite G1, G2. destruct (w ++ b ":" ++ y) as [|c0 r] eqn:Ex; [destruct w; discriminate|]. rewrite <- Ex.
    rewrite (proj2 (accepted_iff u ss' (reScheme c) (w ++ b ":" ++ y) OK NE CS)); [reflexivity|]. apply proper_accepted with s; [apply EQ; exact Is|exact W].
  - rewrite G1, G3, G4, E. destruct w' as [|k w']; [congruence|reflexivity].
  - rewrite G1, G3, G5, G6, E. destruct w' as [|k w']; [congruence|reflexivity].
Qed.
Lemma org_found variants ss c u chunk f content broken t err lines e k line ls x d : variants_of variants ss -> UpdateRe variants = Some c -> simple_schemes ss ->
  OrgExtract u c chunk f content broken = Done (Some t, err) -> seen_lines content broken lines e -> nth_error lines k = Some line ->
  shown ss true line ls -> In (x, d) ls -> proper ss x -> passed f (mkLink x d (S k)) -> exists p, In (p, mkLink x d (S k)) (paths t).
Proof.
  intros V U SI E SL N S I P F. pose proof (seen_break _ _ _ _ SL) as NB. rewrite Forall_forall in NB. apply nth_error_In in N as IL. specialize (NB _ IL).
  pose proof (links_found _ _ _ u (Datatypes.S k) _ _ _ _ V U SI NB S I P) as L. pose proof (org_line_links _ _ _ _ _ _ _ _ _ _ _ _ E SL N) as Q.
  assert (L' : In (mkLink x d (Datatypes.S k)) (filtered f (links_of u c (Datatypes.S k) line))).
  { unfold filtered. destruct f as [g|]; [|exact L]. apply filter_In. split; [exact L|]. cbn in F. exact F. }
  rewrite <- Q in L'. apply filter_In in L'. destruct L' as [L' _]. apply in_map_iff in L'. destruct L' as ([p l] & El & Il). cbn in El. subst l. eauto.
Qed.
