(** Patterns that are built from prefixes of links. *)
From Coq Require Import ZifyBool ZifyNat ZifyN.
From Verif Require Import GoBase Utf8 Utf8Proofs Utf8Dec Regex RegexParse RegexSpec RegexProofs Pieces Patterns RegexLex RegexWords
  Flags Extract ExtractSpec HeadingProofs SchemeProofs LinkProofs2 BracketProofs SetSpec SetProofs.

Definition ascii_only (s : str) : Prop := Forall (fun c => (N_of_ascii c < 128)%N) s.
(** ** Alternatives *)
Definition words (qs : list str) : list (list item) := map (fun q => map plain_item (runes_of q)) qs.
Lemma runes_join qs : runes_of (join (map QuoteMeta qs)) = src_alts (words qs).
Proof.
  induction qs as [|q qs IH]; [reflexivity|]. destruct qs as [|q' qs]; [apply runes_quoted|].
  change (join (map QuoteMeta (q :: q' :: qs))) with (QuoteMeta q ++ "|"%char :: join (map QuoteMeta (q' :: qs))).
  rewrite runes_split by reflexivity. rewrite IH, runes_quoted. reflexivity.
Qed.
Lemma valid_join qs : valid_utf8 (join (map QuoteMeta qs)) <-> Forall valid_utf8 qs.
Proof.
  induction qs as [|q qs IH]; [split; [constructor|intros _; exists []; split; [constructor|reflexivity]]|]. destruct qs as [|q' qs].
  - cbn [map join]. rewrite valid_quoted, Forall_cons_iff. split; [auto|tauto].
  - change (join (map QuoteMeta (q :: q' :: qs))) with (QuoteMeta q ++ "|"%char :: join (map QuoteMeta (q' :: qs))).
    rewrite valid_split by reflexivity. rewrite IH, valid_quoted, (Forall_cons_iff _ q). reflexivity.
Qed.
Lemma valid_after x y : ascii_only x -> valid_utf8 (x ++ y) <-> valid_utf8 y.
Proof.
  intros H. induction H as [|c x Hc H IH]; [reflexivity|]. cbn [app]. pose proof (valid_split [] c (x ++ y) Hc) as V. cbn [app] in V. rewrite V, IH.
  split; [tauto|]. intros W. split; [|exact W]. exists []. split; [constructor|reflexivity].
Qed.
Lemma runes_after x y : ascii_only x -> runes_of (x ++ y) = bytesN x ++ runes_of y.
Proof. intros H. induction H as [|c x Hc H IH]; [reflexivity|]. cbn [app]. rewrite runes_cons by exact Hc. rewrite IH. reflexivity. Qed.

(** ** Parts *)
Definition sp1 : str := reBracketStr ++ b "|<((?:".
Definition sp2 : str := reAngleSuffixStr ++ b ")>|\b((?:".
Definition sp3 : str := rePlainSuffixStr ++ b ")".
Definition spT : str := b "\b((?:".
Definition spP : str := b "^(?:".
Lemma set_pattern_org j : set_pattern Org (b "(?:" ++ j ++ b ")") = sp1 ++ j ++ ")"%char :: sp2 ++ j ++ ")"%char :: sp3.
Proof. unfold set_pattern, sp1, sp2, sp3. rewrite <- !app_assoc. reflexivity. Qed.
Lemma set_pattern_txt j : set_pattern Txt (b "(?:" ++ j ++ b ")") = spT ++ j ++ ")"%char :: sp3.
Proof. unfold set_pattern, spT, sp3. rewrite <- !app_assoc. reflexivity. Qed.
Definition stoks1 : list token := Eval vm_compute in tokens_of sp1.
Definition stoks2 : list token := Eval vm_compute in TClose :: tokens_of sp2.
Definition stoks3 : list token := Eval vm_compute in TClose :: tokens_of sp3.
Definition stoksT : list token := Eval vm_compute in tokens_of spT.
Definition stoksP : list token := Eval vm_compute in tokens_of spP.
Definition sb1 : list N := Eval vm_compute in bytesN sp1.
Definition sb2 : list N := Eval vm_compute in bytesN sp2.
Definition sb3 : list N := Eval vm_compute in bytesN sp3.
Definition sbT : list N := Eval vm_compute in bytesN spT.
Definition sbP : list N := Eval vm_compute in bytesN spP.
Lemma sb1_eq : bytesN sp1 = sb1. Proof. vm_compute. reflexivity. Qed.
Lemma sb2_eq : bytesN sp2 = sb2. Proof. vm_compute. reflexivity. Qed.
Lemma sb3_eq : bytesN sp3 = sb3. Proof. vm_compute. reflexivity. Qed.
Lemma sbT_eq : bytesN spT = sbT. Proof. vm_compute. reflexivity. Qed.
Lemma sbP_eq : bytesN spP = sbP. Proof. vm_compute. reflexivity. Qed.
Lemma as1 : ascii_only sp1. Proof. apply ascii_of_bytes. rewrite sb1_eq. unfold sb1. repeat constructor. Qed.
Lemma as2 : ascii_only sp2. Proof. apply ascii_of_bytes. rewrite sb2_eq. unfold sb2. repeat constructor. Qed.
Lemma as3 : ascii_only sp3. Proof. apply ascii_of_bytes. rewrite sb3_eq. unfold sb3. repeat constructor. Qed.
Lemma asT : ascii_only spT. Proof. apply ascii_of_bytes. rewrite sbT_eq. unfold sbT. repeat constructor. Qed.
Lemma asP : ascii_only spP. Proof. apply ascii_of_bytes. rewrite sbP_eq. unfold sbP. repeat constructor. Qed.
Lemma slexes1 rest ts : lexes rest ts -> lexes (sb1 ++ rest) (stoks1 ++ ts).
Proof. intros L. unfold sb1, stoks1. cbn [app]. repeat (eapply lexes_cons; [reflexivity|]). exact L. Qed.
Lemma slexes2 rest ts : lexes rest ts -> lexes (41%N :: sb2 ++ rest) (stoks2 ++ ts).
Proof. intros L. unfold sb2, stoks2. cbn [app]. repeat (eapply lexes_cons; [reflexivity|]). exact L. Qed.
Lemma slexes3 : lexes (41%N :: sb3) stoks3.
Proof. unfold sb3, stoks3. repeat (eapply lexes_cons; [reflexivity|]). constructor. Qed.
Lemma slexesT rest ts : lexes rest ts -> lexes (sbT ++ rest) (stoksT ++ ts).
Proof. intros L. unfold sbT, stoksT. cbn [app]. repeat (eapply lexes_cons; [reflexivity|]). exact L. Qed.
Lemma slexesP rest ts : lexes rest ts -> lexes (sbP ++ rest) (stoksP ++ ts).
Proof. intros L. unfold sbP, stoksP. cbn [app]. repeat (eapply lexes_cons; [reflexivity|]). exact L. Qed.

(** ** Parsing *)
Definition set_angle_re (n : nat) (g : re) : re := RSeq (lit 60%N) (RSeq (RGroup n (RSeq g reAng)) (lit 62%N)).
Definition set_plain_re (n : nat) (g : re) : re := RSeq RWord (RGroup n (RSeq g rePl)).
Definition set_org_re (g g' : re) : re := RAlt reBr (RAlt (set_angle_re 3 g) (set_plain_re 4 g')).
Definition after (toks : list token) : pstate := match prun pstart toks with Some st => st | None => pstart end.
Definition sst1 : pstate := Eval vm_compute in after stoks1.
Definition sstT : pstate := Eval vm_compute in after stoksT.
Definition sstP : pstate := Eval vm_compute in after stoksP.
Lemma sprun1 : prun pstart stoks1 = Some sst1. Proof. vm_compute. reflexivity. Qed.
Lemma sprunT : prun pstart stoksT = Some sstT. Proof. vm_compute. reflexivity. Qed.
Lemma sprunP : prun pstart stoksP = Some sstP. Proof. vm_compute. reflexivity. Qed.
Lemma sprun2 al cu rep : exists st2, prun (mkP (mkFrame al cu (fgroup (top sst1)) (ffold (top sst1))) (below sst1) (ncap sst1) (folding sst1) rep) stoks2 = Some st2 /\
  falts (top st2) = [] /\ fcur (top st2) = [] /\ folding st2 = false /\
  forall al' cu' rep', exists st3, prun (mkP (mkFrame al' cu' (fgroup (top st2)) (ffold (top st2))) (below st2) (ncap st2) (folding st2) rep') stoks3 = Some st3 /\
    below st3 = [] /\ alt_of (top st3) = set_org_re (alt_of (mkFrame al cu None false)) (alt_of (mkFrame al' cu' None false)).
Proof.
  match goal with |- exists st2, ?p = Some st2 /\ _ => let v := eval vm_compute in p in match v with Some ?x => exists x end end.
  split; [vm_compute; reflexivity|]. repeat (split; [reflexivity|]). intros al' cu' rep'. cbn [top below ncap folding fgroup ffold].
  match goal with |- exists st3, ?p = Some st3 /\ _ => let v := eval vm_compute in p in match v with Some ?x => exists x end end.
  split; [vm_compute; reflexivity|]. split; [reflexivity|]. vm_compute. reflexivity.
Qed.
Lemma sprunT3 al cu rep : exists st3, prun (mkP (mkFrame al cu (fgroup (top sstT)) (ffold (top sstT))) (below sstT) (ncap sstT) (folding sstT) rep) stoks3 = Some st3 /\
    below st3 = [] /\ alt_of (top st3) = set_plain_re 1 (alt_of (mkFrame al cu None false)).
Proof.
  match goal with |- exists st3, ?p = Some st3 /\ _ => let v := eval vm_compute in p in match v with Some ?x => exists x end end.
  split; [vm_compute; reflexivity|]. split; [reflexivity|]. vm_compute. reflexivity.
Qed.
Lemma sprunP3 al cu rep : exists st3, prun (mkP (mkFrame al cu (fgroup (top sstP)) (ffold (top sstP))) (below sstP) (ncap sstP) (folding sstP) rep) [TClose] = Some st3 /\
    below st3 = [] /\ alt_of (top st3) = RSeq RBegin (alt_of (mkFrame al cu None false)).
Proof.
  match goal with |- exists st3, ?p = Some st3 /\ _ => let v := eval vm_compute in p in match v with Some ?x => exists x end end.
  split; [vm_compute; reflexivity|]. split; [reflexivity|]. vm_compute. reflexivity.
Qed.

(** ** Compilation *)
Definition prefix_re (g : re) (qs : list str) : Prop :=
  forall u pre mid post new, mlist u g pre mid post new <-> new = [] /\ exists q, In q qs /\ map fst mid = runes_of q.
Lemma imatch_plain rs : forall l, imatch (map plain_item rs) l <-> l = rs.
Proof.
  induction rs as [|r rs IH]; intros l; cbn [map]; split.
  - intros M. inversion M. reflexivity.
  - intros ->. constructor.
  - intros M. inversion M as [|i w l' M' E1 E2|i w l' O M' E1 E2]; subst; [|discriminate]. apply IH in M'. subst. reflexivity.
  - intros ->. apply (imatch_here (plain_item r)). apply IH. reflexivity.
Qed.
Lemma words_prefix g qs : is_words g (words qs) -> prefix_re g qs.
Proof.
  intros W u pre mid post new. rewrite (W u pre mid post new). split; intros (-> & x & I & M); (split; [reflexivity|]).
  - apply in_map_iff in I. destruct I as (q & <- & I). apply imatch_plain in M. eauto.
  - exists (map plain_item (runes_of x)). split; [apply (in_map (fun q => map plain_item (runes_of q))), I|]. apply imatch_plain. exact M.
Qed.
Lemma words_ne qs : Forall (fun q => runes_of q <> []) qs -> Forall (fun x => x <> []) (words qs).
Proof. intros H. apply Forall_map. eapply Forall_impl; [|exact H]. intros q N E. apply map_eq_nil in E. contradiction. Qed.

Definition joined (qs : list str) : str := join (map QuoteMeta qs).
Lemma org_compile qs : Forall (fun q => runes_of q <> []) qs -> qs <> [] -> Forall valid_utf8 qs ->
  exists g g', compile (set_pattern Org (b "(?:" ++ joined qs ++ b ")")) = Some (set_org_re g g') /\ prefix_re g qs /\ prefix_re g' qs.
Proof.
  intros NR NE V. rewrite set_pattern_org. apply valid_join in V. fold (joined qs) in V. pose proof (words_ne _ NR) as IN.
  assert (VP : valid_utf8 (sp1 ++ joined qs ++ ")"%char :: sp2 ++ joined qs ++ ")"%char :: sp3)).
  { rewrite valid_after by apply as1. rewrite valid_split by reflexivity. rewrite valid_after by apply as2. rewrite valid_split by reflexivity.
    pose proof (valid_utf8_ascii _ as3). tauto. }
  destruct qs as [|q qs]; [congruence|]. cbn [words map] in IN. apply Forall_inv in IN as IN1. apply Forall_inv_tail in IN as IN2.
  set (w := map plain_item (runes_of q)) in *. set (ws := map (fun q => map plain_item (runes_of q)) qs) in *.
  assert (L : lexes (runes_of (sp1 ++ joined (q :: qs) ++ ")"%char :: sp2 ++ joined (q :: qs) ++ ")"%char :: sp3))
                (stoks1 ++ tok_alts (w :: ws) ++ stoks2 ++ tok_alts (w :: ws) ++ stoks3)).
  { rewrite runes_after by apply as1. rewrite runes_split by reflexivity. rewrite runes_after by apply as2. rewrite runes_split by reflexivity.
    rewrite (runes_ascii sp3) by apply as3. unfold joined. rewrite runes_join, sb1_eq, sb2_eq, sb3_eq. cbn [words map]. fold w ws.
    apply slexes1. apply lexes_alts; [discriminate|]. apply slexes2. apply lexes_alts; [discriminate|]. apply slexes3. }
  destruct (prun_alts ws sst1 w eq_refl IN1 IN2) as (rep & P1). destruct (alts_frame sst1 w ws rep) as (al & cu & F1).
  destruct (sprun2 al cu rep) as (st2 & P2 & A2 & C2 & Fo2 & P3).
  destruct (prun_alts ws st2 w Fo2 IN1 IN2) as (rep' & P4). destruct (alts_frame st2 w ws rep') as (al' & cu' & F2).
  destruct (P3 al' cu' rep') as (st3 & P5 & B3 & E3).
  exists (alt_of (mkFrame al cu None false)), (alt_of (mkFrame al' cu' None false)). split; [|split].
  - rewrite <- E3. eapply compile_intro; [exact VP|exact L| |exact B3].
    rewrite prun_app, sprun1, prun_app, P1, F1, prun_app, P2, prun_app, P4, F2. exact P5.
  - apply words_prefix. intros u pre mid post new. pose proof (alts_empty u sst1 w ws rep pre mid post new eq_refl eq_refl) as E. rewrite F1 in E. exact E.
  - apply words_prefix. intros u pre mid post new. pose proof (alts_empty u st2 w ws rep' pre mid post new A2 C2) as E. rewrite F2 in E. exact E.
Qed.
Lemma txt_compile qs : Forall (fun q => runes_of q <> []) qs -> qs <> [] -> Forall valid_utf8 qs ->
  exists g, compile (set_pattern Txt (b "(?:" ++ joined qs ++ b ")")) = Some (set_plain_re 1 g) /\ prefix_re g qs.
Proof.
  intros NR NE V. rewrite set_pattern_txt. apply valid_join in V. fold (joined qs) in V. pose proof (words_ne _ NR) as IN.
  assert (VP : valid_utf8 (spT ++ joined qs ++ ")"%char :: sp3)).
  { rewrite valid_after by apply asT. rewrite valid_split by reflexivity. pose proof (valid_utf8_ascii _ as3). tauto. }
  destruct qs as [|q qs]; [congruence|]. cbn [words map] in IN. apply Forall_inv in IN as IN1. apply Forall_inv_tail in IN as IN2.
  set (w := map plain_item (runes_of q)) in *. set (ws := map (fun q => map plain_item (runes_of q)) qs) in *.
  assert (L : lexes (runes_of (spT ++ joined (q :: qs) ++ ")"%char :: sp3)) (stoksT ++ tok_alts (w :: ws) ++ stoks3)).
  { rewrite runes_after by apply asT. rewrite runes_split by reflexivity.
    rewrite (runes_ascii sp3) by apply as3. unfold joined. rewrite runes_join, sbT_eq, sb3_eq. cbn [words map]. fold w ws.
    apply slexesT. apply lexes_alts; [discriminate|]. apply slexes3. }
  destruct (prun_alts ws sstT w eq_refl IN1 IN2) as (rep & P1). destruct (alts_frame sstT w ws rep) as (al & cu & F1).
  destruct (sprunT3 al cu rep) as (st3 & P5 & B3 & E3).
  exists (alt_of (mkFrame al cu None false)). split.
  - rewrite <- E3. eapply compile_intro; [exact VP|exact L| |exact B3]. rewrite prun_app, sprunT, prun_app, P1, F1. exact P5.
  - apply words_prefix. intros u pre mid post new. pose proof (alts_empty u sstT w ws rep pre mid post new eq_refl eq_refl) as E. rewrite F1 in E. exact E.
Qed.
Lemma check_compile qs : Forall (fun q => runes_of q <> []) qs -> qs <> [] -> Forall valid_utf8 qs ->
  exists g, compile (b "^" ++ b "(?:" ++ joined qs ++ b ")") = Some (RSeq RBegin g) /\ prefix_re g qs.
Proof.
  intros NR NE V. change (b "^" ++ b "(?:" ++ joined qs ++ b ")") with (spP ++ joined qs ++ [")"%char]).
  apply valid_join in V. fold (joined qs) in V. pose proof (words_ne _ NR) as IN.
  assert (VP : valid_utf8 (spP ++ joined qs ++ [")"%char])).
  { rewrite valid_after by apply asP. rewrite valid_split by reflexivity. split; [exact V|]. exists []. split; [constructor|reflexivity]. }
  destruct qs as [|q qs]; [congruence|]. cbn [words map] in IN. apply Forall_inv in IN as IN1. apply Forall_inv_tail in IN as IN2.
  set (w := map plain_item (runes_of q)) in *. set (ws := map (fun q => map plain_item (runes_of q)) qs) in *.
  assert (L : lexes (runes_of (spP ++ joined (q :: qs) ++ [")"%char])) (stoksP ++ tok_alts (w :: ws) ++ [TClose])).
  { rewrite runes_after by apply asP. rewrite runes_split by reflexivity.
    unfold joined. rewrite runes_join, sbP_eq. cbn [words map]. fold w ws.
    apply slexesP. apply lexes_alts; [discriminate|]. eapply lexes_cons; [reflexivity|constructor]. }
  destruct (prun_alts ws sstP w eq_refl IN1 IN2) as (rep & P1). destruct (alts_frame sstP w ws rep) as (al & cu & F1).
  destruct (sprunP3 al cu rep) as (st3 & P5 & B3 & E3).
  exists (alt_of (mkFrame al cu None false)). split.
  - rewrite <- E3. eapply compile_intro; [exact VP|exact L| |exact B3]. rewrite prun_app, sprunP, prun_app, P1, F1. exact P5.
  - apply words_prefix. intros u pre mid post new. pose proof (alts_empty u sstP w ws rep pre mid post new eq_refl eq_refl) as E. rewrite F1 in E. exact E.
Qed.
Lemma compile_valid k qs : ~ Forall valid_utf8 qs -> compile (set_pattern k (b "(?:" ++ joined qs ++ b ")")) = None.
Proof.
  intros V. destruct (compile _) as [r|] eqn:C; [|reflexivity]. exfalso. apply V, valid_join. apply compile_some in C. destruct C as [C _].
  destruct k.
  - rewrite set_pattern_org in C. rewrite valid_after in C by apply as1. rewrite valid_split in C by reflexivity. apply C.
  - rewrite set_pattern_txt in C. rewrite valid_after in C by apply asT. rewrite valid_split in C by reflexivity. apply C.
Qed.
