(** Lemmas about patterns of links. *)
From Coq Require Import ZifyBool ZifyNat ZifyN.
From Verif Require Import GoBase GoSlice Utf8 Utf8Proofs Utf8Dec Regex RegexParse RegexSpec RegexProofs Pieces RegexLex RegexWords Patterns
  LinkTypes Extract ExtractSpec HeadingProofs.

Definition item_of (x : schar) : item := mkItem (N_of_ascii (char x)) (optional x).
Lemma special_meta c : existsb (Ascii.eqb c) special = meta (N_of_ascii c).
Proof.
  unfold special, meta. destruct c as [[] [] [] [] [] [] [] []]; reflexivity.
Qed.
Lemma bytesN_written s : bytesN (written s) = flat_map src_item (map item_of s).
Proof.
  induction s as [|x s IH]; [reflexivity|]. cbn [written flat_map map]. rewrite bytesN_app. fold (written s). rewrite IH. f_equal.
  unfold written_char, src_item, item_of. cbn [irune iopt]. rewrite special_meta. destruct (meta _), (optional x); reflexivity.
Qed.
Lemma bytesN_join ss : bytesN (join (map written ss)) = src_alts (map (map item_of) ss).
Proof.
  induction ss as [|s ss IH]; [reflexivity|]. cbn [map join src_alts]. destruct ss as [|s' ss]; cbn [map] in *.
  - apply bytesN_written.
  - rewrite !bytesN_app, bytesN_written, IH. reflexivity.
Qed.
Lemma written_ascii s : scheme_ok s -> Forall (fun c => (N_of_ascii c < 128)%N) (written s).
Proof.
  intros [_ H]. unfold written. induction H as [|x s [A _] H IH]; cbn [flat_map]; [constructor|]. apply Forall_app. split; [|exact IH].
  unfold written_char. apply Forall_app. split.
  - destruct (existsb _ _); repeat constructor; try exact A; cbn; lia.
  - destruct (optional x); repeat constructor; cbn; lia.
Qed.
Lemma join_ascii ss : Forall scheme_ok ss -> Forall (fun c => (N_of_ascii c < 128)%N) (join (map written ss)).
Proof.
  intros H. induction H as [|s ss A H IH]; [constructor|]. cbn [map join]. destruct (map written ss); [apply written_ascii, A|].
  apply Forall_app. split; [apply written_ascii, A|]. constructor; [cbn; lia|exact IH].
Qed.

(** ** The pattern of links *)
Definition part1 : str := reBracketStr ++ b "|<(".
Definition part2 : str := b "):(" ++ reAngleSuffixStr ++ b ")>|\b(".
Definition part3 : str := b "):(" ++ rePlainSuffixStr ++ b ")".
Lemma MakeLinkReStr_eq s : MakeLinkReStr s = part1 ++ s ++ part2 ++ s ++ part3.
Proof. unfold MakeLinkReStr, part1, part2, part3. rewrite <- !app_assoc. reflexivity. Qed.

Definition tokens_of (s : str) : list token := match lex 1000 (bytesN s) with Some ts => ts | None => [] end.
Definition toks1 : list token := Eval vm_compute in tokens_of part1.
Definition toks2 : list token := Eval vm_compute in tokens_of part2.
Definition toks3 : list token := Eval vm_compute in tokens_of part3.
Definition bytes1 : list N := Eval vm_compute in bytesN part1.
Definition bytes2 : list N := Eval vm_compute in bytesN part2.
Definition bytes3 : list N := Eval vm_compute in bytesN part3.

Lemma lex1_open t : match t with x :: _ => x <> 63%N | [] => True end -> lex1 40%N t = Some (TOpen true, t).
Proof. intros H. destruct t as [|x t]; [reflexivity|]. apply N.eqb_neq in H. unfold lex1. cbn -[N.eqb]. change (ch "?") with 63%N. cbn. rewrite H. reflexivity. Qed.
Lemma lexes1 rest ts : match rest with x :: _ => x <> 63%N | [] => True end -> lexes rest ts -> lexes (bytes1 ++ rest) (toks1 ++ ts).
Proof.
  intros H L. unfold bytes1, toks1. cbn [app].
  repeat first [ apply lexes_cons with (1 := lex1_open _ H); exact L | eapply lexes_cons; [reflexivity|] ].
Qed.
Lemma lexes2 rest ts : match rest with x :: _ => x <> 63%N | [] => True end -> lexes rest ts -> lexes (bytes2 ++ rest) (toks2 ++ ts).
Proof.
  intros H L. unfold bytes2, toks2. cbn [app].
  repeat first [ apply lexes_cons with (1 := lex1_open _ H); exact L | eapply lexes_cons; [reflexivity|] ].
Qed.
Lemma lexes3 : lexes bytes3 toks3.
Proof. apply (lex_lexes 1000); [vm_compute; lia|]. vm_compute. reflexivity. Qed.

Definition reBr : re := Eval vm_compute in compiled reBracketStr.
Definition reAng : re := Eval vm_compute in compiled reAngleSuffixStr.
Definition rePl : re := Eval vm_compute in compiled rePlainSuffixStr.
Definition lit (r : rune) : re := RCls (single r).

Definition st1 : pstate := Eval vm_compute in match prun pstart toks1 with Some st => st | None => pstart end.
Lemma prun1 : prun pstart toks1 = Some st1. Proof. vm_compute. reflexivity. Qed.
Definition link_re (g3 g5 : re) : re :=
  RAlt reBr (RAlt (RSeq (lit 60%N) (RSeq (RGroup 3 g3) (RSeq (lit 58%N) (RSeq (RGroup 4 reAng) (lit 62%N)))))
                  (RSeq RWord (RSeq (RGroup 5 g5) (RSeq (lit 58%N) (RGroup 6 rePl))))).
(** What a group of schemes matches *)
Definition is_words (g : re) (ws : list (list item)) : Prop :=
  forall u pre mid post new, mlist u g pre mid post new <-> new = [] /\ exists x, In x ws /\ imatch x (map fst mid).
Lemma prun2 al cu rep : exists st2, prun (mkP (mkFrame al cu (fgroup (top st1)) (ffold (top st1))) (below st1) (ncap st1) (folding st1) rep) toks2 = Some st2 /\
  falts (top st2) = [] /\ fcur (top st2) = [] /\ folding st2 = false /\
  forall al' cu' rep', exists st3, prun (mkP (mkFrame al' cu' (fgroup (top st2)) (ffold (top st2))) (below st2) (ncap st2) (folding st2) rep') toks3 = Some st3 /\
    below st3 = [] /\ alt_of (top st3) = link_re (alt_of (mkFrame al cu None false)) (alt_of (mkFrame al' cu' None false)).
Proof.
  match goal with |- exists st2, ?p = Some st2 /\ _ => let v := eval vm_compute in p in match v with Some ?x => exists x end end.
  split; [vm_compute; reflexivity|]. repeat (split; [reflexivity|]). intros al' cu' rep'. cbn [top below ncap folding fgroup ffold].
  match goal with |- exists st3, ?p = Some st3 /\ _ => let v := eval vm_compute in p in match v with Some ?x => exists x end end.
  split; [vm_compute; reflexivity|]. split; [reflexivity|]. vm_compute. reflexivity.
Qed.

Lemma items_ne ss : Forall scheme_ok ss -> Forall (fun x => x <> []) (map (map item_of) ss).
Proof. intros H. apply Forall_map. eapply Forall_impl; [|exact H]. intros s [N _] E. apply map_eq_nil in E. contradiction. Qed.
Lemma bytes1_eq : bytesN part1 = bytes1. Proof. vm_compute. reflexivity. Qed.
Lemma bytes2_eq : bytesN part2 = bytes2. Proof. vm_compute. reflexivity. Qed.
Lemma bytes3_eq : bytesN part3 = bytes3. Proof. vm_compute. reflexivity. Qed.
Lemma ascii_of_bytes s : Forall (fun x => (x < 128)%N) (bytesN s) -> Forall (fun c => (N_of_ascii c < 128)%N) s.
Proof. unfold bytesN. apply Forall_map. Qed.
Lemma ascii1 : Forall (fun c => (N_of_ascii c < 128)%N) part1.
Proof. apply ascii_of_bytes. rewrite bytes1_eq. unfold bytes1. repeat constructor. Qed.
Lemma ascii2 : Forall (fun c => (N_of_ascii c < 128)%N) part2.
Proof. apply ascii_of_bytes. rewrite bytes2_eq. unfold bytes2. repeat constructor. Qed.
Lemma ascii3 : Forall (fun c => (N_of_ascii c < 128)%N) part3.
Proof. apply ascii_of_bytes. rewrite bytes3_eq. unfold bytes3. repeat constructor. Qed.

Lemma link_compile ss : Forall scheme_ok ss -> ss <> [] ->
  exists g3 g5, compile (MakeLinkReStr (join (map written ss))) = Some (link_re g3 g5) /\
    is_words g3 (map (map item_of) ss) /\ is_words g5 (map (map item_of) ss).
Proof.
  intros H NE. rewrite MakeLinkReStr_eq. set (j := join (map written ss)). pose proof (join_ascii _ H) as AJ. fold j in AJ.
  assert (A : Forall (fun c => (N_of_ascii c < 128)%N) (part1 ++ j ++ part2 ++ j ++ part3)).
  { rewrite !Forall_app. auto 10 using ascii1, ascii2, ascii3. }
  pose proof (items_ne _ H) as IN. destruct ss as [|s ss]; [congruence|]. cbn [map] in IN. apply Forall_inv in IN as IN1. apply Forall_inv_tail in IN as IN2.
  set (w := map item_of s) in *. set (ws := map (map item_of) ss) in *.
  assert (L : lexes (runes_of (part1 ++ j ++ part2 ++ j ++ part3)) (toks1 ++ tok_alts (w :: ws) ++ toks2 ++ tok_alts (w :: ws) ++ toks3)).
  { rewrite runes_ascii by exact A. rewrite !bytesN_app, bytes1_eq, bytes2_eq, bytes3_eq. unfold j. rewrite bytesN_join. cbn [map]. fold w ws.
    assert (N3 : match bytes3 with x :: _ => x <> 63%N | [] => True end) by discriminate.
    assert (N2 : forall t, match bytes2 ++ t with x :: _ => x <> 63%N | [] => True end) by discriminate.
    apply lexes1; [apply src_alts_first, N2|]. apply lexes_alts; [apply N2|]. apply lexes2; [apply src_alts_first, N3|].
    apply lexes_alts; [exact N3|apply lexes3]. }
  destruct (prun_alts ws st1 w eq_refl IN1 IN2) as (rep & P1). destruct (alts_frame st1 w ws rep) as (al & cu & F1).
  destruct (prun2 al cu rep) as (st2 & P2 & A2 & C2 & Fo2 & P3).
  destruct (prun_alts ws st2 w Fo2 IN1 IN2) as (rep' & P4). destruct (alts_frame st2 w ws rep') as (al' & cu' & F2).
  destruct (P3 al' cu' rep') as (st3 & P5 & B3 & E3).
  exists (alt_of (mkFrame al cu None false)), (alt_of (mkFrame al' cu' None false)). split; [|split].
  - rewrite <- E3. eapply compile_intro; [apply valid_utf8_ascii, A|exact L| |exact B3].
    rewrite prun_app, prun1, prun_app, P1, F1, prun_app, P2, prun_app, P4, F2. exact P5.
  - intros u pre mid post new. pose proof (alts_empty u st1 w ws rep pre mid post new eq_refl eq_refl) as E. rewrite F1 in E. exact E.
  - intros u pre mid post new. pose proof (alts_empty u st2 w ws rep' pre mid post new A2 C2) as E. rewrite F2 in E. exact E.
Qed.

(** ** The pattern of schemes: ^s1|s2|...|sn: *)
Definition colon_item : item := mkItem 58%N false.
Lemma scheme_compile ss : Forall scheme_ok ss -> ss <> [] ->
  exists r, compile (MakeReScheme (join (map written ss))) = Some r /\
    (forall s, ss = [s] -> forall u pre mid post new, mlist u r pre mid post new <-> new = [] /\ pre = [] /\ imatch (map item_of s ++ [colon_item]) (map fst mid)) /\
    (forall s middle s', ss = s :: middle ++ [s'] -> forall u pre mid post new, mlist u r pre mid post new <->
       new = [] /\ ((pre = [] /\ imatch (map item_of s) (map fst mid)) \/ (exists x, In x middle /\ imatch (map item_of x) (map fst mid)) \/
                    imatch (map item_of s' ++ [colon_item]) (map fst mid))).
Proof.
  intros H NE. unfold MakeReScheme. set (j := join (map written ss)). pose proof (join_ascii _ H) as AJ. fold j in AJ.
  assert (A : Forall (fun c => (N_of_ascii c < 128)%N) (b "^" ++ j ++ b ":")).
  { rewrite !Forall_app. split; [repeat constructor|]. split; [exact AJ|repeat constructor]. }
  pose proof (items_ne _ H) as IN. destruct ss as [|s ss]; [congruence|]. cbn [map] in IN. apply Forall_inv in IN as IN1. apply Forall_inv_tail in IN as IN2.
  set (w := map item_of s) in *. set (ws := map (map item_of) ss) in *.
  assert (L : lexes (runes_of (b "^" ++ j ++ b ":")) ([TBegin] ++ tok_alts (w :: ws) ++ [TCls (single 58%N)])).
  { rewrite runes_ascii by exact A. rewrite !bytesN_app. unfold j. rewrite bytesN_join. cbn [map]. fold w ws.
    change (bytesN (b "^")) with [94%N]. change (bytesN (b ":")) with [58%N]. cbn [app]. eapply lexes_cons; [reflexivity|].
    apply lexes_alts; [discriminate|]. eapply lexes_cons; [reflexivity|constructor]. }
  set (st := add pstart RBegin).
  destruct (prun_alts ws st w eq_refl IN1 IN2) as (rep & P1).
  eexists. split.
  - eapply compile_intro; [apply valid_utf8_ascii, A|exact L| |].
    + rewrite prun_app. cbn [prun pstep]. fold st. rewrite prun_app, P1. cbn [prun pstep].
      assert (F : folding (alts_state st w ws rep) = false) by (unfold alts_state; destruct (rev ws); reflexivity). rewrite F. reflexivity.
    + unfold alts_state. destruct (rev ws); reflexivity.
  - assert (RW : forall x (y : list re), RCls (single 58%N) :: rev (map re_item x) ++ y = rev (rev y ++ map re_item (x ++ [colon_item]))).
    { intros x y. rewrite rev_app_distr, rev_involutive, map_app, rev_app_distr. reflexivity. }
    split.
    + intros s0 E u pre mid post new. injection E as <- E. subst ss. unfold alts_state, ws. cbn [map rev]. unfold add, push, alt_of.
      cbn [top falts fcur st pstart fold_left add]. rewrite RW, mlist_seq, mseq_app. cbn [rev app mseq]. split.
      * intros (l1 & l2 & n1 & n2 & -> & -> & (l3 & l4 & n3 & n4 & -> & -> & (-> & -> & ->) & (-> & ->)) & M). apply mseq_word in M.
        destruct M as [M ->]. auto.
      * intros (-> & -> & M). exists [], mid, [], []. cbn [app]. repeat (split; [reflexivity|]). split.
        -- exists [], [], [], []. cbn [app mlist]. auto 10.
        -- apply mseq_word. auto.
    + intros s0 middle s' E u pre mid post new. injection E as <- E. unfold alts_state, ws. rewrite E, map_app, rev_app_distr. cbn [map rev app].
      unfold add, alt_of. cbn [top falts fcur st pstart add]. rewrite mlist_alts.
      pose proof (RW (map item_of s') []) as R2. rewrite app_nil_r in R2. cbn [rev app] in R2. rewrite R2, mlist_seq, mseq_word.
      assert (M1 : mlist u (seq_of (rev (map re_item w) ++ [RBegin])) pre mid post new <-> new = [] /\ pre = [] /\ imatch w (map fst mid)).
      { change (rev (map re_item w) ++ [RBegin]) with (rev (RBegin :: map re_item w)). rewrite mlist_seq. cbn [mseq mlist]. split.
        - intros (l1 & l2 & n1 & n2 & -> & -> & (-> & -> & ->) & M). apply mseq_word in M. destruct M as [M ->]. auto.
        - intros (-> & -> & M). exists [], mid, [], []. repeat (split; [reflexivity|]). split; [auto|]. apply mseq_word. auto. }
      split.
      * intros [[M ->]|(y & I & M)]; [auto|]. apply in_app_or in I. destruct I as [I|[<-|[]]].
        -- apply in_map_iff in I. destruct I as (x & <- & I). apply in_rev in I. apply in_map_iff in I. destruct I as (z & <- & I).
           apply mlist_word in M. destruct M as [M ->]. split; [reflexivity|]. right. left. eauto.
        -- apply M1 in M. destruct M as (-> & M). auto.
      * intros (-> & [[-> M]|[(x & I & M)|M]]).
        -- right. eexists. split; [apply in_or_app; right; left; reflexivity|]. apply M1. auto.
        -- right. exists (word_re (map item_of x)). split; [|apply mlist_word; auto]. apply in_or_app. left. apply in_map, in_rev. rewrite rev_involutive. apply in_map. exact I.
        -- left. auto.
Qed.
