(** Scanning of lines *)
From Coq Require Import ZifyBool ZifyNat ZifyN.
From Verif Require Import GoBase Utf8 Utf8Dec Fuzzy Scanner ScannerSpec.
Local Open Scope N_scope.

Lemma cut_some s l t : cut s = Some (l, t) -> s = l ++ newline :: t /\ ~ In newline l.
Proof.
  revert l t. induction s as [|c s IH]; intros l t; cbn [cut]; [discriminate|].
  destruct (Ascii.eqb_spec c newline) as [->|N].
  - intros E. injection E as <- <-. auto.
  - destruct (cut s) as [[l' t']|]; cbn; [|discriminate]. intros E. injection E as <- <-. destruct (IH _ _ eq_refl) as [-> H].
    split; [reflexivity|]. intros [F|F]; [exact (N F)|tauto].
Qed.
Lemma cut_none s : cut s = None -> ~ In newline s.
Proof.
  induction s as [|c s IH]; cbn [cut]; [intros _ []|]. destruct (Ascii.eqb_spec c newline) as [->|N]; [discriminate|].
  destruct (cut s); [discriminate|]. intros _ [F|F]; [exact (N F)|]. exact (IH eq_refl F).
Qed.

Lemma app_newline_inv l t l' t' : ~ In newline l -> ~ In newline l' -> l ++ newline :: t = l' ++ newline :: t' -> l = l' /\ t = t'.
Proof.
  revert l'. induction l as [|c l IH]; intros [|c' l'] A B E; cbn [app In] in *.
  - injection E as ->. auto.
  - injection E as E1 E. exfalso. apply B. left. symmetry. exact E1.
  - injection E as E1 E. exfalso. apply A. left. exact E1.
  - injection E as -> E. destruct (IH l' ltac:(tauto) ltac:(tauto) E) as [-> ->]. auto.
Qed.
Lemma lines_newline l t ls : ~ In newline l -> lines_of (l ++ newline :: t) ls -> exists ls', ls = l :: ls' /\ lines_of t ls'.
Proof.
  intros N H. inversion H as [E|? E1 E2 E3|l' t' ls' A B E].
  - destruct l; discriminate.
  - exfalso. subst. apply E2, in_or_app. right. left. reflexivity.
  - subst. symmetry in E. apply app_newline_inv in E; [|assumption|assumption]. destruct E as [-> ->]. eauto.
Qed.
Lemma lines_single w ls : ~ In newline w -> w <> [] -> lines_of w ls -> ls = [w].
Proof.
  intros N Z H. inversion H as [E|? E1 E2 E3|l' t' ls' A B E].
  - congruence.
  - reflexivity.
  - exfalso. subst. apply N, in_or_app. right. left. reflexivity.
Qed.
Lemma lines_prefix w r ls : ~ In newline w -> w <> [] -> lines_of (w ++ r) ls -> exists x ls', ls = (w ++ x) :: ls'.
Proof.
  intros N Z H. inversion H as [E|? E1 E2 E3|l' t' ls' A B E].
  - destruct w; [congruence|discriminate].
  - subst. eauto.
  - clear H. subst ls. clear B Z. revert l' A E. induction w as [|c w IH]; intros l' A E; [exists l', ls'; reflexivity|].
    destruct l' as [|c' l']; cbn [app] in E; injection E as E1 E.
    + exfalso. apply N. left. congruence.
    + subst c'. destruct (IH) with (l' := l') as (x & ls'' & F); [intros F; apply N; right; exact F|intros F; apply A; right; exact F|exact E|].
      injection F as -> <-. exists x, ls'. reflexivity.
Qed.
Lemma lines_exists s : exists ls, lines_of s ls.
Proof.
  remember (length s) as n eqn:E. revert s E. induction n as [n IH] using lt_wf_ind. intros s ->.
  destruct (cut s) as [[l t]|] eqn:C.
  - apply cut_some in C. destruct C as [-> C]. destruct (IH (length t)) with (s := t) as (ls & H); [|reflexivity|].
    { rewrite app_length. cbn. lia. }
    exists (l :: ls). constructor; assumption.
  - apply cut_none in C. destruct s as [|a s]; [exists []; constructor|]. exists [a :: s]. constructor; [discriminate|exact C].
Qed.
Lemma lines_unique s ls ls' : lines_of s ls -> lines_of s ls' -> ls = ls'.
Proof.
  intros H. revert ls'. induction H as [|l A B|l t ls A B IH]; intros ls' H'.
  - inversion H' as [| |? ? ? ? ? E]; [reflexivity|congruence|destruct l; discriminate].
  - symmetry. apply lines_single; assumption.
  - apply lines_newline in H'; [|assumption]. destruct H' as (ls'' & -> & H'). f_equal. auto.
Qed.

Lemma dropCR_ok l : without_cr l (dropCR l).
Proof.
  unfold dropCR. destruct (has_suffix l _) eqn:E.
  - apply has_suffix_iff in E. destruct E as [t ->]. rewrite app_length. cbn [length].
    replace (length t + 1 - 1)%nat with (length t) by lia. rewrite firstn_app, Nat.sub_diag, firstn_all, firstn_O, app_nil_r. constructor.
  - constructor. intros m ->. assert (has_suffix (m ++ [ascii_of_nat 13]) [ascii_of_nat 13] = true); [|congruence].
    apply has_suffix_iff. eauto.
Qed.
Lemma without_cr_unique l x y : without_cr l x -> without_cr l y -> x = y.
Proof.
  intros A B. inversion A as [m E|m N]; inversion B as [m' E'|m' N']; subst; try congruence.
  - apply app_inj_tail in E'. symmetry. apply E'.
Qed.

Definition sinv (s : scanner) : Prop :=
  start s + len (win s) <= bufLen s /\ bufLen s <= 65536 /\
  (serror s <> None -> left_ s = [] /\ len (win s) < 65536).
Definition smeasure (s : scanner) : nat := 2 * length (left_ s) + length (win s) + match serror s with None => 1 | _ => 0 end.

Definition final (broken : bool) : option serr := if broken then Some SRead else None.
(** Result for given lines *)
Fixpoint expected (broken : bool) (ls : list str) : list str * option serr :=
  match ls with
  | [] => ([], final broken)
  | l :: ls' =>
      if len l <? 65536 then let '(x, e) := expected broken ls' in (dropCR l :: x, e) else ([], Some STooLong)
  end.

Lemma len_app x y : len (x ++ y) = len x + len y.
Proof. unfold len. rewrite app_length. lia. Qed.

Lemma scan_ok (broken : bool) chunk fuel : forall s ls,
  sinv s -> (match serror s with Some e => e = (if broken : bool then SRead else SEof) | None => True end) ->
  lines_of (win s ++ left_ s) ls -> (smeasure s < fuel)%nat ->
  scan_loop fuel broken chunk s = Some (expected broken ls).
Proof.
  induction fuel as [|fuel IH]; intros s ls (I1 & I2 & I3) Ie H F; [lia|].
  cbn [scan_loop]. unfold scan_step.
  assert (EOFT : forall e, serror s = Some e -> left_ s = [] /\ len (win s) < 65536).
  { intros e Es. apply I3. rewrite Es. discriminate. }
  destruct (cut (win s)) as [[l t]|] eqn:C.
  - (* a complete line *)
    apply cut_some in C as C'. destruct C' as [Ew Nl].
    assert (Lw : 0 <? len (win s) = true) by (rewrite Ew, len_app; unfold len; cbn [length]; lia).
    rewrite Lw. cbn [orb].
    assert (SL : ScanLines (win s) (match serror s with Some _ => true | None => false end) = Some (dropCR l, t)).
    { unfold ScanLines. rewrite C. destruct (win s); [destruct l; discriminate|reflexivity]. }
    rewrite SL. rewrite Ew, <- app_assoc in H. cbn [app] in H. apply lines_newline in H; [|exact Nl]. destruct H as (ls' & -> & H).
    assert (Ll : len l <? 65536 = true). { rewrite Ew, len_app in I1. unfold len in *. cbn [length] in I1. lia. }
    assert (Lt : len (win s) = len l + 1 + len t). { rewrite Ew, len_app. unfold len. cbn [length]. lia. }
    rewrite IH with (ls := ls').
    + cbn [expected option_map]. rewrite Ll. destruct (expected broken ls'); reflexivity.
    + split; [|split]; cbn [win start bufLen serror left_]; try lia. intros Z. destruct (I3 Z). split; [assumption|lia].
    + exact Ie.
    + exact H.
    + unfold smeasure in *. cbn [win start bufLen serror left_]. unfold len in Lt. lia.
  - apply cut_none in C as Nl. destruct (serror s) as [e|] eqn:Es.
    + (* end of the file *)
      destruct (EOFT e eq_refl) as [El Lw]. rewrite El, app_nil_r in H. rewrite orb_true_r.
      destruct (win s) as [|c w] eqn:Ew.
      * cbn [ScanLines]. inversion H as [E|? E1|? ? ? ? ? E]; [|congruence|destruct l; discriminate]. rewrite Es, Ie.
        unfold expected, final. destruct broken; reflexivity.
      * unfold ScanLines. rewrite C. apply lines_single in H; [|exact Nl|discriminate]. subst ls.
        rewrite IH with (ls := []).
        -- cbn [expected option_map fst snd]. replace (len (c :: w) <? 65536) with true by lia. reflexivity.
        -- unfold sinv. cbn [win start bufLen serror left_]. change (len []) with 0. split; [lia|]. split; [lia|].
           intros _. split; [exact El|lia].
        -- cbn [serror]. exact Ie.
        -- cbn [win left_]. rewrite El. constructor.
        -- unfold smeasure in *. cbn [win start bufLen serror left_]. rewrite Ew, Es in F. cbn [length] in *. lia.
    + (* more data are necessary *)
      rewrite orb_false_r.
      replace (if 0 <? len (win s) then ScanLines (win s) false else None) with (@None (str * str)).
      2:{ destruct (win s); [reflexivity|]. cbn [ScanLines]. rewrite C. destruct (0 <? _); reflexivity. }
      set (start1 := if (0 <? start s) && ((start s + len (win s) =? bufLen s) || (bufLen s / 2 <? start s)) then 0 else start s).
      assert (S1 : start1 = 0 \/ start1 = start s) by (unfold start1; destruct (_ && _); auto).
      assert (S2 : start1 + len (win s) = bufLen s -> start1 = 0).
      { unfold start1. destruct (N.ltb_spec 0 (start s)); cbn [andb]; [|lia].
        destruct (N.eqb_spec (start s + len (win s)) (bufLen s)); cbn [orb]; [lia|]. destruct (_ <? _); lia. }
      destruct (N.eqb_spec (start1 + len (win s)) (bufLen s)) as [Fu|Fu].
      * cbn [andb]. destruct (N.leb_spec maxTokenSize (bufLen s)) as [M|M].
        -- (* too long *)
           unfold maxTokenSize in M.
           assert (Lw : len (win s) = 65536) by (specialize (S2 Fu); lia).
           apply lines_prefix in H; [|exact Nl|intros Z; rewrite Z in Lw; cbn in Lw; lia].
           destruct H as (x & ls' & ->). cbn [expected serror]. rewrite len_app.
           replace (len (win s) + len x <? 65536) with false by lia. reflexivity.
        -- unfold maxTokenSize, startBufSize in *. specialize (S2 Fu).
           set (size2 := if 65536 <? (if bufLen s =? 0 then 4096 else bufLen s * 2) then 65536 else if bufLen s =? 0 then 4096 else bufLen s * 2).
           assert (Z2 : len (win s) < size2 <= 65536).
           { unfold size2. destruct (N.eqb_spec (bufLen s) 0). { cbn. lia. } destruct (N.ltb_spec 65536 (bufLen s * 2)); lia. }
           clearbody size2. destruct (left_ s) as [|c r] eqn:El.
           ++ apply IH.
              ** unfold sinv. cbn [win start bufLen serror left_]. repeat split; lia.
              ** cbn [serror]. reflexivity.
              ** cbn [win left_]. exact H.
              ** unfold smeasure in *. cbn [win start bufLen serror left_]. rewrite El, Es in F. lia.
           ++ rewrite <- El in *.
              set (n := N.to_nat _).
              assert (B : (1 <= n)%nat /\ N.of_nat n <= size2 - len (win s) /\ (n <= length (left_ s))%nat).
              { subst n. assert (0 < len (left_ s)) by (rewrite El; unfold len; cbn [length]; lia). unfold len in *. lia. }
              clearbody n. destruct B as (B1 & B2 & B3).
              assert (Lf : length (firstn n (left_ s)) = n) by (apply firstn_length_le; lia).
              apply IH.
              ** unfold sinv. cbn [win start bufLen serror left_]. rewrite len_app. split; [unfold len in *; rewrite Lf; lia|]. split; [lia|]. congruence.
              ** cbn [serror]. exact Logic.I.
              ** cbn [win left_]. rewrite <- app_assoc, firstn_skipn. exact H.
              ** unfold smeasure in *. cbn [win start bufLen serror left_]. rewrite app_length, Lf, skipn_length. rewrite Es in F. lia.
      * cbn [andb]. destruct (left_ s) as [|c r] eqn:El.
        -- apply IH.
           ++ unfold sinv. cbn [win start bufLen serror left_]. repeat split; lia.
           ++ cbn [serror]. reflexivity.
           ++ cbn [win left_]. exact H.
           ++ unfold smeasure in *. cbn [win start bufLen serror left_]. rewrite El, Es in F. lia.
        -- rewrite <- El in *.
           set (n := N.to_nat _).
           assert (B : (1 <= n)%nat /\ N.of_nat n <= bufLen s - (start1 + len (win s)) /\ (n <= length (left_ s))%nat).
           { subst n. assert (0 < len (left_ s)) by (rewrite El; unfold len; cbn [length]; lia). unfold len in *. lia. }
           clearbody n. destruct B as (B1 & B2 & B3).
           assert (Lf : length (firstn n (left_ s)) = n) by (apply firstn_length_le; lia).
           apply IH.
           ++ unfold sinv. cbn [win start bufLen serror left_]. rewrite len_app. split; [unfold len in *; rewrite Lf; lia|]. split; [lia|]. congruence.
           ++ cbn [serror]. exact Logic.I.
           ++ cbn [win left_]. rewrite <- app_assoc, firstn_skipn. exact H.
           ++ unfold smeasure in *. cbn [win start bufLen serror left_]. rewrite app_length, Lf, skipn_length. rewrite Es in F. lia.
Qed.

Lemma scan_lines_ok broken chunk content ls : lines_of content ls ->
  scan_lines broken chunk content = Some (expected broken ls).
Proof.
  intros H. unfold scan_lines. apply scan_ok.
  - unfold sinv. cbn [win start bufLen serror left_]. change (len []) with 0. repeat split; try lia; congruence.
  - exact Logic.I.
  - exact H.
  - unfold smeasure. cbn. lia.
Qed.

Lemma expected_short broken ls : Forall short ls -> expected broken ls = (map dropCR ls, final broken).
Proof.
  intros H. induction H as [|l ls A H IH]; [reflexivity|]. cbn [expected map]. unfold short in A. unfold len.
  replace (N.of_nat (length l) <? 65536) with true by lia. rewrite IH. reflexivity.
Qed.
Lemma expected_long broken ls l rest : Forall short ls -> ~ short l -> expected broken (ls ++ l :: rest) = (map dropCR ls, Some STooLong).
Proof.
  intros H N. induction H as [|x ls A H IH]; cbn [app expected map]; unfold short in *; unfold len in *.
  - replace (N.of_nat (length l) <? 65536) with false by lia. reflexivity.
  - replace (N.of_nat (length x) <? 65536) with true by lia. rewrite IH. reflexivity.
Qed.
