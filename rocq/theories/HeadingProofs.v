(** Lemmas about headings. *)
From Coq Require Import ZifyBool ZifyNat ZifyN.
From Verif Require Import GoBase GoSlice Utf8 Utf8Proofs Utf8Dec Regex RegexParse RegexSpec RegexProofs Pieces Patterns LinkTypes Extract ExtractSpec ExtractTree.

Local Arguments CRange (lo hi)%N_scope.
Lemma patterns_compile : compile reHeadingStr = Some reHeading /\ compile reSetPrefixStr = Some reSetPrefix /\ compile UrlPatternFull = Some reUrl.
Proof. repeat split; vm_compute; reflexivity. Qed.

Lemma inr_eq x y : inr x x y = true <-> y = x.
Proof. rewrite inr_true. lia. Qed.

Definition blank_rune (r : rune) : Prop := In r [9; 10; 12; 13; 32]%N.
Lemma cls_blank u r : cls_match u (mkCls false [CRange 9 10; CRange 12 13; CRange 32 32]) r = true <-> blank_rune r.
Proof.
  unfold cls_match, blank_rune. cbn [cneg citems existsb item_match]. rewrite xorb_false_l, !orb_true_iff, !inr_true. cbn [In]. intuition lia.
Qed.
Lemma cls_not_blank u r : cls_match u (mkCls true [CRange 9 10; CRange 12 13; CRange 32 32]) r = true <-> ~ blank_rune r.
Proof.
  rewrite <- (cls_blank u). unfold cls_match. cbn [cneg citems]. rewrite !xorb_true_l, xorb_false_l.
  destruct (existsb _ _); cbn; split; congruence.
Qed.

Lemma texts_ascii (P : rune -> Prop) l : Forall piece_ok l -> Forall (fun x => P (fst x)) l -> (forall r, P r -> (r < 128)%N) ->
  Forall (fun c => P (N_of_ascii c)) (text_of l) /\ length (text_of l) = length l.
Proof.
  intros H A B. induction A as [|[r s] l A A' IH]; [split; [constructor|reflexivity]|]. inversion H as [|? ? H1 H2]. subst.
  apply piece_ascii in H1; [|apply B, A]. injection H1 as ->. specialize (IH H2). destruct IH as [IH1 IH2].
  change (text_of ((r, [ascii_of_N r]) :: l)) with (ascii_of_N r :: text_of l). cbn [fst snd length]. split; [|rewrite IH2; reflexivity]. constructor; [|exact IH1]. cbn [fst] in *. rewrite N_ascii_embedding; [exact A|]. apply B in A. lia.
Qed.
Lemma first_byte p l : piece_ok p -> exists c x, text_of (p :: l) = c :: x /\ (blank c <-> blank_rune (fst p)) /\ (N_of_ascii c = 10%N <-> fst p = 10%N).
Proof.
  intros [[A B]|(A & B & C)]; cbn [text_of map concat]; unfold text_of; cbn [map concat].
  - rewrite B. eexists _, _. split; [reflexivity|]. unfold blank, blank_rune. rewrite N_ascii_embedding by lia. tauto.
  - destruct (snd p) as [|c s] eqn:E; [congruence|]. eexists _, _. split; [reflexivity|]. inversion C. subst. unfold blank, blank_rune. cbn [In]. split; split; lia.
Qed.
Lemma last_byte l p : piece_ok p -> exists x c, text_of (l ++ [p]) = x ++ [c] /\ (blank c <-> blank_rune (fst p)).
Proof.
  intros H. rewrite text_app. unfold text_of at 2. cbn [map concat]. rewrite app_nil_r. destruct H as [[A B]|(A & B & C)].
  - rewrite B. eexists _, _. split; [reflexivity|]. unfold blank, blank_rune. rewrite N_ascii_embedding by lia. tauto.
  - destruct (exists_last B) as (x & c & E). rewrite E in *. exists (text_of l ++ x), c. rewrite app_assoc. split; [reflexivity|].
    apply Forall_app in C. destruct C as [_ C]. inversion C. subst. unfold blank, blank_rune. cbn [In]. split; lia.
Qed.
Lemma in_text c l : In c (text_of l) <-> exists p, In p l /\ In c (snd p).
Proof.
  unfold text_of. rewrite in_concat. split.
  - intros (x & H & I). apply in_map_iff in H. destruct H as (p & <- & H). eauto.
  - intros (p & H & I). exists (snd p). split; [apply in_map|]; auto.
Qed.
Lemma ascii_in_text c l : Forall piece_ok l -> (N_of_ascii c < 128)%N -> In c (text_of l) <-> exists p, In p l /\ fst p = N_of_ascii c.
Proof.
  intros H A. rewrite in_text. split; intros (p & I & J); exists p; (split; [exact I|]); rewrite Forall_forall in H; destruct (H _ I) as [[B C]|(B & C & D)].
  - rewrite C in J. destruct J as [<-|[]]. rewrite N_ascii_embedding; lia.
  - rewrite Forall_forall in D. specialize (D _ J). lia.
  - rewrite C, J. rewrite ascii_N_embedding. left. reflexivity.
  - lia.
Qed.

Lemma plus_cls u c pre l post new : mlist u (RSeq (RCls c) (RStar true (RCls c))) pre l post new <->
  l <> [] /\ Forall (fun x => cls_match u c (fst x) = true) l /\ new = [].
Proof.
  cbn [mlist]. split.
  - intros (l1 & l2 & n1 & n2 & -> & -> & (x & bs & -> & M & ->) & I). apply iterl_cls in I. destruct I as [I ->].
    split; [discriminate|]. split; [|reflexivity]. constructor; assumption.
  - intros (A & B & ->). destruct l as [|[x bs] l]; [congruence|]. inversion B. subst.
    exists [(x, bs)], l, [], []. split; [reflexivity|]. split; [reflexivity|]. split; [exists x, bs; auto|]. apply iterl_cls. auto.
Qed.

Definition titleRe : re :=
  RSeq (RCls (mkCls true [CRange 9 10; CRange 12 13; CRange 32 32]))
    (RAlt (RSeq (RStar true (RCls (mkCls true [CRange 10 10]))) (RCls (mkCls true [CRange 9 10; CRange 12 13; CRange 32 32]))) REmpty).
Lemma not_newline u r : cls_match u (mkCls true [CRange 10 10]) r = true <-> r <> 10%N.
Proof. unfold cls_match. cbn. rewrite orb_false_r. pose proof (inr_eq 10 r). destruct (inr 10 10 r); cbn; intuition congruence. Qed.
Lemma blank_newline : blank_rune 10%N. Proof. cbn. auto. Qed.
Lemma title_sound u pre l post new : Forall piece_ok l -> mlist u titleRe pre l post new -> title_ok (text_of l) /\ l <> [] /\ new = [].
Proof.
  intros H M. unfold titleRe in M. cbn [mlist] in M. destruct M as (l1 & l2 & n1 & n2 & -> & -> & (x & bs & -> & M & ->) & M2).
  apply cls_not_blank in M. cbn [app] in *. split; [|split; [discriminate|]].
  2:{ destruct M2 as [(l3 & l4 & n3 & n4 & -> & -> & I & (y & bs' & -> & M3 & ->))|[-> ->]]; [|reflexivity].
      apply iterl_cls in I. destruct I as [_ ->]. reflexivity. }
  right. split; [|split].
  - intros I. apply ascii_in_text in I; [|exact H|cbn; lia]. destruct I as (p & I & J). change (N_of_ascii (ascii_of_nat 10)) with 10%N in J.
    destruct I as [<-|I]. { cbn in J. subst x. apply M, blank_newline. }
    destruct M2 as [(l3 & l4 & n3 & n4 & -> & -> & I' & (y & bs' & -> & M3 & ->))|[-> ->]]; [|destruct I].
    apply iterl_cls in I'. destruct I' as [F _]. apply in_app_or in I. destruct I as [I|[<-|[]]].
    + rewrite Forall_forall in F. apply F in I. apply not_newline in I. contradiction.
    + apply cls_not_blank in M3. cbn in J. subst y. apply M3, blank_newline.
  - inversion H as [|? ? H1 H2]. subst. destruct (first_byte _ l2 H1) as (c & z & E & B & _). cbn [fst] in *. exists c, z. split; [exact E|tauto].
  - assert (L : exists l' p, @cons piece (x, bs) l2 = l' ++ [p] /\ ~ blank_rune (fst p)).
    { destruct M2 as [(l3 & l4 & n3 & n4 & -> & -> & I & (y & bs' & -> & M3 & ->))|[-> ->]].
      - exists ((x, bs) :: l3), (y, bs'). split; [reflexivity|]. apply cls_not_blank in M3. exact M3.
      - exists [], (x, bs). auto. }
    destruct L as (l' & p & E & Np). rewrite E in H |- *. apply Forall_app in H. destruct H as [_ H]. inversion H as [|? ? H1 _]. subst.
    destruct (last_byte l' p H1) as (z & c & Ez & B). rewrite Ez. exists z, c. split; [reflexivity|tauto].
Qed.
Lemma title_complete u pre t post : t <> [] -> title_ok t -> mlist u titleRe pre (pieces t) post [].
Proof.
  intros NE [->|(A & (c & x & E & B) & (x' & c' & E' & B'))]; [congruence|].
  pose proof (pieces_shape t) as H. pose proof (text_pieces t) as T.
  assert (EX : exists w : list piece, pieces t = w) by eauto. destruct EX as [w P]. rewrite P in H, T |- *. destruct w as [|p l]. { cbn in T. congruence. }
  pose proof (Forall_inv H) as H1. pose proof (Forall_inv_tail H) as H2.
  assert (Bp : ~ blank_rune (fst p)).
  { destruct (first_byte p l H1) as (d & z & E1 & B1 & _). rewrite T, E in E1. injection E1 as <- _. tauto. }
  unfold titleRe. cbn [mlist]. exists [p], l, [], []. split; [reflexivity|]. split; [reflexivity|].
  split. { destruct p as [r s]. exists r, s. split; [reflexivity|]. split; [|reflexivity]. apply cls_not_blank. exact Bp. }
  destruct l as [|p2 l']; [right; auto|]. left.
  destruct (@exists_last piece (p2 :: l') ltac:(discriminate)) as (l3 & q & El). rewrite El in H, H2, T |- *.
  exists l3, [q], [], []. split; [reflexivity|]. split; [reflexivity|].
  assert (Hq : piece_ok q). { apply Forall_app in H2. destruct H2 as [_ H2]. inversion H2. assumption. }
  split.
  - apply iterl_cls. split; [|reflexivity]. apply Forall_forall. intros z I. apply not_newline. intros J. apply A.
    rewrite <- T. apply ascii_in_text; [exact H|cbn; lia|]. exists z. split; [right; apply in_or_app; auto|exact J].
  - destruct q as [r s]. exists r, s. split; [reflexivity|]. split; [|reflexivity]. apply cls_not_blank. intros J. apply B'.
    destruct (last_byte (p :: l3) (r, s) Hq) as (z & d & Ez & Bz). rewrite <- app_comm_cons, T, E' in Ez. apply app_inj_tail in Ez. destruct Ez as [_ ->].
    apply Bz. exact J.
Qed.

Lemma star_rune u r : cls_match u (mkCls false [CRange 42 42]) r = true <-> r = 42%N.
Proof. unfold cls_match. cbn [cneg citems existsb item_match]. rewrite xorb_false_l, orb_false_r. apply inr_eq. Qed.
Lemma reHeading_eq : reHeading =
  RSeq RBegin (RSeq (RGroup 1 (RSeq (RCls (mkCls false [CRange 42 42])) (RStar true (RCls (mkCls false [CRange 42 42])))))
   (RSeq (RSeq (RCls (mkCls false [CRange 9 10; CRange 12 13; CRange 32 32])) (RStar true (RCls (mkCls false [CRange 9 10; CRange 12 13; CRange 32 32]))))
    (RSeq (RAlt (RGroup 2 titleRe) REmpty) REnd))).
Proof. reflexivity. Qed.

Lemma heading_unique line n t n' t' : heading_line line n t -> heading_line line n' t' -> n = n' /\ t = t'.
Proof.
  intros (_ & bl & NE & F & T & ->) (_ & bl' & NE' & F' & T' & E).
  assert (ST : ~ blank "*"%char) by (cbn; intros; intuition discriminate).
  assert (n = n').
  { revert n' E. induction n as [|n IH]; intros [|n'] E; cbn [repeat app] in E; [reflexivity| | |].
    - destruct bl; [congruence|]. injection E as -> _. inversion F. contradiction.
    - destruct bl'; [congruence|]. injection E as <- _. inversion F'. contradiction.
    - injection E as E. f_equal. auto. }
  subst n'. apply app_inv_head in E. split; [reflexivity|]. clear NE NE'.
  revert bl' F' E. induction F as [|c bl Hc F IH]; intros bl' F' E.
  - destruct F' as [|c bl' Hc' F']; [exact E|]. exfalso. cbn in E. subst t. destruct T as [T|(_ & (d & z & T & Nd) & _)]; [discriminate|].
    injection T as <- _. contradiction.
  - destruct F' as [|c' bl' Hc' F'].
    + exfalso. cbn in E. subst t'. destruct T' as [T'|(_ & (d & z & T' & Nd) & _)]; [discriminate|]. injection T' as <- _. contradiction.
    + injection E as -> E. eapply IH; eassumption.
Qed.

Lemma repeat_text l : Forall piece_ok l -> Forall (fun x => fst x = 42%N) l -> text_of l = repeat "*"%char (length l).
Proof.
  intros H A. induction A as [|[r s] l A A' IH]; [reflexivity|]. inversion H as [|? ? H1 H2]. subst. cbn [fst] in A. subst r.
  apply piece_ascii in H1; [|cbn; lia]. injection H1 as ->. unfold text_of in *. cbn. rewrite IH by exact H2. reflexivity.
Qed.

Theorem heading_of_iff k line n h : heading_of k line = Some (n, h) <-> exists t, h = mkHeading k t /\ heading_line line n t.
Proof.
  assert (SOUND : forall m, Find (fun _ => false) reHeading line = Some m -> heading_line line (length (group m 1)) (group m 2)).
  { intros m F. apply Find_some in F. destruct F as (pre & mid & post & new & E & M & ->). pose proof (pieces_shape line) as SH.
    pose proof (text_pieces line) as TL. rewrite E in SH, TL.
    rewrite reHeading_eq in M. change (mlist ?u (RSeq ?x ?y)) with (fun pre l post new => exists l1 l2 n1 n2, l = l1 ++ l2 /\ new = n2 ++ n1 /\
      mlist u x pre l1 (l2 ++ post) n1 /\ mlist u y (pre ++ l1) l2 post n2) in M. 
    cbv beta in M. destruct M as (l0 & l1 & n0 & n1 & -> & -> & (-> & -> & ->) & M).
    change (mlist ?u (RSeq ?x ?y) ?pre ?l ?post ?new) with (exists l1 l2 n1 n2, l = l1 ++ l2 /\ new = n2 ++ n1 /\
      mlist u x pre l1 (l2 ++ post) n1 /\ mlist u y (pre ++ l1) l2 post n2) in M.
    destruct M as (ls & l2 & n2 & n3 & -> & -> & M1 & M).
    destruct M1 as (n4 & M1 & ->). rewrite plus_cls in M1. destruct M1 as (NEs & Fs & ->).
    destruct M as (lb & l3 & n5 & n6 & -> & -> & M2 & M). rewrite plus_cls in M2. destruct M2 as (NEb & Fb & ->).
    destruct M as (lt & l4 & n7 & n8 & -> & -> & M3 & (-> & -> & ->)). rewrite !app_nil_r in *. cbn [app] in *.
    apply Forall_app in SH. destruct SH as [SHs SH]. apply Forall_app in SH. destruct SH as [SHb SHt].
    assert (Fs' : Forall (fun x => fst x = 42%N) ls). { eapply Forall_impl; [|exact Fs]. intros a. apply star_rune. }
    assert (Fb' : Forall (fun x => blank_rune (fst x)) lb). { eapply Forall_impl; [|exact Fb]. intros a. apply cls_blank. }
    assert (G1 : group (mkMatch (text_of (ls ++ lb ++ lt)) (n7 ++ [(1, text_of ls)])) 1 = text_of ls /\
                 group (mkMatch (text_of (ls ++ lb ++ lt)) (n7 ++ [(1, text_of ls)])) 2 = text_of lt /\ title_ok (text_of lt)).
    { destruct M3 as [(n9 & M3 & ->)|[-> ->]].
      - apply title_sound in M3; [|exact SHt]. destruct M3 as (T & _ & ->). cbn. auto.
      - cbn. repeat split. left. reflexivity. }
    destruct G1 as (-> & -> & T). rewrite (repeat_text _ SHs Fs'), repeat_length.
    split. { destruct ls; [congruence|cbn; lia]. }
    destruct (texts_ascii blank_rune lb SHb Fb') as [FB LB]. { unfold blank_rune. cbn. intros; lia. }
    exists (text_of lb). split. { intros Z. rewrite Z in LB. destruct lb; [congruence|discriminate]. }
    split; [exact FB|]. split; [exact T|]. rewrite <- TL, !text_app, (repeat_text _ SHs Fs'). reflexivity. }
  unfold heading_of. split.
  - destruct (Find _ _ _) as [m|] eqn:F; [|discriminate]. intros E. injection E as <- <-. eexists. split; [reflexivity|]. apply SOUND, eq_refl.
  - intros (t & -> & H). pose proof H as (N1 & bl & NEb & Fb & T & E).
    assert (EX : exists m, Find (fun _ => false) reHeading line = Some m).
    { assert (A1 : Forall (fun c => (N_of_ascii c < 128)%N) (repeat "*"%char n)). { apply Forall_forall. intros c I. apply repeat_spec in I. subst. cbn. lia. }
      assert (A2 : Forall (fun c => (N_of_ascii c < 128)%N) bl). { eapply Forall_impl; [|exact Fb]. unfold blank. cbn. intros; lia. }
      set (f := fun c => (N_of_ascii c, [c])).
      assert (EP : pieces line = [] ++ (map f (repeat "*"%char n) ++ map f bl ++ pieces t) ++ []).
      { rewrite E, pieces_ascii_app, pieces_ascii_app by assumption. rewrite app_nil_r. reflexivity. }
      eapply (Find_exists _ _ _ [] _ []); [reflexivity|exact EP|].
      rewrite reHeading_eq. exists [], (map f (repeat "*"%char n) ++ map f bl ++ pieces t). do 2 eexists. split; [reflexivity|]. split; [reflexivity|].
      split; [cbn; auto|]. exists (map f (repeat "*"%char n)), (map f bl ++ pieces t). do 2 eexists. split; [reflexivity|]. split; [reflexivity|].
      split. { eexists. split; [|reflexivity]. rewrite plus_cls. split. { destruct n; [lia|discriminate]. } split; [|reflexivity].
        apply Forall_map. apply Forall_forall. intros c I. apply repeat_spec in I. subst. reflexivity. }
      exists (map f bl), (pieces t). do 2 eexists. split; [reflexivity|]. split; [reflexivity|].
      split. { rewrite plus_cls. split. { destruct bl; [congruence|discriminate]. } split; [|reflexivity].
        apply Forall_map. eapply Forall_impl; [|exact Fb]. intros c Hc. apply cls_blank. exact Hc. }
      exists (pieces t), []. do 2 eexists. split; [symmetry; apply app_nil_r|]. split; [reflexivity|]. split; [|cbn; auto].
      instantiate (1 := match t with [] => [] | _ => [(2, text_of (pieces t))] end).
      destruct t as [|c t]; [right; cbn; auto|]. left. exists []. split; [|reflexivity]. apply title_complete; [discriminate|exact T]. }
    destruct EX as (m & F). rewrite F. pose proof (SOUND _ F) as H'. destruct (heading_unique _ _ _ _ _ H H') as [-> ->]. reflexivity.
Qed.
Lemma heading_level k line n h : heading_of k line = Some (n, h) -> 1 <= n.
Proof. intros E. apply heading_of_iff in E. destruct E as (t & _ & H). apply H. Qed.
