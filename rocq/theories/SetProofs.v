(** Lemmas about prefixes of links. *)
From Coq Require Import ZifyBool ZifyNat ZifyN.
From Verif Require Import GoBase Utf8 Utf8Proofs Utf8Dec Regex RegexParse RegexSpec RegexProofs Pieces Patterns RegexLex RegexWords
  ExtractSpec HeadingProofs SchemeProofs LinkProofs2 BracketProofs Extract SetSpec.

(** ** Strings around an ASCII character *)
Lemma runes_split x c y : (N_of_ascii c < 128)%N -> runes_of (x ++ c :: y) = runes_of x ++ N_of_ascii c :: runes_of y.
Proof. intros A. rewrite <- !fst_pieces, pieces_split, map_app by exact A. reflexivity. Qed.
Lemma runes_cons c y : (N_of_ascii c < 128)%N -> runes_of (c :: y) = N_of_ascii c :: runes_of y.
Proof. intros A. apply (runes_split [] c y A). Qed.
Lemma valid_app x y : valid_utf8 x -> valid_utf8 y -> valid_utf8 (x ++ y).
Proof.
  intros (r1 & H1 & ->) (r2 & H2 & ->). exists (r1 ++ r2). split; [apply Forall_app; auto|].
  unfold strN. rewrite map_app, concat_app, map_app. reflexivity.
Qed.
Lemma valid_cons c : (N_of_ascii c < 128)%N -> valid_utf8 [c].
Proof. intros A. apply valid_utf8_ascii. repeat constructor. exact A. Qed.
Lemma encode_bytes r : valid_rune r = true -> (r < 128)%N /\ encode1 r = [r] \/ Forall (fun x => 128 <= x < 256)%N (encode1 r).
Proof.
  intros V. unfold valid_rune in V. rewrite orb_true_iff, inr_true in V. unfold encode1. destruct (N.ltb_spec r 128); [auto|]. right.
  destruct (N.ltb_spec r 2048); [|destruct (N.ltb_spec r 65536)]; repeat constructor; try lia.
Qed.
Lemma skip_prefix {A} (c : A) p : forall t x y, ~ In c p -> p ++ t = x ++ c :: y -> exists z, x = p ++ z /\ t = z ++ c :: y.
Proof.
  induction p as [|a p IH]; intros t x y N E; [exists x; auto|]. destruct x as [|a' x].
  - injection E as -> _. exfalso. apply N. left. reflexivity.
  - injection E as <- E. destruct (IH t x y) as (z & -> & ->); [intros I; apply N; right; exact I|exact E|]. exists z. auto.
Qed.
Lemma valid_split x c y : (N_of_ascii c < 128)%N -> valid_utf8 (x ++ c :: y) <-> valid_utf8 x /\ valid_utf8 y.
Proof.
  intros A. split.
  2:{ intros [X Y]. apply valid_app; [exact X|]. apply (valid_app [c]); [apply valid_cons, A|exact Y]. }
  intros (rs & H & E). symmetry in E. revert x E. induction H as [|r rs Hr H IH]; intros x E; [destruct x; discriminate|].
  assert (T : valid_utf8 (strN (concat (map encode1 rs)))) by (exists rs; auto). unfold strN in *. cbn [map concat] in E. rewrite map_app in E.
  destruct (encode_bytes r Hr) as [[B R]|B].
  - rewrite R in E. cbn [map app] in E. destruct x as [|a x].
    + injection E as _ E. split; [exists []; split; [constructor|reflexivity]|]. rewrite <- E. exact T.
    + injection E as E0 E. apply IH in E. destruct E as [E1 E2]. split; [|exact E2]. apply (valid_app [a]); [|exact E1]. rewrite <- E0.
      apply valid_cons. rewrite N_ascii_embedding; lia.
  - destruct (skip_prefix c (map ascii_of_N (encode1 r)) (map ascii_of_N (concat (map encode1 rs))) x y) as (z & -> & E').
    + intros I. apply in_map_iff in I. destruct I as (v & <- & I). rewrite Forall_forall in B. apply B in I. rewrite N_ascii_embedding in A; lia.
    + exact E.
    + apply IH in E'. destruct E' as [E1 E2]. split; [|exact E2]. apply valid_app; [|exact E1].
      exists [r]. split; [auto|]. unfold strN. cbn. rewrite app_nil_r. reflexivity.
Qed.
Lemma rune_byte r s : (r < 128)%N -> In r (runes_of s) <-> In (ascii_of_N r) s.
Proof.
  intros A. split.
  - intros I. rewrite <- fst_pieces in I. apply in_map_iff in I. destruct I as ([r' t] & <- & I). eapply in_piece; eassumption.
  - intros I. apply in_split in I. destruct I as (x & y & ->). rewrite runes_split by (rewrite N_ascii_embedding; lia).
    apply in_or_app. right. left. apply N_ascii_embedding. lia.
Qed.

(** ** Quoting *)
Definition plain_item (r : rune) : item := mkItem r false.
Lemma meta_ascii r : meta r = true -> (r < 128)%N.
Proof. intros M. apply meta_cases in M. cbn in M. lia. Qed.
Lemma no_meta x : Forall (fun c => meta (N_of_ascii c) = false) x -> QuoteMeta x = x.
Proof. intros H. induction H as [|c x Hc H IH]; [reflexivity|]. unfold QuoteMeta in *. cbn [flat_map]. rewrite Hc, IH. reflexivity. Qed.
Lemma QuoteMeta_app x y : QuoteMeta (x ++ y) = QuoteMeta x ++ QuoteMeta y.
Proof. unfold QuoteMeta. apply flat_map_app. Qed.
Lemma meta_split p : Forall (fun c => meta (N_of_ascii c) = false) p \/
  exists x c y, p = x ++ c :: y /\ Forall (fun c => meta (N_of_ascii c) = false) x /\ meta (N_of_ascii c) = true.
Proof.
  induction p as [|c p IH]; [left; constructor|]. destruct (meta (N_of_ascii c)) eqn:M.
  - right. exists [], c, p. auto.
  - destruct IH as [IH|(x & c' & y & -> & H & M')]; [left; auto|]. right. exists (c :: x), c', y. auto.
Qed.
Lemma quoted_meta x c y : Forall (fun c => meta (N_of_ascii c) = false) x -> meta (N_of_ascii c) = true ->
  QuoteMeta (x ++ c :: y) = x ++ "\"%char :: c :: QuoteMeta y.
Proof. intros H M. rewrite QuoteMeta_app, no_meta by exact H. f_equal. change (c :: y) with ([c] ++ y). rewrite QuoteMeta_app. unfold QuoteMeta at 1. cbn [flat_map]. rewrite M. reflexivity. Qed.
Lemma src_plain rs : Forall (fun r => meta r = false) rs -> flat_map src_item (map plain_item rs) = rs.
Proof.
  intros H. induction H as [|r rs Hr H IH]; [reflexivity|]. cbn [map flat_map]. rewrite IH. unfold src_item, plain_item. cbn [irune iopt]. rewrite Hr. reflexivity.
Qed.
Lemma runes_no_meta x : Forall (fun c => meta (N_of_ascii c) = false) x -> Forall (fun r => meta r = false) (runes_of x).
Proof.
  intros H. apply Forall_forall. intros r I. destruct (meta r) eqn:M; [|reflexivity]. pose proof (meta_ascii _ M) as A.
  apply rune_byte in I; [|exact A]. rewrite Forall_forall in H. apply H in I. rewrite N_ascii_embedding in I by lia. congruence.
Qed.
Lemma runes_quoted p : runes_of (QuoteMeta p) = flat_map src_item (map plain_item (runes_of p)).
Proof.
  remember (length p) as n eqn:E. revert p E. induction n as [n IH] using lt_wf_ind. intros p ->.
  destruct (meta_split p) as [H|(x & c & y & -> & H & M)].
  - rewrite no_meta, src_plain by auto using runes_no_meta. reflexivity.
  - pose proof (meta_ascii _ M) as A. rewrite quoted_meta by assumption. rewrite !runes_split by (exact A || reflexivity). rewrite runes_cons by exact A.
    rewrite map_app, flat_map_app, src_plain by (apply runes_no_meta, H). f_equal. cbn [map flat_map].
    rewrite (IH (length y)); [|rewrite app_length; cbn; lia|reflexivity]. unfold src_item at 2, plain_item at 2. cbn [irune iopt]. rewrite M. reflexivity.
Qed.
Lemma valid_quoted p : valid_utf8 (QuoteMeta p) <-> valid_utf8 p.
Proof.
  remember (length p) as n eqn:E. revert p E. induction n as [n IH] using lt_wf_ind. intros p ->.
  destruct (meta_split p) as [H|(x & c & y & -> & H & M)].
  - rewrite no_meta by exact H. reflexivity.
  - pose proof (meta_ascii _ M) as A. rewrite quoted_meta by assumption. rewrite valid_split by reflexivity. pose proof (valid_split [] c (QuoteMeta y) A) as VS. cbn [app] in VS. rewrite VS.
    rewrite valid_split by exact A. rewrite (IH (length y)); [|rewrite app_length; cbn; lia|reflexivity]. 
    assert (V0 : valid_utf8 []) by (exists []; split; [constructor|reflexivity]). tauto.
Qed.

(** ** The pattern of prefixes *)
Definition latinCls : cls := mkCls false [CRange 97 122; CRange 65 90; CRange 8490 8490; CRange 383 383]%N.
Definition digitCls : cls := mkCls false [CRange 97 122; CRange 65 90; CRange 8490 8490; CRange 383 383; CRange 48 57]%N.
Definition joinCls : cls := mkCls false [CRange 45 45; CRange 43 43]%N.
Definition groupRe : re := RSeq (RCls joinCls) (RSeq (RCls digitCls) (RStar true (RCls digitCls))).
Definition colonRe : re := RSeq (lit 58%N) (RStar true (RCls (mkCls true [CRange 10 10]%N))).
Lemma reSetPrefix_eq : reSetPrefix = RSeq RBegin (RSeq (RSeq (RCls latinCls) (RSeq (RStar true (RCls digitCls)) (RStar true groupRe)))
  (RSeq (RAlt (RGroup 1 colonRe) REmpty) REnd)).
Proof. vm_compute. reflexivity. Qed.
Lemma latin_iff u r : cls_match u latinCls r = true <-> latin r.
Proof. unfold cls_match, latinCls, latin. cbn [cneg citems existsb item_match]. rewrite xorb_false_l, !orb_true_iff, !inr_true. lia. Qed.
Lemma digit_iff u r : cls_match u digitCls r = true <-> latin_digit r.
Proof. unfold cls_match, digitCls, latin_digit, latin. cbn [cneg citems existsb item_match]. rewrite xorb_false_l, !orb_true_iff, !inr_true. lia. Qed.
Lemma join_iff u r : cls_match u joinCls r = true <-> (r = 43 \/ r = 45)%N.
Proof. unfold cls_match, joinCls. cbn [cneg citems existsb item_match]. rewrite xorb_false_l, !orb_true_iff, !inr_true. lia. Qed.
Lemma no_lf_iff u r : cls_match u (mkCls true [CRange 10 10]%N) r = true <-> r <> 10%N.
Proof. unfold cls_match. cbn [cneg citems existsb item_match]. rewrite orb_false_r, xorb_true_l. destruct (inr 10 10 r) eqn:E; [apply inr_true in E|]; cbn; [split; [discriminate|lia]|].
  split; [|reflexivity]. intros _ ->. discriminate. Qed.
Lemma Forall_fst {A B} (P : A -> Prop) (l : list (A * B)) : Forall (fun x => P (fst x)) l <-> Forall P (map fst l).
Proof. rewrite Forall_map. reflexivity. Qed.
Lemma Forall_cls u c (P : rune -> Prop) (l : list piece) : (forall r, cls_match u c r = true <-> P r) ->
  Forall (fun x => cls_match u c (fst x) = true) l <-> Forall P (map fst l).
Proof. intros H. rewrite Forall_map. split; apply Forall_impl; intros a Ha; apply H; exact Ha. Qed.

Definition group_ok (g : rune * list rune) : Prop := (fst g = 43 \/ fst g = 45)%N /\ snd g <> [] /\ Forall latin_digit (snd g).
Definition group_runes (g : rune * list rune) : list rune := fst g :: snd g.
Lemma group_mlist u pre l post new : mlist u groupRe pre l post new <-> exists g, group_ok g /\ map fst l = group_runes g /\ new = [].
Proof.
  unfold groupRe. split.
  - intros M. seq M l1 l2 n1 n2 M1. apply plus_cls in M. destruct M as (NE & F & ->). destruct M1 as (r & bs & -> & C & ->).
    apply join_iff in C. apply (Forall_cls _ _ _ _ (digit_iff u)) in F. exists (r, map fst l2). split; [|split; reflexivity].
    split; [exact C|]. split; [|exact F]. cbn [snd]. intros E. apply map_eq_nil in E. contradiction.
  - intros ([r t] & (J & NE & F) & E & ->). destruct l as [|[r' bs] l]; [discriminate|]. injection E as -> E. cbn [fst snd] in *.
    exists [(r, bs)], l, [], []. repeat (split; [reflexivity|]). split.
    + exists r, bs. split; [reflexivity|]. split; [apply join_iff, J|reflexivity].
    + apply plus_cls. split; [|split; [|reflexivity]].
      * intros ->. apply NE. symmetry. exact E.
      * apply (Forall_cls _ _ _ _ (digit_iff u)). rewrite E. exact F.
Qed.
Lemma split_fst (l : list piece) : forall x y, map fst l = x ++ y -> exists l1 l2, l = l1 ++ l2 /\ map fst l1 = x /\ map fst l2 = y.
Proof. intros x y E. apply map_eq_app in E. destruct E as (l1 & l2 & E1 & E2 & E3). eauto. Qed.
Lemma groups_mlist u pre l post new : iterl (mlist u groupRe) pre l post new <->
  exists gs, Forall group_ok gs /\ map fst l = concat (map group_runes gs) /\ new = [].
Proof.
  split.
  - intros I. induction I as [pre post|pre l1 l2 post n1 n2 M I IH]; [exists []; auto|]. apply group_mlist in M. destruct M as (g & Hg & E & ->).
    destruct IH as (gs & H & E2 & ->). exists (g :: gs). split; [auto|]. rewrite map_app, E, E2. auto.
  - intros (gs & H & E & ->). revert pre l E. induction H as [|g gs Hg H IH]; intros pre l E.
    + apply map_eq_nil in E. subst. constructor.
    + cbn [map concat] in E. apply split_fst in E. destruct E as (l1 & l2 & -> & E1 & E2). change (@nil (nat * str)) with (@nil (nat * str) ++ []).
      constructor; [|apply IH, E2]. apply group_mlist. eauto.
Qed.
Definition after_scheme (rest : list piece) (new : list (nat * str)) : Prop :=
  (rest = [] /\ new = []) \/ exists bs t, rest = (58%N, bs) :: t /\ ~ In 10%N (map fst t) /\ new = [(1, text_of rest)].
Lemma name_mlist u pre l post new : mlist u (RSeq (RCls latinCls) (RSeq (RStar true (RCls digitCls)) (RStar true groupRe))) pre l post new <->
  scheme_name (map fst l) /\ new = [].
Proof.
  split.
  - intros M. seq M l1 l2 n1 n2 M1. seq M l3 l4 n3 n4 M3. cbn [mlist] in M3. apply iterl_cls in M3. destruct M3 as [F ->].
    apply groups_mlist in M. destruct M as (gs & G & E & ->). destruct M1 as (r & bs & -> & C & ->). apply latin_iff in C.
    apply (Forall_cls _ _ _ _ (digit_iff u)) in F. split; [|reflexivity]. exists r, (map fst l3), gs. repeat (split; [assumption|]).
    rewrite !map_app, E. reflexivity.
  - intros ((r & more & gs & L & F & G & E) & ->). destruct l as [|[r' bs] l]; [discriminate|]. injection E as -> E. apply split_fst in E.
    destruct E as (l1 & l2 & -> & <- & E). exists [(r, bs)], (l1 ++ l2), [], []. repeat (split; [reflexivity|]). split.
    + exists r, bs. split; [reflexivity|]. split; [apply latin_iff, L|reflexivity].
    + exists l1, l2, [], []. repeat (split; [reflexivity|]). split.
      * cbn [mlist]. apply iterl_cls. split; [|reflexivity]. apply (Forall_cls _ _ _ _ (digit_iff u)), F.
      * apply groups_mlist. exists gs. auto.
Qed.
Lemma colon_mlist u pre l post new : mlist u colonRe pre l post new <->
  exists bs t, l = (58%N, bs) :: t /\ ~ In 10%N (map fst t) /\ new = [].
Proof.
  assert (LF : forall t : list piece, Forall (fun x => cls_match u (mkCls true [CRange 10 10]%N) (fst x) = true) t <-> ~ In 10%N (map fst t)).
  { intros t. rewrite (Forall_cls _ _ _ _ (no_lf_iff u)). rewrite Forall_forall. split; [intros H I; apply H in I; congruence|intros H x I ->; contradiction]. }
  unfold colonRe. split.
  - intros M. seq M l1 l2 n1 n2 M1. cbn [mlist] in M. apply iterl_cls in M. destruct M as [F ->]. apply LF in F.
    apply mlist_single in M1. destruct M1 as [E ->]. destruct l1 as [|[r bs] [|? ?]]; try discriminate. injection E as ->. exists bs, l2. auto.
  - intros (bs & t & -> & N & ->). exists [(58%N, bs)], t, [], []. repeat (split; [reflexivity|]). split.
    + apply mlist_single. auto.
    + cbn [mlist]. apply iterl_cls. split; [apply LF, N|reflexivity].
Qed.
Lemma prefix_mlist u pre mid post new : mlist u reSetPrefix pre mid post new <->
  pre = [] /\ post = [] /\ exists name rest, mid = name ++ rest /\ scheme_name (map fst name) /\ after_scheme rest new.
Proof.
  rewrite reSetPrefix_eq. split.
  - intros M. seq M l1 l2 n1 n2 M1. destruct M1 as (-> & -> & ->). seq M l3 l4 n3 n4 M3. apply name_mlist in M3. destruct M3 as [Nm ->].
    seq M l5 l6 n5 n6 M5. destruct M as (-> & -> & ->). split; [reflexivity|]. split; [reflexivity|]. exists l3, l5. rewrite !app_nil_r. cbn [app].
    split; [reflexivity|]. split; [exact Nm|]. destruct M5 as [(k & M & ->)|[-> ->]]; [|left; auto]. apply colon_mlist in M.
    destruct M as (bs & t & -> & N & ->). right. exists bs, t. auto.
  - intros (-> & -> & name & rest & -> & Nm & A). exists [], (name ++ rest), [], new. rewrite app_nil_r. split; [reflexivity|]. split; [reflexivity|].
    split; [cbn; auto|]. exists name, rest, [], new. rewrite !app_nil_r. split; [reflexivity|]. split; [reflexivity|].
    split; [apply name_mlist; auto|]. exists rest, [], new, []. rewrite !app_nil_r. split; [reflexivity|]. split; [reflexivity|].
    split; [|cbn; auto]. destruct A as [[-> ->]|(bs & t & -> & N & ->)]; [right; cbn; auto|]. left. eexists. split; [|reflexivity].
    apply colon_mlist. eauto.
Qed.

(** ** Prefixes are checked *)
Lemma scheme_no_colon s : scheme_name s -> ~ In 58%N s.
Proof.
  intros (f & m & gs & L & F & G & ->) I. assert (LD : forall l, Forall latin_digit l -> ~ In 58%N l).
  { intros l H J. rewrite Forall_forall in H. apply H in J. unfold latin_digit, latin in J. lia. }
  destruct I as [->|I]; [unfold latin in L; lia|]. apply in_app_or in I. destruct I as [I|I]; [eapply LD; eassumption|].
  apply in_concat in I. destruct I as (x & I & J). apply in_map_iff in I. destruct I as (g & <- & I). rewrite Forall_forall in G. apply G in I.
  destruct I as (A & _ & B). destruct g as [g1 g2]. cbn [fst snd] in *. destruct J as [->|J]; [lia|]. eapply LD; eassumption.
Qed.
Lemma scheme_ne s : scheme_name s -> s <> [].
Proof. intros (f & m & gs & _ & _ & _ & ->). discriminate. Qed.
Lemma colon_in p : In ":"%char p <-> In 58%N (runes_of p).
Proof. symmetry. apply (rune_byte 58%N). reflexivity. Qed.
Lemma prefix_find p m : Find (fun _ => false) reSetPrefix p = Some m -> prefix_ok p /\ (group m 1 = [] <-> ~ In ":"%char p).
Proof.
  intros F. apply Find_some in F. destruct F as (pre & mid & post & new & E & M & ->). apply prefix_mlist in M.
  destruct M as (-> & -> & name & rest & -> & Nm & A). rewrite app_nil_r in E. cbn [app] in E.
  assert (R : runes_of p = map fst name ++ map fst rest) by (rewrite <- fst_pieces, E, map_app; reflexivity).
  pose proof (scheme_no_colon _ Nm) as NC. rewrite colon_in, R. destruct A as [[-> ->]|(bs & t & -> & N & ->)]; cbn [map] in *.
  - rewrite ?app_nil_r in *. rewrite ?app_nil_r. split; [exists (map fst name); auto|]. split; [intros _; exact NC|reflexivity].
  - split; [exists (map fst name); split; [exact Nm|]; right; exists (map fst t); auto|].
    assert (G : group (mkMatch (text_of (name ++ (58%N, bs) :: t)) [(1, text_of ((58%N, bs) :: t))]) 1 = text_of ((58%N, bs) :: t)) by reflexivity.
    rewrite G. split.
    + intros T. exfalso. revert T. apply text_ne; [|discriminate]. pose proof (pieces_shape p) as H. rewrite E in H. apply Forall_app in H. apply H.
    + intros H. exfalso. apply H. apply in_or_app. right. left. reflexivity.
Qed.
Lemma prefix_found p : prefix_ok p -> exists m, Find (fun _ => false) reSetPrefix p = Some m.
Proof.
  intros (s & Nm & R).
  assert (exists name rest new, pieces p = name ++ rest /\ scheme_name (map fst name) /\ after_scheme rest new) as (name & rest & new & E & Nm' & A).
  { rewrite <- fst_pieces in R. destruct R as [R|(x & R & N)].
    - exists (pieces p), [], []. rewrite app_nil_r, R. split; [reflexivity|]. split; [exact Nm|]. left. auto.
    - apply split_fst in R. destruct R as (l1 & l2 & E & <- & E2). destruct l2 as [|[r bs] l2]; [discriminate|]. injection E2 as -> <-.
      exists l1, ((58%N, bs) :: l2), [(1, text_of ((58%N, bs) :: l2))]. split; [exact E|]. split; [exact Nm|]. right. eauto. }
  apply (Find_exists _ _ _ [] (pieces p) [] new).
  - apply (compile_ok reSetPrefixStr). apply patterns_compile.
  - rewrite app_nil_r. reflexivity.
  - apply prefix_mlist. split; [reflexivity|]. split; [reflexivity|]. exists name, rest. auto.
Qed.
Lemma full_exists p : exists q, full_prefix p q.
Proof. destruct (in_dec ascii_dec ":"%char p); [exists p; left; auto|exists (p ++ b ":"); right; auto]. Qed.
Lemma colon_quoted p : QuoteMeta (p ++ b ":") = QuoteMeta p ++ b ":".
Proof. rewrite QuoteMeta_app. reflexivity. Qed.
Lemma set_base_ok filters : match set_base filters with
  | Some base => Forall prefix_ok filters /\ exists qs, Forall2 full_prefix filters qs /\ base = map QuoteMeta qs
  | None => Exists (fun p => ~ prefix_ok p) filters
  end.
Proof.
  induction filters as [|p filters IH]; [split; [constructor|exists []; auto]|]. cbn [set_base].
  destruct (Find _ reSetPrefix p) as [m|] eqn:F.
  - apply prefix_find in F. destruct F as [P G]. destruct (set_base filters) as [base|]; cbn [option_map]; [|right; exact IH].
    destruct IH as (H & qs & H2 & ->). split; [auto|]. destruct (group m 1) as [|c t].
    + exists ((p ++ b ":") :: qs). split; [constructor; [right; split; [apply G; reflexivity|reflexivity]|exact H2]|]. cbn [map]. rewrite colon_quoted. reflexivity.
    + exists (p :: qs). split; [|cbn [map]; rewrite app_nil_r; reflexivity]. constructor; [|exact H2]. left.
      split; [|reflexivity]. destruct (in_dec ascii_dec ":"%char p) as [I|I]; [exact I|]. apply G in I. discriminate.
  - left. intros P. apply prefix_found in P. destruct P. congruence.
Qed.
