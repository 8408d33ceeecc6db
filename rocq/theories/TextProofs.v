(** Extraction of links from text files. *)
From Coq Require Import ZifyBool ZifyNat ZifyN.
From Verif Require Import GoBase GoSlice Utf8 Utf8Proofs Utf8Dec Regex RegexParse RegexSpec RegexProofs Pieces RegexWords Patterns Scanner ScannerSpec ScannerProofs
  LinkTypes LinkTree LinkHeap Emacs Fuzzy FuzzySpec FuzzyRank Extract ExtractSpec TextSpec ExtractTree HeadingProofs OrgProofs.

(** ** Words *)
Lemma skip_space_ok l : exists a, l = a ++ skip_space l /\ Forall (fun p => IsSpace (fst p) = true) a /\
  match skip_space l with (r, _) :: _ => IsSpace r = false | [] => True end.
Proof.
  induction l as [|[r bs] l (a & IH1 & IH2 & IH3)]; [exists []; repeat split; constructor|]. cbn [skip_space]. destruct (IsSpace r) eqn:E.
  - exists ((r, bs) :: a). cbn [app]. rewrite <- IH1. auto.
  - exists []. auto.
Qed.
Lemma word_loop_ok l : let '(w, t) := word_loop l in
  exists a, w = text_of a /\ Forall (fun p => IsSpace (fst p) = false) a /\ (l = a /\ t = [] \/ exists s, IsSpace (fst s) = true /\ l = a ++ s :: t).
Proof.
  induction l as [|[r bs] l IH]; cbn [word_loop]; [exists []; split; [reflexivity|split; [constructor|left; auto]]|]. destruct (IsSpace r) eqn:E.
  - exists []. split; [reflexivity|]. split; [constructor|]. right. exists (r, bs). auto.
  - destruct (word_loop l) as [w t]. destruct IH as (a & -> & F & H). exists ((r, bs) :: a). split; [reflexivity|]. split; [constructor; assumption|].
    destruct H as [[-> ->]|(s & S & ->)]; [left; auto|right; exists s; auto].
Qed.
Lemma fields_spaces a l : Forall (fun p => IsSpace (fst p) = true) a -> fields_loop (a ++ l) [] = fields_loop l [].
Proof. intros H. induction H as [|[r bs] a E H IH]; [reflexivity|]. cbn [app fields_loop fst] in *. rewrite E. exact IH. Qed.
Lemma fields_word a l : forall w, Forall (fun p => IsSpace (fst p) = false) a -> fields_loop (a ++ l) w = fields_loop l (w ++ text_of a).
Proof.
  induction a as [|[r bs] a IH]; intros w H; [rewrite app_nil_r; reflexivity|]. inversion H as [|? ? E H']. subst. cbn [app fields_loop fst] in *. rewrite E, IH by exact H'.
  rewrite <- app_assoc. reflexivity.
Qed.
Definition nonempty (s : str) : bool := match s with [] => false | _ => true end.
Lemma words_fields fuel : forall line, length line <= fuel -> filter nonempty (words_loop fuel line) = Fields line.
Proof.
  induction fuel as [|fuel IH]; intros line L; [destruct line; [reflexivity|cbn in L; lia]|].
  destruct line as [|c line0] eqn:El; [reflexivity|]. rewrite <- El in *.
  assert (X : words_loop (S fuel) line = let '(token, t) := ScanWords line in token :: words_loop fuel t) by (rewrite El; reflexivity). rewrite X. clear X.
  unfold ScanWords. destruct (skip_space_ok (pieces line)) as (a & Ea & Fa & Ha). pose proof (word_loop_ok (skip_space (pieces line))) as W.
  destruct (word_loop (skip_space (pieces line))) as [w t]. destruct W as (m & -> & Fm & Hm).
  fold (text_of t). assert (NE : pieces line <> []) by (intros E; rewrite <- (text_pieces line), E in El; discriminate).
  assert (Pt : pieces (text_of t) = t).
  { destruct Hm as [[_ ->]|(s & _ & Hs)]; [reflexivity|]. apply (pieces_part line (a ++ m ++ [s]) t []). rewrite Ea, Hs, app_nil_r, <- !app_assoc. reflexivity. }
  assert (Lt : length (text_of t) <= fuel).
  { assert (X : length (text_of t) < length line); [|lia]. rewrite <- (text_pieces line). pose proof (pieces_shape line) as PS.
    assert (Y : forall p, piece_ok p -> 1 <= length (snd p)). { intros p [[_ B]|(_ & B & _)]; [rewrite B; cbn; lia|]. destruct (snd p); [congruence|cbn; lia]. }
    rewrite Ea in PS |- *. destruct Hm as [[Hm ->]|(s & _ & Hs)].
    - destruct (a ++ skip_space (pieces line)) as [|p q] eqn:Eq; [congruence|]. apply Forall_inv in PS. apply Y in PS. change (text_of (p :: q)) with (snd p ++ text_of q). rewrite app_length. cbn. lia.
    - rewrite Hs, !Forall_app in PS. destruct PS as (_ & _ & PS). apply Forall_inv in PS. apply Y in PS. rewrite Hs, !text_app.
      change (text_of (s :: t)) with (snd s ++ text_of t). rewrite !app_length. lia. }
  specialize (IH (text_of t) Lt). unfold Fields. rewrite Ea, fields_spaces by exact Fa. cbn [filter]. rewrite IH. unfold Fields. rewrite Pt.
  destruct Hm as [[Hm Ht]|(s & S & Hs)].
  - rewrite Hm. rewrite Ht. replace (fields_loop m []) with (fields_loop (m ++ []) []) by (rewrite app_nil_r; reflexivity). rewrite fields_word by exact Fm. cbn [app fields_loop]. destruct (text_of m); reflexivity.
  - rewrite Hs. rewrite fields_word by exact Fm. destruct s as [r bs]. cbn [fst] in S. cbn [fields_loop app]. rewrite S. destruct (text_of m); reflexivity.
Qed.
Lemma line_words_ok line : line_words line (Fields line).
Proof. destruct (fields_words line) as (chars & ws & A & B & C). exists chars, ws. auto. Qed.

(** ** Bounded repetition *)
Inductive iterk (R : list piece -> list piece -> list piece -> list (nat * str) -> Prop)
  : nat -> list piece -> list piece -> list piece -> list (nat * str) -> Prop :=
| iterk_nil pre post : iterk R 0 pre [] post []
| iterk_cons k pre l1 l2 post n1 n2 : R pre l1 (l2 ++ post) n1 -> iterk R k (pre ++ l1) l2 post n2 -> iterk R (S k) pre (l1 ++ l2) post (n2 ++ n1).
Lemma mlist_upto u x n : forall pre l post new, mlist u (upto true x n) pre l post new -> exists k, k <= n /\ iterk (mlist u x) k pre l post new.
Proof.
  induction n as [|n IH]; intros pre l post new M.
  - destruct M as [-> ->]. exists 0. split; [lia|constructor].
  - destruct n as [|n].
    + destruct M as [M|[-> ->]]; [|exists 0; split; [lia|constructor]]. exists 1. split; [lia|].
      rewrite <- (app_nil_r l), <- (app_nil_l new). constructor; [exact M|constructor].
    + destruct M as [M|[-> ->]]; [|exists 0; split; [lia|constructor]]. destruct M as (l1 & l2 & n1 & n2 & -> & -> & M1 & M2).
      destruct (IH _ _ _ _ M2) as (k & L & I). exists (S k). split; [lia|]. constructor; assumption.
Qed.
Lemma iterk_cls u c k pre l post new : iterk (mlist u (RCls c)) k pre l post new -> length l = k /\ Forall (fun p => cls_match u c (fst p) = true) l /\ new = [].
Proof.
  intros M. induction M as [|k pre l1 l2 post n1 n2 M _ (A & B & ->)]; [auto|]. destruct M as (r & bs & -> & M & ->). cbn [app length]. split; [lia|]. split; [constructor; assumption|reflexivity].
Qed.

(** ** Structure of the pattern *)
Definition alphaC : cls := mkCls false [CRange 65%N 90%N; CRange 97%N 122%N].
Definition alnumC : cls := mkCls false [CLetter; CRange 48%N 57%N].
Definition middleC : cls := mkCls false [CLetter; CRange 48%N 57%N; CRange 95%N 95%N; CRange 45%N 45%N].
Definition letterC : cls := mkCls false [CLetter].
Definition pathC : cls := mkCls false [CLetter; CRange 48%N 57%N; CRange 46%N 46%N; CRange 64%N 64%N; CRange 44%N 44%N; CRange 126%N 126%N; CRange 95%N 95%N; CRange 45%N 45%N].
Definition hexC : cls := mkCls false [CRange 48%N 57%N; CRange 97%N 102%N; CRange 65%N 70%N].
Definition L (r : rune) : re := RCls (single r).
Definition componentRe : re := RSeq (RAlt (RSeq (RCls alnumC) (upto true (RCls middleC) 62)) REmpty) (RSeq (RCls alnumC) (L 46%N)).
Definition tldRe : re := RSeq (RSeq (RCls letterC) (RSeq (RCls letterC) (upto true (RCls letterC) 62))) (RAlt (L 46%N) REmpty).
Definition schemaRe : re := RSeq (RSeq (RCls alphaC) (RStar true (RCls alphaC))) (RSeq (L 58%N) (RAlt (RGroup 2 (RSeq (L 47%N) (L 47%N))) REmpty)).
Definition domainRe : re := RSeq (upto true componentRe 16) (RGroup 4 tldRe).
Definition pathRe : re := RStar true (RSeq (L 47%N) (RStar true (RAlt (RCls pathC) (RSeq (L 37%N) (RSeq (RCls hexC) (RSeq (RCls hexC) REmpty)))))).
Lemma reUrl_eq : reUrl = RSeq (RAlt (RGroup 1 schemaRe) REmpty) (RSeq (RAlt (RGroup 3 domainRe) REmpty) (RAlt (RGroup 5 pathRe) REmpty)).
Proof. vm_compute. reflexivity. Qed.
Ltac seq M l1 l2 n1 n2 M1 := 
  match type of M with mlist ?u (RSeq ?x ?y) ?pre ?l ?post ?new => 
    change (exists q1 q2 k1 k2, l = q1 ++ q2 /\ new = k2 ++ k1 /\ mlist u x pre q1 (q2 ++ post) k1 /\ mlist u y (pre ++ q1) q2 post k2) in M;
    destruct M as (l1 & l2 & n1 & n2 & -> & -> & M1 & M) end.
Ltac lit M := apply mlist_single in M; destruct M as [M ->].
Ltac cls M r := let bs := fresh "bs" in destruct M as (r & bs & -> & M & ->).

Lemma letter_iff u r : letter u r = true <-> is_letter u r.
Proof. unfold letter, is_letter, ascii_letter. destruct (N.ltb_spec r 128); [rewrite orb_true_iff, !inr_true; lia|]. destruct (u r); intuition (try lia; try discriminate). Qed.
Ltac cls_cases := unfold cls_match; cbn [cneg citems existsb item_match]; rewrite xorb_false_l, ?orb_false_r, ?orb_true_iff, ?letter_iff, ?inr_true.
Lemma alphaC_iff u r : cls_match u alphaC r = true <-> is_letter (fun _ => false) r.
Proof. unfold alphaC. cls_cases. unfold is_letter. intuition (try lia; try discriminate). Qed.
Lemma alnumC_iff u r : cls_match u alnumC r = true <-> alnum u r.
Proof. unfold alnumC. cls_cases. unfold alnum, is_digit. tauto. Qed.
Lemma middleC_iff u r : cls_match u middleC r = true <-> alnum u r \/ r = 95%N \/ r = 45%N.
Proof. unfold middleC. cls_cases. unfold alnum, is_digit. intuition lia. Qed.
Lemma letterC_iff u r : cls_match u letterC r = true <-> is_letter u r.
Proof. unfold letterC. cls_cases. tauto. Qed.
Lemma pathC_iff u r : cls_match u pathC r = true <-> alnum u r \/ In r [46; 64; 44; 126; 95; 45]%N.
Proof. unfold pathC. cls_cases. unfold alnum, is_digit. cbn [In]. intuition lia. Qed.
Lemma hexC_iff u r : cls_match u hexC r = true <-> is_hex r.
Proof. unfold hexC. cls_cases. unfold is_hex, is_digit. intuition lia. Qed.

Lemma schema_ok u pre l post new : mlist u schemaRe pre l post new -> schema (map fst l) /\ Forall (fun x => fst x = 2) new.
Proof.
  unfold schemaRe. intros M. seq M la lb na nb Ma. seq Ma l1 l2 n1 n2 M1. cls M1 r. apply alphaC_iff in M1.
  change (iterl (mlist u (RCls alphaC)) (pre ++ [(r, bs)]) l2 (lb ++ post) n2) in Ma. apply iterl_cls in Ma. destruct Ma as [Ma ->].
  seq M lc ld nc nd Mc. lit Mc. rewrite !map_app, Mc.
  assert (X : schema (r :: map fst l2 ++ [58%N]) /\ schema (r :: map fst l2 ++ [58; 47; 47]%N)).
  { assert (F : Forall (is_letter (fun _ => false)) (r :: map fst l2)).
    { constructor; [exact M1|]. apply Forall_map. eapply Forall_impl; [|exact Ma]. intros p. apply alphaC_iff. }
    split; exists (r :: map fst l2); (split; [discriminate|]); (split; [exact F|]); [left|right]; reflexivity. }
  destruct M as [M|[-> ->]].
  - destruct M as (n & M & ->). seq M le0 lf ne nf Me. lit Me. lit M. rewrite map_app, Me, M. cbn [map app fst]. split; [apply X|]. repeat constructor.
  - cbn [map app fst]. split; [apply X|]. constructor.
Qed.
Lemma component_ok u pre l post new : mlist u componentRe pre l post new -> new = [] /\ exists c, component u c /\ map fst l = c ++ [46%N].
Proof.
  unfold componentRe. intros M. seq M la lb na nb Ma. seq M lc ld nc nd Mc. lit M. cls Mc z. apply alnumC_iff in Mc. rewrite !map_app, M. cbn [map fst].
  destruct Ma as [Ma|[-> ->]].
  - seq Ma le0 lf ne nf Me. cls Me a. apply alnumC_iff in Me. apply mlist_upto in Ma. destruct Ma as (k & K & Ma). apply iterk_cls in Ma. destruct Ma as (Lk & F & ->).
    split; [reflexivity|]. exists (a :: map fst lf ++ [z]). split.
    + exists z. split; [exact Mc|]. right. exists a, (map fst lf). rewrite map_length. split; [exact Me|]. split; [lia|]. split; [|reflexivity].
      apply Forall_map. eapply Forall_impl; [|exact F]. intros p. apply middleC_iff.
    + cbn [app map fst]. rewrite <- !app_assoc. reflexivity.
  - split; [reflexivity|]. exists [z]. split; [|reflexivity]. exists z. auto.
Qed.
Lemma components_ok u k pre l post new : iterk (mlist u componentRe) k pre l post new ->
  new = [] /\ exists cs, length cs = k /\ Forall (component u) cs /\ map fst l = concat (map (fun c => c ++ [46%N]) cs).
Proof.
  intros M. induction M as [|k pre l1 l2 post n1 n2 M _ (-> & cs & Lk & F & E)].
  - split; [reflexivity|]. exists []. auto.
  - apply component_ok in M. destruct M as (-> & c & C & E1). split; [reflexivity|]. exists (c :: cs). cbn [length map concat]. rewrite map_app, E1, E. auto.
Qed.
Lemma tld_ok u pre l post new : mlist u tldRe pre l post new -> new = [] /\ top_level u (map fst l).
Proof.
  unfold tldRe. intros M. seq M la lb na nb Ma. seq Ma l1 l2 n1 n2 M1. seq Ma l3 l4 n3 n4 M3. cls M1 r1. cls M3 r3. apply mlist_upto in Ma. destruct Ma as (k & K & Ma).
  apply iterk_cls in Ma. destruct Ma as (Lk & F & ->). apply letterC_iff in M1, M3.
  assert (G : Forall (is_letter u) (r1 :: r3 :: map fst l4)).
  { constructor; [exact M1|]. constructor; [exact M3|]. apply Forall_map. eapply Forall_impl; [|exact F]. intros p. apply letterC_iff. }
  destruct M as [M|[-> ->]].
  - lit M. split; [reflexivity|]. rewrite map_app, M. exists (r1 :: r3 :: map fst l4). cbn [length]. rewrite map_length. split; [lia|]. split; [exact G|]. right. reflexivity.
  - split; [reflexivity|]. rewrite app_nil_r. exists (r1 :: r3 :: map fst l4). cbn [length]. rewrite map_length. split; [lia|]. split; [exact G|]. left. reflexivity.
Qed.
Lemma domain_ok u pre l post new : mlist u domainRe pre l post new ->
  exists a t cs, l = a ++ t /\ new = [(4, text_of t)] /\ domain u cs (map fst t) (map fst l) /\ (cs = [] -> a = []).
Proof.
  unfold domainRe. intros M. seq M la lb na nb Ma. apply mlist_upto in Ma. destruct Ma as (k & K & Ma). apply components_ok in Ma. destruct Ma as (-> & cs & Lk & F & E).
  destruct M as (n & M & ->). apply tld_ok in M. destruct M as (-> & T). exists la, lb, cs. split; [reflexivity|]. split; [reflexivity|]. split.
  - split; [lia|]. split; [exact F|]. split; [exact T|]. rewrite map_app, E. reflexivity.
  - intros ->. apply map_eq_nil in E. exact E.
Qed.
Lemma segment_app u x y : segment u x -> segment u y -> segment u (x ++ y).
Proof. intros X Y. induction X; [exact Y| |]; cbn [app]; constructor; assumption. Qed.
Lemma segments_ok u pre l post new : iterl (mlist u (RAlt (RCls pathC) (RSeq (L 37%N) (RSeq (RCls hexC) (RSeq (RCls hexC) REmpty))))) pre l post new -> new = [] /\ segment u (map fst l).
Proof.
  intros M. induction M as [|pre l1 l2 post n1 n2 M _ [-> IH]]; [split; [reflexivity|constructor]|]. rewrite map_app. destruct M as [M|M].
  - cls M r. split; [reflexivity|]. cbn [map fst app]. apply segment_char; [apply pathC_iff in M; exact M|exact IH].
  - seq M la lb na nb Ma. lit Ma. seq M lc ld nc nd Mc. cls Mc x. seq M le0 lf ne nf Me. cls Me y. destruct M as [-> ->]. split; [reflexivity|].
    rewrite map_app, Ma. cbn [map fst app]. apply hexC_iff in Mc, Me. apply segment_hex; assumption.
Qed.
Lemma path_ok u pre l post new : mlist u pathRe pre l post new -> new = [] /\ path u (map fst l).
Proof.
  intros M. change (iterl (mlist u (RSeq (L 47%N) (RStar true (RAlt (RCls pathC) (RSeq (L 37%N) (RSeq (RCls hexC) (RSeq (RCls hexC) REmpty))))))) pre l post new) in M.
  induction M as [|pre l1 l2 post n1 n2 M _ [-> (segs & F & E)]]; [split; [reflexivity|exists []; split; [constructor|reflexivity]]|].
  seq M la lb na nb Ma. lit Ma. apply segments_ok in M. destruct M as [-> S]. split; [reflexivity|]. exists (map fst lb :: segs). split; [constructor; assumption|].
  rewrite !map_app, Ma, E. cbn [map concat app]. reflexivity.
Qed.
Lemma text_nil l : Forall piece_ok l -> text_of l = [] -> l = [].
Proof.
  intros H E. destruct l as [|p l]; [reflexivity|]. exfalso. apply Forall_inv in H. change (text_of (p :: l)) with (snd p ++ text_of l) in E. apply app_eq_nil in E. destruct E as [E _].
  destruct H as [[_ B]|(_ & B & _)]; congruence.
Qed.

Lemma group_none (P : nat -> Prop) w new k : Forall (fun x => P (fst x)) new -> k <> 0 -> ~ P k -> group (mkMatch w new) k = [].
Proof.
  intros F K N. unfold group. destruct k as [|k]; [congruence|]. cbn [groups]. destruct (find _ new) as [[n s]|] eqn:E; [|reflexivity]. exfalso. apply find_some in E.
  destruct E as [I E]. apply Nat.eqb_eq in E. cbn [fst] in E. rewrite Forall_forall in F. apply F in I. cbn [fst] in I. congruence.
Qed.
Lemma url_shape u pre l post new : Forall piece_ok l -> mlist u reUrl pre l post new -> MatchIsUrl (mkMatch (text_of l) new) = true -> text_url u (map fst l).
Proof.
  intros H M V. rewrite reUrl_eq in M. seq M ls l2 ns n2 Ms. seq M ld lp nd np Md. rewrite !Forall_app in H. destruct H as (Hs & Hd & Hp).
  assert (P : path u (map fst lp) /\ Forall (fun x => fst x = 5) np).
  { destruct M as [(n & M & ->)|[-> ->]]; [|split; [exists []; split; [constructor|reflexivity]|constructor]]. apply path_ok in M. destruct M as [-> M]. split; [exact M|repeat constructor]. }
  destruct P as [P NP].
  assert (D : (ld = [] /\ nd = []) \/ exists a t cs, ld = a ++ t /\ nd = [(3, text_of ld); (4, text_of t)] /\ domain u cs (map fst t) (map fst ld) /\ (cs = [] -> a = [])).
  { destruct Md as [(n & Md & ->)|[-> ->]]; [right|left; auto]. apply domain_ok in Md. destruct Md as (a & t & cs & E & -> & Hx). exists a, t, cs. auto. }
  set (m := mkMatch (text_of (ls ++ ld ++ lp)) ((np ++ nd) ++ ns)) in *.
  unfold MatchIsUrl in V. destruct (str_eqb_spec (whole m) []) as [|V0]; [discriminate|]. destruct (str_eqb_spec (whole m) (group m 1)) as [|V1]; [discriminate|].
  destruct (str_eqb_spec (whole m) (group m 4)) as [|V4]; [discriminate|]. destruct (str_eqb (group m 3) (group m 4) && str_eqb (group m 1) [])%bool eqn:V3; [discriminate|].
  clear V. exists (map fst ls), (map fst ld), (map fst lp). rewrite !map_app. split; [reflexivity|]. split; [exact P|].
  destruct Ms as [(n & Ms & ->)|[-> ->]].
  - left. apply schema_ok in Ms. destruct Ms as [S NS]. split; [exact S|]. split.
    + intros E. rewrite <- map_app in E. apply map_eq_nil in E. apply V1. unfold m. cbn [whole]. rewrite E, app_nil_r. unfold group. cbn [groups].
      apply app_eq_nil in E. destruct E as [E1 E2]. destruct D as [[_ ->]|(a & t & cs & Ex & _ & DD & _)].
      * rewrite app_nil_r. assert (Z : find (fun x : nat * str => fst x =? 1) np = None).
        { destruct (find _ np) as [x|] eqn:F; [|reflexivity]. apply find_some in F. destruct F as [I F]. rewrite Forall_forall in NP. apply NP in I. rewrite I in F. discriminate. }
        assert (Y : forall x y, find (fun x : nat * str => fst x =? 1) x = None -> find (fun x : nat * str => fst x =? 1) (x ++ y) = find (fun x : nat * str => fst x =? 1) y).
        { clear. induction x as [|c x IH]; intros y F; [reflexivity|]. cbn [find app] in *. destruct (fst c =? 1); [discriminate|auto]. }
        rewrite (Y _ _ Z). reflexivity.
      * exfalso. rewrite E1 in DD. destruct DD as (_ & _ & (x & Lx & _ & Tx) & DD). symmetry in DD. apply app_eq_nil in DD. destruct DD as [_ DD]. rewrite DD in Tx.
        destruct Tx as [Tx|Tx]; [subst x; cbn in Lx; lia|]. destruct x; discriminate.
    + destruct D as [[-> _]|(a & t & cs & _ & _ & DD & _)]; [left; reflexivity|right; eauto].
  - right. split; [reflexivity|].
    assert (G1 : group m 1 = []).
    { unfold m. rewrite app_nil_r. apply (group_none (fun k => k = 5 \/ k = 3 \/ k = 4)); [|lia|lia]. apply Forall_app. split.
      - eapply Forall_impl; [|exact NP]. cbn. auto.
      - destruct D as [[_ ->]|(a & t & cs & _ & -> & _)]; [constructor|constructor; [cbn; auto|constructor; [cbn; auto|constructor]]]. }
    rewrite G1, andb_true_r in V3. destruct D as [[-> ->]|(a & t & cs & Ex & -> & DD & A)].
    + exfalso. assert (Z : forall k, k = 3 \/ k = 4 -> group m k = []).
      { intros k K. unfold m. rewrite !app_nil_r. apply (group_none (fun k => k = 5)); [exact NP|lia|lia]. }
      rewrite !Z, str_eqb_refl in V3 by auto. discriminate.
    + exists cs, (map fst t). split; [|exact DD]. intros ->. specialize (A eq_refl). subst a. cbn [app] in Ex. subst t.
      assert (Z : forall k, k = 3 \/ k = 4 -> group m k = text_of ld).
      { intros k K. unfold m. rewrite app_nil_r. unfold group. destruct k as [|k]; [lia|]. cbn [groups].
        assert (Y : forall x y, Forall (fun x => fst x = 5) x -> find (fun x : nat * str => fst x =? S k) (x ++ y) = find (fun x : nat * str => fst x =? S k) y).
        { intros x y F. induction F as [|c x Ec F IH]; [reflexivity|]. cbn [find app]. rewrite Ec. replace (5 =? S k) with false by lia. exact IH. }
        rewrite Y by exact NP. cbn [find fst]. destruct K as [K|K]; rewrite K; reflexivity. }
      rewrite !Z, str_eqb_refl in V3 by auto. discriminate.
Qed.

(** ** Links *)
Lemma white_iff r : IsSpace r = true <-> white r.
Proof. exact (FuzzyRank.IsSpace_white r). Qed.
Lemma word_no_white line w : In w (Fields line) -> Forall (fun r => ~ white r) (runes_of w) /\ exists x y, line = x ++ w ++ y.
Proof.
  intros I. destruct (fields_loop_ok (pieces line) [] (proj2 (proj2 (pieces_ok line))) ltac:(constructor) ltac:(constructor)) as (ws & W & E).
  change (fields_loop (pieces line) (bytes_of [])) with (Fields line) in E. rewrite E in I. apply in_map_iff in I. destruct I as (w' & <- & I). cbn [app] in W.
  assert (G : forall s ws, words_of (fun p : rune * str => white (fst p)) s ws -> In w' ws -> Forall (fun p => ~ white (fst p)) w' /\ exists x y, s = x ++ w' ++ y).
  { clear. intros s ws W. induction W as [|a s ws A W IH|w N F|w a s ws N F A W IH]; intros I.
    - destruct I.
    - destruct (IH I) as (F & x & y & ->). split; [exact F|]. exists (a :: x), y. reflexivity.
    - destruct I as [<-|[]]. split; [exact F|]. exists [], []. rewrite app_nil_r. reflexivity.
    - destruct I as [<-|I]; [split; [exact F|]; exists [], (a :: s); reflexivity|]. destruct (IH I) as (F' & x & y & ->). split; [exact F'|].
      exists (w ++ a :: x), y. rewrite <- app_assoc. reflexivity. }
  destruct (G _ _ W I) as (F & x & y & Ep). change (bytes_of w') with (text_of w').
  split.
  - rewrite <- fst_pieces, (pieces_part _ _ _ _ Ep). apply Forall_map. exact F.
  - exists (text_of x), (text_of y). apply pieces_part_text. exact Ep.
Qed.
Lemma txt_link_ok u n line l : In l (txt_links u n line) -> text_link u None n line l.
Proof.
  intros I. unfold txt_links in I. apply in_flat_map in I. destruct I as (w & Iw & I). apply in_flat_map in I. destruct I as (m & Im & I).
  destruct (MatchIsUrl m) eqn:V; [|destruct I]. destruct I as [<-|[]].
  apply FindAll_in in Im. destruct Im as (pre & mid & post & new & EP & M & ->).
  pose proof (pieces_shape w) as H. rewrite EP, !Forall_app in H. destruct H as (_ & H & _). pose proof (url_shape u pre mid post new H M V) as T.
  cbn [whole] in *.
  assert (NW : w <> []).
  { intros ->. cbn in EP. symmetry in EP. apply app_eq_nil in EP. destruct EP as [_ EP]. apply app_eq_nil in EP. destruct EP as [-> _]. cbn in V. discriminate. }
  assert (F : In w (Fields line)). { rewrite <- (words_fields (length line) line) by lia. apply filter_In. split; [exact Iw|]. destruct w; [congruence|reflexivity]. }
  pose proof (pieces_part _ _ _ _ EP) as PM. assert (RM : runes_of (text_of mid) = map fst mid) by (rewrite <- fst_pieces, PM; reflexivity).
  unfold text_link. cbn [LineNo Description URL whole]. rewrite RM. split; [reflexivity|]. split; [reflexivity|]. split; [exact T|]. split; [|split; [|exact I]].
  - destruct (word_no_white _ _ F) as [W _]. rewrite <- fst_pieces, EP, !map_app, !Forall_app in W. apply W.
  - exists (Fields line), w, (text_of pre), (text_of post). split; [apply line_words_ok|]. split; [exact F|]. apply pieces_part_text. exact EP.
Qed.
Definition txt_filtered (f : option (link -> bool)) (ls : list link) : list link := match f with None => ls | Some f => List.filter f ls end.
Lemma txt_filtered_ok u f n line : Forall (text_link u f n line) (txt_filtered f (txt_links u n line)).
Proof.
  apply Forall_forall. intros l I. destruct f as [f|]; cbn [txt_filtered] in I.
  - apply filter_In in I. destruct I as [I E]. apply txt_link_ok in I. destruct I as (A & B & C & D & F & _). unfold text_link. auto 10.
  - apply txt_link_ok. exact I.
Qed.
Definition txt_tree (ls : list link) : node := Inner PNil (match ls with [] => [] | _ => [Leaf ls] end).
Definition add_all := fix go (ls : list link) (h : LinkHeap.heap) : outcome LinkHeap.heap :=
  match ls with [] => Done h | l :: ls' => let! h := AddLink h 0 l in go ls' h end.
Lemma add_all_ok ls : forall done, add_all ls (layout 0 (txt_tree done)) = Done (layout 0 (txt_tree (done ++ ls))).
Proof.
  induction ls as [|l ls IH]; intros done; [rewrite app_nil_r; reflexivity|]. cbn [add_all].
  assert (E : AddLink (layout 0 (txt_tree done)) 0 l = Done (layout 0 (txt_tree (done ++ [l])))).
  { destruct done as [|d done]; [apply (add_link_new [] PNil l)|]. exact (add_link_old [] PNil (d :: done) l). }
  rewrite E. cbn [obind]. rewrite IH, <- app_assoc. reflexivity.
Qed.
Lemma txt_lines_ok u f lines : forall n done, exists lss, txt_lines u f n lines (layout 0 (txt_tree done)) = Done (layout 0 (txt_tree (done ++ concat lss))) /\
  links_in (text_link u f) n lines lss.
Proof.
  induction lines as [|line lines IH]; intros n done.
  - exists []. split; [cbn; rewrite app_nil_r; reflexivity|constructor].
  - destruct (IH (S n) (done ++ txt_filtered f (txt_links u n line))) as (lss & E & L). exists (txt_filtered f (txt_links u n line) :: lss). split.
    + cbn [txt_lines]. change (match f with None => txt_links u n line | Some f => List.filter f (txt_links u n line) end) with (txt_filtered f (txt_links u n line)).
      fold add_all. rewrite add_all_ok. cbn [obind concat]. rewrite E, app_assoc. reflexivity.
    + constructor; [apply txt_filtered_ok|exact L].
Qed.
Lemma txt_extract u chunk f content broken lines err : seen_lines content broken lines err ->
  exists t lss, TxtExtract u chunk f content broken = Done (Some t, err) /\ links_in (text_link u f) 1 lines lss /\ paths t = map (fun l => ([PNil], l)) (concat lss).
Proof.
  intros S. destruct (scan_seen broken chunk _ _ _ S) as (e & Es & Ee). destruct (txt_lines_ok u f lines 1 []) as (lss & E & L). cbn [app] in E.
  exists (txt_tree (concat lss)), lss. unfold TxtExtract. rewrite Es. change [OInner PNil []] with (layout 0 (txt_tree [])). rewrite E. cbn [obind]. rewrite read_root, Ee.
  2:{ unfold txt_tree. destruct (concat lss); cbn; lia. }
  split; [reflexivity|]. split; [exact L|]. unfold txt_tree. destruct (concat lss) as [|l ls]; [reflexivity|]. cbn [paths flat_map]. rewrite app_nil_r, map_map. reflexivity.
Qed.
