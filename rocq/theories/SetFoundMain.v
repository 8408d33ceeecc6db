(** Links inside of lines that are found by their prefixes: lines and files. *)
From Coq Require Import ZifyBool ZifyNat ZifyN.
From Verif Require Import GoBase GoSlice Utf8 Utf8Proofs Utf8Dec Regex RegexParse RegexSpec RegexProofs Pieces RegexLex RegexWords Patterns
  Flags Emacs LinkTypes Extract ExtractSpec HeadingProofs SchemeProofs LinkProofs2 BracketProofs TextFound SetSpec SetProofs SetCompile SetMain OrgFoundSpec OrgFound OrgFoundMain SetFoundSpec SetFound.
From Verif Require Scanner OrgProofs OrgFoundLines.
Local Notation newline := Scanner.newline (only parsing).

(** ** Prefixes *)
Definition simple_q (qs : list str) : Prop := forall q c, In q qs -> In c q -> ~ stop c /\ c <> "("%char /\ c <> ")"%char.
Lemma simple_full filters qs : Forall2 full_prefix filters qs -> simple_prefixes filters -> simple_q qs.
Proof.
  intros F S q c Iq Ic. assert (X : exists p, In p filters /\ full_prefix p q).
  { clear S Ic. induction F as [|p q' ps qs Hp F IH]; [destruct Iq|]. destruct Iq as [->|Iq]; [exists p; split; [left; reflexivity|exact Hp]|].
    destruct (IH Iq) as (p' & I' & H'). exists p'. split; [right; exact I'|exact H']. }
  destruct X as (p & Ip & [[_ ->]|[_ ->]]); [exact (S p c Ip Ic)|]. apply in_app_or in Ic. destruct Ic as [Ic|[<-|[]]]; [exact (S p c Ip Ic)|].
  split; [vm_compute; intuition discriminate|split; discriminate].
Qed.
Lemma simple_plain qs q : simple_q qs -> In q qs -> Forall plain_rune (runes_of q).
Proof.
  intros S Iq. apply Forall_forall. intros r Ir. assert (N : forall c, (N_of_ascii c < 128)%N -> ~ In c q -> r <> N_of_ascii c).
  { intros c A Nc ->. apply Nc. apply (rune_byte (N_of_ascii c)) in Ir; [|exact A]. rewrite ascii_N_embedding in Ir. exact Ir. }
  assert (ST : forall c, stop c -> ~ In c q) by (intros c Sc Ic; destruct (S q c Iq Ic) as [X _]; exact (X Sc)).
  unfold plain_rune, stops. split; [|split].
  - intros I. cbn [In] in I. assert (X : exists c, stop c /\ (N_of_ascii c < 128)%N /\ r = N_of_ascii c).
    { exists (ascii_of_N r). assert (L : (r < 128)%N) by lia. rewrite N_ascii_embedding by lia. split; [|auto]. unfold stop, stops. rewrite N_ascii_embedding by lia. cbn [In]. exact I. }
    destruct X as (c & Sc & A & Er). exact (N c A (ST c Sc) Er).
  - apply (N "("%char); [cbn; lia|]. intros I. destruct (S q _ Iq I) as (_ & X & _). apply X. reflexivity.
  - apply (N ")"%char); [cbn; lia|]. intros I. destruct (S q _ Iq I) as (_ & _ & X). apply X. reflexivity.
Qed.
Lemma stop_ascii c : stop c -> (N_of_ascii c < 128)%N.
Proof. unfold stop, stops. cbn [In]. lia. Qed.
Lemma simple_text qs q t c : simple_q qs -> In q qs -> runes_of t = runes_of q -> In c t -> ~ stop c.
Proof.
  intros S Iq R Ic Sc. pose proof (stop_ascii _ Sc) as A. assert (I : In (N_of_ascii c) (runes_of t)) by (apply rune_byte; [exact A|rewrite ascii_N_embedding; exact Ic]).
  rewrite R in I. apply rune_byte in I; [|exact A]. rewrite ascii_N_embedding in I. destruct (S q c Iq I) as [X _]. exact (X Sc).
Qed.

(** ** A match does not start before a link to end inside of it *)
Definition whole_re (k : kind) (g g' : re) : re := match k with Org => set_org_re g g' | Txt => set_plain_re 1 g' end.
Definition plain_no (k : kind) : nat := match k with Org => 4 | Txt => 1 end.
Lemma whole_nullable k g g' : nullable (whole_re k g g') = false.
Proof. destruct k; [apply set_nullable|]. cbn. destruct (nullable g'); reflexivity. Qed.
Lemma cross_gt (g a e : str) : ~ In ">"%char g -> a ++ e = b "<" ++ g ++ b ">" -> a <> [] -> e <> [] -> quiet a -> False.
Proof.
  intros N T NA NE [_ Q]. destruct a as [|c1 a]; [congruence|]. cbn in T. injection T as -> T. pose proof (Q [] a eq_refl) as I.
  destruct e as [|c e _] using rev_ind; [congruence|]. rewrite app_assoc in T. apply app_inj_tail in T. destruct T as [T _]. apply N. rewrite <- T. apply in_or_app. left. exact I.
Qed.
Lemma apart_set u k g g' qs pre (lead tail : list (rune * str)) line : prefix_re g qs -> prefix_re g' qs -> simple_q qs -> pieces line = lead ++ tail ->
  (k = Org -> quiet (text_of lead)) -> (k = Org -> begins_open (text_of tail)) ->
  (forall a c e p t more q, text_of lead = a ++ c -> c <> [] -> e <> [] -> text_of tail = e ++ p -> c ++ e = t ++ more -> In q qs -> runes_of t = runes_of q ->
     (forall c, In c (t ++ more) -> ~ stop c) -> False) ->
  apart u (whole_re k g g') pre lead tail.
Proof.
  intros P P' SI EP Q BO PL a c mid post new El Nc Em M. destruct (le_lt_dec (length mid) (length c)) as [Z|Z]; [exact Z|exfalso].
  pose proof (pieces_shape line) as HP. rewrite EP in HP. apply Forall_app in HP. destruct HP as [HL HT].
  assert (EM : exists e, mid = c ++ e /\ e <> [] /\ tail = e ++ post).
  { symmetry in Em. destruct (app_split _ _ _ _ Em ltac:(lia)) as (e & -> & ->). exists e. split; [reflexivity|]. split; [|reflexivity]. intros ->. rewrite app_nil_r in Z. lia. }
  destruct EM as (e & Emid & Ne & Et). rewrite El in HL. apply Forall_app in HL. destruct HL as [_ Hc]. rewrite Et in HT. apply Forall_app in HT. destruct HT as [He _].
  assert (Hm : Forall piece_ok mid) by (rewrite Emid; apply Forall_app; split; assumption).
  assert (TL : text_of lead = text_of a ++ text_of c) by (rewrite El; apply text_app).
  pose proof (text_ne _ Hc Nc) as Tc. pose proof (text_ne _ He Ne) as Te.
  assert (EL : pieces line = a ++ mid ++ post) by (rewrite EP, El, Emid, Et, <- !app_assoc; reflexivity).
  assert (TM : text_of mid = text_of c ++ text_of e) by (rewrite Emid; apply text_app).
  assert (PLAIN : forall n, mlist u (set_plain_re n g') (pre ++ a) mid post new -> False).
  { intros n M1. unfold set_plain_re in M1. seq M1 l1 l2 n1 n2 M0. destruct M0 as (-> & _ & ->). destruct M1 as (n0 & M1 & ->). cbn [app] in *. seq M1 la lb na nb Ma. apply P' in Ma.
    destruct Ma as (-> & q & Iq & R). apply Forall_app in Hm. destruct Hm as [Ha Hb].
    assert (RT : runes_of (text_of la) = runes_of q) by (rewrite <- R; apply (runes_part line a la (lb ++ post)); rewrite EL, <- !app_assoc; reflexivity).
    apply (PL (text_of a) (text_of c) (text_of e) (text_of post) (text_of la) (text_of lb) q); try assumption.
    - rewrite Et. apply text_app.
    - rewrite <- TM. apply text_app.
    - intros y Iy. apply in_app_or in Iy. destruct Iy as [Iy|Iy]; [exact (simple_text qs q _ y SI Iq RT Iy)|].
      pose proof (rejects_ok u rePl (b "[]<>" ++ blanks) _ lb _ _ ltac:(vm_compute; reflexivity) Hb M1) as F. rewrite Forall_forall in F. intros St. apply (F _ Iy). apply stop_char. exact St. }
  destruct k; [|exact (PLAIN 1 M)]. specialize (Q eq_refl). specialize (BO eq_refl). rewrite TL in Q. apply quiet_tail in Q. destruct M as [M|[M|M]]; [| |exact (PLAIN 4 M)].
  - pose proof (link_shape u [] none_re none_re (pre ++ a) mid post new none_words none_words Hm (or_introl M)) as Sh.
    inversion Sh as [md g1 tl g2 NM NG ESC T D (p & q & SP) mm G1 G2 E1 E2|md g3' g4 x T [] Mx F Hg mm G1 G3 G4 G5 E1 E2|md g5' g6 x T [] Mx F Hg N6 WB mm G1 G3 G5 G6 E1 E2]; subst md mm.
    assert (Hg : Forall piece_ok g1). { rewrite SP, !Forall_app in Hm. apply Hm. } rewrite TM in T. rewrite Et, text_app in BO.
    exact (cross_bracket (text_of g1) _ _ _ (text_of post) (text_ne _ Hg NG) (escaped_text _ Hg ESC) T Tc Te Q BO).
  - unfold set_angle_re in M. seq M l1 l2 n1 n2 M1. seq M l3 l4 n3 n4 M3. destruct M3 as (n0 & M3 & ->). seq M3 la lb na nb Ma. apply P in Ma. destruct Ma as (-> & q & Iq & R).
    rewrite !Forall_app in Hm. destruct Hm as (H1 & (Ha & Hb) & H4). apply lit_text in M1, M; try assumption; try lia. destruct M1 as [T1 ->], M as [T4 ->].
    assert (RT : runes_of (text_of la) = runes_of q) by (rewrite <- R; apply (runes_part line (a ++ l1) la (lb ++ l4 ++ post)); rewrite EL, <- !app_assoc; reflexivity).
    apply (cross_gt (text_of (la ++ lb)) (text_of c) (text_of e)); try assumption.
    + rewrite text_app. intros I. apply in_app_or in I. destruct I as [I|I]; [apply (simple_text qs q _ _ SI Iq RT I); vm_compute; auto|].
      pose proof (rejects_ok u reAng (b ">") _ lb _ _ ltac:(vm_compute; reflexivity) Hb M3) as F. rewrite Forall_forall in F. apply (F _ I). left. reflexivity.
    + rewrite <- TM, (text_app l1), (text_app (la ++ lb) l4), T1, T4. reflexivity.
Qed.
Lemma first_in {A} (dec : forall x y : A, {x = y} + {x <> y}) (c : A) l : In c l -> exists x y, l = x ++ c :: y /\ ~ In c x.
Proof.
  induction l as [|d l IH]; intros I; [destruct I|]. destruct (dec d c) as [->|N].
  - exists [], l. split; [reflexivity|intros []].
  - destruct I as [->|I]; [congruence|]. destruct (IH I) as (x & y & -> & Nx). exists (d :: x), y. split; [reflexivity|]. intros [E|J]; [congruence|exact (Nx J)].
Qed.
Lemma full_in filters qs q : Forall2 full_prefix filters qs -> In q qs -> exists p, In p filters /\ full_prefix p q.
Proof.
  intros F. induction F as [|p q' ps qs Hp F IH]; intros Iq; [destruct Iq|]. destruct Iq as [->|Iq]; [exists p; split; [left; reflexivity|exact Hp]|].
  destruct (IH Iq) as (p' & I' & H'). exists p'. split; [right; exact I'|exact H'].
Qed.
Lemma full_parts p q : full_prefix p q -> prefix_ok p -> exists s1 s2, q = s1 ++ ":"%char :: s2 /\ ~ In ":"%char s1 /\ scheme_name (runes_of s1) /\ (p = s1 \/ p = q).
Proof.
  intros F (s & N & R). pose proof (scheme_no_colon _ N) as NC. destruct F as [[Ic ->]|[Nc ->]].
  - destruct (first_in ascii_dec ":"%char p Ic) as (x & y & -> & Nx). exists x, y. split; [reflexivity|]. split; [exact Nx|]. split; [|right; reflexivity].
    rewrite runes_split in R by (cbn; lia). destruct R as [R|(z & R & _)].
    + exfalso. apply NC. rewrite <- R. apply in_or_app. right. left. reflexivity.
    + apply (first_same 58%N) in R; [|intros I; apply Nx; apply colon_in; exact I|exact NC]. destruct R as [-> _]. exact N.
  - exists p, []. split; [reflexivity|]. split; [exact Nc|]. split; [|left; reflexivity]. destruct R as [->|(z & R & _)]; [exact N|].
    exfalso. apply Nc. apply colon_in. rewrite R. apply in_or_app. right. left. reflexivity.
Qed.
Lemma scheme_no_error s : scheme_name s -> ~ In rune_error s.
Proof.
  assert (L : forall r, latin r -> r <> rune_error) by (unfold latin, rune_error; intros; lia).
  assert (D : forall r, latin_digit r -> r <> rune_error) by (unfold latin_digit; intros r [X|X]; [apply L; exact X|unfold rune_error; lia]).
  intros (f & m & gs & F & M & G & ->) [E|I]; [exact (L _ F E)|]. apply in_app_or in I. destruct I as [I|I]; [rewrite Forall_forall in M; exact (D _ (M _ I) eq_refl)|].
  apply in_concat in I. destruct I as (x & Ix & I). apply in_map_iff in Ix. destruct Ix as ([a y] & <- & Ig). rewrite Forall_forall in G. destruct (G _ Ig) as (A & _ & Y). cbn [fst snd] in *.
  destruct I as [E|I]; [unfold rune_error in E; lia|]. rewrite Forall_forall in Y. exact (D _ (Y _ I) eq_refl).
Qed.
Lemma scheme_same filters qs q t1 t2 c : Forall2 full_prefix filters qs -> prefixes_ok filters -> In q qs -> runes_of (t1 ++ ":"%char :: t2) = runes_of q -> ~ In ":"%char t1 -> In c t1 -> scheme_char filters c.
Proof.
  intros F [_ OK] Iq R N Ic. destruct (full_in _ _ _ F Iq) as (p & Ip & Fp). rewrite Forall_forall in OK. destruct (OK _ Ip) as [Op Vp].
  destruct (full_parts _ _ Fp Op) as (s1 & s2 & -> & Ns & SN & Ep). rewrite !runes_split in R by (cbn; lia).
  apply (first_same 58%N) in R; [|intros I; apply N; apply colon_in; exact I|intros I; apply Ns; apply colon_in; exact I]. destruct R as [R _].
  assert (E : t1 = s1).
  { assert (V1 : valid_utf8 s1) by (apply no_error_valid, scheme_no_error; exact SN). assert (V2 : valid_utf8 t1) by (apply no_error_valid; rewrite R; apply scheme_no_error; exact SN).
    apply string_runes_iff in V1. apply string_runes_iff in V2. rewrite <- V1, <- V2, R. reflexivity. }
  subst t1. apply in_split in Ic. destruct Ic as (x & y & E). destruct Ep as [->| ->].
  - exists s1, x, y. split; [exact Ip|]. split; [exact E|]. intros I. apply Ns. rewrite E. apply in_app_or in I. apply in_or_app. destruct I as [I|[<-|[]]]; [left; exact I|right; left; reflexivity].
  - exists (s1 ++ ":"%char :: s2), x, (y ++ ":"%char :: s2). split; [exact Ip|]. split; [rewrite E, <- app_assoc; reflexivity|].
    intros I. apply Ns. rewrite E. apply in_app_or in I. apply in_or_app. destruct I as [I|[<-|[]]]; [left; exact I|right; left; reflexivity].
Qed.
Lemma apart_stop u g g' qs pre a f c : prefix_re g qs -> prefix_re g' qs -> simple_q qs -> quiet a -> begins_open (c :: f) -> stop c ->
  apart u (whole_re Org g g') pre (pieces a) (pieces (c :: f)).
Proof.
  intros P P' SI Q BO SC. apply apart_set with qs (a ++ c :: f); try assumption; rewrite ?text_pieces; try (intros _; assumption).
  - apply pieces_stop. apply stop_ascii. exact SC.
  - intros x y e p t more q E1 N1 N2 E2 E3 _ _ NS. destruct e as [|c' e]; [congruence|]. injection E2 as <- ->.
    apply (NS c); [|exact SC]. rewrite <- E3. apply in_or_app. right. left. reflexivity.
Qed.
Lemma apart_word u k g g' filters qs pre edge a q l more z q0 : prefix_re g qs -> prefix_re g' qs -> simple_q qs -> Forall2 full_prefix filters qs -> prefixes_ok filters ->
  (k = Org -> quiet a) -> set_separate filters edge a q -> In q0 qs -> l = q0 ++ more -> (exists c v, l = c :: v /\ word_byte c) ->
  apart u (whole_re k g g') pre (pieces (a ++ q)) (pieces (l ++ z)).
Proof.
  intros P P' SI F OK Q (Fq & Sa & Sq) I0 El (c0 & v & Ev & WB).
  destruct (full_in _ _ _ F I0) as (p0 & Ip0 & Fp0). pose proof OK as [_ OK']. rewrite Forall_forall in OK'. destruct (OK' _ Ip0) as [Op0 _].
  destruct (full_parts _ _ Fp0 Op0) as (w & w2 & Ew & Nw & _ & _).
  apply apart_set with qs ((a ++ q) ++ l ++ z); try assumption; rewrite ?text_pieces.
  - rewrite Ev. apply (pieces_stop (a ++ q) c0). apply word_byte_ascii. exact WB.
  - intros Ek. apply quiet_more; [exact (Q Ek)|]. eapply Forall_impl; [|exact Fq]. cbn. tauto.
  - intros _. rewrite Ev. cbn [app begins_open]. destruct (v ++ z); [exact I|]. intros ->. exfalso. revert WB. unfold word_byte. cbn. lia.
  - intros x y e p t mr q' E1 N1 N2 E2 E3 Iq' RT NS. symmetry in E1. destruct (app_cases _ _ _ _ E1) as [(r & ->)|(r & Nr & -> & ->)].
    + destruct y as [|k' y _] using rev_ind; [congruence|]. rewrite app_assoc in Sq. destruct Sq as [(q1 & c & Eq & _ & NX)|[Eq _]]; [|destruct (r ++ y); discriminate].
      apply app_inj_tail in Eq. destruct Eq as [_ <-]. apply Forall_app in Fq. destruct Fq as [_ Fq].
      assert (TC : In ":"%char t).
      { apply colon_in. rewrite RT. apply colon_in. destruct (full_in _ _ _ F Iq') as (p' & Ip' & [[X ->]|[_ ->]]); [exact X|apply in_or_app; right; left; reflexivity]. }
      destruct (first_in ascii_dec ":"%char t TC) as (t1 & t2 & -> & Nt).
      assert (EG : t1 = (y ++ [k']) ++ w).
      { apply (first_same ":"%char t1 ((y ++ [k']) ++ w) (t2 ++ mr ++ p) (w2 ++ more ++ z) Nt).
        - intros J. apply in_app_or in J. destruct J as [J|J]; [rewrite Forall_forall in Fq; apply Fq in J; tauto|exact (Nw J)].
        - replace (t1 ++ ":"%char :: t2 ++ mr ++ p) with (((t1 ++ ":"%char :: t2) ++ mr) ++ p) by (rewrite <- !app_assoc; reflexivity). rewrite <- E3, <- app_assoc, <- E2.
          rewrite El, Ew, <- !app_assoc. reflexivity. }
      apply NX. eapply (scheme_same filters qs q' t1 t2); try eassumption. rewrite EG. apply in_or_app; left; apply in_or_app; right; left; reflexivity.
    + destruct Sa as [Sa|(y1 & c1 & Ea & Sc)]; [destruct x; [cbn in Sa; congruence|discriminate]|].
      destruct r as [|k' r _] using rev_ind; [congruence|]. rewrite app_assoc in Ea. apply app_inj_tail in Ea. destruct Ea as [_ <-].
      apply (NS k'); [|exact Sc]. rewrite <- E3. apply in_or_app. left. apply in_or_app. left. apply in_or_app. right. left. reflexivity.
Qed.

(** ** Lines *)
Definition set_as (k : kind) (m : rmatch) (x : str) : Prop :=
  group m 1 = x \/ (k = Org /\ group m 1 = [] /\ (group m 3 = x \/ (group m 3 = [] /\ group m 4 = x))).
Lemma whole_loops k g g' : loops_ok (whole_re k g g') = true -> (k = Org -> loops_ok g = true) /\ loops_ok g' = true.
Proof.
  destruct k.
  - change (loops_ok (whole_re Org g g')) with (loops_ok reBr && ((true && ((loops_ok g && loops_ok reAng) && true)) && (true && (loops_ok g' && loops_ok rePl))))%bool.
    intros H. destruct (loops_ok g), (loops_ok g'); auto; exfalso; revert H; destruct (loops_ok reBr), (loops_ok reAng), (loops_ok rePl); discriminate.
  - change (loops_ok (whole_re Txt g g')) with (true && (loops_ok g' && loops_ok rePl))%bool. intros H. split; [discriminate|]. destruct (loops_ok g'); [reflexivity|discriminate H].
Qed.
Lemma begins_parts filters qs l more : Forall2 full_prefix filters qs -> prefixes_ok filters -> begins filters l more ->
  exists q lq ly, In q qs /\ l = q ++ more /\ runes_of q <> [] /\ pieces l = lq ++ ly /\ map fst lq = runes_of q /\ map fst ly = runes_of more.
Proof.
  intros F [_ OK] (p & q & Ip & Fp & ->). rewrite Forall_forall in OK. destruct (OK _ Ip) as [Op Vp].
  assert (Iq : In q qs).
  { clear -F Ip Fp. induction F as [|p' q' ps qs Hp F IH]; [destruct Ip|]. destruct Ip as [->|Ip]; [|right; apply IH, Ip]. left.
    destruct Hp as [[A ->]|[A ->]], Fp as [[A' ->]|[A' ->]]; try contradiction; reflexivity. }
  pose proof (runes_app_valid q more ltac:(apply (full_valid _ _ Fp); exact Vp)) as R. rewrite <- fst_pieces in R. apply split_fst in R. destruct R as (lq & ly & E & R1 & R2).
  exists q, lq, ly. split; [exact Iq|]. split; [reflexivity|]. split; [exact (full_ne _ _ Fp Op)|]. auto.
Qed.
Lemma listed_found u k g g' filters qs : prefix_re g qs -> prefix_re g' qs -> simple_q qs -> Forall2 full_prefix filters qs -> prefixes_ok filters -> loops_ok (whole_re k g g') = true ->
  forall edge line ls, listed k filters edge line ls ->
  forall pre pv p e fuel, at_state pre (pieces line) (mkSt pv p (pieces line) []) -> length (pieces line) < fuel -> ~ In newline line -> (edge = true -> word_at (last_rune pre) = false) ->
  forall x, In x ls -> exists m, In m (all_matches fuel u (whole_re k g g') pv p (pieces line) e) /\ set_as k m x.
Proof.
  intros P P' SI F OK LK edge line ls S. destruct (whole_loops _ _ _ LK) as [Lg Lg'].
  pose proof (fun q Iq => simple_plain qs q SI Iq) as SP.
  induction S as [edge x|edge a t d x ls -> Q NT NB ND S IH|edge a l more x ls -> Q BG NG S IH|edge a q l more x ls Q SEP BG WB PT PE S IH]; intros pre pv p e fuel H Lf NL ED t0 I0.
  - destruct I0.
  - assert (EP : pieces (a ++ bracket_line t d ++ x) = pieces a ++ pieces (bracket_line t d ++ x)) by (apply (pieces_stop a "["%char); cbn; lia).
    pose proof (apart_stop u g g' qs pre a ("[" :: (t ++ b "]" ++ match d with [] => [] | _ => b "[" ++ d ++ b "]" end ++ b "]") ++ x)%char "["%char P P' SI Q (fun _ => eq_refl) ltac:(vm_compute; auto)) as AP.
    change (pieces ("[" :: "[" :: (t ++ b "]" ++ match d with [] => [] | _ => b "[" ++ d ++ b "]" end ++ b "]") ++ x)%char) with (pieces (bracket_line t d ++ x)) in AP.
    rewrite EP in *. rewrite bracket_pieces in *.
    assert (NM : pc 91 :: pc 91 :: pieces t ++ pc 93 :: tail_list (pc 91) (pc 93) (pieces d) ++ [pc 93] <> []) by discriminate.
    destruct (reach u (whole_re Org g g') _ _ (tail_caps (pieces d) ++ [(1, text_of (pieces t))]) LK (whole_nullable _ _ _) NM (length (pieces a)) (pieces a) pre pv p e fuel (le_n _) H Lf AP)
      as (pv' & p' & e' & fuel' & A' & F' & I1 & I2).
    { intros s As. apply (bracket_left u _ (pre ++ pieces a)); try reflexivity; [apply pieces_ne; exact NT| | |exact As].
      - pose proof (not_char "["%char t ltac:(cbn; lia) (NB "["%char ltac:(cbn; auto))) as F1. pose proof (not_char "]"%char t ltac:(cbn; lia) (NB "]"%char ltac:(cbn; auto))) as F2.
        rewrite Forall_forall in *. intros z Iz. split; [apply F2|apply F1]; exact Iz.
      - apply (not_char "]"%char d); [cbn; lia|exact ND]. }
    destruct I0 as [E0|I0].
    + subst t0. eexists. split; [exact I1|]. left. destruct (pieces d) as [|pd ld]; cbn [group tail_caps app find fst Nat.eqb groups]; apply text_pieces.
    + destruct (IH _ _ _ e' _ A' F') with (x := t0) as (m & Im & Fm); [intros I; apply NL; apply in_or_app; right; apply in_or_app; right; exact I| |exact I0|].
      * intros _. rewrite app_assoc, last_rune_app by discriminate. change (pc 91 :: pc 91 :: pieces t ++ pc 93 :: tail_list (pc 91) (pc 93) (pieces d) ++ [pc 93]) with ((pc 91 :: pc 91 :: pieces t) ++ (pc 93 :: tail_list (pc 91) (pc 93) (pieces d)) ++ [pc 93]).
        rewrite app_assoc, last_rune_app by discriminate. reflexivity.
      * exists m. split; [apply I2; exact Im|exact Fm].
  - destruct (begins_parts _ _ _ _ F OK BG) as (q & lq & ly & Iq & El & Nq & EPl & R1 & R2).
    set (f := l ++ b ">" ++ x) in *. assert (EP : pieces (a ++ b "<" ++ f) = pieces a ++ pieces (b "<" ++ f)) by (apply (pieces_stop a "<"%char); cbn; lia).
    assert (AP' : apart u (whole_re Org g g') pre (pieces a) (pieces (b "<" ++ f))).
    { apply (apart_stop u g g' qs pre a f "<"%char P P' SI Q); [|vm_compute; auto]. cbn [begins_open]. destruct f; [exact I|discriminate]. }
    assert (EF : pieces (b "<" ++ f) = (pc 60 :: (lq ++ ly) ++ [pc 62]) ++ pieces x).
    { cbn [b list_ascii_of_string app]. rewrite pieces_ascii by (cbn; lia). unfold f. cbn [b list_ascii_of_string app]. rewrite pieces_split by (cbn; lia). rewrite EPl.
      repeat (rewrite <- app_assoc; cbn [app]). reflexivity. }
    rewrite EP in *. rewrite EF in *. assert (NM : pc 60 :: (lq ++ ly) ++ [pc 62] <> []) by discriminate.
    destruct (reach u (whole_re Org g g') _ _ [(3, text_of (lq ++ ly))] LK (whole_nullable _ _ _) NM (length (pieces a)) (pieces a) pre pv p e fuel (le_n _) H Lf AP')
      as (pv' & p' & e' & fuel' & A' & F' & I1 & I2).
    { intros s' As. apply best_right. { pose proof As as (_ & R & _). rewrite reBr_eq. apply seq_never, lit_never. rewrite R. discriminate. }
      apply best_left. apply (set_angle_best u 3 g qs (pc 60) lq ly (pc 62) (pieces x) (pre ++ pieces a) s' q); try reflexivity; try assumption; [apply Lg; reflexivity|].
      assert (NY : ~ In newline more). { intros I. apply NL. unfold f. apply in_or_app. right. apply in_or_app. right. apply in_or_app. left. rewrite El. apply in_or_app. right. exact I. }
      assert (X : forall c, (N_of_ascii c < 128)%N -> ~ In c more -> Forall (fun r => r <> N_of_ascii c) (map fst ly)).
      { intros c A N. rewrite R2, <- fst_pieces. apply Forall_map. apply not_char; assumption. }
      pose proof (X ">"%char ltac:(cbn; lia) NG) as F1. pose proof (X newline ltac:(cbn; lia) NY) as F2. apply (proj1 (Forall_map _ _ _)) in F1. apply (proj1 (Forall_map _ _ _)) in F2.
      rewrite Forall_forall in *. intros z Iz. split; [apply F1|apply F2]; exact Iz. }
    destruct I0 as [E0|I0].
    + subst t0. eexists. split; [exact I1|]. right. split; [reflexivity|]. cbn [group find fst Nat.eqb groups]. split; [reflexivity|]. left. rewrite <- EPl. apply text_pieces.
    + destruct (IH _ _ _ e' _ A' F') with (x := t0) as (m & Im & Fm); [| |exact I0|].
      * intros I. apply NL. unfold f. apply in_or_app. right. apply in_or_app. right. apply in_or_app. right. apply in_or_app. right. exact I.
      * intros _. rewrite app_assoc, last_rune_app by discriminate. change (pc 60 :: (lq ++ ly) ++ [pc 62]) with ((pc 60 :: (lq ++ ly)) ++ [pc 62]).
        rewrite last_rune_app by discriminate. reflexivity.
      * exists m. split; [apply I2; exact Im|exact Fm].
  - destruct (begins_parts _ _ _ _ F OK BG) as (q0 & lq & ly & Iq & El & Nq & EPl & R1 & R2).
    pose proof (apart_word u k g g' filters qs pre edge a q l more x q0 P P' SI F OK Q SEP Iq El WB) as AP.
    assert (EF : pieces (l ++ x) = (lq ++ ly) ++ pieces x) by (rewrite (pieces_end l x PE), EPl; reflexivity).
    assert (EP : pieces (a ++ q ++ l ++ x) = pieces (a ++ q) ++ (lq ++ ly) ++ pieces x).
    { rewrite <- EF. destruct WB as (c & v & -> & WB). rewrite (app_assoc a q). apply (pieces_stop (a ++ q) c). apply word_byte_ascii. exact WB. }
    rewrite EP in *. rewrite EF in AP.
    assert (NM : lq ++ ly <> []) by (intros E; apply app_eq_nil in E; destruct E as [-> _]; apply Nq; symmetry; exact R1).
    assert (B : forall n s', at_state (pre ++ pieces (a ++ q)) ((lq ++ ly) ++ pieces x) s' -> best u (set_plain_re n g') s' (move s' (lq ++ ly) (pieces x) [(n, text_of (lq ++ ly))])).
    { intros n s' As. apply (set_plain_best u n g' qs lq ly (pieces x) (pre ++ pieces (a ++ q)) s' q0); try assumption.
      - assert (B1 : word_at (last_rune (pre ++ pieces (a ++ q))) = false).
        { destruct SEP as (Fq & Sa & Sq). destruct Sq as [(y0 & c & -> & NW & _)|[-> Sq]].
          - rewrite last_rune_app by (apply pieces_ne; destruct a; [destruct y0; discriminate|discriminate]). rewrite app_assoc. apply last_not_word. exact NW.
          - rewrite app_nil_r. destruct Sa as [->|(y1 & c & -> & Sc)].
            + change (pieces []) with (@nil piece). rewrite app_nil_r. destruct Sq as [Sq|Sq]; [congruence|auto].
            + rewrite last_rune_app by (apply pieces_ne; destruct y1; discriminate). apply last_not_word. revert Sc. unfold stop, stops, word_byte. cbn [In]. lia. }
        assert (B2 : word_at (first_rune (lq ++ ly)) = true). { rewrite <- EPl. apply first_word; [apply pieces_shape|]. rewrite text_pieces. destruct WB as (c & v & -> & WB). eauto. }
        rewrite B1, B2. reflexivity.
      - rewrite R2. exact PT.
      - rewrite fst_pieces. exact PE. }
    destruct (reach u (whole_re k g g') _ _ [(plain_no k, text_of (lq ++ ly))] LK (whole_nullable _ _ _) NM (length (pieces (a ++ q))) (pieces (a ++ q)) pre pv p e fuel (le_n _) H Lf AP)
      as (pv' & p' & e' & fuel' & A' & F' & I1 & I2).
    { intros s' As. destruct k; [|apply B; exact As]. destruct WB as (c & v & Ec & WB).
      assert (R0 : exists t, rest s' = (N_of_ascii c, [c]) :: t).
      { pose proof As as (_ & R & _). rewrite R, <- EF, Ec. cbn [app]. rewrite pieces_ascii by (apply word_byte_ascii; exact WB). eauto. }
      destruct R0 as (t & R0). assert (NC : N_of_ascii c <> 91%N /\ N_of_ascii c <> 60%N) by (revert WB; unfold word_byte; lia).
      apply best_right. { rewrite reBr_eq. apply seq_never, lit_never. rewrite R0. cbn [fst]. lia. }
      apply best_right. { apply seq_never, lit_never. rewrite R0. cbn [fst]. lia. }
      apply B. exact As. }
    destruct I0 as [E0|I0].
    + subst t0. eexists. split; [exact I1|]. destruct k; [right; split; [reflexivity|]; cbn [group find fst Nat.eqb groups plain_no]; split; [reflexivity|]; right; split; [reflexivity|]|left; cbn [group find fst Nat.eqb groups plain_no]];
        rewrite <- EPl; apply text_pieces.
    + destruct (IH _ _ _ e' _ A' F') with (x := t0) as (m & Im & Fm); [|discriminate|exact I0|].
      * intros I. apply NL. apply in_or_app. right. apply in_or_app. right. apply in_or_app. right. exact I.
      * exists m. split; [apply I2; exact Im|exact Fm].
Qed.

(** ** Files *)
Lemma whole_patterns k filters : prefixes_ok filters -> exists base g g' gp qs, MakeLinkSetBase filters = Some base /\
  compile (set_pattern k base) = Some (whole_re k g g') /\ compile (b "^" ++ base) = Some (RSeq RBegin gp) /\ prefix_re gp qs /\ Forall2 full_prefix filters qs /\ Forall valid_utf8 qs /\
  prefix_re g qs /\ prefix_re g' qs /\
  forall line m, In m (FindAll (fun _ => false) (whole_re k g g') line) -> exists o, set_key (is_org k) (RSeq RBegin gp) m = Done o.
Proof.
  intros H. destruct (base_ok _ H) as (qs & B & F & NR & NE & V). destruct (check_compile qs NR NE V) as (gp & Cp & Pp).
  destruct k.
  - destruct (org_compile qs NR NE V) as (g & g' & C & P & P'). exists (b "(?:" ++ joined qs ++ b ")"), g, g', gp, qs. split; [exact B|]. split; [exact C|]. split; [exact Cp|].
    split; [exact Pp|]. split; [exact F|]. split; [exact V|]. split; [exact P|]. split; [exact P'|]. intros line m I.
    destruct (org_key _ _ _ _ _ _ _ _ P P' Pp NR Cp I) as (o & E & X). exists o. exact E.
  - destruct (txt_compile qs NR NE V) as (g & C & P). exists (b "(?:" ++ joined qs ++ b ")"), g, g, gp, qs. split; [exact B|]. split; [exact C|]. split; [exact Cp|].
    split; [exact Pp|]. split; [exact F|]. split; [exact V|]. split; [exact P|]. split; [exact P|]. intros line m I.
    destruct (txt_key _ _ _ _ _ _ _ P Pp NR Cp I) as (o & E & X). exists o. exact E.
Qed.
Lemma set_listed k chunk content broken filters lines err set line ls x more : prefixes_ok filters -> simple_prefixes filters -> seen_lines content broken lines err ->
  In line lines -> listed k filters true line ls -> In x ls -> begins filters x more ->
  exists set', ExtractSet k chunk content broken filters set = Done (set', err) /\ In x set'.
Proof.
  intros H SI Sn Il L Ix BG. destruct (whole_patterns k filters H) as (base & g & g' & gp & qs & B & C & Cp & Pp & F2 & V & P & P' & K).
  unfold ExtractSet. rewrite B, C, Cp. destruct (OrgProofs.scan_seen broken chunk _ _ _ Sn) as (e & -> & Ee).
  destruct (set_lines_ok (is_org k) (whole_re k g g') (RSeq RBegin gp) lines) with (s := set) as (s' & E & I & _).
  { apply Forall_forall. intros l _. apply Forall_forall. intros m Im. exact (K l m Im). }
  exists s'. replace (match k with Org => true | Txt => false end) with (is_org k) by (destruct k; reflexivity). rewrite E. cbn [obind]. rewrite Ee. split; [reflexivity|].
  apply I. right. apply in_flat_map. exists line. split; [exact Il|]. unfold found_in.
  assert (NL : ~ In newline line) by (pose proof (OrgFoundLines.seen_break _ _ _ _ Sn) as X; rewrite Forall_forall in X; apply X; exact Il).
  destruct (listed_found (fun _ => false) k g g' filters qs P P' (simple_full _ _ F2 SI) F2 H (compile_ok _ _ C) true line ls L [] None 0 None (S (length (pieces line)))) with (x := x) as (m & Im & Fm);
    [split; [reflexivity|split; reflexivity]|lia|exact NL|reflexivity|exact Ix|].
  apply in_flat_map. exists m. split; [exact Im|].
  destruct (begins_parts _ _ _ _ F2 H BG) as (q & lq & ly & Iq & Ex & Nq & EP & R1 & R2).
  assert (NE : x <> []). { intros E0. apply Nq. rewrite <- R1. rewrite E0 in EP. destruct lq; [reflexivity|discriminate EP]. }
  destruct Fm as [G1|(-> & G1 & G)]; unfold set_key; rewrite G1.
  - destruct x as [|c0 x0] eqn:E0; [congruence|]. rewrite <- E0 in *.
    replace (MatchString (fun _ => false) (RSeq RBegin gp) x) with true; [left; reflexivity|]. symmetry.
    apply (check_iff _ _ _ _ _ Pp Cp). exists q, ly. split; [exact Iq|]. rewrite <- fst_pieces, EP, map_app, R1. split; [reflexivity|]. eauto.
  - cbn [is_org]. destruct G as [->|[-> ->]]; (destruct x; [congruence|left; reflexivity]).
Qed.
