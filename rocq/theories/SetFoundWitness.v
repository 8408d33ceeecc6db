(** Links inside of lines that are found by their prefixes: replies and witnesses. *)
From Coq Require Import ZifyBool ZifyNat ZifyN.
From Coq Require Import Permutation.
From Verif Require Import GoBase GoSlice Utf8 Flags LinkTypes LinkTree Emacs Backend BackendSpec BackendProofs BackendNotes ScannerSpec Extract ExtractSpec ExtractWitness SetSpec Real RealProofs
  OrgFoundSpec OrgFoundWitness SetFoundSpec SetFoundMain.

Lemma linkset_listed e users bk qs g tr g' ts i o p u c chunk : booted e users g -> steps e (initializer bk) (g, serving bk qs) tr (g', ts) ->
  nth_error qs i = Some (o, QLinkSet p) -> fair_orders o -> ext bk = real u c chunk -> forall urls, replied (of_thread i tr) (PLinkSet urls) -> simple_prefixes p ->
  forall n src nm content broken lines err line ls x more, nth_error (srcFiles bk) n = Some src -> nth_error (own_reads (of_thread i tr)) n = Some (nm, RData content broken) ->
  seen_lines content broken lines err -> In line lines -> listed (fst src) p true line ls -> In x ls -> begins p x more -> In x urls.
Proof.
  intros B S N F X urls R SI n src nm content broken lines err line ls x more Ns Nr Sn Il L Ix BG.
  destruct (linkset_served _ _ _ _ _ _ _ _ _ _ _ B S N F) as (_ & K). destruct (K _ R) as (K1 & K2 & _ & K3).
  destruct (linkSetDisabled bk) eqn:D; [discriminate K1; reflexivity|]. destruct (le_lt_dec (length p) 16) as [Lp|Lp]; [|discriminate (K2 eq_refl Lp)].
  destruct (K3 eq_refl Lp) as (set & er & SF & EQ). destruct er as [er|]; [discriminate|]. destruct EQ as (urls' & E & P). injection E as <-.
  rewrite X in SF. destruct (set_union _ _ _ _ _ _ _ _ SF) as (A1 & _ & _ & A4 & A5). assert (NE : srcFiles bk <> []) by (intros E; rewrite E in Ns; destruct n; discriminate).
  assert (J : In (src, (nm, RData content broken)) (combine (srcFiles bk) (own_reads (of_thread i tr)))).
  { clear -Ns Nr. revert n Ns Nr. generalize (own_reads (of_thread i tr)). induction (srcFiles bk) as [|s ss IH]; intros [|r rs] [|n] Ns Nr; try discriminate; cbn [nth_error] in *.
    - injection Ns as ->. injection Nr as ->. left. reflexivity.
    - right. eapply IH; eassumption. }
  rewrite Forall_forall in A4. destruct (A4 _ J) as (found & content' & broken' & Er & EF). cbn [fst snd] in *. injection Er as -> <- <-.
  destruct (set_listed (fst src) chunk content broken p lines err [] line ls x more (A1 NE) SI Sn Il L Ix BG) as (set' & E' & I').
  rewrite (Permutation_in' (eq_refl x) P). apply A5. right. exists src, (snd src, RData content broken), found. split; [exact J|]. rewrite EF in E'. injection E' as <- _. split; [|exact I'].
  exists content, broken. auto.
Qed.

(** ** Witnesses *)
Definition l_prefixes : list str := map b ["http://a/"; "https"; "mid:1"]%string.
Definition l_org : string := "Text [1], see [[http://a/x][the site]], <http://a/ y> and (https://b/(z), mid:1@c).".
Definition l_links : list str := map b ["http://a/x"; "http://a/ y"; "https://b/(z)"; "mid:1@c"]%string.
Definition l_txt : string := "[[http://a/xx], =mid:123".
Definition l_words : list str := map b ["http://a/xx"; "mid:123"]%string.
Lemma l_prefixes_ok : prefixes_ok l_prefixes.
Proof. apply prefixes_check; [discriminate|vm_compute; reflexivity..]. Qed.
Lemma l_simple : simple_prefixes l_prefixes.
Proof.
  intros p c Ip Ic. assert (H : forallb (fun p => forallb (fun c => negb (existsb (N.eqb (N_of_ascii c)) (40%N :: 41%N :: stops))) p) l_prefixes = true) by reflexivity.
  rewrite forallb_forall in H. specialize (H _ Ip). rewrite forallb_forall in H. specialize (H _ Ic). apply negb_true_iff in H.
  assert (X : forall r, In r (40%N :: 41%N :: stops) -> N_of_ascii c <> r).
  { intros r Ir E. assert (Y : existsb (N.eqb (N_of_ascii c)) (40%N :: 41%N :: stops) = true) by (apply existsb_exists; exists r; split; [exact Ir|rewrite E; apply N.eqb_refl]). congruence. }
  split; [intros Sc; apply (X (N_of_ascii c)); [right; right; exact Sc|reflexivity]|].
  split; intros ->; [apply (X 40%N)|apply (X 41%N)]; cbn; auto.
Qed.
Lemma l_begins x more q : x = b q ++ b more -> In q ["http://a/"; "https:"; "mid:1"]%string -> begins l_prefixes x (b more).
Proof.
  intros -> [<-|[<-|[<-|[]]]].
  - exists (b "http://a/"), (b "http://a/"). split; [cbn; auto|]. split; [left; cbn; auto 10|reflexivity].
  - exists (b "https"), (b "https:"). split; [cbn; auto|]. split; [right; split; [|reflexivity]; apply (in_check Ascii.eqb Ascii.eqb_eq); reflexivity|reflexivity].
  - exists (b "mid:1"), (b "mid:1"). split; [cbn; auto|]. split; [left; cbn; auto 10|reflexivity].
Qed.
Lemma l_separate edge a c : stop_check c = true -> ~ word_byte c -> (a = [] \/ exists y k, a = y ++ [k] /\ stop k) ->
  forallb (fun p => negb (existsb (Ascii.eqb c) p)) l_prefixes = true -> set_separate l_prefixes edge a [c].
Proof.
  intros S N A H. split; [constructor; [apply stop_ok; exact S|constructor]|]. split; [exact A|]. left. exists [], c. split; [reflexivity|]. split; [exact N|].
  intros (p & x & y & Ip & E & _). rewrite forallb_forall in H. specialize (H _ Ip). apply negb_true_iff in H. apply (in_check Ascii.eqb Ascii.eqb_eq c p H). rewrite E. apply in_or_app. right. left. reflexivity.
Qed.
Lemma org_listed : listed Org l_prefixes true (b l_org) l_links.
Proof.
  change (b l_org) with (b "Text [1], see " ++ bracket_line (b "http://a/x") (b "the site") ++ b ", " ++ b "<" ++ b "http://a/ y" ++ b ">" ++
    b " and " ++ b "(" ++ b "https://b/(z)" ++ b ", " ++ [] ++ b "mid:1@c" ++ b ").").
  apply (listed_bracket _ _ _ _ (b "http://a/x") (b "the site") _ _ eq_refl).
  { apply quiet_check; reflexivity. } { discriminate. }
  { intros c [<-|[<-|[]]]; apply (in_check Ascii.eqb Ascii.eqb_eq); reflexivity. } { apply (in_check Ascii.eqb Ascii.eqb_eq); reflexivity. }
  apply (listed_angle _ _ _ (b ", ") (b "http://a/ y") (b " y") _ _ eq_refl).
  { apply quiet_check; reflexivity. } { eapply (l_begins _ _ "http://a/"); [reflexivity|cbn; auto]. } { apply (in_check Ascii.eqb Ascii.eqb_eq); reflexivity. }
  apply (listed_plain _ _ _ (b " and ") (b "(") (b "https://b/(z)") (b "//b/(z)")).
  { intros _. apply quiet_check; reflexivity. }
  { apply l_separate; [reflexivity|unfold word_byte; cbn; lia| |reflexivity]. right. exists (b " and"), " "%char. split; [reflexivity|]. vm_compute. auto 10. }
  { eapply (l_begins _ _ "https:"); [reflexivity|cbn; auto]. } { exists "h"%char, (b "ttps://b/(z)"). split; [reflexivity|]. unfold word_byte. cbn. lia. }
  { exists (runes_of (b "//b/")), (runes_of (b "(z)")). split; [reflexivity|]. split; [discriminate|]. split; [apply nest_all; reflexivity|]. right. exists (runes_of (b "z")).
    split; [apply nest_all; reflexivity|reflexivity]. }
  { exists [44%N], (runes_of (b " mid:1@c).")). split; [vm_compute; reflexivity|]. split; [|vm_compute; auto 10]. constructor; [|constructor]. split; [apply plain_check; reflexivity|].
    unfold punct. lia. }
  apply (listed_plain _ _ _ (b ", ") [] (b "mid:1@c") (b "@c")).
  { intros _. apply quiet_check; reflexivity. }
  { split; [constructor|]. split; [right; exists (b ","), " "%char; split; [reflexivity|vm_compute; auto 10]|]. right. split; [reflexivity|]. left. discriminate. }
  { eapply (l_begins _ _ "mid:1"); [reflexivity|cbn; auto]. } { exists "m"%char, (b "id:1@c"). split; [reflexivity|]. unfold word_byte. cbn. lia. }
  { exists (runes_of (b "@")), (runes_of (b "c")). split; [reflexivity|]. split; [discriminate|]. split; [apply nest_all; reflexivity|]. left. exists 99%N. split; [reflexivity|].
    split; [apply plain_check; reflexivity|]. unfold punct. lia. }
  { exists [], (runes_of (b ").")). split; [vm_compute; reflexivity|]. split; [constructor|]. right. reflexivity. }
  constructor.
Qed.
Lemma txt_listed : listed Txt l_prefixes true (b l_txt) l_words.
Proof.
  change (b l_txt) with (b "[[" ++ [] ++ b "http://a/xx" ++ b "], " ++ b "=" ++ b "mid:123" ++ []).
  apply (listed_plain _ _ _ (b "[[") [] (b "http://a/xx") (b "xx")).
  { discriminate. }
  { split; [constructor|]. split; [right; exists (b "["), "["%char; split; [reflexivity|vm_compute; auto 10]|]. right. split; [reflexivity|]. left. discriminate. }
  { eapply (l_begins _ _ "http://a/"); [reflexivity|cbn; auto]. } { exists "h"%char, (b "ttp://a/xx"). split; [reflexivity|]. unfold word_byte. cbn. lia. }
  { exists (runes_of (b "x")), (runes_of (b "x")). split; [reflexivity|]. split; [discriminate|]. split; [apply nest_all; reflexivity|]. left. exists 120%N. split; [reflexivity|].
    split; [apply plain_check; reflexivity|]. unfold punct. lia. }
  { exists [], (runes_of (b "], =mid:123")). split; [vm_compute; reflexivity|]. split; [constructor|]. left. vm_compute. auto 10. }
  apply (listed_plain _ _ _ (b "], ") (b "=") (b "mid:123") (b "23")).
  { discriminate. }
  { apply l_separate; [reflexivity|unfold word_byte; cbn; lia| |reflexivity]. right. exists (b "],"), " "%char. split; [reflexivity|]. vm_compute. auto 10. }
  { eapply (l_begins _ _ "mid:1"); [reflexivity|cbn; auto]. } { exists "m"%char, (b "id:123"). split; [reflexivity|]. unfold word_byte. cbn. lia. }
  { exists (runes_of (b "2")), (runes_of (b "3")). split; [reflexivity|]. split; [discriminate|]. split; [apply nest_all; reflexivity|]. left. exists 51%N. split; [reflexivity|].
    split; [apply plain_check; reflexivity|]. unfold punct. lia. }
  { exists [], []. split; [reflexivity|]. split; [constructor|]. exact Logic.I. }
  constructor.
Qed.
Lemma exact_missed : ~ forall k chunk content broken filters lines err set set' x more, prefixes_ok filters -> simple_prefixes filters -> seen_lines content broken lines err ->
  In x lines -> begins filters x more -> (exists c v, x = c :: v /\ word_byte c) -> Forall (fun r => plain_rune r /\ ~ punct r) (runes_of more) ->
  ExtractSet k chunk content broken filters set = Done (set', err) -> In x set'.
Proof.
  intros H. pose proof (w_check ["http://a/x"]%string eq_refl) as SN.
  apply (H Org (fun _ => 7%N) _ false l_prefixes _ None [] [] (b "http://a/x") (b "x") l_prefixes_ok l_simple SN).
  - left. reflexivity.
  - eapply (l_begins _ _ "http://a/"); [reflexivity|cbn; auto].
  - exists "h"%char, (b "ttp://a/x"). split; [reflexivity|]. unfold word_byte. cbn. lia.
  - change (runes_of (b "x")) with [120%N]. constructor; [|constructor]. split; [apply plain_check; reflexivity|]. unfold punct. lia.
  - vm_compute. reflexivity.
Qed.
