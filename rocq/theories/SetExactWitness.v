(** Lines of files, links that are found by prefixes: replies and witnesses. *)
From Coq Require Import ZifyBool ZifyNat ZifyN.
From Coq Require Import Permutation.
From Verif Require Import GoBase GoSlice Utf8 Utf8Proofs Flags LinkTypes LinkTree Emacs Backend BackendSpec BackendProofs BackendNotes ScannerSpec Extract ExtractSpec ExtractWitness SetSpec SetMain Real RealProofs
  OrgFoundSpec OrgFoundWitness SetFoundSpec SetFoundMain SetFoundWitness OrgExactWitness SetExactSpec SetExact.

Lemma files_exact u c chunk p srcs reads set set' : set_from (real u c chunk) p srcs reads set set' None -> simple_prefixes p -> forall found, files_hold p srcs reads found ->
  forall x, In x set' <-> In x set \/ (In x found /\ starts_with p x).
Proof.
  intros H SI. remember None as err eqn:Ee. induction H as [set| | |src srcs content broken reads set set1 set2 err E H IH]; try discriminate; intros found F x.
  - inversion F; subst. cbn. tauto.
  - inversion F as [|s ss rd rds links fd FH F']; subst. rewrite (IH eq_refl _ F'). cbn [real xset] in E. destruct (set_once _ _ _ _ _ _ _ E) as (OK & _).
    destruct FH as (content' & broken' & lines & err & lss & E1 & Sn & L & ->). cbn [snd] in E1. injection E1 as <- <-.
    destruct (set_exact (fst src) chunk content broken p lines err set lss OK SI Sn L) as (s1 & E' & X). rewrite E in E'. injection E' as <- _. rewrite X, in_app_iff. tauto.
Qed.
Lemma linkset_exact e users bk qs g tr g' ts i o p u c chunk : booted e users g -> steps e (initializer bk) (g, serving bk qs) tr (g', ts) ->
  nth_error qs i = Some (o, QLinkSet p) -> fair_orders o -> ext bk = real u c chunk -> forall urls, replied (of_thread i tr) (PLinkSet urls) -> simple_prefixes p ->
  forall found, files_hold p (srcFiles bk) (own_reads (of_thread i tr)) found -> NoDup urls /\ forall x, In x urls <-> In x found /\ starts_with p x.
Proof.
  intros B S N F X urls R SI found H. destruct (linkset_real _ _ _ _ _ _ _ _ _ _ _ _ _ _ B S N F X urls R) as (_ & _ & _ & ND & _). split; [exact ND|].
  destruct (linkset_served _ _ _ _ _ _ _ _ _ _ _ B S N F) as (_ & K). destruct (K _ R) as (K1 & K2 & _ & K3).
  destruct (linkSetDisabled bk) eqn:D; [discriminate K1; reflexivity|]. destruct (le_lt_dec (length p) 16) as [Lp|Lp]; [|discriminate (K2 eq_refl Lp)].
  destruct (K3 eq_refl Lp) as (set & er & SF & EQ). destruct er as [er|]; [discriminate|]. destruct EQ as (urls' & E & P). injection E as <-.
  rewrite X in SF. intros x. rewrite (Permutation_in' (eq_refl x) P), (files_exact _ _ _ _ _ _ _ _ SF SI _ H). cbn. tauto.
Qed.

(** ** Witnesses *)
Lemma l_fulls p q : In p l_prefixes -> full_prefix p q -> In q (map b ["http://a/"; "https:"; "mid:1"]%string).
Proof.
  intros [<-|[<-|[<-|[]]]] [[A ->]|[A ->]]; try (cbn; auto; fail).
  - exfalso. apply A. cbn. auto 10.
  - exfalso. apply (in_check Ascii.eqb Ascii.eqb_eq ":"%char (b "https") eq_refl A).
  - exfalso. apply A. cbn. auto 10.
Qed.
Lemma l_part k a : (match k with Org => part (b "[[") a | Txt => false end) = false -> forallb (fun s => negb (part (b s) a)) ["http://a/"; "https:"; "mid:1"]%string = true -> plain_part k l_prefixes a.
Proof.
  intros A B. split.
  - intros -> x y ->. rewrite part_ok in A. discriminate A.
  - intros x t y p q -> Ip Fp R. pose proof (l_fulls p q Ip Fp) as Iq. apply in_map_iff in Iq. destruct Iq as (n & <- & In').
    assert (E : t = b n).
    { assert (NE : ~ In rune_error (runes_of (b n))) by (destruct In' as [<-|[<-|[<-|[]]]]; vm_compute; intuition discriminate).
      rewrite <- (string_runes t), <- (string_runes (b n)); [f_equal; exact R|apply no_error_valid; exact NE|apply no_error_valid; rewrite R; exact NE]. }
    subst t. rewrite forallb_forall in B. specialize (B _ In'). rewrite part_ok in B. discriminate B.
Qed.
Lemma org_holds : holds Org l_prefixes true (b l_org) l_links.
Proof.
  change (b l_org) with (b "Text [1], see " ++ bracket_line (b "http://a/x") (b "the site") ++ b ", " ++ b "<" ++ b "http://a/ y" ++ b ">" ++
    b " and " ++ b "(" ++ b "https://b/(z)" ++ b ", " ++ [] ++ b "mid:1@c" ++ b ").").
  apply (holds_bracket _ _ _ _ (b "http://a/x") (b "the site") _ _ eq_refl).
  { apply quiet_check; reflexivity. } { apply l_part; reflexivity. } { discriminate. }
  { intros c [<-|[<-|[]]]; apply (in_check Ascii.eqb Ascii.eqb_eq); reflexivity. } { apply (in_check Ascii.eqb Ascii.eqb_eq); reflexivity. }
  apply (holds_angle _ _ _ (b ", ") (b "http://a/ y") (b " y") _ _ eq_refl).
  { apply quiet_check; reflexivity. } { apply l_part; reflexivity. } { eapply (l_begins _ _ "http://a/"); [reflexivity|cbn; auto]. } { apply (in_check Ascii.eqb Ascii.eqb_eq); reflexivity. }
  apply (holds_plain _ _ _ (b " and ") (b "(") (b "https://b/(z)") (b "//b/(z)")).
  { intros _. apply quiet_check; reflexivity. } { apply l_part; reflexivity. }
  { apply l_separate; [reflexivity|unfold word_byte; cbn; lia| |reflexivity]. right. exists (b " and"), " "%char. split; [reflexivity|]. vm_compute. auto 10. }
  { eapply (l_begins _ _ "https:"); [reflexivity|cbn; auto]. } { exists "h"%char, (b "ttps://b/(z)"). split; [reflexivity|]. unfold word_byte. cbn. lia. }
  { exists (runes_of (b "//b/")), (runes_of (b "(z)")). split; [reflexivity|]. split; [discriminate|]. split; [apply nest_all; reflexivity|]. right. exists (runes_of (b "z")).
    split; [apply nest_all; reflexivity|reflexivity]. }
  { exists [44%N], (runes_of (b " mid:1@c).")). split; [vm_compute; reflexivity|]. split; [|vm_compute; auto 10]. constructor; [|constructor]. split; [apply plain_check; reflexivity|].
    unfold punct. lia. }
  apply (holds_plain _ _ _ (b ", ") [] (b "mid:1@c") (b "@c")).
  { intros _. apply quiet_check; reflexivity. } { apply l_part; reflexivity. }
  { split; [constructor|]. split; [right; exists (b ","), " "%char; split; [reflexivity|vm_compute; auto 10]|]. right. split; [reflexivity|]. left. discriminate. }
  { eapply (l_begins _ _ "mid:1"); [reflexivity|cbn; auto]. } { exists "m"%char, (b "id:1@c"). split; [reflexivity|]. unfold word_byte. cbn. lia. }
  { exists (runes_of (b "@")), (runes_of (b "c")). split; [reflexivity|]. split; [discriminate|]. split; [apply nest_all; reflexivity|]. left. exists 99%N. split; [reflexivity|].
    split; [apply plain_check; reflexivity|]. unfold punct. lia. }
  { exists [], (runes_of (b ").")). split; [vm_compute; reflexivity|]. split; [constructor|]. right. reflexivity. }
  constructor. apply l_part; reflexivity.
Qed.
Lemma txt_holds : holds Txt l_prefixes true (b l_txt) l_words.
Proof.
  change (b l_txt) with (b "[[" ++ [] ++ b "http://a/xx" ++ b "], " ++ b "=" ++ b "mid:123" ++ []).
  apply (holds_plain _ _ _ (b "[[") [] (b "http://a/xx") (b "xx")).
  { discriminate. } { apply l_part; reflexivity. }
  { split; [constructor|]. split; [right; exists (b "["), "["%char; split; [reflexivity|vm_compute; auto 10]|]. right. split; [reflexivity|]. left. discriminate. }
  { eapply (l_begins _ _ "http://a/"); [reflexivity|cbn; auto]. } { exists "h"%char, (b "ttp://a/xx"). split; [reflexivity|]. unfold word_byte. cbn. lia. }
  { exists (runes_of (b "x")), (runes_of (b "x")). split; [reflexivity|]. split; [discriminate|]. split; [apply nest_all; reflexivity|]. left. exists 120%N. split; [reflexivity|].
    split; [apply plain_check; reflexivity|]. unfold punct. lia. }
  { exists [], (runes_of (b "], =mid:123")). split; [vm_compute; reflexivity|]. split; [constructor|]. left. vm_compute. auto 10. }
  apply (holds_plain _ _ _ (b "], ") (b "=") (b "mid:123") (b "23")).
  { discriminate. } { apply l_part; reflexivity. }
  { apply l_separate; [reflexivity|unfold word_byte; cbn; lia| |reflexivity]. right. exists (b "],"), " "%char. split; [reflexivity|]. vm_compute. auto 10. }
  { eapply (l_begins _ _ "mid:1"); [reflexivity|cbn; auto]. } { exists "m"%char, (b "id:123"). split; [reflexivity|]. unfold word_byte. cbn. lia. }
  { exists (runes_of (b "2")), (runes_of (b "3")). split; [reflexivity|]. split; [discriminate|]. split; [apply nest_all; reflexivity|]. left. exists 51%N. split; [reflexivity|].
    split; [apply plain_check; reflexivity|]. unfold punct. lia. }
  { exists [], []. split; [reflexivity|]. split; [constructor|]. exact Logic.I. }
  constructor. apply l_part; reflexivity.
Qed.
Lemma files_example : files_hold l_prefixes [(Org, b "a.org"); (Txt, b "b.txt")] [(b "a.org", RData (w_lines [l_org]) false); (b "b.txt", RData (w_lines [l_txt]) false)] (l_links ++ l_words).
Proof.
  apply files_more.
  - exists (w_lines [l_org]), false, [b l_org], None, [l_links]. split; [reflexivity|]. split; [exact (w_check [l_org] eq_refl)|]. split; [constructor; [exact org_holds|constructor]|reflexivity].
  - change l_words with (l_words ++ []). apply files_more; [|constructor]. exists (w_lines [l_txt]), false, [b l_txt], None, [l_words]. split; [reflexivity|]. split; [exact (w_check [l_txt] eq_refl)|].
    split; [constructor; [exact txt_holds|constructor]|reflexivity].
Qed.
