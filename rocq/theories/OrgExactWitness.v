(** Witnesses: all links of a line of an Org file. *)
From Coq Require Import ZifyBool ZifyNat ZifyN.
From Verif Require Import GoBase GoSlice Utf8 Utf8Dec Regex Patterns ScannerSpec LinkTypes LinkTree Extract ExtractSpec ExtractMain ExtractWitness OrgFoundSpec OrgFoundLines OrgFoundWitness SchemeSpec SchemeRepeat OrgExactSpec OrgExact.

Definition x_links : list (str * str) := [(b "file:x", b "notes"); (b "http://a.org/x", b "the site"); (b "doi:10.1/2", []); (b "https://b.org/(y)", []); (b "mid:1@c", [])].
Definition x_line : string := "Note: see [[file:x][notes]], [[http://a.org/x][the site]] <doi:10.1/2> and (https://b.org/(y), mid:1@c): a:b.".

Fixpoint part (p a : str) : bool := has_prefix a p || match a with [] => false | _ :: t => part p t end.
Lemma part_ok p x y : part p (x ++ p ++ y) = true.
Proof.
  induction x as [|c x IH]; cbn [app].
  - assert (H : has_prefix (p ++ y) p = true) by (apply has_prefix_iff; eauto). destruct (p ++ y); cbn [part]; rewrite H; reflexivity.
  - cbn [part]. rewrite IH. apply orb_true_r.
Qed.
Lemma plain_same s : forall w, word (map (fun c => mkChar c false) s) w -> w = s.
Proof. induction s as [|c s IH]; intros w W; cbn [map] in W; inversion W as [|x s' w' W' E1 E2|x s' w' O W' E1 E2]; subst; [reflexivity| |discriminate O]. cbn [char]. f_equal. apply IH, W'. Qed.
Lemma words_check a : part (b "[[") a = false -> forallb (fun s => negb (part (b s ++ b ":") a)) ["doi"; "http"; "https"; "mid"]%string = true -> plain_words w_schemes a.
Proof.
  intros A B. split.
  - intros x y ->. rewrite part_ok in A. discriminate A.
  - intros x w y s -> I W. unfold w_schemes in I. apply in_map_iff in I. destruct I as (n & <- & I). apply plain_same in W. subst w.
    rewrite forallb_forall in B. specialize (B _ I). apply negb_true_iff in B. replace (x ++ b n ++ b ":" ++ y) with (x ++ (b n ++ b ":") ++ y) in B by (rewrite <- !app_assoc; reflexivity).
    rewrite part_ok in B. discriminate B.
Qed.
Lemma line_consists : consists w_schemes true (b x_line) x_links.
Proof.
  change (b x_line) with (b "Note: see " ++ bracket_line (b "file:x") (b "notes") ++ b ", " ++ bracket_line (b "http://a.org/x") (b "the site") ++ b " " ++ b "<" ++ (b "doi" ++ b ":" ++ b "10.1/2") ++ b ">" ++
    b " and " ++ b "(" ++ (b "https" ++ b ":" ++ b "//b.org/(y)") ++ b ", " ++ [] ++ (b "mid" ++ b ":" ++ b "1@c") ++ b "): a:b.").
  apply (consists_bracket _ _ _ (b "file:x") (b "notes")).
  { apply quiet_check; reflexivity. } { apply words_check; reflexivity. } { discriminate. }
  { intros c [<-|[<-|[]]]; apply (in_check Ascii.eqb Ascii.eqb_eq); reflexivity. } { apply (in_check Ascii.eqb Ascii.eqb_eq); reflexivity. }
  apply (consists_bracket _ _ _ (b "http://a.org/x") (b "the site")).
  { apply quiet_check; reflexivity. } { apply words_check; reflexivity. } { discriminate. }
  { intros c [<-|[<-|[]]]; apply (in_check Ascii.eqb Ascii.eqb_eq); reflexivity. } { apply (in_check Ascii.eqb Ascii.eqb_eq); reflexivity. }
  apply (consists_angle _ _ (b " ") (b "doi") (b "10.1/2")).
  { apply quiet_check; reflexivity. } { apply words_check; reflexivity. } { apply w_scheme. cbn; auto. } { apply (in_check Ascii.eqb Ascii.eqb_eq); reflexivity. }
  apply (consists_plain _ _ (b " and ") (b "(") (b "https") (b "//b.org/(y)")).
  { apply quiet_check; reflexivity. } { apply words_check; reflexivity. }
  { apply w_sep; [reflexivity|unfold word_byte; cbn; lia| |reflexivity]. right. exists (b " and"), " "%char. split; [reflexivity|]. vm_compute. auto 10. }
  { apply w_scheme. cbn; auto. } { exists "h"%char, (b "ttps"). split; [reflexivity|]. unfold word_byte. cbn. lia. }
  { exists (runes_of (b "//b.org/")), (runes_of (b "(y)")). split; [reflexivity|]. split; [discriminate|]. split; [apply nest_all; reflexivity|]. right. exists (runes_of (b "y")).
    split; [apply nest_all; reflexivity|reflexivity]. }
  { exists [44%N], (runes_of (b " mid:1@c): a:b.")). split; [vm_compute; reflexivity|]. split; [|vm_compute; auto 10]. constructor; [|constructor]. split; [apply plain_check; reflexivity|].
    unfold punct. lia. }
  apply (consists_plain _ _ (b ", ") [] (b "mid") (b "1@c")).
  { apply quiet_check; reflexivity. } { apply words_check; reflexivity. }
  { split; [constructor|]. split; [right; exists (b ","), " "%char; split; [reflexivity|vm_compute; auto 10]|]. right. split; [reflexivity|]. left. discriminate. }
  { apply w_scheme. cbn; auto. } { exists "m"%char, (b "id"). split; [reflexivity|]. unfold word_byte. cbn. lia. }
  { exists (runes_of (b "1@")), (runes_of (b "c")). split; [reflexivity|]. split; [discriminate|]. split; [apply nest_all; reflexivity|]. left. exists 99%N. split; [reflexivity|].
    split; [apply plain_check; reflexivity|]. unfold punct. lia. }
  { exists [], (runes_of (b "): a:b.")). split; [vm_compute; reflexivity|]. split; [constructor|]. right. reflexivity. }
  constructor. apply words_check; reflexivity.
Qed.
Lemma w_proper w x : In w ["doi"; "http"; "https"; "mid"]%string -> accepted w_schemes (b w ++ b ":" ++ x).
Proof. intros I. destruct (w_scheme w I) as (_ & s & J & W). exact (proper_accepted _ _ _ _ J W). Qed.
Lemma file_rejected : ~ accepted w_schemes (b "file:x").
Proof.
  intros A. unfold w_schemes in A. cbn [map accepted removelast last In] in A.
  assert (P : forall n y x, part (b n) (b "file:x") = false -> b "file:x" = y ++ b n ++ x -> False) by (intros n y x H E; rewrite E, part_ok in H; discriminate H).
  destruct A as [(w & x & W & E)|[(m & y & w & x & [<-|[<-|[]]] & W & E)|(y & w & x & W & E)]]; apply plain_same in W; subst w.
  - exact (P "doi"%string [] x eq_refl E).
  - exact (P "http"%string y x eq_refl E).
  - exact (P "https"%string y x eq_refl E).
  - exact (P "mid"%string y (b ":" ++ x) eq_refl E).
Qed.
Lemma links_chosen : chosen w_schemes x_links (tl x_links).
Proof.
  apply chosen_skip; [exact file_rejected|]. apply chosen_take; [exact (w_proper "http" (b "//a.org/x") ltac:(cbn; auto))|].
  apply chosen_take; [exact (w_proper "doi" (b "10.1/2") ltac:(cbn; auto))|]. apply chosen_take; [exact (w_proper "https" (b "//b.org/(y)") ltac:(cbn; auto))|].
  apply chosen_take; [exact (w_proper "mid" (b "1@c") ltac:(cbn; auto 6))|]. constructor.
Qed.
Lemma w_firsts : firsts w_schemes w_schemes.
Proof. apply firsts_same. apply nodup_written. repeat constructor; cbn; intuition discriminate. Qed.
Lemma exact_example : consists w_schemes true (b x_line) x_links /\ chosen w_schemes x_links (tl x_links) /\ firsts w_schemes w_schemes /\
  variants_of (map b ["doi"; "http"; "https"; "mid:"]%string) w_schemes /\ simple_schemes w_schemes /\
  w_org (map b ["doi"; "http"; "https"; "mid:"]%string) ["* H"; x_line]%string = Some (map (fun l => ([PNil; PHeading (Some (mkHeading 1 (b "H")))], mkLink (fst l) (snd l) 2)) (tl x_links)).
Proof.
  split; [exact line_consists|]. split; [exact links_chosen|]. split; [exact w_firsts|]. split; [exact w_variants4|]. split; [exact w_simple|]. vm_compute. reflexivity.
Qed.
