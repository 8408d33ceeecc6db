(** Witnesses: links inside of lines of Org files. *)
From Coq Require Import ZifyBool ZifyNat ZifyN.
From Verif Require Import GoBase GoSlice Utf8 Utf8Dec Regex Patterns ScannerSpec LinkTypes LinkTree Extract ExtractSpec ExtractMain ExtractWitness OrgFoundSpec OrgFoundLines.

Definition w_org (variants : list str) (lines : list string) : option (list (list props * link)) := w_run variants (w_lines lines).
Definition w_line : string := "Text [1], see [[http://a.org/x][the site]], <doi:10.1/2> and (https://b.org/(y), mid:1@c).".
Definition w_schemes : list (list schar) := map (fun s => map (fun c => mkChar c false) (b s)) ["doi"; "http"; "https"; "mid"]%string.
Definition w_links : list (str * str) := [(b "http://a.org/x", b "the site"); (b "doi:10.1/2", []); (b "https://b.org/(y)", []); (b "mid:1@c", [])].

(** Checks *)
Fixpoint closed (a : str) : bool := match a with [] => true | c :: t => (negb (Ascii.eqb c "<") || existsb (Ascii.eqb ">") t) && closed t end.
Fixpoint single (a : str) : bool := match a with c1 :: ((c2 :: _) as t) => negb (Ascii.eqb c1 "[" && Ascii.eqb c2 "[") && single t | _ => true end.
Lemma quiet_check a : closed a = true -> single a = true -> quiet a.
Proof.
  intros A B. split.
  - intros x. revert a A B. induction x as [|h x IH]; intros a A B y ->.
    + discriminate B.
    + apply (IH (x ++ b "[[" ++ y)) with (y := y); [| |reflexivity].
      * cbn [app closed] in A. apply andb_true_iff in A. apply A.
      * cbn [app single] in B. destruct (x ++ b "[[" ++ y); [reflexivity|]. apply andb_true_iff in B. apply B.
  - intros x. revert a A B. induction x as [|h x IH]; intros a A B y ->.
    + cbn [app b list_ascii_of_string closed] in A. apply andb_true_iff in A. destruct A as [A _]. change (Ascii.eqb "<" "<") with true in A. cbn [negb orb] in A. apply existsb_exists in A.
      destruct A as (c & I & E). apply Ascii.eqb_eq in E. subst c. exact I.
    + apply (IH (x ++ b "<" ++ y)); [| |reflexivity].
      * cbn [app closed] in A. apply andb_true_iff in A. apply A.
      * cbn [app single] in B. destruct (x ++ b "<" ++ y); [reflexivity|]. apply andb_true_iff in B. apply B.
Qed.
Lemma plain_check r : existsb (N.eqb r) [91; 93; 60; 62; 32; 9; 10; 40; 41]%N = false -> plain_rune r.
Proof. cbn [existsb]. unfold plain_rune, stops. cbn [In]. lia. Qed.
Lemma nest_all n l : forallb (fun r => negb (existsb (N.eqb r) [91; 93; 60; 62; 32; 9; 10; 40; 41]%N)) l = true -> nest n l.
Proof.
  induction l as [|r l IH]; intros H; [constructor|]. cbn [forallb] in H. apply andb_true_iff in H. destruct H as [H1 H2]. constructor; [|auto]. apply plain_check. apply negb_true_iff. exact H1.
Qed.
Lemma char_check (p : ascii -> bool) (P : ascii -> Prop) l : (forall c, p c = true -> P c) -> forallb p l = true -> Forall P l.
Proof. intros H F. rewrite forallb_forall in F. apply Forall_forall. auto. Qed.
Definition stop_check (c : ascii) : bool := negb (existsb (N.eqb (N_of_ascii c)) stops || Ascii.eqb c ":").
Lemma stop_ok c : stop_check c = true -> ~ stop c /\ c <> ":"%char.
Proof.
  unfold stop_check, stop. intros H. apply negb_true_iff, orb_false_iff in H. destruct H as [H1 H2]. split.
  - intros I. assert (X : existsb (N.eqb (N_of_ascii c)) stops = true) by (apply existsb_exists; exists (N_of_ascii c); split; [exact I|apply N.eqb_refl]). congruence.
  - intros ->. discriminate.
Qed.
Lemma in_check {A} (eqb : A -> A -> bool) (H : forall x y, eqb x y = true <-> x = y) x l : existsb (eqb x) l = false -> ~ In x l.
Proof. intros E I. assert (X : existsb (eqb x) l = true) by (apply existsb_exists; exists x; split; [exact I|apply H; reflexivity]). congruence. Qed.
Lemma plain_word s : word (map (fun c => mkChar c false) s) s.
Proof. induction s as [|c s IH]; [constructor|]. cbn [map]. change (c :: s) with (char (mkChar c false) :: s). constructor. exact IH. Qed.
Lemma w_scheme w : In w ["doi"; "http"; "https"; "mid"]%string -> with_scheme w_schemes (b w).
Proof.
  intros I. split; [destruct I as [<-|[<-|[<-|[<-|[]]]]]; discriminate|]. exists (map (fun c => mkChar c false) (b w)). split; [|apply plain_word].
  unfold w_schemes. apply (in_map (fun s => map (fun c => mkChar c false) (b s))). exact I.
Qed.
Lemma w_simple : simple_schemes w_schemes.
Proof.
  intros s x Is Ix. assert (H : forallb (fun s => forallb (fun x => stop_check (char x)) s) w_schemes = true) by reflexivity.
  rewrite forallb_forall in H. specialize (H _ Is). rewrite forallb_forall in H. specialize (H _ Ix). apply stop_ok. exact H.
Qed.
Lemma w_sep edge a c : stop_check c = true -> ~ word_byte c -> (a = [] \/ exists y k, a = y ++ [k] /\ stop k) ->
  forallb (fun s => forallb (fun x => negb (Ascii.eqb (char x) c)) s) w_schemes = true -> separate w_schemes edge a [c].
Proof.
  intros S N A H. split; [constructor; [apply stop_ok; exact S|constructor]|]. split; [exact A|]. left. exists [], c. split; [reflexivity|]. split; [exact N|].
  intros s x Is Ix E. rewrite forallb_forall in H. specialize (H _ Is). rewrite forallb_forall in H. specialize (H _ Ix). rewrite E, Ascii.eqb_refl in H. discriminate.
Qed.
Lemma line_shown : shown w_schemes true (b w_line) w_links.
Proof.
  change (b w_line) with (b "Text [1], see " ++ bracket_line (b "http://a.org/x") (b "the site") ++ b ", " ++ b "<" ++ (b "doi" ++ b ":" ++ b "10.1/2") ++ b ">" ++
    b " and " ++ b "(" ++ (b "https" ++ b ":" ++ b "//b.org/(y)") ++ b ", " ++ [] ++ (b "mid" ++ b ":" ++ b "1@c") ++ b ").").
  apply (shown_bracket _ _ _ (b "http://a.org/x") (b "the site")).
  { apply quiet_check; reflexivity. } { discriminate. }
  { intros c [<-|[<-|[]]]; apply (in_check Ascii.eqb Ascii.eqb_eq); reflexivity. } { apply (in_check Ascii.eqb Ascii.eqb_eq); reflexivity. }
  apply (shown_angle _ _ (b ", ") (b "doi") (b "10.1/2")).
  { apply quiet_check; reflexivity. } { apply w_scheme. cbn; auto. } { apply (in_check Ascii.eqb Ascii.eqb_eq); reflexivity. }
  apply (shown_plain _ _ (b " and ") (b "(") (b "https") (b "//b.org/(y)")).
  { apply quiet_check; reflexivity. }
  { apply w_sep; [reflexivity|unfold word_byte; cbn; lia| |reflexivity]. right. exists (b " and"), " "%char. split; [reflexivity|]. vm_compute. auto 10. }
  { apply w_scheme. cbn; auto. } { exists "h"%char, (b "ttps"). split; [reflexivity|]. unfold word_byte. cbn. lia. }
  { exists (runes_of (b "//b.org/")), (runes_of (b "(y)")). split; [reflexivity|]. split; [discriminate|]. split; [apply nest_all; reflexivity|]. right. exists (runes_of (b "y")).
    split; [apply nest_all; reflexivity|reflexivity]. }
  { exists [44%N], (runes_of (b " mid:1@c).")). split; [reflexivity|]. split; [|vm_compute; auto 10]. constructor; [|constructor]. split; [apply plain_check; reflexivity|].
    unfold punct. lia. }
  apply (shown_plain _ _ (b ", ") [] (b "mid") (b "1@c")).
  { apply quiet_check; reflexivity. }
  { split; [constructor|]. split; [right; exists (b ","), " "%char; split; [reflexivity|vm_compute; auto 10]|]. right. split; [reflexivity|]. left. discriminate. }
  { apply w_scheme. cbn; auto. } { exists "m"%char, (b "id"). split; [reflexivity|]. unfold word_byte. cbn. lia. }
  { exists (runes_of (b "1@")), (runes_of (b "c")). split; [reflexivity|]. split; [discriminate|]. split; [apply nest_all; reflexivity|]. left. exists 99%N. split; [reflexivity|].
    split; [apply plain_check; reflexivity|]. unfold punct. lia. }
  { exists [], (runes_of (b ").")). split; [reflexivity|]. split; [constructor|]. right. reflexivity. }
  constructor.
Qed.
Lemma w_ok : Forall scheme_ok w_schemes.
Proof. repeat constructor; try discriminate. Qed.
Lemma w_variants4 : variants_of (map b ["doi"; "http"; "https"; "mid:"]%string) w_schemes.
Proof. split; [exact w_ok|]. constructor; [left; reflexivity|]. constructor; [left; reflexivity|]. constructor; [left; reflexivity|]. constructor; [right; reflexivity|]. constructor. Qed.
Lemma line_example : variants_of (map b ["doi"; "http"; "https"; "mid:"]%string) w_schemes /\ simple_schemes w_schemes /\
  shown w_schemes true (b w_line) w_links /\ Forall (fun l => proper w_schemes (fst l)) w_links /\
  (exists c, UpdateRe (map b ["doi"; "http"; "https"; "mid:"]%string) = Some c) /\
  w_org (map b ["doi"; "http"; "https"; "mid:"]%string) ["* H"; w_line]%string =
    Some (map (fun l => ([PNil; PHeading (Some (mkHeading 1 (b "H")))], mkLink (fst l) (snd l) 2)) w_links).
Proof.
  split; [exact w_variants4|]. split; [exact w_simple|]. split; [exact line_shown|]. split; [|split].
  - repeat constructor; cbn [fst]; [exists (b "http"), (b "//a.org/x")|exists (b "doi"), (b "10.1/2")|exists (b "https"), (b "//b.org/(y)")|exists (b "mid"), (b "1@c")];
      (split; [reflexivity|apply w_scheme; cbn; auto 10]).
  - destruct (UpdateRe _) as [c|] eqn:E; [eauto|]. exfalso. revert E. vm_compute. discriminate.
  - vm_compute. reflexivity.
Qed.
Lemma short_run : w_run (map b ["doi"; "http"; "https"; "mid:"]%string) (w_lines ["mid:1"]%string) = Some [].
Proof. vm_compute. reflexivity. Qed.
Lemma short_refute : ~ forall variants ss c u chunk f content broken t err lines e k w y,
  variants_of variants ss -> UpdateRe variants = Some c -> simple_schemes ss ->
  OrgExtract u c chunk f content broken = Done (Some t, err) -> seen_lines content broken lines e -> nth_error lines k = Some (w ++ b ":" ++ y) ->
  with_scheme ss w -> (exists c v, w = c :: v /\ word_byte c) -> y <> [] -> Forall (fun r => plain_rune r /\ ~ punct r) (runes_of y) ->
  passed f (mkLink (w ++ b ":" ++ y) [] (S k)) ->
  exists p, In (p, mkLink (w ++ b ":" ++ y) [] (S k)) (paths t).
Proof.
  intros H. destruct (run_ok _ _ _ short_run) as (c & t & U & E & P).
  assert (SN : seen_lines (w_lines ["mid:1"]%string) false (map b ["mid:1"]%string) None).
  { apply w_seen; apply Forall_forall; intros l Il; apply (seen_check ["mid:1"%string]); try reflexivity; exact Il. }
  destruct (H _ _ _ _ _ _ _ _ _ _ _ _ 0 (b "mid") (b "1") w_variants4 U w_simple E SN eq_refl) as (p & I).
  - apply w_scheme. cbn; auto 10.
  - exists "m"%char, (b "id"). split; [reflexivity|]. unfold word_byte. cbn. lia.
  - discriminate.
  - change (runes_of (b "1")) with [49%N]. constructor; [|constructor]. split; [apply plain_check; reflexivity|]. unfold punct. lia.
  - exact Logic.I.
  - rewrite P in I. destruct I.
Qed.
