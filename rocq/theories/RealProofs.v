(** Sets of links of several files. *)
From Verif Require Import GoBase GoSlice Utf8 Utf8Proofs Flags LinkTypes LinkTree LinkSpec LinkMain Emacs Backend BackendSpec BackendProofs BackendConc BackendMain BackendNotes
  Scanner ScannerSpec ScannerProofs Extract ExtractSpec OrgProofs ExtractMain ExtractWitness SetSpec SetProofs SetMain Real.
From Coq Require Import Permutation.

Lemma set_chunk k chunk chunk' content broken filters set : ExtractSet k chunk content broken filters set = ExtractSet k chunk' content broken filters set.
Proof. unfold ExtractSet. destruct (lines_exists content) as (all & L). rewrite !(scan_lines_ok broken _ content _ L). reflexivity. Qed.
Lemma valid_dec s : {valid_utf8 s} + {~ valid_utf8 s}.
Proof. destruct (str_dec (string_of (runes_of s)) s) as [E|E]; [left|right]; rewrite <- string_runes_iff; exact E. Qed.
Lemma prefixes_dec filters : prefixes_ok filters \/ ~ prefixes_ok filters.
Proof.
  destruct filters as [|p0 ps] eqn:E; [right; intros [H _]; congruence|]. rewrite <- E.
  pose proof (set_base_ok filters) as B. destruct (set_base filters) as [bs|].
  - destruct B as [B _]. destruct (Forall_dec (fun p => valid_utf8 p) valid_dec filters) as [V|V].
    + left. split; [rewrite E; discriminate|]. apply Forall_forall. rewrite Forall_forall in B, V. auto.
    + right. intros [_ H]. apply V. eapply Forall_impl; [|exact H]. intros p [_ X]. exact X.
  - right. intros [_ H]. apply Exists_exists in B. destruct B as (p & I & NP). rewrite Forall_forall in H. apply NP, H, I.
Qed.

(** Links of a file that is read successfully *)
Definition file_set (chunk : nat -> N) (p : list str) (src : source) (rd : str * rres) (found : list str) : Prop :=
  exists content broken, rd = (snd src, RData content broken) /\ ExtractSet (fst src) chunk content broken p [] = Done (found, None).
Lemma set_once k content broken p chunk set set' : ExtractSet k chunk content broken p set = Done (set', None) ->
  prefixes_ok p /\ exists found lines, ExtractSet k chunk content broken p [] = Done (found, None) /\ (forall x, In x set' <-> In x set \/ In x found) /\ (NoDup set -> NoDup set') /\
    seen_lines content broken lines None /\ Forall (fun x => exists line, In line lines /\ set_link k p line x) found.
Proof.
  intros E. destruct (prefixes_dec p) as [H|H]; [|rewrite set_rejected in E by exact H; discriminate]. split; [exact H|].
  destruct (seen_exists content broken) as (lines & err & S). destruct (set_file k content broken p lines err H S) as (found & L & _ & X).
  destruct (X chunk set) as (s1 & E1 & I1 & N1). rewrite E in E1. injection E1 as <- Ee. subst err. destruct (X chunk []) as (s2 & E2 & I2 & N2). exists s2, lines.
  split; [exact E2|]. split; [intros x; rewrite I1, I2; cbn; tauto|]. split; [exact N1|]. split; [exact S|]. apply Forall_forall. intros x I. apply I2 in I. destruct I as [[]|I].
  rewrite Forall_forall in L. auto.
Qed.
Lemma set_union u c chunk p srcs reads set set' : set_from (real u c chunk) p srcs reads set set' None ->
  (srcs <> [] -> prefixes_ok p) /\ map fst reads = map snd srcs /\ (NoDup set -> NoDup set') /\
  (Forall (fun x => exists found, file_set chunk p (fst x) (snd x) found) (combine srcs reads)) /\
  (forall x, In x set' <-> In x set \/ exists src rd found, In (src, rd) (combine srcs reads) /\ file_set chunk p src rd found /\ In x found).
Proof.
  intros H. remember None as err eqn:Ee. induction H as [set| | |src srcs content broken reads set set1 set2 err E H IH]; try discriminate.
  - split; [congruence|]. split; [reflexivity|]. split; [auto|]. split; [constructor|]. intros x. split; [auto|]. intros [I|(? & ? & ? & [] & _)]. exact I.
  - destruct (IH Ee) as (A & B & C & G & D). cbn [real xset] in E. apply set_once in E. destruct E as (P & found & lines & EF & I & N & _).
    assert (FS : file_set chunk p src (snd src, RData content broken) found) by (exists content, broken; auto).
    split; [auto|]. split; [cbn [map fst]; rewrite B; reflexivity|]. split; [auto|]. split; [cbn [combine]; constructor; [exists found; exact FS|exact G]|].
    intros x. rewrite D, I. cbn [combine]. split.
    + intros [[J|J]|(s & rd & f & J & F & J')]; [auto|right; exists src, (snd src, RData content broken), found; split; [left; reflexivity|auto]|].
      right. exists s, rd, f. split; [right; exact J|auto].
    + intros [J|(s & rd & f & [J|J] & F & J')]; [auto|injection J as <- <-|right; eauto 6].
      destruct F as (content' & broken' & Er & F). injection Er as <- <-. rewrite EF in F. injection F as <-. auto.
Qed.
Lemma set_failed u c chunk p srcs reads set set' err : set_from (real u c chunk) p srcs reads set set' err -> ~ prefixes_ok p -> srcs <> [] ->
  set' = set /\ exists src srcs', srcs = src :: srcs' /\ ((reads = [(snd src, RNone)] /\ err = Some EOpen) \/ exists content broken, reads = [(snd src, RData content broken)] /\ err = Some EPrefix).
Proof.
  intros H N NE. destruct H as [set|src srcs set|src srcs content broken set set' e E|src srcs content broken reads set set1 set2 err E H].
  - congruence.
  - split; [reflexivity|]. exists src, srcs. auto.
  - cbn [real xset] in E. rewrite set_rejected in E by exact N. injection E as <- <-. split; [reflexivity|]. exists src, srcs. split; [reflexivity|]. right. eauto.
  - cbn [real xset] in E. rewrite set_rejected in E by exact N. discriminate.
Qed.

Lemma linkset_real e users bk qs g tr g' ts i o p u c chunk : booted e users g -> steps e (initializer bk) (g, serving bk qs) tr (g', ts) ->
  nth_error qs i = Some (o, QLinkSet p) -> fair_orders o -> ext bk = real u c chunk ->
  forall urls, replied (of_thread i tr) (PLinkSet urls) ->
  linkSetDisabled bk = false /\ length p <= 16 /\ (srcFiles bk <> [] -> prefixes_ok p) /\
  NoDup urls /\ map fst (own_reads (of_thread i tr)) = map snd (srcFiles bk) /\
  (forall x, In x urls <-> exists src rd found, In (src, rd) (combine (srcFiles bk) (own_reads (of_thread i tr))) /\ file_set chunk p src rd found /\ In x found).
Proof.
  intros B S N F X urls R. destruct (linkset_served _ _ _ _ _ _ _ _ _ _ _ B S N F) as (_ & K). destruct (K _ R) as (K1 & K2 & _ & K3).
  destruct (linkSetDisabled bk) eqn:D; [discriminate K1; reflexivity|]. split; [reflexivity|]. destruct (le_lt_dec (length p) 16) as [L|L]; [|discriminate (K2 eq_refl L)].
  split; [exact L|]. destruct (K3 eq_refl L) as (set & err & SF & EQ). destruct err as [er|]; [discriminate|]. destruct EQ as (urls' & E & P). injection E as <-.
  rewrite X in SF. destruct (set_union _ _ _ _ _ _ _ _ SF) as (A1 & A2 & A3 & _ & A4). split; [exact A1|]. split; [eapply Permutation_NoDup; [apply Permutation_sym, P|apply A3; constructor]|].
  split; [exact A2|]. intros x. rewrite (Permutation_in' (eq_refl x) P), A4. cbn. tauto.
Qed.

Lemma linkset_prefixes e users bk qs g tr g' ts i o p u c chunk : booted e users g -> steps e (initializer bk) (g, serving bk qs) tr (g', ts) ->
  nth_error qs i = Some (o, QLinkSet p) -> fair_orders o -> ext bk = real u c chunk ->
  forall urls x, replied (of_thread i tr) (PLinkSet urls) -> In x urls ->
  exists src content broken lines line, In src (srcFiles bk) /\ In (snd src, RData content broken) (own_reads (of_thread i tr)) /\
    seen_lines content broken lines None /\ In line lines /\ set_link (fst src) p line x.
Proof.
  intros B S N F X urls x R I. destruct (linkset_real _ _ _ _ _ _ _ _ _ _ _ _ _ _ B S N F X urls R) as (_ & _ & _ & _ & _ & K).
  apply K in I. destruct I as (src & rd & found & J & (content & broken & -> & E) & I). pose proof (in_combine_l _ _ _ _ J) as J1. apply in_combine_r in J.
  destruct (set_once _ _ _ _ _ _ _ E) as (_ & found' & lines & E' & _ & _ & Sn & L). rewrite E in E'. injection E' as <-. rewrite Forall_forall in L.
  destruct (L x I) as (line & Il & SL). exists src, content, broken, lines, line. auto.
Qed.
Lemma linkset_checked e users bk qs g tr g' ts i o p u c chunk : booted e users g -> steps e (initializer bk) (g, serving bk qs) tr (g', ts) ->
  nth_error qs i = Some (o, QLinkSet p) -> fair_orders o -> ext bk = real u c chunk -> forall r, replied (of_thread i tr) r ->
  (linkSetDisabled bk = true -> r = PError EDisabled) /\
  (linkSetDisabled bk = false -> 16 < length p -> r = PError ETooMany) /\
  (linkSetDisabled bk = false -> length p <= 16 -> ~ prefixes_ok p -> srcFiles bk <> [] ->
     exists src srcs, srcFiles bk = src :: srcs /\
       ((own_reads (of_thread i tr) = [(snd src, RNone)] /\ r = PError EOpen) \/
        exists content broken, own_reads (of_thread i tr) = [(snd src, RData content broken)] /\ r = PError EPrefix)).
Proof.
  intros B S N F X r R. destruct (linkset_served _ _ _ _ _ _ _ _ _ _ _ B S N F) as (_ & K). destruct (K _ R) as (K1 & K2 & _ & K3).
  split; [exact K1|]. split; [exact K2|]. intros D L NP NE. destruct (K3 D L) as (set & err & SF & EQ). rewrite X in SF.
  destruct (set_failed _ _ _ _ _ _ _ _ _ SF NP NE) as (_ & src & srcs & E & [[E1 ->]|(content & broken & E1 & ->)]); exists src, srcs; (split; [exact E|]); eauto.
Qed.

(** ** Statements for properties and witnesses *)
Lemma set_found k content broken filters lines err : prefixes_ok filters -> seen_lines content broken lines err ->
  exists found, Forall (fun x => exists line, In line lines /\ set_link k filters line x) found /\
    forall chunk set, exists set', ExtractSet k chunk content broken filters set = Done (set', err) /\
      (forall x, In x set' <-> In x set \/ In x found) /\ (NoDup set -> NoDup set').
Proof. intros H S. destruct (set_file k content broken filters lines err H S) as (found & L & _ & X). exists found. auto. Qed.
Lemma set_whole chunk content broken filters lines err set t d more : prefixes_ok filters -> seen_lines content broken lines err ->
  In (bracket_line t d) lines -> no_brackets t -> no_brackets d -> (exists p q, In p filters /\ full_prefix p q /\ t = q ++ more) ->
  exists set', ExtractSet Org chunk content broken filters set = Done (set', err) /\ In t set'.
Proof.
  intros H S I N1 N2 P. destruct (set_file Org content broken filters lines err H S) as (found & _ & W & X). destruct (X chunk set) as (set' & E & J & _).
  exists set'. split; [exact E|]. apply J. right. exact (W eq_refl t d more I N1 N2 P).
Qed.
Lemma prefixes_check filters : filters <> [] -> (match set_base filters with Some _ => true | None => false end) = true ->
  forallb (fun p => str_eqb (string_of (runes_of p)) p) filters = true -> prefixes_ok filters.
Proof.
  intros NE B V. pose proof (set_base_ok filters) as K. destruct (set_base filters) as [bs|]; [|discriminate]. destruct K as [K _]. split; [exact NE|].
  rewrite Forall_forall in *. rewrite forallb_forall in V. intros p I. split; [apply K, I|]. apply string_runes_iff, str_eqb_eq, V, I.
Qed.
Lemma w_check lines : forallb line_check lines = true -> seen_lines (w_lines lines) false (map b lines) None.
Proof. intros F. apply w_seen; apply Forall_forall; intros l I; apply (seen_check _ _ F I). Qed.

Definition w_bytes (l : list nat) : str := map ascii_of_nat l.
(** U+FFFD and a byte that is not valid UTF-8 *)
Definition w_fffd : str := b "x:" ++ w_bytes [239; 191; 189].
Definition w_invalid : str := b "x:" ++ w_bytes [255] ++ b "yz".
Lemma replacement_found : ~ (forall k chunk content broken filters set x, ExtractSet k chunk content broken filters [] = Done (set, None) -> In x set ->
  exists p q more, In p filters /\ full_prefix p q /\ x = q ++ more).
Proof.
  intros H. destruct (H Txt w_chunk w_invalid false [w_fffd] [w_invalid] w_invalid) as (p & q & more & [<-|[]] & F & E).
  - vm_compute. reflexivity.
  - left. reflexivity.
  - destruct F as [[_ ->]|[F _]]; [discriminate E|]. apply F. right. left. reflexivity.
Qed.
(** KELVIN SIGN *)
Definition w_kelvin : str := w_bytes [226; 132; 170].
Lemma kelvin_accepted : ~ (forall k chunk content broken filters set, ExtractSet k chunk content broken filters [] = Done (set, None) ->
  forall p scheme more, In p filters -> p = scheme ++ more -> ~ In ":"%char scheme -> Forall (fun c => (N_of_ascii c < 128)%N) scheme).
Proof.
  intros H. specialize (H Org w_chunk (b "[[" ++ w_kelvin ++ b ":xy]]") false [w_kelvin] [w_kelvin ++ b ":xy"]). assert (A : Forall (fun c => (N_of_ascii c < 128)%N) w_kelvin).
  - apply (H ltac:(vm_compute; reflexivity) w_kelvin w_kelvin []); [left; reflexivity|rewrite app_nil_r; reflexivity|]. intros [|[|[|[]]]]; discriminate.
  - inversion_clear A as [|? ? X]. vm_compute in X. discriminate.
Qed.
