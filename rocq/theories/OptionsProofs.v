(** Command line of the backend. *)
From Verif Require Import GoBase Flags FlagsSpec FlagsProofs ToolsSpec OutputSpec OptionsSpec.
Local Open Scope nat_scope.

(** ** Parser *)
Definition kind_ok (n : str) (o : opt) : Prop :=
  match o with OBool _ => In n switches | _ => In n settings end.
Lemma find_kind n o : find_option n options = Some o -> kind_ok n o.
Proof.
  unfold options. cbn [find_option].
  repeat match goal with |- (if str_eqb n ?x then _ else _) = _ -> _ => destruct (str_eqb_spec n x) as [->|]; [intros [= <-]; cbn; tauto|] end. discriminate.
Qed.
Lemma find_switch n : In n switches -> exists set, find_option n options = Some (OBool set).
Proof. intros I. cbn in I. repeat (destruct I as [<-|I]; [eexists; vm_compute; reflexivity|]). destruct I. Qed.
Lemma find_setting n : In n settings -> exists o, find_option n options = Some o /\ (forall set, o <> OBool set).
Proof. intros I. cbn in I. repeat (destruct I as [<-|I]; [eexists; split; [reflexivity|discriminate]|]). destruct I. Qed.
Definition word_name (n : str) : Prop := exists a n', n = a :: n' /\ ~ In "="%char n /\ a <> "-"%char.
Lemma switch_name n : In n switches -> word_name n.
Proof. intros I. cbn in I. repeat (destruct I as [<-|I]; [eexists _, _; split; [reflexivity|]; split; [cbn; intuition discriminate|discriminate]|]). destruct I. Qed.
Lemma setting_name n : In n settings -> word_name n.
Proof. intros I. cbn in I. repeat (destruct I as [<-|I]; [eexists _, _; split; [reflexivity|]; split; [cbn; intuition discriminate|discriminate]|]). destruct I. Qed.

Definition flag_case (rest : list str) (c : config) (name : str) : option (config * list str) :=
  match name with
  | [] => None
  | "-"%char :: _ | "="%char :: _ => None
  | _ =>
      let '(name, value) := split_value name in
      match find_option name options with
      | None => None
      | Some (OBool _ as o) =>
          match set_option o c (match value with Some v => v | None => b "true" end) with
          | Some c' => Parse rest c'
          | None => None
          end
      | Some o =>
          match value with
          | Some v => match set_option o c v with Some c' => Parse rest c' | None => None end
          | None => match rest with [] => None | v :: rest' => match set_option o c v with Some c' => Parse rest' c' | None => None end end
          end
      end
  end.
Lemma parse_word a s rest c : Parse (("-"%char :: a :: s) :: rest) c =
  if Ascii.eqb a "-" then match s with [] => Some (c, rest) | _ => flag_case rest c s end else flag_case rest c (a :: s).
Proof. reflexivity. Qed.
Lemma cut_none s : ~ In "="%char s -> cut_value s = (s, None).
Proof.
  induction s as [|a s IH]; intros N; [reflexivity|]. cbn [cut_value].
  assert (a <> "="%char) by (intros ->; apply N; left; reflexivity). rewrite IH by (intros I; apply N; right; exact I).
  destruct a as [[] [] [] [] [] [] [] []]; try reflexivity. contradiction.
Qed.
Lemma cut_some s v : ~ In "="%char s -> cut_value (s ++ b "=" ++ v) = (s, Some v).
Proof.
  induction s as [|a s IH]; intros N; [reflexivity|]. cbn [cut_value app].
  assert (a <> "="%char) by (intros ->; apply N; left; reflexivity). cbn [app] in IH. rewrite IH by (intros I; apply N; right; exact I).
  destruct a as [[] [] [] [] [] [] [] []]; try reflexivity. contradiction.
Qed.
Lemma split_case rest c a n : a <> "-"%char -> a <> "="%char -> flag_case rest c (a :: n) =
      let '(name, value) := split_value (a :: n) in
      match find_option name options with
      | None => None
      | Some (OBool _ as o) =>
          match set_option o c (match value with Some v => v | None => b "true" end) with
          | Some c' => Parse rest c'
          | None => None
          end
      | Some o =>
          match value with
          | Some v => match set_option o c v with Some c' => Parse rest c' | None => None end
          | None => match rest with [] => None | v :: rest' => match set_option o c v with Some c' => Parse rest' c' | None => None end end
          end
      end.
Proof. intros N1 N2. destruct a as [[] [] [] [] [] [] [] []]; try reflexivity; contradiction. Qed.

Definition set_named (n v : str) (c : config) : option config :=
  match find_option n options with Some o => set_option o c v | None => None end.
Definition then_parse (rest : list str) (x : option config) : option (config * list str) := match x with Some c => Parse rest c | None => None end.

Lemma word_parse d n t rest c : dashes d -> word_name n -> (t = [] \/ exists t', t = b "=" ++ t') -> Parse ((d ++ n ++ t) :: rest) c = flag_case rest c (n ++ t).
Proof.
  intros D (a & n' & -> & N & Na) _. destruct D as [-> | ->].
  - change ((b "-" ++ (a :: n') ++ t)) with ("-"%char :: a :: n' ++ t). rewrite parse_word. destruct (Ascii.eqb_spec a "-"); [contradiction|]. reflexivity.
  - change ((b "--" ++ (a :: n') ++ t)) with ("-"%char :: "-"%char :: a :: n' ++ t). rewrite parse_word. reflexivity.
Qed.
Lemma word_alone rest c n : word_name n -> flag_case rest c n =
  match find_option n options with
  | None => None
  | Some (OBool _ as o) => then_parse rest (set_option o c (b "true"))
  | Some o => match rest with [] => None | v :: rest' => then_parse rest' (set_option o c v) end
  end.
Proof.
  intros (a & n' & -> & N & Na). assert (a <> "="%char) by (intros ->; apply N; left; reflexivity). rewrite split_case by assumption.
  assert (E : split_value (a :: n') = (a :: n', None)) by (unfold split_value; rewrite cut_none; [reflexivity|intros I; apply N; right; exact I]). rewrite E. reflexivity.
Qed.
Lemma word_value rest c n v : word_name n -> flag_case rest c (n ++ b "=" ++ v) = then_parse rest (set_named n v c).
Proof.
  intros (a & n' & -> & N & Na). assert (a <> "="%char) by (intros ->; apply N; left; reflexivity). cbn [app]. rewrite split_case by assumption.
  assert (E : split_value (a :: n' ++ b "=" ++ v) = (a :: n', Some v)) by (unfold split_value; rewrite cut_some; [reflexivity|intros I; apply N; right; exact I]).
  cbn [app] in E. rewrite E. unfold set_named. destruct (find_option (a :: n') options) as [[]|]; reflexivity.
Qed.

Fixpoint apply_all (l : list (str * str)) (c : config) : option config :=
  match l with
  | [] => Some c
  | (n, v) :: l' => match set_named n v c with Some c' => apply_all l' c' | None => None end
  end.
Lemma remaining_parse args rest c : remaining args rest -> Parse args c = Some (c, rest).
Proof.
  intros []; try reflexivity. destruct s as [|a s]; [reflexivity|].
  assert (a <> "-"%char) by (intros ->; eapply H; reflexivity). destruct a as [[] [] [] [] [] [] [] []]; try reflexivity. contradiction.
Qed.
Lemma option_parse n v w args c : In n settings -> option_words n v w -> Parse (w ++ args) c = then_parse args (set_named n v c).
Proof.
  intros I (d & D & [-> | ->]).
  - cbn [app]. rewrite <- (app_nil_r n) at 1. rewrite word_parse by (auto using setting_name). rewrite app_nil_r, word_alone by (apply setting_name, I).
    unfold set_named. destruct (find_setting n I) as (o & E & N). rewrite E. destruct o; [reflexivity|reflexivity|exfalso; eapply N; reflexivity].
  - cbn [app]. rewrite word_parse by (eauto using setting_name). rewrite word_value by (apply setting_name, I). reflexivity.
Qed.
Lemma on_parse n d args c : In n switches -> dashes d -> Parse ((d ++ n) :: args) c = then_parse args (set_named n (b "true") c).
Proof.
  intros I D. rewrite <- (app_nil_r n) at 1. rewrite word_parse by (auto using switch_name). rewrite app_nil_r, word_alone by (apply switch_name, I).
  unfold set_named. destruct (find_switch n I) as (o & E). rewrite E. reflexivity.
Qed.
Lemma switch_parse n v d args c : In n switches -> dashes d -> Parse ((d ++ n ++ b "=" ++ v) :: args) c = then_parse args (set_named n v c).
Proof. intros I D. rewrite word_parse by (eauto using switch_name). apply word_value, switch_name, I. Qed.
Lemma line_parse args l rest : line args l rest -> forall c, Parse args c = match apply_all l c with Some c' => Some (c', rest) | None => None end.
Proof.
  induction 1 as [args rest R|n v w args l rest I W L IH|n d args l rest I D L IH|n v d args l rest I D L IH]; intros c.
  - apply remaining_parse, R.
  - rewrite (option_parse _ _ _ _ _ I W). cbn [apply_all]. destruct (set_named n v c); [apply IH|reflexivity].
  - rewrite (on_parse _ _ _ _ I D). cbn [apply_all]. destruct (set_named n (b "true") c); [apply IH|reflexivity].
  - rewrite (switch_parse _ _ _ _ _ I D). cbn [apply_all]. destruct (set_named n v c); [apply IH|reflexivity].
Qed.

(** ** Every command line *)
Definition line_class (args : list str) : Prop := (exists l rest, line args l rest) \/ forall c, Parse args c = None.
Lemma split_value_spec n : split_value n = (n, None) \/ exists m v, split_value n = (m, Some v) /\ n = m ++ b "=" ++ v.
Proof.
  assert (C : forall s, cut_value s = (s, None) \/ exists m v, cut_value s = (m, Some v) /\ s = m ++ b "=" ++ v).
  { induction s as [|a s IH]; [left; reflexivity|]. cbn [cut_value]. destruct (ascii_dec a "="%char) as [->|Na]; [right; exists [], s; split; reflexivity|].
    assert (E : cut_value (a :: s) = let '(n, v) := cut_value s in (a :: n, v)) by (destruct a as [[] [] [] [] [] [] [] []]; try reflexivity; contradiction).
    cbn [cut_value] in E. rewrite E. destruct IH as [-> | (m & v & -> & ->)]; [left; reflexivity|right; exists (a :: m), v; split; reflexivity]. }
  destruct n as [|a n]; [left; reflexivity|]. cbn [split_value]. destruct (C n) as [-> | (m & v & -> & ->)]; [left; reflexivity|right; exists (a :: m), v; split; reflexivity].
Qed.
Lemma word_class d nm rest : dashes d -> nm <> [] -> (forall c, Parse ((d ++ nm) :: rest) c = flag_case rest c nm) ->
  (forall ws, length ws <= length rest -> line_class ws) -> line_class ((d ++ nm) :: rest).
Proof.
  intros D NE P IH. destruct nm as [|a nm']; [congruence|].
  destruct (ascii_dec a "-"%char) as [->|Na1]; [right; intros c; rewrite P; reflexivity|].
  destruct (ascii_dec a "="%char) as [->|Na2]; [right; intros c; rewrite P; reflexivity|].
  set (nm := a :: nm') in *.
  destruct (split_value_spec nm) as [E|(n & v & E & En)].
  - destruct (find_option nm options) as [o|] eqn:F; [|right; intros c; rewrite P; unfold nm; rewrite split_case by assumption; fold nm; rewrite E, F; reflexivity].
    pose proof (find_kind _ _ F) as K. destruct o as [st|gt st|st]; cbn [kind_ok] in K.
    + destruct rest as [|v rest]; [right; intros c; rewrite P; unfold nm; rewrite split_case by assumption; fold nm; rewrite E, F; reflexivity|].
      assert (W : option_words nm v [d ++ nm; v]) by (exists d; auto). change ((d ++ nm) :: v :: rest) with ([d ++ nm; v] ++ rest).
      destruct (IH rest ltac:(apply le_S, le_n)) as [(l & r & L)|N]; [left; exists ((nm, v) :: l), r; constructor; assumption|].
      right. intros c. rewrite (option_parse _ _ _ _ _ K W). destruct (set_named nm v c); [apply N|reflexivity].
    + destruct rest as [|v rest]; [right; intros c; rewrite P; unfold nm; rewrite split_case by assumption; fold nm; rewrite E, F; reflexivity|].
      assert (W : option_words nm v [d ++ nm; v]) by (exists d; auto). change ((d ++ nm) :: v :: rest) with ([d ++ nm; v] ++ rest).
      destruct (IH rest ltac:(apply le_S, le_n)) as [(l & r & L)|N]; [left; exists ((nm, v) :: l), r; constructor; assumption|].
      right. intros c. rewrite (option_parse _ _ _ _ _ K W). destruct (set_named nm v c); [apply N|reflexivity].
    + destruct (IH rest (le_n _)) as [(l & r & L)|N]; [left; exists ((nm, b "true") :: l), r; constructor; assumption|].
      right. intros c. rewrite (on_parse _ _ _ _ K D). destruct (set_named nm (b "true") c); [apply N|reflexivity].
  - destruct (find_option n options) as [o|] eqn:F; [|right; intros c; rewrite P; unfold nm; rewrite split_case by assumption; fold nm; rewrite E, F; reflexivity].
    pose proof (find_kind _ _ F) as K. rewrite En.
    assert (V : In n settings -> line_class ((d ++ n ++ b "=" ++ v) :: rest)).
    { intros I. assert (W : option_words n v [d ++ n ++ b "=" ++ v]) by (exists d; auto). change ((d ++ n ++ b "=" ++ v) :: rest) with ([d ++ n ++ b "=" ++ v] ++ rest).
      destruct (IH rest (le_n _)) as [(l & r & L)|N]; [left; exists ((n, v) :: l), r; constructor; assumption|].
      right. intros c. rewrite (option_parse _ _ _ _ _ I W). destruct (set_named n v c); [apply N|reflexivity]. }
    destruct o as [st|gt st|st]; cbn [kind_ok] in K; [exact (V K)|exact (V K)|].
    destruct (IH rest (le_n _)) as [(l & r & L)|N]; [left; exists ((n, v) :: l), r; constructor; assumption|].
    right. intros c. rewrite (switch_parse _ _ _ _ _ K D). destruct (set_named n v c); [apply N|reflexivity].
Qed.
Lemma args_class : forall k args, length args <= k -> line_class args.
Proof.
  induction k as [|k IH]; intros args L.
  - destruct args; [|cbn in L; lia]. left. exists [], []. constructor. constructor.
  - destruct args as [|s rest]; [left; exists [], []; constructor; constructor|]. cbn [length] in L.
    assert (Rem : forall rest', remaining (s :: rest) rest' -> line_class (s :: rest)) by (intros rest' R; left; exists [], rest'; constructor; exact R).
    assert (IH' : forall ws, length ws <= length rest -> line_class ws) by (intros ws Lw; apply IH; apply le_S_n; eapply Nat.le_trans; [apply le_n_S, Lw|exact L]).
    destruct s as [|a s]; [eapply Rem, rem_plain; discriminate|]. destruct (ascii_dec a "-"%char) as [->|Na]; [|eapply Rem, rem_plain; congruence].
    destruct s as [|a s]; [eapply Rem, rem_dash|]. destruct (ascii_dec a "-"%char) as [->|Na].
    + destruct s as [|a s]; [eapply Rem, rem_separator|]. change ("-"%char :: "-"%char :: a :: s) with (b "--" ++ a :: s).
      apply word_class; [right; reflexivity|discriminate|intros c; apply parse_word|exact IH'].
    + change ("-"%char :: a :: s) with (b "-" ++ a :: s). apply word_class; [left; reflexivity|discriminate| |exact IH'].
      intros c. change (b "-" ++ a :: s) with ("-"%char :: a :: s). rewrite parse_word. destruct (Ascii.eqb_spec a "-"); [contradiction|reflexivity].
Qed.

(** ** Values of options *)
Lemma said_app ns l1 l2 : said ns (l1 ++ l2) = said ns l1 ++ said ns l2.
Proof. unfold said. rewrite filter_app, map_app. reflexivity. Qed.
Lemma apply_app l1 l2 c : apply_all (l1 ++ l2) c = match apply_all l1 c with Some c' => apply_all l2 c' | None => None end.
Proof. revert c. induction l1 as [|[n v] l1 IH]; intros c; [reflexivity|]. cbn [app apply_all]. destruct (set_named n v c); [apply IH|reflexivity]. Qed.
Lemma history_snoc d vs v : history d (vs ++ [v]) = accept (history d vs) v.
Proof. unfold history. rewrite fold_left_app. reflexivity. Qed.
Lemma last_snoc (l : list str) x d : last (l ++ [x]) d = x.
Proof. apply last_last. Qed.
Lemma bool_truth v x : ParseBool v = Some x <-> truth v x.
Proof.
  assert (EX : forall l, existsb (str_eqb v) l = true <-> In v l).
  { intros l. rewrite existsb_exists. split; [intros (y & I & E); destruct (str_eqb_spec v y); [congruence|discriminate]|intros I; exists v; split; [exact I|apply str_eqb_refl]]. }
  unfold ParseBool, truth. destruct (existsb (str_eqb v) (map b ["1"; "t"; "T"; "true"; "TRUE"; "True"]%string)) eqn:E1.
  - pose proof (proj1 (EX _) E1) as I1. split; [intros [= <-]; left; auto|]. intros [[-> _]|[-> I2]]; [reflexivity|].
    exfalso. cbn in I1, I2. destruct I2 as [<-|[<-|[<-|[<-|[<-|[<-|[]]]]]]]; intuition discriminate.
  - destruct (existsb (str_eqb v) (map b ["0"; "f"; "F"; "false"; "FALSE"; "False"]%string)) eqn:E2.
    + split; [intros [= <-]; right; split; [reflexivity|]; apply EX, E2|]. intros [[-> I2]|[-> _]]; [apply EX in I2; congruence|reflexivity].
    + split; [discriminate|]. intros [[-> I2]|[-> I2]]; apply EX in I2; congruence.
Qed.

Record settled (schemes users mozilla chrome : list str) (l : list (str * str)) (c : config) : Prop := mkSettled {
  st_log : LogFile c = last_value "log" l (b "-");
  st_command : Command c = last_value "emacsclient" l (b "emacsclient");
  st_name : Name c = last_value "backend" l [];
  st_wrapper : WrapperPath c = last_value "wrapper" l [];
  st_firefox : FirefoxManifest c = last_value "manifest-firefox" l [];
  st_chrome : ChromeManifest c = last_value "manifest-chrome" l [];
  st_scheme : Scheme c = history schemes (said [b "scheme"] l);
  st_users : EmacsArgs c = history users (said [b "emacsarg"] l);
  st_mozilla : MozillaExtensionID c = history mozilla (said [b "mozilla-extension"] l);
  st_ids : ChromeExtensionID c = history chrome (said [b "chrome-extension"] l);
  st_help : switched ["h"; "help"]%string l (Help c);
  st_version : switched ["version"; "v"; "V"]%string l (Version c);
  st_disable : switched ["disable-link-set"]%string l (DisableLinkSet c);
  st_force : switched ["force"]%string l (Force c);
  st_sources : LinkSources c = given_sources l }.
Lemma truth_false : truth (b "false") false.
Proof. right. split; [reflexivity|]. cbn. tauto. Qed.
Lemma settled_nil schemes users mozilla chrome : settled schemes users mozilla chrome [] (defaults schemes users mozilla chrome).
Proof. constructor; try reflexivity; exact truth_false. Qed.
Lemma given_app l1 l2 : given_sources (l1 ++ l2) = given_sources l1 ++ given_sources l2.
Proof. apply flat_map_app. Qed.
Lemma accept_set f v f' : mSet f v = Some f' -> accept f v = f'.
Proof. unfold accept. intros ->. reflexivity. Qed.

Lemma said_hit ns l n v : existsb (str_eqb n) ns = true -> said ns (l ++ [(n, v)]) = said ns l ++ [v].
Proof. intros H. rewrite said_app. unfold said at 2. cbn [filter fst]. rewrite H. reflexivity. Qed.
Lemma said_miss ns l n v : existsb (str_eqb n) ns = false -> said ns (l ++ [(n, v)]) = said ns l.
Proof. intros H. rewrite said_app. unfold said at 2. cbn [filter fst]. rewrite H. apply app_nil_r. Qed.
Ltac field_case :=
  first [ rewrite said_miss by reflexivity; assumption
        | rewrite said_hit by reflexivity; rewrite last_snoc; first [reflexivity|assumption]
        | rewrite said_hit by reflexivity; rewrite history_snoc; symmetry; apply accept_set; assumption
        | rewrite given_app; cbn [given_sources flat_map fst snd str_eqb]; rewrite ?app_nil_r; match goal with H : LinkSources _ = _ |- _ => rewrite <- H; reflexivity end ].
Lemma settled_snoc schemes users mozilla chrome l c n v c' : settled schemes users mozilla chrome l c -> set_named n v c = Some c' ->
  settled schemes users mozilla chrome (l ++ [(n, v)]) c'.
Proof.
  intros [H1 H2 H3 H4 H5 H6 H7 H8 H9 H10 H11 H12 H13 H14 H15] E. unfold set_named, options in E. cbn [find_option] in E.
  unfold last_value, switched in *.
  repeat match type of E with context [str_eqb n ?x] => destruct (str_eqb_spec n x) as [->|] end; try discriminate E; cbn [set_option] in E;
  try (match type of E with option_map _ (ParseBool ?v) = _ => destruct (ParseBool v) as [x|] eqn:B; [|discriminate E]; apply bool_truth in B; cbn [option_map] in E end);
  try (match type of E with option_map _ (mSet ?f ?v) = _ => destruct (mSet f v) as [f'|] eqn:M; [|discriminate E]; cbn [option_map] in E end);
  injection E as <-;
  try (match type of M with mSet ?f _ = _ => match goal with H : f = history _ _ |- _ => rewrite H in M end end);
  constructor; unfold last_value, switched;
  cbn [LogFile DisableLinkSet LinkSources Scheme EmacsArgs Command Name WrapperPath FirefoxManifest ChromeManifest Force MozillaExtensionID ChromeExtensionID Help Version
    with_log with_disable with_sources with_scheme with_emacsargs with_command with_name with_wrapper with_firefox with_chrome with_force with_mozilla_ids with_chrome_ids with_help with_version add_source];
  field_case.
Qed.
Lemma apply_settled schemes users mozilla chrome l : forall c, apply_all l (defaults schemes users mozilla chrome) = Some c -> settled schemes users mozilla chrome l c.
Proof.
  induction l as [|[n v] l IH] using rev_ind; intros c E; [injection E as <-; apply settled_nil|].
  rewrite apply_app in E. destruct (apply_all l _) as [c0|]; [|discriminate]. cbn [apply_all] in E. destruct (set_named n v c0) as [c1|] eqn:S; [|discriminate].
  injection E as <-. eapply settled_snoc; [apply IH; reflexivity|exact S].
Qed.

(** ** Acceptable values *)
Lemma repeated_snoc vs v : repeated_ok (vs ++ [v]) <-> repeated_ok vs /\ ~ (v = [] /\ exists v0 vs', vs = v0 :: vs' /\ v0 <> []).
Proof.
  destruct vs as [|v0 vs]; cbn [app repeated_ok].
  - split; [|right; cbn; tauto]. intros _. split; [exact I|]. intros (_ & v0 & vs' & E & _). discriminate.
  - split.
    + intros [->|N]; [split; [auto|]; intros (_ & x & y & E & Ne); injection E as <- <-; congruence|].
      split; [right; intros J; apply N, in_or_app; auto|]. intros (-> & _). apply N, in_or_app. right. left. reflexivity.
    + intros [[->|N] B]; [auto|]. destruct v0 as [|a v0]; [auto|]. right. intros J. apply in_app_or in J. destruct J as [J|[->|[]]]; [contradiction|].
      apply B. split; [reflexivity|]. exists (a :: v0), vs. split; [reflexivity|discriminate].
Qed.
Definition known (n : str) : Prop := In n switches \/ In n settings.
Lemma set_iff schemes users mozilla chrome l c n v : settled schemes users mozilla chrome l c -> known n ->
  (set_named n v c <> None <-> (In n switches -> exists x, truth v x) /\ (In n repeated -> ~ (v = [] /\ exists v0 vs', said [n] l = v0 :: vs' /\ v0 <> []))).
Proof.
  intros [H1 H2 H3 H4 H5 H6 H7 H8 H9 H10 H11 H12 H13 H14 H15] K.
  assert (BB : (exists x, truth v x) <-> ParseBool v <> None).
  { destruct (ParseBool v) as [x|] eqn:E; [apply bool_truth in E; split; [discriminate|eauto]|]. split; [intros (x & T); apply bool_truth in T; congruence|congruence]. }
  assert (MM : forall d vs, ~ (v = [] /\ exists v0 vs', vs = v0 :: vs' /\ v0 <> []) <-> mSet (history d vs) v <> None).
  { intros d vs. rewrite history_rejects. tauto. }
  assert (NN : forall (X : Type) (Y : Type) (f : X -> Y) (o : option X), option_map f o <> None <-> o <> None) by (intros X Y f []; cbn; split; congruence).
  destruct K as [K|K]; cbn in K; repeat (destruct K as [<-|K]; [
    unfold set_named; match goal with |- context [find_option ?n options] => let o := eval cbn in (find_option n options) in change (find_option n options) with o end; cbv iota; cbn [set_option]; rewrite ?NN;
    first [ rewrite <- BB; split; [intros B; split; [auto|]; cbn; intuition discriminate|intros [B _]; apply B; cbn; tauto]
          | rewrite ?H7, ?H8, ?H9, ?H10; rewrite <- MM; split; [intros B; split; [cbn; intuition discriminate|auto]|intros [_ B]; apply B; cbn; tauto]
          | split; [intros _; split; cbn; intuition discriminate|discriminate] ]|]); destruct K.
Qed.
Lemma acceptable_snoc l n v : known n -> (acceptable (l ++ [(n, v)]) <-> acceptable l /\
  (In n switches -> exists x, truth v x) /\ (In n repeated -> ~ (v = [] /\ exists v0 vs', said [n] l = v0 :: vs' /\ v0 <> []))).
Proof.
  intros K. unfold acceptable. split.
  - intros [A B]. split; [split|split].
    + intros m w I. apply (A m w). apply in_or_app. auto.
    + intros m I. specialize (B m I). rewrite said_app in B. unfold said at 2 in B. cbn [filter fst] in B. destruct (existsb (str_eqb n) [m]); [apply repeated_snoc in B; apply B|]. rewrite app_nil_r in B. exact B.
    + apply (A n v). apply in_or_app. right. left. reflexivity.
    + intros I. specialize (B n I). rewrite said_hit in B by (cbn; rewrite str_eqb_refl; reflexivity). apply repeated_snoc in B. apply B.
  - intros ((A & B) & C & D). split.
    + intros m w I. apply in_app_or in I. destruct I as [I|[[= -> ->]|[]]]; [apply (A m w I)|exact C].
    + intros m I. rewrite said_app. unfold said at 2. cbn [filter fst]. cbn [existsb]. rewrite orb_false_r. destruct (str_eqb_spec n m) as [->|Ne]; cbn [map snd]; [|rewrite app_nil_r; auto].
      apply repeated_snoc. auto.
Qed.
Lemma apply_iff schemes users mozilla chrome l : Forall (fun x => known (fst x)) l ->
  (apply_all l (defaults schemes users mozilla chrome) <> None <-> acceptable l).
Proof.
  induction l as [|[n v] l IH] using rev_ind; intros F.
  - split; [intros _; split; [intros ? ? []|intros ? _; exact I]|discriminate].
  - apply Forall_app in F. destruct F as [F K]. inversion K as [|? ? K1 _]; subst. cbn [fst] in K1. rewrite (acceptable_snoc _ _ _ K1), apply_app, <- (IH F). cbn [apply_all].
    destruct (apply_all l _) as [c|] eqn:E; [|split; [congruence|tauto]]. apply apply_settled in E. rewrite <- (set_iff _ _ _ _ _ _ _ v E K1).
    destruct (set_named n v c); [split; [split; discriminate|discriminate]|split; [congruence|tauto]].
Qed.
Lemma line_known args l rest : line args l rest -> Forall (fun x => known (fst x)) l.
Proof. induction 1; constructor; try assumption; [right|left|left]; assumption. Qed.

(** ** Configuration *)
Lemma by_extension_ok args : by_extension args (map (fun a => (if has_suffix a (b ".org") then Org else Txt, a)) args).
Proof.
  induction args as [|a args IH]; cbn [map]; [constructor|]. destruct (has_suffix a (b ".org")) eqn:E.
  - apply has_suffix_iff in E. destruct E as (x & ->). constructor. exact IH.
  - constructor; [|exact IH]. intros x ->. assert (has_suffix (x ++ b ".org") (b ".org") = true) by (apply has_suffix_iff; eauto). congruence.
Qed.
Lemma by_extension_fun names l1 : by_extension names l1 -> forall l2, by_extension names l2 -> l1 = l2.
Proof.
  induction 1 as [|x names l B IH|name names l N B IH]; intros l2 H.
  - inversion H. reflexivity.
  - inversion H as [|y names' l' B' E1 E2|name' names' l' N' B']; subst; [|exfalso; eapply N'; reflexivity]. apply app_inv_tail in E1. subst. f_equal. apply IH, B'.
  - inversion H as [|y names' l' B' E1 E2|name' names' l' N' B']; subst; [exfalso; eapply N; reflexivity|]. f_equal. apply IH, B'.
Qed.
Lemma modified_history d vs : IsModified (history d vs) = true <-> vs <> [].
Proof. rewrite history_eq. destruct vs as [|[|a v] vs]; cbn; split; try congruence; discriminate. Qed.
Lemma parsed_configured schemes users mozilla chrome args c : parse_args (defaults schemes users mozilla chrome) args = Some c -> configured schemes users mozilla chrome args c.
Proof.
  intros E. unfold parse_args in E. destruct (Parse args _) as [[c0 rest]|] eqn:P; [|discriminate]. injection E as <-.
  destruct (args_class _ args (le_n _)) as [(l & rest' & L)|N]; [|rewrite N in P; discriminate].
  rewrite (line_parse _ _ _ L) in P. destruct (apply_all l _) as [c1|] eqn:A; [|discriminate]. injection P as -> ->.
  assert (AC : acceptable l) by (apply (apply_iff schemes users mozilla chrome l (line_known _ _ _ L)); congruence).
  apply apply_settled in A. destruct A. exists l, rest, (map (fun a => (if has_suffix a (b ".org") then Org else Txt, a)) rest).
  split; [exact L|]. split; [exact AC|]. split; [apply by_extension_ok|]. unfold values. cbn.
  rewrite st_scheme0, st_users0, st_mozilla0, st_ids0, !history_values, !modified_history. unfold AddSourceArgs. rewrite st_sources0. repeat split; tauto || assumption.
Qed.
Lemma acceptable_parsed schemes users mozilla chrome args l rest : line args l rest -> acceptable l ->
  exists c, parse_args (defaults schemes users mozilla chrome) args = Some c.
Proof.
  intros L A. unfold parse_args. rewrite (line_parse _ _ _ L). apply (apply_iff schemes users mozilla chrome l (line_known _ _ _ L)) in A.
  destruct (apply_all l _); [eauto|congruence].
Qed.
(** The line has one meaning. *)
Definition tail_ok (t : str) : Prop := t = [] \/ exists v, t = b "=" ++ v.
Lemma name_tail n : forall n' t t', ~ In "="%char n -> ~ In "="%char n' -> tail_ok t -> tail_ok t' -> n ++ t = n' ++ t' -> n = n' /\ t = t'.
Proof.
  induction n as [|a n IH]; intros n' t t' N N' T T' E.
  - destruct n' as [|a' n']; [auto|]. cbn [app] in E. destruct T as [->|(v & ->)]; [discriminate|]. injection E as Ea _. exfalso. apply N'. left. symmetry. exact Ea.
  - destruct n' as [|a' n']; cbn [app] in E.
    + destruct T' as [->|(v & ->)]; [discriminate|]. injection E as Ea _. exfalso. apply N. left. exact Ea.
    + injection E as -> E. destruct (IH n' t t') as [-> ->]; auto; intros I; [apply N|apply N']; right; exact I.
Qed.
Lemma word_inj d n t d' n' t' : dashes d -> dashes d' -> word_name n -> word_name n' -> tail_ok t -> tail_ok t' -> d ++ n ++ t = d' ++ n' ++ t' -> n = n' /\ t = t'.
Proof.
  intros D D' (a & m & -> & N & Na) (a' & m' & -> & N' & Na') T T' E.
  assert (E2 : (a :: m) ++ t = (a' :: m') ++ t').
  { destruct D as [-> | ->], D' as [-> | ->]; cbn [app b list_ascii_of_string] in E |- *; [congruence| | |congruence]; injection E as E1 _; [contradiction|symmetry in E1; contradiction]. }
  exact (name_tail _ _ _ _ N N' T T' E2).
Qed.
Lemma remaining_fun args r1 r2 : remaining args r1 -> remaining args r2 -> r1 = r2.
Proof.
  intros H1 H2. destruct H1; inversion H2; subst; try reflexivity;
  match goal with H : forall x, _ <> _ |- _ => exfalso; eapply H; reflexivity end.
Qed.
Lemma word_remaining d n t args rest : dashes d -> word_name n -> ~ remaining ((d ++ n ++ t) :: args) rest.
Proof.
  intros D (a & m & -> & N & Na) R. destruct D as [-> | ->]; inversion R; subst; try congruence; match goal with H : forall x, _ <> _ |- _ => eapply H; reflexivity end.
Qed.
Lemma disjoint n : In n settings -> In n switches -> False.
Proof. intros I J. destruct (find_setting n I) as (o & E & N). destruct (find_switch n J) as (o' & E'). rewrite E in E'. injection E' as ->. eapply N. reflexivity. Qed.
(** the first option *)
Inductive first_option : list str -> str -> str -> list str -> Prop :=
| fo_two d n v args : dashes d -> In n settings -> first_option ((d ++ n) :: v :: args) n v args
| fo_value d n v args : dashes d -> known n -> first_option ((d ++ n ++ b "=" ++ v) :: args) n v args
| fo_on d n args : dashes d -> In n switches -> first_option ((d ++ n) :: args) n (b "true") args.
Lemma known_name n : known n -> word_name n.
Proof. intros [I|I]; [apply switch_name|apply setting_name]; exact I. Qed.
Lemma first_word args n v rest : first_option args n v rest -> exists d t more, args = (d ++ n ++ t) :: more /\ dashes d /\ known n /\ tail_ok t /\
  (t = b "=" ++ v /\ more = rest \/ t = [] /\ (In n settings /\ more = v :: rest \/ In n switches /\ v = b "true" /\ more = rest)).
Proof.
  intros [d m w args' D I|d m w args' D I|d m args' D I].
  - exists d, [], (w :: args'). rewrite app_nil_r. split; [reflexivity|]. split; [exact D|]. split; [right; exact I|]. split; [left; reflexivity|]. right. split; [reflexivity|]. left. auto.
  - exists d, (b "=" ++ w), args'. split; [reflexivity|]. split; [exact D|]. split; [exact I|]. split; [right; eauto|]. left. auto.
  - exists d, [], args'. rewrite app_nil_r. split; [reflexivity|]. split; [exact D|]. split; [left; exact I|]. split; [left; reflexivity|]. right. split; [reflexivity|]. right. auto.
Qed.
Lemma first_fun args n v rest n' v' rest' : first_option args n v rest -> first_option args n' v' rest' -> n = n' /\ v = v' /\ rest = rest'.
Proof.
  intros H H'. apply first_word in H, H'. destruct H as (d & t & more & -> & D & K & T & H), H' as (d' & t' & more' & E & D' & K' & T' & H').
  injection E as E <-. destruct (word_inj _ _ _ _ _ _ D D' (known_name _ K) (known_name _ K') T T' E) as [<- <-]. split; [reflexivity|].
  destruct H as [[-> ->]|[-> H]], H' as [[E' <-]|[E' H']]; try discriminate E'.
  - split; [|reflexivity]. injection E'. auto.
  - destruct H as [[I ->]|(I & -> & ->)], H' as [[J E2]|(J & -> & E2)]; try (exfalso; eapply disjoint; eassumption); [injection E2; auto|auto].
Qed.
Lemma line_cases args l rest : line args l rest -> l = [] /\ remaining args rest \/ exists n v args' l', l = (n, v) :: l' /\ first_option args n v args' /\ line args' l' rest.
Proof.
  intros [args' rest' R|n v w args' l' rest' I (d & D & W) L|n d args' l' rest' I D L|n v d args' l' rest' I D L].
  - left. auto.
  - right. exists n, v, args', l'. split; [reflexivity|]. split; [|exact L]. destruct W as [-> | ->]; [apply (fo_two d); assumption|apply (fo_value d); [assumption|right; assumption]].
  - right. exists n, (b "true"), args', l'. split; [reflexivity|]. split; [|exact L]. apply fo_on; assumption.
  - right. exists n, v, args', l'. split; [reflexivity|]. split; [|exact L]. apply (fo_value d); [assumption|left; assumption].
Qed.
Lemma first_remaining args n v args' rest : first_option args n v args' -> ~ remaining args rest.
Proof. intros F. apply first_word in F. destruct F as (d & t & more & -> & D & K & T & _). apply word_remaining; [exact D|apply known_name, K]. Qed.
Lemma line_fun : forall l args rest, line args l rest -> forall l' rest', line args l' rest' -> l' = l /\ rest' = rest.
Proof.
  induction l as [|[n v] l IH]; intros args rest L l' rest' L'; apply line_cases in L, L'.
  - destruct L as [[_ R]|(? & ? & ? & ? & E & _)]; [|discriminate]. destruct L' as [[-> R']|(n' & v' & args' & l2 & -> & F & _)].
    + split; [reflexivity|]. eapply remaining_fun; eassumption.
    + exfalso. exact (first_remaining _ _ _ _ _ F R).
  - destruct L as [[E _]|(n0 & v0 & args0 & l0 & E & F & L)]; [discriminate|]. injection E as <- <- <-.
    destruct L' as [[-> R']|(n' & v' & args' & l2 & -> & F' & L')]; [exfalso; exact (first_remaining _ _ _ _ _ F R')|].
    destruct (first_fun _ _ _ _ _ _ _ F F') as (<- & <- & <-). destruct (IH _ _ L _ _ L') as [-> ->]. auto.
Qed.
Lemma refused schemes users mozilla chrome args : parse_args (defaults schemes users mozilla chrome) args = None <-> ~ exists l rest, line args l rest /\ acceptable l.
Proof.
  split.
  - intros E (l & rest & L & A). destruct (acceptable_parsed schemes users mozilla chrome _ _ _ L A) as (c & P). congruence.
  - intros N. destruct (parse_args _ args) as [c|] eqn:P; [|reflexivity]. exfalso. apply N. apply parsed_configured in P. destruct P as (l & rest & more & L & A & _). eauto.
Qed.
Lemma truth_fun v x y : truth v x -> truth v y -> x = y.
Proof. rewrite <- !bool_truth. congruence. Qed.
