(** Proofs for options. *)
From Verif Require Import GoBase Flags FlagsSpec.

(** ** Repeated option *)
Definition inv (d : list str) (f : mflag) : Prop :=
  match mst f with
  | Initial => f = NewMultiStringFlag d
  | Appended => exists more, more <> [] /\ Forall (fun v => v <> []) more /\ slice f = d ++ more /\ defaultLen f = length d
  | Reset => Forall (fun v => v <> []) (slice f) /\ defaultLen f = 0
  end.

Lemma inv_new d : inv d (NewMultiStringFlag d).
Proof. reflexivity. Qed.
Lemma inv_set d f v f' : inv d f -> mSet f v = Some f' -> inv d f'.
Proof.
  destruct f as [s st n]. unfold inv, mSet. cbn [slice mst defaultLen]. intros H E. destruct v as [|a v].
  - destruct st; inversion E; subst; cbn; auto.
  - inversion E; subst. clear E. cbn [slice mst defaultLen]. destruct st.
    + inversion H; subst. exists [a :: v]. repeat split; try discriminate. repeat constructor. discriminate.
    + destruct H as (more & H1 & H2 & H3 & H4). exists (more ++ [a :: v]). rewrite H3, app_assoc. repeat split; auto.
      * intros Q. apply app_eq_nil in Q. destruct Q; discriminate.
      * apply Forall_app. split; [exact H2|]. repeat constructor. discriminate.
    + destruct H as [H1 H2]. split; [|exact H2]. apply Forall_app. split; [exact H1|]. repeat constructor. discriminate.
Qed.
Lemma inv_accept d f v : inv d f -> inv d (accept f v).
Proof. intros H. unfold accept. destruct (mSet f v) eqn:E; [eapply inv_set; eauto|exact H]. Qed.
Lemma inv_history d vs : inv d (history d vs).
Proof.
  unfold history. assert (G : forall f, inv d f -> inv d (fold_left accept vs f)).
  { induction vs as [|v vs IH]; intros f H; cbn; [exact H|]. apply IH, inv_accept, H. }
  apply G, inv_new.
Qed.

Lemma accept_nonempty f a v : accept f (a :: v) =
  mkFlag (slice f ++ [a :: v]) (match mst f with Initial => Appended | s => s end) (defaultLen f).
Proof. reflexivity. Qed.

Lemma hist_appended vs : forall s n, fold_left accept vs (mkFlag s Appended n) = mkFlag (s ++ filter nonempty vs) Appended n.
Proof.
  induction vs as [|v vs IH]; intros s n; cbn [fold_left filter]; [rewrite app_nil_r; reflexivity|].
  destruct v as [|a v]; cbn [nonempty].
  - unfold accept at 2. cbn. apply IH.
  - rewrite accept_nonempty. cbn [slice mst defaultLen]. rewrite IH, <- app_assoc. reflexivity.
Qed.
Lemma hist_reset vs : forall s, fold_left accept vs (mkFlag s Reset 0) = mkFlag (after_last_empty vs s) Reset 0.
Proof.
  induction vs as [|v vs IH]; intros s; cbn [fold_left after_last_empty]; [reflexivity|].
  destruct v as [|a v].
  - unfold accept at 2. cbn. apply IH.
  - rewrite accept_nonempty. cbn [slice mst defaultLen]. apply IH.
Qed.
Lemma history_eq d vs : history d vs =
  match vs with
  | [] => NewMultiStringFlag d
  | [] :: vs' => mkFlag (after_last_empty vs' []) Reset 0
  | _ => mkFlag (d ++ filter nonempty vs) Appended (length d)
  end.
Proof.
  unfold history. destruct vs as [|v vs]; [reflexivity|]. cbn [fold_left]. destruct v as [|a v].
  - unfold accept at 2. cbn [mSet mst NewMultiStringFlag]. apply hist_reset.
  - rewrite accept_nonempty. cbn [slice mst defaultLen NewMultiStringFlag]. rewrite hist_appended. cbn [filter nonempty].
    rewrite <- app_assoc. reflexivity.
Qed.

Lemma history_values d vs : slice (history d vs) = expected d vs.
Proof.
  rewrite history_eq. destruct vs as [|[|a v] vs]; cbn [slice expected NewMultiStringFlag filter nonempty]; try reflexivity.
  rewrite app_nil_r. reflexivity.
Qed.
Lemma history_rejects d vs v : mSet (history d vs) v = None <-> v = [] /\ exists v0 vs', vs = v0 :: vs' /\ v0 <> [].
Proof.
  rewrite history_eq. destruct v as [|a v].
  - destruct vs as [|[|a v] vs]; cbn; split; intros H; try discriminate; try reflexivity.
    + destruct H as (_ & v0 & vs' & H & _). discriminate.
    + destruct H as (_ & v0 & vs' & H & H2). inversion H; subst. congruence.
    + split; [reflexivity|]. exists (a :: v), vs. split; [reflexivity|discriminate].
  - split; [discriminate|]. intros [H _]. discriminate.
Qed.

(** all values are accepted *)
Fixpoint replay (f : mflag) (vs : list str) : option mflag :=
  match vs with
  | [] => Some f
  | v :: vs' => match mSet f v with Some f' => replay f' vs' | None => None end
  end.
Lemma replay_nonempty vs : forall f, Forall (fun v => v <> []) vs ->
  replay f vs = Some (mkFlag (slice f ++ vs) (match vs with [] => mst f | _ => match mst f with Initial => Appended | s => s end end) (defaultLen f)).
Proof.
  induction vs as [|v vs IH]; intros f H; cbn [replay].
  - rewrite app_nil_r. destruct f; reflexivity.
  - inversion H; subst. destruct v as [|a v]; [congruence|]. cbn [mSet]. rewrite IH by assumption.
    cbn [slice mst defaultLen]. rewrite <- app_assoc. cbn [app]. destruct vs; destruct (mst f); reflexivity.
Qed.
Lemma restore d f : inv d f -> exists vs, ModifiedValues f = Done vs /\ replay (NewMultiStringFlag d) vs = Some f.
Proof.
  destruct f as [s st n]. unfold inv, ModifiedValues. cbn [slice mst defaultLen]. destruct st; intros H.
  - exists []. rewrite H. split; reflexivity.
  - destruct H as (more & H1 & H2 & -> & ->). exists more. split.
    + rewrite app_length. match goal with |- context [?x <=? ?y] => destruct (Nat.leb_spec x y) as [_|L]; [|lia] end.
      rewrite skipn_app, Nat.sub_diag, skipn_all. reflexivity.
    + rewrite replay_nonempty by exact H2. cbn [slice mst defaultLen NewMultiStringFlag]. destruct more; [congruence|reflexivity].
  - destruct H as [H1 ->]. exists ([] :: s). split; [reflexivity|]. cbn [replay mSet NewMultiStringFlag mst].
    rewrite replay_nonempty by exact H1. cbn [slice mst defaultLen app]. destruct s; reflexivity.
Qed.

(** ** Shell words *)
Lemma run_none_app : forall t s r, option_map (fun x : list str => [] ++ x) (sh_run s t) = r -> sh_run s t = r.
Proof. intros t s r. destruct (sh_run s t); auto. Qed.
Lemma map_nil (x : option (list str)) : option_map (fun r => [] ++ r) x = x.
Proof. destruct x; reflexivity. Qed.

Lemma safe_not a : safe_char a = true -> a <> blank /\ a <> quote1 /\ a <> quote2 /\ a <> backslash.
Proof. intros H. repeat split; intros ->; vm_compute in H; discriminate. Qed.

Lemma run_single s : forall w rest, ~ In quote1 s -> sh_run (SSingle w) (s ++ quote1 :: rest) = sh_run (SWord (w ++ s)) rest.
Proof.
  induction s as [|a s IH]; intros w rest H; cbn [app sh_run sh_step].
  - rewrite Ascii.eqb_refl, map_nil, app_nil_r. reflexivity.
  - destruct (Ascii.eqb_spec a quote1) as [->|]; [exfalso; apply H; left; reflexivity|].
    rewrite map_nil, IH by (intros Q; apply H; right; exact Q). rewrite <- app_assoc. reflexivity.
Qed.
Lemma run_double s : forall w rest, Forall (fun a => special2 a = false) s -> sh_run (SDouble w) (s ++ quote2 :: rest) = sh_run (SWord (w ++ s)) rest.
Proof.
  induction s as [|a s IH]; intros w rest H; cbn [app sh_run sh_step].
  - rewrite Ascii.eqb_refl, map_nil, app_nil_r. reflexivity.
  - inversion H; subst. destruct (Ascii.eqb_spec a quote2) as [->|]; [discriminate|]. rewrite H2.
    rewrite map_nil, IH by assumption. rewrite <- app_assoc. reflexivity.
Qed.

Lemma run_word e v : quoted e v -> forall w rest, sh_run (SWord w) (e ++ rest) = sh_run (SWord (w ++ v)) rest.
Proof.
  induction 1 as [|a e v S Q IH|a e v N Q IH|s e v N Q IH|s e v N Q IH]; intros w rest.
  - rewrite app_nil_r. reflexivity.
  - cbn [app sh_run sh_step]. destruct (safe_not a S) as (A & B & C & D).
    destruct (Ascii.eqb_spec a blank); [contradiction|]. destruct (Ascii.eqb_spec a quote1); [contradiction|].
    destruct (Ascii.eqb_spec a quote2); [contradiction|]. destruct (Ascii.eqb_spec a backslash); [contradiction|].
    rewrite S, map_nil, IH, <- app_assoc. reflexivity.
  - cbn [app sh_run]. change (sh_step (SWord w) backslash) with (Some (SBack w, @nil str)). cbv iota. rewrite map_nil.
    cbn [sh_run sh_step]. destruct (Ascii.eqb_spec a newline); [contradiction|]. rewrite map_nil, IH, <- app_assoc. reflexivity.
  - cbn [app sh_run]. change (sh_step (SWord w) quote1) with (Some (SSingle w, @nil str)). cbv iota. rewrite map_nil.
    rewrite <- app_assoc. cbn [app]. rewrite run_single by exact N. rewrite IH, <- app_assoc. reflexivity.
  - cbn [app sh_run]. change (sh_step (SWord w) quote2) with (Some (SDouble w, @nil str)). cbv iota. rewrite map_nil.
    rewrite <- app_assoc. cbn [app]. rewrite run_double by exact N. rewrite IH, <- app_assoc. reflexivity.
Qed.
Lemma run_start a text : a <> blank -> sh_run SBlank (a :: text) = sh_run (SWord []) (a :: text).
Proof. intros H. cbn [sh_run sh_step]. destruct (Ascii.eqb_spec a blank); [contradiction|reflexivity]. Qed.
Lemma quoted_first e v : quoted e v -> e <> [] -> exists a e', e = a :: e' /\ a <> blank.
Proof. intros [|a e' v' S Q|a e' v' N Q|s e' v' N Q|s e' v' N Q] H; [congruence|..]; eexists; eexists; split; try reflexivity; try discriminate. apply (safe_not a S). Qed.

Lemma split_join ws vs : Forall2 (fun e v => quoted e v /\ e <> []) ws vs -> sh_split (join_blank ws) = Some vs.
Proof.
  unfold sh_split. induction 1 as [|e v ws vs (Q & N) H IH]; [reflexivity|].
  destruct (quoted_first e v Q N) as (a & e' & Ee & Ha).
  assert (G : forall rest, sh_run SBlank (e ++ rest) = sh_run (SWord v) rest).
  { intros rest. rewrite Ee. cbn [app]. rewrite run_start by exact Ha. change (a :: e' ++ rest) with ((a :: e') ++ rest). rewrite <- Ee.
    rewrite (run_word e v Q). reflexivity. }
  clear a e' Ee Ha. cbn [join_blank]. destruct ws as [|e2 ws].
  - inversion H; subst. rewrite <- (app_nil_r e), G. reflexivity.
  - rewrite G. cbn [sh_run sh_step]. change (Ascii.eqb blank blank) with true. cbv iota. rewrite IH. reflexivity.
Qed.

Lemma quoted_safe p e v : Forall (fun a => safe_char a = true) p -> quoted e v -> quoted (p ++ e) (p ++ v).
Proof. induction 1; intros Q; cbn; [exact Q|]. apply q_bare; auto. Qed.
Lemma safe_text p : forallb safe_char p = true -> Forall (fun a => safe_char a = true) p.
Proof. intros H. apply Forall_forall. apply forallb_forall. exact H. Qed.
Lemma quoted_const p : forallb safe_char p = true -> p <> [] -> quoted p p /\ p <> [].
Proof. intros H N. split; [|exact N]. pose proof (quoted_safe p [] [] (safe_text p H) q_nil) as Q. rewrite app_nil_r in Q. exact Q. Qed.
Lemma quoted_prefix p e v : forallb safe_char p = true -> quoted e v -> e <> [] -> quoted (p ++ e) (p ++ v) /\ p ++ e <> [].
Proof. intros H Q N. split; [apply quoted_safe; [apply safe_text; exact H|exact Q]|]. intros E. apply app_eq_nil in E. tauto. Qed.

Lemma quote_all_ok q prefix vs r : quoting q -> forallb safe_char prefix = true -> quote_all q prefix vs = Some r ->
  Forall2 (fun e v => quoted e v /\ e <> []) r (map (app prefix) vs).
Proof.
  intros HQ HP. revert r. induction vs as [|v vs IH]; intros r E; cbn [quote_all] in E.
  - inversion E. constructor.
  - destruct (q v) as [e|] eqn:Ev; [|discriminate]. destruct (quote_all q prefix vs) as [r'|]; [|discriminate].
    inversion E; subst. cbn [map]. constructor; [|apply IH; reflexivity]. destruct (HQ v e Ev) as [Q N]. apply quoted_prefix; assumption.
Qed.
Definition source_arg (s : source) : str := b "--" ++ Flag (fst s) ++ b "=" ++ snd s.
Lemma quote_sources_ok q l r : quoting q -> quote_sources q l = Some r ->
  Forall2 (fun e v => quoted e v /\ e <> []) r (map source_arg l).
Proof.
  intros HQ. revert r. induction l as [|[k name] l IH]; intros r E; cbn [quote_sources] in E.
  - inversion E. constructor.
  - destruct (q name) as [e|] eqn:Ev; [|discriminate]. destruct (quote_sources q l) as [r'|]; [|discriminate].
    inversion E; subst. cbn [map]. constructor; [|apply IH; reflexivity]. destruct (HQ name e Ev) as [Q N].
    unfold source_arg. cbn [fst snd]. pose proof (quoted_prefix (b "--" ++ Flag k ++ b "=") e name ltac:(destruct k; reflexivity) Q N) as G.
    rewrite <- !app_assoc in G. exact G.
Qed.

(** ** Parser *)
Definition cinv (schemes users : list str) (c : config) : Prop := inv schemes (Scheme c) /\ inv users (EmacsArgs c).

Lemma set_option_inv schemes users name o c v c' : find_option name options = Some o -> cinv schemes users c ->
  set_option o c v = Some c' -> cinv schemes users c'.
Proof.
  intros F (I1 & I2) E. unfold options in F. cbn [find_option] in F.
  repeat match type of F with (if ?x then _ else _) = _ => destruct x; [inversion F; subst o; clear F|] end; try discriminate F;
  cbn [set_option] in E;
  try (inversion E; subst; split; assumption);
  try (destruct (ParseBool v); [|discriminate]; inversion E; subst; split; assumption);
  match type of E with option_map _ (mSet ?f _) = _ => destruct (mSet f v) as [f'|] eqn:M; [|discriminate]; cbn in E; inversion E; subst end;
  split; cbn; try assumption; eapply inv_set; eauto.
Qed.

Lemma Parse_inv schemes users : forall n args c c' rest, length args <= n -> cinv schemes users c -> Parse args c = Some (c', rest) -> cinv schemes users c'.
Proof.
  induction n as [|n IH]; intros args c c' rest L I E.
  - destruct args; [inversion E; subst; exact I|cbn in L; lia].
  - destruct args as [|s args]; [inversion E; subst; exact I|]. cbn [length] in L. cbn [Parse] in E.
    destruct s as [|x0 s]; [inversion E; subst; exact I|].
    assert (G : forall name,
      match name with
      | [] => None
      | "-"%char :: _ | "="%char :: _ => None
      | _ =>
          let '(name, value) := split_value name in
          match find_option name options with
          | None => None
          | Some (OBool _ as o) =>
              match set_option o c (match value with Some v => v | None => b "true" end) with
              | Some c' => Parse args c'
              | None => None
              end
          | Some o =>
              match value with
              | Some v => match set_option o c v with Some c' => Parse args c' | None => None end
              | None => match args with [] => None | v :: rest' => match set_option o c v with Some c' => Parse rest' c' | None => None end end
              end
          end
      end = Some (c', rest) -> cinv schemes users c').
    { clear E. intros name E. destruct name as [|a name]; [discriminate|].
      assert (E2 : (let '(name, value) := split_value (a :: name) in
          match find_option name options with
          | None => None
          | Some (OBool _ as o) =>
              match set_option o c (match value with Some v => v | None => b "true" end) with
              | Some c' => Parse args c'
              | None => None
              end
          | Some o =>
              match value with
              | Some v => match set_option o c v with Some c' => Parse args c' | None => None end
              | None => match args with [] => None | v :: rest' => match set_option o c v with Some c' => Parse rest' c' | None => None end end
              end
          end) = Some (c', rest)).
      { destruct a as [[] [] [] [] [] [] [] []]; try exact E; discriminate E. }
      clear E. destruct (split_value (a :: name)) as [nm value]. destruct (find_option nm options) as [o|] eqn:F; [|discriminate].
      destruct o as [st|gt st|st].
      - destruct value as [v|].
        + destruct (set_option _ c v) as [c1|] eqn:S; [|discriminate]. eapply IH; [|eapply set_option_inv; eauto|exact E2]. lia.
        + destruct args as [|v rest']; [discriminate|]. destruct (set_option _ c v) as [c1|] eqn:S; [|discriminate].
          eapply IH; [|eapply set_option_inv; eauto|exact E2]. cbn in L. lia.
      - destruct value as [v|].
        + destruct (set_option _ c v) as [c1|] eqn:S; [|discriminate]. eapply IH; [|eapply set_option_inv; eauto|exact E2]. lia.
        + destruct args as [|v rest']; [discriminate|]. destruct (set_option _ c v) as [c1|] eqn:S; [|discriminate].
          eapply IH; [|eapply set_option_inv; eauto|exact E2]. cbn in L. lia.
      - destruct (set_option _ c _) as [c1|] eqn:S; [|discriminate]. eapply IH; [|eapply set_option_inv; eauto|exact E2]. lia. }
    destruct x0 as [[] [] [] [] [] [] [] []]; try (inversion E; subst; exact I).
    destruct s as [|a s']; [inversion E; subst; exact I|]. cbv zeta in E. destruct (Ascii.eqb a "-").
    + destruct s' as [|a2 s2]; [inversion E; subst; exact I|]. exact (G (a2 :: s2) E).
    + exact (G (a :: s') E).
Qed.

Lemma reachable_inv schemes users mozilla chrome c : reachable schemes users mozilla chrome c -> cinv schemes users c.
Proof.
  intros (args & c0 & E & log & sources & ->). unfold parse_args in E.
  destruct (Parse args _) as [[c1 rest]|] eqn:P; [|discriminate]. inversion E; subst. clear E.
  assert (I : cinv schemes users c1) by (eapply Parse_inv; [apply le_n| |exact P]; split; apply inv_new).
  exact I.
Qed.

(** ** Round trip *)
Lemma parse_log v rest c : Parse (b "--log" :: v :: rest) c = Parse rest (with_log c v).
Proof. reflexivity. Qed.
Lemma parse_disable rest c : Parse (b "--disable-link-set=true" :: rest) c = Parse rest (with_disable c true).
Proof. reflexivity. Qed.
Lemma parse_command v rest c : Parse ((b "--emacsclient=" ++ v) :: rest) c = Parse rest (with_command c v).
Proof. reflexivity. Qed.
Lemma parse_source s rest c : Parse (source_arg s :: rest) c = Parse rest (add_source (fst s) c (snd s)).
Proof. destruct s as [[] v]; reflexivity. Qed.
Lemma parse_user v rest c : Parse ((b "--emacsarg=" ++ v) :: rest) c =
  match mSet (EmacsArgs c) v with Some f => Parse rest (with_emacsargs c f) | None => None end.
Proof. cbn. destruct (mSet (EmacsArgs c) v); reflexivity. Qed.
Lemma parse_scheme v rest c : Parse ((b "--scheme=" ++ v) :: rest) c =
  match mSet (Scheme c) v with Some f => Parse rest (with_scheme c f) | None => None end.
Proof. cbn. destruct (mSet (Scheme c) v); reflexivity. Qed.

Lemma parse_users vs : forall rest c f, replay (EmacsArgs c) vs = Some f ->
  Parse (map (app (b "--emacsarg=")) vs ++ rest) c = Parse rest (with_emacsargs c f).
Proof.
  induction vs as [|v vs IH]; intros rest c f E; cbn [replay map app] in E |- *.
  - inversion E; subst. destruct c; reflexivity.
  - change ("-"%char :: "-"%char :: "e"%char :: "m"%char :: "a"%char :: "c"%char :: "s"%char :: "a"%char :: "r"%char :: "g"%char :: "="%char :: v) with (b "--emacsarg=" ++ v) || idtac.
    change (Parse ((b "--emacsarg=" ++ v) :: (map (app (b "--emacsarg=")) vs ++ rest)) c = Parse rest (with_emacsargs c f)).
    rewrite parse_user. destruct (mSet (EmacsArgs c) v) as [f1|]; [|discriminate].
    rewrite (IH rest (with_emacsargs c f1) f E). reflexivity.
Qed.
Lemma parse_schemes vs : forall rest c f, replay (Scheme c) vs = Some f ->
  Parse (map (app (b "--scheme=")) vs ++ rest) c = Parse rest (with_scheme c f).
Proof.
  induction vs as [|v vs IH]; intros rest c f E; cbn [replay map app] in E |- *.
  - inversion E; subst. destruct c; reflexivity.
  - change (Parse ((b "--scheme=" ++ v) :: (map (app (b "--scheme=")) vs ++ rest)) c = Parse rest (with_scheme c f)).
    rewrite parse_scheme. destruct (mSet (Scheme c) v) as [f1|]; [|discriminate].
    rewrite (IH rest (with_scheme c f1) f E). reflexivity.
Qed.
Lemma parse_sources l : forall rest c, Parse (map source_arg l ++ rest) c = Parse rest (with_sources c (LinkSources c ++ l)).
Proof.
  induction l as [|s l IH]; intros rest c.
  - cbn [map app]. rewrite app_nil_r. destruct c; reflexivity.
  - change (map source_arg (s :: l) ++ rest) with (source_arg s :: (map source_arg l ++ rest)).
    rewrite parse_source, IH. unfold add_source. cbn [LinkSources with_sources]. rewrite <- app_assoc. destruct s; reflexivity.
Qed.

Lemma modified_values d f : inv d f -> exists vs, replay (NewMultiStringFlag d) vs = Some f /\
  forall q prefix, quote_modified q prefix f = Done (quote_all q prefix vs).
Proof.
  intros I. destruct (restore d f I) as (vs & E & R). exists vs. split; [exact R|]. intros q prefix. unfold quote_modified.
  rewrite E. destruct (IsModified f) eqn:M; [reflexivity|].
  unfold IsModified in M. unfold ModifiedValues in E. destruct (mst f); [|discriminate..]. inversion E; subst. reflexivity.
Qed.

Lemma shell_round_trip schemes users mozilla chrome q c : quoting q -> cinv schemes users c ->
  exists r, AsShellCommand q c = Done r /\
  forall ws, r = Some ws ->
  exists args, sh_split (join_blank ws) = Some args /\
    parse_args (defaults schemes users mozilla chrome) args =
      Some (with_sources (with_scheme (with_emacsargs (with_command (with_disable (with_log (defaults schemes users mozilla chrome)
        (LogFile c)) (DisableLinkSet c)) (Command c)) (EmacsArgs c)) (Scheme c)) (LinkSources c)).
Proof.
  intros HQ (I1 & I2). destruct (modified_values _ _ I1) as (vs & R1 & Q1). destruct (modified_values _ _ I2) as (vu & R2 & Q2).
  unfold AsShellCommand. rewrite Q1, Q2.
  destruct (q (LogFile c)) as [lg|] eqn:EL; [|exists None; split; [reflexivity|discriminate]].
  assert (KC : exists cv, Command c = match cv with Some v => v | None => b "emacsclient" end /\
     (if negb (str_eqb (Command c) (b "emacsclient")) then quote_all q (b "--emacsclient=") [Command c] else Some []) =
     quote_all q (b "--emacsclient=") (match cv with Some v => [v] | None => [] end)).
  { destruct (str_eqb_spec (Command c) (b "emacsclient")) as [E|N]; cbn [negb].
    - exists None. split; [exact E|reflexivity].
    - exists (Some (Command c)). split; reflexivity. }
  destruct KC as (cv & EC & QC). rewrite QC. clear QC.
  destruct (quote_all q (b "--emacsclient=") _) as [rc|] eqn:RC; [|exists None; split; [reflexivity|discriminate]].
  destruct (quote_all q (b "--emacsarg=") vu) as [ru|] eqn:RU; [|exists None; split; [reflexivity|discriminate]].
  destruct (quote_all q (b "--scheme=") vs) as [rs|] eqn:RS; [|exists None; split; [reflexivity|discriminate]].
  destruct (quote_sources q (LinkSources c)) as [rl|] eqn:RL; [|exists None; split; [reflexivity|discriminate]].
  eexists. split; [reflexivity|]. intros ws Ews. injection Ews as <-.
  set (args := [b "--log"; LogFile c] ++ (if DisableLinkSet c then [b "--disable-link-set=true"] else []) ++
     map (app (b "--emacsclient=")) (match cv with Some v => [v] | None => [] end) ++
     map (app (b "--emacsarg=")) vu ++ map (app (b "--scheme=")) vs ++ map source_arg (LinkSources c)).
  exists args. split.
  - apply split_join. unfold args. cbn [app]. constructor; [apply (quoted_const (b "--log")); [reflexivity|discriminate]|].
    constructor; [exact (HQ _ _ EL)|].
    apply Forall2_app. { destruct (DisableLinkSet c); [|constructor]. constructor; [apply (quoted_const (b "--disable-link-set=true")); [reflexivity|discriminate]|constructor]. }
    apply Forall2_app. { apply (quote_all_ok q); [exact HQ|reflexivity|exact RC]. }
    apply Forall2_app. { apply (quote_all_ok q); [exact HQ|reflexivity|exact RU]. }
    apply Forall2_app. { apply (quote_all_ok q); [exact HQ|reflexivity|exact RS]. }
    apply (quote_sources_ok q); [exact HQ|exact RL].
  - unfold parse_args, args. clear args.
    change ([b "--log"; LogFile c] ++ ?x) with (b "--log" :: LogFile c :: x). rewrite parse_log.
    set (c1 := with_log _ _).
    assert (P1 : forall rest, Parse ((if DisableLinkSet c then [b "--disable-link-set=true"] else []) ++ rest) c1 = Parse rest (with_disable c1 (DisableLinkSet c))).
    { intros rest. destruct (DisableLinkSet c); [apply parse_disable|]. reflexivity. }
    rewrite P1. set (c2 := with_disable c1 _).
    assert (P2 : forall rest, Parse (map (app (b "--emacsclient=")) (match cv with Some v => [v] | None => [] end) ++ rest) c2 = Parse rest (with_command c2 (Command c))).
    { intros rest. rewrite EC. destruct cv; [apply parse_command|]. reflexivity. }
    rewrite P2. set (c3 := with_command c2 _).
    rewrite (parse_users vu _ c3 (EmacsArgs c) R2). set (c4 := with_emacsargs c3 _).
    rewrite (parse_schemes vs _ c4 (Scheme c) R1). set (c5 := with_scheme c4 _).
    rewrite <- (app_nil_r (map source_arg (LinkSources c))), parse_sources. cbn [Parse]. unfold AddSourceArgs. cbn [map]. rewrite app_nil_r.
    unfold with_sources at 1. cbn [LinkSources with_sources]. reflexivity.
Qed.

Lemma wrapper_round_trip schemes users mozilla chrome q c : quoting q -> reachable schemes users mozilla chrome c ->
  exists r, AsShellCommand q c = Done r /\
  forall ws, r = Some ws ->
  exists args c', sh_split (join_blank ws) = Some args /\ parse_args (defaults schemes users mozilla chrome) args = Some c' /\
    same_backend c c' /\ WrapperPath c' = [] /\ FirefoxManifest c' = [] /\ ChromeManifest c' = [] /\ Help c' = false /\ Version c' = false.
Proof.
  intros HQ HR. apply reachable_inv in HR. destruct (shell_round_trip schemes users mozilla chrome q c HQ HR) as (r & E & H).
  exists r. split; [exact E|]. intros ws Ews. destruct (H ws Ews) as (args & S & P). exists args. eexists. split; [exact S|]. split; [exact P|].
  repeat split; reflexivity.
Qed.

Lemma as_shell_total q c schemes users : cinv schemes users c -> (forall v, q v <> None) -> exists ws, AsShellCommand q c = Done (Some ws).
Proof.
  intros (I1 & I2) T. destruct (modified_values _ _ I1) as (vs & _ & Q1). destruct (modified_values _ _ I2) as (vu & _ & Q2).
  unfold AsShellCommand. rewrite Q1, Q2.
  assert (A : forall p l, exists r, quote_all q p l = Some r).
  { intros p l. induction l as [|v l [r IH]]; [eexists; reflexivity|]. cbn [quote_all]. specialize (T v). destruct (q v); [|congruence]. rewrite IH. eexists; reflexivity. }
  assert (S : forall l, exists r, quote_sources q l = Some r).
  { intros l. induction l as [|[k v] l [r IH]]; [eexists; reflexivity|]. cbn [quote_sources]. specialize (T v). destruct (q v); [|congruence]. rewrite IH. eexists; reflexivity. }
  destruct (q (LogFile c)) eqn:EL; [|exfalso; exact (T _ EL)].
  destruct (A (b "--emacsarg=") vu) as (r1 & ->). destruct (A (b "--scheme=") vs) as (r2 & ->). destruct (S (LinkSources c)) as (r3 & ->).
  destruct (negb _); [|eexists; reflexivity]. destruct (A (b "--emacsclient=") [Command c]) as (r4 & ->). eexists; reflexivity.
Qed.
Lemma reachable_shell_total schemes users mozilla chrome q c : reachable schemes users mozilla chrome c -> (forall v, q v <> None) ->
  exists ws, AsShellCommand q c = Done (Some ws).
Proof. intros HR. eapply as_shell_total. eapply reachable_inv. exact HR. Qed.

Lemma simple_quote_ok : quoting simple_quote.
Proof.
  intros v e E. unfold simple_quote in E. inversion E; subst. split; [|discriminate].
  assert (G : forall v s, ~ In quote1 s -> quoted (quote1 :: s ++ single_quote v ++ [quote1]) (s ++ v)).
  { clear. induction v as [|a v IH]; intros s H; cbn [single_quote app].
    - change [quote1] with (quote1 :: @nil ascii). apply q_single; [exact H|constructor].
    - destruct (Ascii.eqb_spec a quote1) as [->|N].
      + change (quote1 :: backslash :: quote1 :: quote1 :: single_quote v) with ([quote1; backslash; quote1; quote1] ++ single_quote v).
        cbn [app]. apply q_single; [exact H|]. apply q_back; [discriminate|].
        exact (IH [] (fun x => x)).
      + cbn [app]. specialize (IH (s ++ [a])). rewrite <- !app_assoc in IH. cbn [app] in IH. apply IH.
        intros I. apply in_app_iff in I. destruct I as [I|[I|[]]]; [exact (H I)|exact (N I)]. }
  exact (G v [] (fun x => x)).
Qed.
