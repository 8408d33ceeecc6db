(** Files after success of installation *)
From Verif Require Import GoBase GoSlice Utf8 Path FileSys FileUtil FileSpec FileProofs Flags FlagsSpec Manifest OptionsSpec OptionsProofs MainSpec Install InstallSpec InstallProofs.

Definition later (P : str -> Prop) (force : bool) (s s' : state) : Prop :=
  same_folders s s' /\ env s' = env s /\
  forall x c m, fs s x = Some (File c m) -> (exists m', fs s' x = Some (File c m')) \/ force = true /\ P x.

Lemma later_refl P force s : later P force s s.
Proof. split; [intros x; tauto|]. split; [reflexivity|]. intros x c m E. left. eauto. Qed.
Lemma later_trans P P' force s1 s2 s3 : later P force s1 s2 -> later P' force s2 s3 -> later (fun x => P x \/ P' x) force s1 s3.
Proof.
  intros (A1 & A2 & A3) (B1 & B2 & B3). split; [intros x; rewrite (B1 x), (A1 x); tauto|]. split; [congruence|].
  intros x c m E. destruct (A3 _ _ _ E) as [(m' & E')|(F & Q)]; [|auto]. destruct (B3 _ _ _ E') as [H|(F & Q)]; auto.
Qed.
Lemma sane_later s s' : sane s -> same_folders s s' -> env s' = env s -> sane s'.
Proof. intros (A & B & C) F E. unfold sane. rewrite E. split; [apply F; exact A|auto]. Qed.

Lemma write_ok path content mode force s s' : path = b "-" \/ normal path -> steps (WriteFile path content mode force, s) (Ret (Ok tt), s') ->
  later (fun x => x = path) force s s' /\ delivered s s' force path content /\ (path <> b "-" -> out s' = out s).
Proof.
  intros N R. pose proof (steps_folders _ _ R) as FO. pose proof (steps_env _ _ R) as EV. cbn [snd] in *. destruct N as [->|N].
  - apply WriteFile_stdout in R. cbn [fst snd] in R. destruct R as (F & c1 & c2 & EC & EO & OK & _). specialize (OK eq_refl). subst c2. rewrite app_nil_r in EC. subst c1.
    split; [|split; [left; auto|congruence]]. split; [exact FO|]. split; [exact EV|]. intros x c m E. left. rewrite F. eauto.
  - assert (ND : path <> b "-") by (destruct N as (A & _); intros ->; discriminate).
    apply WriteFile_runs in R; [|exact N]. pose proof (r_out _ _ _ _ _ _ R) as O. destruct (r_ok _ _ _ _ _ _ R eq_refl) as (OT & D). cbn [fst snd] in *. split; [|split; [right; split; [exact ND|]|auto]].
    + split; [exact FO|]. split; [exact EV|]. intros x c m E. destruct (str_eqb_spec x path) as [->|Nx]; [|left; rewrite OT by exact Nx; eauto].
      destruct D as [(E' & [->|D])|(c1 & m1 & E1 & _ & E2)]; [auto|congruence|]. rewrite E in E1. injection E1 as <- <-. left. eauto.
    + destruct D as [(E' & _)|(c1 & m1 & E1 & C & E2)].
      * exists [], mode. rewrite app_nil_r. auto.
      * destruct C as [->|(-> & L & extra & m & _ & E3)]; [exists []; rewrite app_nil_r; eauto|].
        rewrite E1 in E3. injection E3 as -> _. exists extra. eexists. split; [exact E2|]. auto.
Qed.

Lemma one_manifest_ok u c exe file origins extensions s s' : sane s -> file <> [] ->
  steps (one_manifest u c exe file origins extensions, s) (Ret None, s') ->
  exists name path, let m := mkManifest name Description exe (b "stdio") origins extensions path in
    valid_manifest u m /\ resolves u s file (manifest_options c) path name /\ (path = b "-" <-> file = b "-") /\
    later (fun x => x = path) (Force c) s s' /\ delivered s s' (Force c) path (MarshalIndent m ++ nl) /\ (path <> b "-" -> out s' = out s).
Proof.
  intros SA NE R. unfold one_manifest in R. destruct (str_eqb_spec file []); [contradiction|]. apply steps_bind2 in R.
  destruct R as [(p' & s1 & R & N & E)|(a & s1 & R & R2)]; [exfalso; injection E as E _; exact (bind_ret _ _ _ N (eq_sym E))|].
  destruct (AsAbs_quiet _ _ _ _ _ R) as (E & _ & PA). cbn [fst snd] in *. subst s1. specialize (PA a eq_refl). clear R.
  destruct a as [[path name]|]; [|apply steps_ret in R2; discriminate]. unfold writeManifest in R2.
  destruct (Init u _) as [m'|] eqn:IN; [|apply steps_ret in R2; discriminate]. apply Init_valid in IN. destruct IN as (V & ->).
  cbn [mName mDescription mPath mType mOrigins mExtensions mFile] in *. exists name, path. cbv zeta. split; [exact V|]. split; [exact PA|].
  assert (ND : file <> b "-" -> normal path).
  { intros N. change path with (mFile (mkManifest name Description exe (b "stdio") origins extensions path)). apply (manifest_normal u); [exact V|].
    exact (resolves_abs _ _ _ _ _ _ SA N PA). }
  assert (PD : path = b "-" \/ normal path).
  { destruct (str_eqb_spec file (b "-")) as [->|N]; [left; exact (resolves_dash _ _ _ _ _ PA)|right; auto]. }
  split.
  { split; [|intros ->; exact (resolves_dash _ _ _ _ _ PA)]. intros ->. destruct (str_eqb_spec file (b "-")) as [->|N]; [reflexivity|]. destruct (ND N). discriminate. }
  apply steps_bind2 in R2.
  destruct R2 as [(p' & s1 & R & N & E)|(a & s1 & R & R2)]; [exfalso; injection E as E _; exact (bind_ret _ _ _ N (eq_sym E))|].
  destruct a as [[]|e]; apply steps_ret in R2; [|discriminate]. injection R2 as <-. exact (write_ok _ _ _ _ _ _ PD R).
Qed.

Lemma delivered_later P force s0 s1 s2 path content : later P force s1 s2 -> delivered s0 s1 force path content -> out s2 = out s1 \/ path <> b "-" ->
  delivered s0 s2 force path content \/ force = true /\ P path.
Proof.
  intros (_ & _ & L) [(-> & E)|(N & extra & m & E & X)] O.
  - left. left. split; [reflexivity|]. destruct O as [->|]; [exact E|contradiction].
  - destruct (L _ _ _ E) as [(m' & E')|H]; [|auto]. left. right. split; [exact N|]. exists extra, m'. auto.
Qed.
Lemma delivered_from s0 s1 s2 force path content : out s1 = out s0 -> delivered s1 s2 force path content -> delivered s0 s2 force path content.
Proof. intros E [(-> & O)|H]; [left|right]; [|exact H]. split; [reflexivity|congruence]. Qed.

Lemma manifests_ok u s0 c c' target s s' : sane s0 -> same_folders s0 s -> env s = env s0 -> with_paths u s0 c c' -> manifest_target u s0 c target ->
  (FirefoxManifest c = b "-" -> ChromeManifest c <> b "-") ->
  steps (manifests u c' target, s) (Ret None, s') ->
  later (fun x => exists m, (FirefoxManifest c <> [] /\ firefox_manifest u s0 c m \/ ChromeManifest c <> [] /\ chrome_manifest u s0 c m) /\ x = mFile m) (Force c) s s' /\
  (FirefoxManifest c <> b "-" -> ChromeManifest c <> b "-" -> out s' = out s) /\
  (FirefoxManifest c <> [] -> exists m, firefox_manifest u s0 c m /\ (delivered s s' (Force c) (mFile m) (MarshalIndent m ++ nl) \/
     Force c = true /\ ChromeManifest c <> [] /\ exists m', chrome_manifest u s0 c m' /\ mFile m' = mFile m)) /\
  (ChromeManifest c <> [] -> exists m, chrome_manifest u s0 c m /\ delivered s s' (Force c) (mFile m) (MarshalIndent m ++ nl)).
Proof.
  intros SA FO EV WP MT PR R. destruct (with_paths_fields _ _ c c' WP) as (E1 & E2 & E3 & E4 & E5 & E6 & E7).
  assert (SS : sane s) by (eapply sane_later; eauto). unfold manifests in R. rewrite E4, E5, E6, E7 in R. apply steps_bind2 in R.
  destruct R as [(p' & s1 & R & N & E)|(a & s1 & R & R2)]; [exfalso; injection E as E _; exact (bind_ret _ _ _ N (eq_sym E))|].
  destruct a as [e|]; [apply steps_ret in R2; discriminate|].
  pose (PF := fun x => exists m, (FirefoxManifest c <> [] /\ firefox_manifest u s0 c m) /\ x = mFile m).
  pose (PC := fun x => exists m, (ChromeManifest c <> [] /\ chrome_manifest u s0 c m) /\ x = mFile m).
  assert (H1 : later PF (Force c) s s1 /\ (FirefoxManifest c <> b "-" -> out s1 = out s) /\
     (FirefoxManifest c <> [] -> exists m, firefox_manifest u s0 c m /\ (mFile m = b "-" <-> FirefoxManifest c = b "-") /\ delivered s s1 (Force c) (mFile m) (MarshalIndent m ++ nl))).
  { destruct (str_eqb_spec (FirefoxManifest c) []) as [FE|FE].
    - unfold one_manifest in R. rewrite FE in R. cbn [str_eqb] in R. apply steps_ret in R. injection R as <-. split; [apply later_refl|]. split; [auto|]. intros Q. contradiction.
    - apply one_manifest_ok in R; [|exact SS|exact FE]. destruct R as (name & path & V & RS & PD & L & D & O). rewrite E2 in L, D.
      set (m := mkManifest name Description target (b "stdio") [] (Flags.slice (MozillaExtensionID c)) path) in *.
      assert (FM : firefox_manifest u s0 c m).
      { split; [|split; reflexivity]. split; [exact V|]. split; [reflexivity|]. split; [reflexivity|]. split; [exact MT|]. exists s. split; [exact FO|]. split; [exact EV|].
        unfold manifest_options in RS. rewrite E1 in RS. exact RS. }
      split; [|split].
      + destruct L as (L1 & L2 & L3). split; [exact L1|]. split; [exact L2|]. intros x cx mx E. destruct (L3 _ _ _ E) as [H|(F & ->)]; [auto|]. right. split; [exact F|]. exists m. auto.
      + intros Q. apply O. tauto.
      + intros _. exists m. auto. }
  destruct H1 as (LF & OF & DF). assert (S1 : sane s1) by (destruct LF as (A & B & _); eapply sane_later; eauto).
  assert (H2 : later PC (Force c) s1 s' /\ (ChromeManifest c <> b "-" -> out s' = out s1) /\
     (ChromeManifest c <> [] -> exists m, chrome_manifest u s0 c m /\ (mFile m = b "-" <-> ChromeManifest c = b "-") /\ delivered s1 s' (Force c) (mFile m) (MarshalIndent m ++ nl))).
  { destruct (str_eqb_spec (ChromeManifest c) []) as [FE|FE].
    - unfold one_manifest in R2. rewrite FE in R2. cbn [str_eqb] in R2. apply steps_ret in R2. injection R2 as <-. split; [apply later_refl|]. split; [auto|]. intros Q. contradiction.
    - apply one_manifest_ok in R2; [|exact S1|exact FE]. destruct R2 as (name & path & V & RS & PD & L & D & O). rewrite E2 in L, D.
      set (m := mkManifest name Description target (b "stdio") (map origin (Flags.slice (ChromeExtensionID c))) [] path) in *.
      assert (FM : chrome_manifest u s0 c m).
      { split; [|split; [reflexivity|apply origins_ok]]. split; [exact V|]. split; [reflexivity|]. split; [reflexivity|]. split; [exact MT|]. exists s1. destruct LF as (LF1 & LF2 & _).
        split; [intros x; rewrite (LF1 x); apply FO|]. split; [congruence|].
        unfold manifest_options in RS. rewrite E1 in RS. exact RS. }
      split; [|split].
      + destruct L as (L1 & L2 & L3). split; [exact L1|]. split; [exact L2|]. intros x cx mx E. destruct (L3 _ _ _ E) as [H|(F & ->)]; [auto|]. right. split; [exact F|]. exists m. auto.
      + intros Q. apply O. tauto.
      + intros _. exists m. auto. }
  destruct H2 as (LC & OC & DC). split; [|split; [|split]].
  - destruct (later_trans _ _ _ _ _ _ LF LC) as (A & B & C). split; [exact A|]. split; [exact B|]. intros x cx mx E. destruct (C _ _ _ E) as [H|(F & [(m & H & ->)|(m & H & ->)])]; [auto| |]; (right; split; [exact F|]; exists m; tauto).
  - intros A B. rewrite (OC B). auto.
  - intros A. destruct (DF A) as (m & FM & MD & D). exists m. split; [exact FM|].
    destruct (delivered_later _ _ _ _ _ _ _ LC D) as [H|(F & m' & (X & Y) & Z)].
    + destruct (str_eqb_spec (mFile m) (b "-")) as [Q|Q]; [left|right; exact Q]. apply OC. apply PR. tauto.
    + left. exact H.
    + right. split; [exact F|]. split; [exact X|]. exists m'. auto.
  - intros A. destruct (DC A) as (m & FM & MD & D). exists m. split; [exact FM|].
    destruct (str_eqb_spec (ChromeManifest c) (b "-")) as [Q|Q].
    + assert (FirefoxManifest c <> b "-") by (intros Z; apply PR in Z; contradiction). eapply delivered_from; [|exact D]. auto.
    + destruct D as [(Z & _)|D]; [|right; exact D]. apply MD in Z. contradiction.
Qed.

Lemma success q u c s0 s : sane s0 -> steps (processInstallFlags q u c, s0) (Ret (true, None), s) ->
  (WrapperPath c <> [] -> exists dest n, resolves u s0 (WrapperPath c) no_options dest n /\
     (dest = real_path s0 (self (env s0)) /\ Customized c = false \/
      exists content, generated q u s0 c dest content 493 /\ (delivered s0 s (Force c) dest content \/
        Force c = true /\ exists m, (FirefoxManifest c <> [] /\ firefox_manifest u s0 c m \/ ChromeManifest c <> [] /\ chrome_manifest u s0 c m) /\ mFile m = dest))) /\
  (FirefoxManifest c <> [] -> exists m, firefox_manifest u s0 c m /\ (delivered s0 s (Force c) (mFile m) (MarshalIndent m ++ nl) \/
     Force c = true /\ ChromeManifest c <> [] /\ exists m', chrome_manifest u s0 c m' /\ mFile m' = mFile m)) /\
  (ChromeManifest c <> [] -> exists m, chrome_manifest u s0 c m /\ delivered s0 s (Force c) (mFile m) (MarshalIndent m ++ nl)) /\
  (Customized c = true -> WrapperPath c <> []).
Proof.
  intros SA R. unfold processInstallFlags in R. cbv zeta in R.
  destruct (count (fun f => negb (is_empty f)) [WrapperPath c; FirefoxManifest c; ChromeManifest c] =? 0)%nat; [apply steps_ret in R; discriminate|].
  destruct (1 <? count is_dash [WrapperPath c; FirefoxManifest c; ChromeManifest c])%nat eqn:CD; [apply steps_ret in R; discriminate|].
  destruct (is_dash (WrapperPath c) && (negb (is_empty (FirefoxManifest c)) || negb (is_empty (ChromeManifest c)))) eqn:WD; [apply steps_ret in R; discriminate|].
  destruct (is_empty (WrapperPath c) && Customized c) eqn:EC; [apply steps_ret in R; discriminate|].
  assert (P1 : FirefoxManifest c = b "-" -> ChromeManifest c <> b "-").
  { intros E E3. rewrite E, E3 in CD. cbn in CD. unfold is_dash in CD. destruct (str_eqb (WrapperPath c) (b "-")); cbn in CD; discriminate. }
  assert (P2 : WrapperPath c = b "-" -> FirefoxManifest c = [] /\ ChromeManifest c = []).
  { intros E. rewrite E in WD. unfold is_dash, is_empty in WD. change (str_eqb (b "-") (b "-")) with true in WD. cbn [andb] in WD. apply orb_false_iff in WD. destruct WD as [A B].
    apply negb_false_iff in A, B. apply str_eqb_eq in A, B. auto. }
  assert (P3 : Customized c = true -> WrapperPath c <> []).
  { intros E Z. rewrite E, Z in EC. discriminate. }
  clear CD WD EC. apply steps_bind2 in R. destruct R as [(p' & s' & R & N & E)|(a & s' & R & R2)]; [exfalso; injection E as E _; exact (bind_ret _ _ _ N (eq_sym E))|].
  destruct (FixPaths_quiet u c s0 _ R) as (E & _ & PA). cbn [fst snd] in *. subst s'. specialize (PA a eq_refl). clear R.
  destruct a as [[exe c']|]; [|apply steps_ret in R2; discriminate].
  destruct PA as (EX & WP). destruct (with_paths_fields _ _ c c' WP) as (E1 & E2 & E3 & E4 & E5 & E6 & E7).
  assert (ED : exe <> b "-") by (destruct (real_abs s0 (self (env s0)) SA) as (ecs & _ & Q); rewrite EX, Q; discriminate).
  assert (REST : forall me wr, manifest_target u s0 c (if is_empty me then exe else me) ->
    (wr = [] /\ WrapperPath c = [] \/ WrapperPath c <> [] /\ (exists n, resolves u s0 (WrapperPath c) no_options wr n) /\ (wr = b "-" \/ normal wr)) ->
    (wr = b "-" -> WrapperPath c = b "-") ->
    steps (bind (write_wrapper q c' (Customized c) exe wr) (fun e =>
              match e with
              | Some e => Ret (true, Some e)
              | None =>
                  bind (manifests u c' (if is_empty me then exe else me)) (fun e => Ret (true, e))
              end), s0) (Ret (true, None), s) ->
    (WrapperPath c <> [] -> 
     (wr = real_path s0 (self (env s0)) /\ Customized c = false \/
      exists content, generated q u s0 c wr content 493 /\ (delivered s0 s (Force c) wr content \/
        Force c = true /\ exists m, (FirefoxManifest c <> [] /\ firefox_manifest u s0 c m \/ ChromeManifest c <> [] /\ chrome_manifest u s0 c m) /\ mFile m = wr))) /\
    (FirefoxManifest c <> [] -> exists m, firefox_manifest u s0 c m /\ (delivered s0 s (Force c) (mFile m) (MarshalIndent m ++ nl) \/
     Force c = true /\ ChromeManifest c <> [] /\ exists m', chrome_manifest u s0 c m' /\ mFile m' = mFile m)) /\
    (ChromeManifest c <> [] -> exists m, chrome_manifest u s0 c m /\ delivered s0 s (Force c) (mFile m) (MarshalIndent m ++ nl))).
  { clear R2. intros me wr MT W WDA R. apply steps_bind2 in R. destruct R as [(p' & s' & R & N & E)|(a & s1 & R & R2)]; [exfalso; injection E as E _; exact (bind_ret _ _ _ N (eq_sym E))|].
    destruct a as [e|]; [apply steps_ret in R2; discriminate|].
    apply steps_bind2 in R2. destruct R2 as [(p' & s' & R2 & N & E)|(a & s2 & R2 & R3)]; [exfalso; injection E as E _; exact (bind_ret _ _ _ N (eq_sym E))|].
    apply steps_ret in R3. injection R3 as <- ->.
    assert (H : later (fun x => x = wr) (Force c) s0 s1 /\ (WrapperPath c <> b "-" -> out s1 = out s0) /\ (WrapperPath c <> [] ->
       (wr = exe /\ Customized c = false \/ exists content, generated q u s0 c wr content 493 /\ delivered s0 s1 (Force c) wr content))).
    { unfold write_wrapper, is_empty in R. destruct W as [(-> & WE)|(WN & RS & D)].
      - assert (CU : Customized c = false) by (destruct (Customized c); [exfalso; apply P3; auto|reflexivity]). rewrite CU in R. cbn [str_eqb negb orb] in R.
        apply steps_ret in R. injection R as <-. split; [apply later_refl|]. split; [auto|]. intros Q. contradiction.
      - assert (WE : wr <> []) by (destruct D as [->|(A & _)]; [discriminate|intros ->; discriminate]).
        destruct (str_eqb_spec wr []); [contradiction|]. cbn [negb orb] in R.
        destruct (str_eqb_spec wr exe) as [EE|NE]; cbn [negb] in R.
        + destruct (Customized c) eqn:CU; apply steps_ret in R; [discriminate|]. injection R as <-. split; [apply later_refl|]. auto.
        + destruct (q exe) as [qexe|] eqn:QE; [|apply steps_ret in R; discriminate].
          destruct (AsShellCommand q c') as [[args|]|] eqn:AS; [|apply steps_ret in R; discriminate|apply steps_abort in R; discriminate].
          apply steps_bind2 in R. destruct R as [(p' & s' & R & N & E)|(a & s3 & R & R3)]; [exfalso; injection E as E _; exact (bind_ret _ _ _ N (eq_sym E))|].
          destruct a as [[]|e]; apply steps_ret in R3; [|discriminate]. injection R3 as <-. rewrite E2 in R.
          destruct (write_ok _ _ _ _ _ _ D R) as (L & DE & O). split; [exact L|]. split.
          * intros Q. apply O. intros Z. apply WDA in Z. contradiction.
          * intros _. right. exists (wrapper_content qexe args). split; [|exact DE]. apply g_wrapper with c'; try assumption; rewrite <- EX; assumption. }
    destruct H as (LW & OW & DW). assert (FO := LW). destruct FO as (FO & EV & _).
    destruct (manifests_ok u s0 c c' _ s1 s2 SA FO EV WP MT P1 R2) as (LM & OM & DF & DC).
    split; [|split].
    - intros WN. destruct (DW WN) as [(-> & CU)|(content & G & D)]; [left; rewrite <- EX; auto|]. right. exists content. split; [exact G|].
      destruct (delivered_later _ _ _ _ _ _ _ LM D) as [H|(F & m & X & Z)]; [|auto|].
      + destruct (str_eqb_spec wr (b "-")) as [Q|Q]; [left|right; exact Q]. apply OM; destruct (P2 (WDA Q)) as [Z1 Z2]; rewrite ?Z1, ?Z2; discriminate.
      + right. split; [exact F|]. exists m. auto.
    - intros A. assert (O : out s1 = out s0) by (apply OW; intros Q; destruct (P2 Q); contradiction). destruct (DF A) as (m & FM & [D|D]); exists m; (split; [exact FM|]); [left|right; exact D]. exact (delivered_from _ _ _ _ _ _ O D).
    - intros A. assert (O : out s1 = out s0) by (apply OW; intros Q; destruct (P2 Q); contradiction). destruct (DC A) as (m & FM & D). exists m. split; [exact FM|]. exact (delivered_from _ _ _ _ _ _ O D). }
  rewrite E3 in R2. unfold is_empty at 1, is_dash at 1 in R2.
  destruct (str_eqb_spec (WrapperPath c) []) as [WE|WE]; cbn [negb andb] in R2.
  - destruct (REST [] (WrapperPath c)) as (A & B & C); auto.
    + unfold manifest_target. rewrite WE. exact EX.
    + split; [intros Q; contradiction|]. auto.
  - destruct (str_eqb_spec (WrapperPath c) (b "-")) as [WDA|WDA]; cbn [negb] in R2.
    + assert (RS : resolves u s0 (WrapperPath c) no_options (WrapperPath c) []) by (left; auto). destruct (REST [] (WrapperPath c)) as (A & B & C); auto.
      * unfold manifest_target. rewrite WDA. exact EX.
      * right. split; [exact WE|]. split; [eauto|left; exact WDA].
      * split; [|auto]. intros _. exists (WrapperPath c), []. auto.
    + apply steps_bind2 in R2. destruct R2 as [(p' & s' & R & N & E)|(a & s' & R & R2)]; [exfalso; injection E as E _; exact (bind_ret _ _ _ N (eq_sym E))|].
      destruct (AsAbs_quiet _ _ _ _ _ R) as (E & _ & PA). cbn [fst snd] in *. subst s'. specialize (PA a eq_refl). clear R.
      destruct a as [[path n]|]; [|apply steps_ret in R2; discriminate].
      pose proof (resolves_abs _ _ _ _ _ _ SA WDA PA) as (cs & CG & ->).
      assert (NP : normal (abs_path cs)).
      { apply abs_normal; [exact CG|]. intros Q. destruct PA as [(? & _)|(_ & PA)]; [contradiction|]. cbv zeta in PA.
        destruct PA as [(_ & Z1 & Z2 & _)|(C & Z & _)]; [cbn in Z1; congruence|]. rewrite <- Z, Q in C.
        destruct SA as (ROOT & _).
        destruct C as [[C _]|(? & ? & C)]; congruence. }
      destruct (REST (abs_path cs) (abs_path cs)) as (A & B & C); auto.
      * unfold manifest_target. destruct (str_eqb_spec (WrapperPath c) []); [contradiction|].
        destruct (str_eqb_spec (WrapperPath c) (b "-")); [contradiction|]. cbn [orb]. exists n. exact PA.
      * right. split; [exact WE|]. split; [eauto|right; exact NP].
      * intros Q. discriminate.
      * split; [|auto]. intros _. exists (abs_path cs), n. auto.
Qed.

(** ** Options that make the wrapper necessary *)
Theorem customized_meaning schemes users mozilla chrome args c : parse_args (defaults schemes users mozilla chrome) args = Some c ->
  (Customized c = false <-> LogFile c = b "-" /\ LinkSources c = [] /\ DisableLinkSet c = false /\ Command c = b "emacsclient" /\
     forall l rest, line args l rest -> said [b "scheme"] l = [] /\ said [b "emacsarg"] l = []) /\
  (Customized c = false -> forall letters u chunk v, service_of letters u chunk c v <-> service_of letters u chunk (defaults schemes users mozilla chrome) v).
Proof.
  intros P. apply parsed_configured in P. destruct P as (l & rest & more & L & _ & _ & _ & _ & _ & _ & _ & _ & _ & (S1 & S2) & (E1 & E2) & _).
  assert (N : forall f (x : list str), (IsModified f = true <-> x <> []) -> (IsModified f = false <-> x = [])).
  { intros f x. destruct (IsModified f), x; intros [A B]; split; intros; try congruence; exfalso; try (apply A; reflexivity); try (discriminate (B ltac:(discriminate))). }
  apply N in S2, E2.
  assert (C : Customized c = false <-> LogFile c = b "-" /\ LinkSources c = [] /\ DisableLinkSet c = false /\ Command c = b "emacsclient" /\ IsModified (Scheme c) = false /\ IsModified (EmacsArgs c) = false).
  { unfold Customized. rewrite !orb_false_iff, !negb_false_iff. destruct (str_eqb_spec (LogFile c) (b "-")) as [A|A], (str_eqb_spec (Command c) (b "emacsclient")) as [B|B];
      destruct (LinkSources c); cbn [length Nat.eqb]; split; intros H; repeat match goal with H : _ /\ _ |- _ => destruct H end; try discriminate; try contradiction; repeat split; auto. }
  split.
  - rewrite C, S2, E2. split; intros (A1 & A2 & A3 & A4 & A5); repeat (split; [assumption|]).
    + destruct A5 as [A5 A6]. intros l' rest' L'. destruct (line_fun l args rest L l' rest' L') as [-> _]. auto.
    + exact (A5 l rest L).
  - intros H. apply C in H. destruct H as (A1 & A2 & A3 & A4 & A5 & A6). apply S2 in A5. apply E2 in A6. rewrite A5 in S1. rewrite A6 in E1. cbn in S1, E1. rewrite app_nil_r in S1, E1.
    intros letters u chunk v. unfold service_of. rewrite S1, E1, A2, A3, A4. reflexivity.
Qed.
