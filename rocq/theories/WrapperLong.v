(** Lemmas about long messages of the wrapper and about paths with control characters. *)
From Coq Require Import ZifyBool ZifyNat ZifyN.
From Verif Require Import GoBase JsonSpec Frame FrameSpec Stream StreamSpec StreamProofs Tools ToolsProofs.

Lemma hex_three n : (256 <= n < 4096)%N -> hex_of n = [(n / 16 / 16)%N; (n / 16 mod 16)%N; (n mod 16)%N].
Proof.
  intros [G L]. unfold hex_of. assert (8 <= N.log2 n)%N by (change 8%N with (N.log2 256); apply N.log2_le_mono; exact G).
  destruct (N.to_nat (N.log2 n)) as [|[|f]] eqn:E; try lia. cbn [hex_loop]. destruct (N.ltb_spec n 16); [lia|].
  assert (16 <= n / 16 < 256)%N by (split; [apply N.div_le_lower_bound; lia|apply N.div_lt_upper_bound; lia]).
  destruct (N.ltb_spec (n / 16) 16); [lia|]. assert (n / 16 / 16 < 16)%N by (apply N.div_lt_upper_bound; lia). destruct (N.ltb_spec (n / 16 / 16) 16); [reflexivity|lia].
Qed.
Lemma digit_char n : (n < 16)%N -> nth_error (b "0123456789abcdef") (N.to_nat n) = Some (hexdigit n) /\ (48 <= byte_value (hexdigit n))%N.
Proof. intros L. destruct n as [|p]; [split; [reflexivity|discriminate]|]. do 4 (destruct p as [p|p|]; try (exfalso; lia); try (split; [reflexivity|discriminate])). Qed.
Lemma wrapper_long size exe : let n := N.of_nat (length (wrapper_error exe)) in size (wrapper_error exe) = n -> (256 <= n < 4096)%N ->
  exists c h rest declared, nth_error (b "0123456789abcdef") (N.to_nat (n mod 16)) = Some c /\ wrapper_output size exe = h ++ rest /\ declared = (n / 16 + 256 * byte_value c)%N /\
    is_header h declared /\ (declared <= 1073741824)%N /\ (N.of_nat (length rest) < declared)%N.
Proof.
  intros n E B. unfold wrapper_output. rewrite E. unfold wrapper_header. rewrite hex_three by exact B. cbn [map app repeat].
  assert (M : (n mod 16 < 16)%N) by (apply N.mod_lt; discriminate). destruct (digit_char _ M) as [C1 C2].
  assert (Q : (n / 16 < 256)%N) by (apply N.div_lt_upper_bound; lia).
  exists (hexdigit (n mod 16)), [ascii_of_N (n / 16); hexdigit (n mod 16); ascii_of_N 0; ascii_of_N 0], (ascii_of_N 0 :: wrapper_error exe). eexists. split; [exact C1|].
  split; [cbn [app]; do 2 f_equal; rewrite <- N.div_mod by discriminate; reflexivity|]. split; [reflexivity|].
  assert (Bv : (byte_value (hexdigit (n mod 16)) < 256)%N) by (unfold byte_value; destruct (hexdigit (n mod 16)) as [[] [] [] [] [] [] [] []]; reflexivity).
  split; [|split; [lia|cbn [length]; fold n; lia]].
  eexists _, _, _, _. split; [reflexivity|]. unfold byte_value at 2 4 5. rewrite !N_ascii_embedding by lia. lia.
Qed.

(** ** Control characters *)
Definition tr_char (c : ascii) : ascii := if Ascii.eqb c (ascii_of_N 92) then "/"%char else if Ascii.eqb c (ascii_of_N 34) then "'"%char else c.
Lemma tr_plain s : Forall (fun c => c <> quote /\ c <> backslash) (tr s).
Proof.
  unfold tr. induction s as [|c s IH]; [constructor|]. cbn [map]. constructor; [|exact IH]. destruct (Ascii.eqb_spec c (ascii_of_N 92)) as [|N1]; [split; discriminate|].
  destruct (Ascii.eqb_spec c (ascii_of_N 34)) as [|N2]; [split; discriminate|]. split; assumption.
Qed.
Lemma chomp_split s : exists n, s = chomp s ++ repeat (ascii_of_N 10) n.
Proof.
  induction s as [|c s (n & IH)]; [exists 0; reflexivity|]. cbn [chomp]. destruct (chomp s) as [|d t] eqn:E.
  - destruct (Ascii.eqb_spec c (ascii_of_N 10)) as [->|]; [exists (Datatypes.S n)|exists n]; cbn [app repeat] in *; rewrite IH at 1; reflexivity.
  - exists n. cbn [app] in *. rewrite IH at 1. reflexivity.
Qed.
Lemma chomp_part (P : ascii -> Prop) s : Forall P s -> Forall P (chomp s).
Proof. intros F. destruct (chomp_split s) as (n & E). rewrite E in F. apply Forall_app in F. apply F. Qed.
Lemma tr_control c : (32 <= N_of_ascii (tr_char c))%N <-> (32 <= N_of_ascii c)%N.
Proof. unfold tr_char. destruct (Ascii.eqb_spec c (ascii_of_N 92)) as [->|]; [split; discriminate|]. destruct (Ascii.eqb_spec c (ascii_of_N 34)) as [->|]; [split; discriminate|]. reflexivity. Qed.
Lemma tr_line c : tr_char c = ascii_of_N 10 -> c = ascii_of_N 10.
Proof. unfold tr_char. destruct (Ascii.eqb_spec c (ascii_of_N 92)) as [->|]; [discriminate|]. destruct (Ascii.eqb_spec c (ascii_of_N 34)) as [->|]; [discriminate|]. auto. Qed.
Lemma tr_forall s : Forall (fun c => 32 <= N_of_ascii c)%N (tr s) <-> Forall (fun c => 32 <= N_of_ascii c)%N s.
Proof. unfold tr. fold tr_char. rewrite Forall_map. split; apply Forall_impl; intros c; apply tr_control. Qed.
Lemma shown_path exe : Forall (fun c => 32 <= N_of_ascii c)%N (chomp (tr exe)) <-> exists p n, exe = p ++ repeat (ascii_of_N 10) n /\ Forall (fun c => 32 <= N_of_ascii c)%N p.
Proof.
  split.
  - intros F. destruct (chomp_split (tr exe)) as (n & E). unfold tr in E at 1. fold tr_char in E. apply map_eq_app in E. destruct E as (p & q & -> & Ep & Eq).
    exists p, n. split; [|apply tr_forall; unfold tr; fold tr_char; rewrite Ep; exact F]. f_equal. clear Ep F. revert q Eq. induction n as [|n IH]; intros [|c q] Eq; cbn [map repeat] in Eq; try discriminate; [reflexivity|].
    injection Eq as E1 E2. cbn [repeat]. rewrite (tr_line _ E1), (IH _ E2). reflexivity.
  - intros (p & n & -> & F). rewrite tr_app, tr_lines, chomp_lines; [apply tr_forall, F|]. apply tr_forall in F. eapply Forall_impl; [|exact F]. cbn beta. intros c L ->. apply L. reflexivity.
Qed.
Lemma control_bad st p x : Forall (fun c => c <> quote /\ c <> backslash) p -> Exists (fun c => N_of_ascii c < 32)%N p -> scan_bytes (ins st) (p ++ x) = SBad.
Proof.
  induction 1 as [|c p [Q B] F IH]; intros E; [inversion E|]. destruct (N.lt_ge_cases (N_of_ascii c) 32) as [L|G].
  - cbn [app scan_bytes]. unfold sstep, ins. cbn [step]. apply byte_quote in Q. apply byte_backslash in B. rewrite (proj2 (N.eqb_neq _ _) Q), (proj2 (N.eqb_neq _ _) B), (proj2 (N.ltb_lt _ _) L). reflexivity.
  - inversion E as [? ? L|? ? E']; subst; [lia|]. change ((c :: p) ++ x) with ([c] ++ (p ++ x)). rewrite scan_app. rewrite (plain_byte st c G (byte_quote _ Q) (byte_backslash _ B)), (IH E'). reflexivity.
Qed.
Lemma plain_gchars p : Forall (fun c => c <> quote /\ c <> backslash) p -> Forall (fun c => 32 <= N_of_ascii c)%N p -> gchars p.
Proof. induction 1 as [|c p [Q B] F IH]; intros L; [constructor|]. inversion_clear L. apply gc_plain; auto. Qed.
Lemma plain_const p : forallb (fun c => (32 <=? N_of_ascii c)%N && negb (Ascii.eqb c quote) && negb (Ascii.eqb c backslash)) p = true -> gchars p.
Proof.
  intros H. rewrite forallb_forall in H. apply plain_gchars; apply Forall_forall; intros c I; specialize (H c I); rewrite !andb_true_iff, !negb_true_iff in H; destruct H as [[L Q] B].
  - split; apply Ascii.eqb_neq; assumption.
  - apply N.leb_le, L.
Qed.
Lemma gchars_app p : gchars p -> forall q, gchars q -> gchars (p ++ q).
Proof. induction 1; intros q Q; cbn [app]; [exact Q|apply gc_plain; auto|apply gc_escape; auto|apply gc_code; auto]. Qed.
Lemma wrapper_text exe : object_text (wrapper_error exe) <-> exists p n, exe = p ++ repeat (ascii_of_N 10) n /\ Forall (fun c => 32 <= N_of_ascii c)%N p.
Proof.
  rewrite <- shown_path. unfold wrapper_error. pose proof (chomp_part _ _ (tr_plain exe)) as P. revert P. generalize (chomp (tr exe)). intros p P. split.
  - intros T. apply Forall_forall. intros c I. apply N.le_ngt. intros L. destruct (object_scan [] _ [] ltac:(constructor) T) as [S _]. cbn [app] in S. rewrite app_nil_r in S.
    rewrite scan_app in S. assert (G : goes reset (b "{""error"": """) (ins [parseObjectValue])) by (vm_compute; reflexivity). rewrite G in S.
    rewrite (control_bad _ p _ P) in S; [discriminate|]. apply Exists_exists. eauto.
  - intros F. pose proof (plain_gchars p P F) as G. pose proof (gchars_app p G (b ": file not found or not executable") (plain_const (b ": file not found or not executable") eq_refl)) as G2.
    assert (S1 : gstring (quote :: b "error" ++ [quote])) by (eexists; split; [apply (plain_const (b "error")); reflexivity|reflexivity]).
    assert (S2 : gstring (quote :: (p ++ b ": file not found or not executable") ++ [quote])) by (eexists; split; [exact G2|reflexivity]).
    pose proof (gm_one 0 [] [] [ascii_of_N 32] [] _ _ ltac:(constructor) ltac:(constructor) ltac:(constructor; [cbn; tauto|constructor]) ltac:(constructor) S1 (gt_str 0 _ S2)) as M.
    apply gt_obj in M. eexists [], 1, _. split; [constructor|]. split; [exact M|]. split; [discriminate|]. cbn [app b list_ascii_of_string]. rewrite !app_nil_r, <- !app_assoc. reflexivity.
Qed.
