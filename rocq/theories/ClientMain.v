(** Properties of executions of clients. *)
From Coq Require Import ZifyBool ZifyNat ZifyN.
From Verif Require Import GoBase JsonSpec Client ClientSpec ClientProofs.

Lemma once body tr s i : crun body new_client tr s -> length (dones i tr) <= (if i <? begun tr then 1 else 0).
Proof. intros R. pose proof (v_count _ _ (inv_run _ _ _ R) i) as C. rewrite (v_len _ _ (inv_run _ _ _ R)) in C. lia. Qed.
Lemma numbers body tr s : crun body new_client tr s -> map snd (sends tr) = map N.of_nat (seq 0 (length (sends tr))) /\ NoDup (map fst (sends tr)).
Proof. intros R. split; [exact (v_seq _ _ (inv_run _ _ _ R))|exact (v_once _ _ (inv_run _ _ _ R))]. Qed.

(** Reasons *)
Lemma reasons body tr i c s : crun body new_client (tr ++ [XDone i c]) s -> justified body tr i c.
Proof.
  intros R. apply crun_split in R as (s1 & R & S). apply crun_one in S. pose proof (inv_run _ _ _ R) as V.
  inversion S as [|n p sh cl cs r i' H C| | | |n p sh cl bz cs r i' q e j H F G| | | | | |n p sh cl bz cs i' e|n p sh cl bz cs i' t v H|n p sh cl bz cs i' t e H| |n p sh cl bz cs e m1 q i' m2| | |]; subst.
  - apply ju_refused.
    + intros q I. apply sends_in in I. destruct (v_sent _ _ V _ _ I) as (k & E & N). cbn [calls] in E. congruence.
    + apply orb_prop in C as [C|C]; subst; [|left; left; apply (v_close _ _ V); reflexivity].
      pose proof (v_shut _ _ V) as O. pose proof (v_rd _ _ V) as W. cbn [shutdown rd pending] in O, W. assert (K : exists f, stopped tr f) by (destruct r; try discriminate O; [destruct W as (_ & f & W & _)|destruct W as (f & W)]; eauto).
      destruct K as (f & [K|(t & j & -> & K)]); [left; right; eauto|right; eauto].
  - destruct (v_failed _ _ V _ _ _ H) as [A B]. apply found_in in G. pose proof (proj1 (Forall_forall _ _) (v_pend _ _ V) _ G) as X. cbn [fst snd] in X. rewrite (sends_inj _ _ _ _ (v_seq _ _ V) X A). apply ju_write, B.
  - destruct (v_rd _ _ V) as (q & A & B). eapply ju_response; [apply sends_in, A|exact B|constructor].
  - destruct (v_rd _ _ V) as (q & A & B). eapply ju_response; [apply sends_in, A|exact B|constructor; exact H].
  - destruct (v_rd _ _ V) as (q & A & B). eapply ju_response; [apply sends_in, A|exact B|]. apply (se_body body i t e H).
  - destruct (v_rd _ _ V) as (I & f & St & E). cbn [pending] in I. assert (X : In (XSend i q) tr). { apply sends_in. apply (proj1 (Forall_forall _ _) (v_pend _ _ V) (q, i)). apply I. apply in_or_app. right. left. reflexivity. }
    destruct St as [St|(t & j & -> & St)], E as [[-> Cl]|[-> Cl]]; try (destruct f as [|t]); cbn [ended]; solve [eapply ju_eof; eauto|eapply ju_closed; eauto|eapply ju_failure; eauto].
Qed.
(** Nothing is sent while another request is being written. *)
Lemma writes body tr1 i q tr2 j q' s : crun body new_client (tr1 ++ XSend i q :: tr2 ++ [XSend j q']) s -> exists e, In (XSent i e) tr2.
Proof.
  intros R. replace (tr1 ++ XSend i q :: tr2 ++ [XSend j q']) with ((tr1 ++ XSend i q :: tr2) ++ [XSend j q']) in R by (rewrite <- app_assoc; reflexivity). apply crun_split in R as (s2 & R & S). apply crun_one in S.
  assert (Q : exists k, nth_error (calls s2) i = Some k /\ k = KOver).
  { pose proof (inv_run _ _ _ R) as V. assert (I : In (i, q) (sends (tr1 ++ XSend i q :: tr2))) by (apply sends_in, in_or_app; right; left; reflexivity). destruct (v_sent _ _ V _ _ I) as (k & E & N). exists k. split; [exact E|].
    assert (B : busy s2 = false) by (inversion S; reflexivity). destruct k; try congruence; exfalso; assert (X : busy s2 = true) by (apply (v_busy _ _ V); right; exists i; eexists; split; [exact E|exact Logic.I]); congruence. }
  clear S. replace (tr1 ++ XSend i q :: tr2) with ((tr1 ++ [XSend i q]) ++ tr2) in R by (rewrite <- app_assoc; reflexivity). apply crun_split in R as (s1 & R1 & R2).
  assert (W : nth_error (calls s1) i = Some (KWrite q)). { apply crun_split in R1 as (s0 & _ & S). apply crun_one in S. inversion S; subst. cbn [calls]. apply put_same. eapply nth_lt; eassumption. }
  clear R1 tr1. revert W Q. induction R2 as [s0|sa l sb tr sc S R IH]; intros W (k & E & ->); [congruence|]. 
  assert (Y : (exists e, l = XSent i e) \/ nth_error (calls sb) i = Some (KWrite q)).
  { destruct S; cbn [calls] in *; auto.
    - right. rewrite nth_error_app1 by exact (nth_lt _ _ _ W). exact W.
    - right. rewrite put_other; [exact W|eapply nth_lt; eassumption|]. intros ->. congruence.
    - right. rewrite put_other; [exact W|eapply nth_lt; eassumption|]. intros ->. congruence.
    - destruct (Nat.eq_dec i0 i) as [->|N]; [left; eauto|right; rewrite put_other; [exact W|eapply nth_lt; eassumption|exact N]].
    - destruct (Nat.eq_dec i0 i) as [->|N]; [left; eauto|right; rewrite put_other; [exact W|eapply nth_lt; eassumption|exact N]].
    - right. rewrite put_other; [exact W|eapply nth_lt; eassumption|]. intros ->. congruence.
    - right. rewrite put_other; [exact W|eapply nth_lt; eassumption|]. intros ->. congruence. }
  destruct Y as [(e & ->)|Y]; [exists e; left; reflexivity|]. destruct (IH Y) as (e & I); [eauto|]. exists e. right. exact I.
Qed.
(** After Close or after the end of reading nothing is sent. *)
Lemma flags_stay body s1 tr s2 : crun body s1 tr s2 -> closing s1 = true \/ shutdown s1 = true -> forall i q, ~ In (XSend i q) tr.
Proof.
  induction 1 as [s|sa l sb tr sc S R IH]; intros F i q; [intros []|]. intros [->|I].
  - inversion S; subst. cbn [closing shutdown] in F. destruct F; discriminate.
  - refine (IH _ i q I). clear IH R. destruct S; cbn [closing shutdown] in *; auto.
Qed.
Lemma after_close body tr1 tr2 s : crun body new_client (tr1 ++ XClose true :: tr2) s -> forall i q, ~ In (XSend i q) tr2.
Proof. intros R. apply crun_split in R as (s1 & _ & R). inversion R as [|a l c tr d S R']; subst. eapply flags_stay; [exact R'|]. inversion S; subst. left. reflexivity. Qed.
Lemma after_end body tr1 j e tr2 s : crun body new_client (tr1 ++ XDone j (OEnd e) :: tr2) s -> forall i q, ~ In (XSend i q) tr2.
Proof.
  intros R. apply crun_split in R as (s1 & R0 & R). pose proof (inv_run _ _ _ R0) as V. inversion R as [|a l c tr d S R']; subst. eapply flags_stay; [exact R'|]. inversion S; subst; cbn [closing shutdown].
  - match goal with H : _ || _ = true |- _ => apply orb_prop in H end. tauto.
  - right. exact (v_shut _ _ V).
Qed.
Lemma close_result body tr first s : crun body new_client (tr ++ [XClose first]) s -> (first = true <-> forall f, ~ In (XClose f) tr).
Proof.
  intros R. apply crun_split in R as (s1 & R & S). apply crun_one in S. pose proof (v_close _ _ (inv_run _ _ _ R)) as C.
  assert (F : forall tr s, crun body new_client tr s -> forall f, In (XClose f) tr -> In (XClose true) tr).
  { clear. intros tr. induction tr as [|l tr IH] using rev_ind; intros s R f I; [destruct I|]. apply crun_split in R as (s1 & R & S). apply crun_one in S. apply in_app_or in I as [I|[->|[]]]; [apply in_or_app; left; eapply IH; eassumption|].
    destruct f; [apply last_in|]. apply in_or_app. left. apply (v_close _ _ (inv_run _ _ _ R)). inversion S; subst. reflexivity. }
  inversion S; subst; cbn [closing] in C.
  - split; [|reflexivity]. intros _ f I. apply (F _ _ R) in I. apply C in I. discriminate I.
  - split; [discriminate|]. intros N. exfalso. apply (N true). apply C. reflexivity.
Qed.

(** ** The response of a call *)
Lemma in_pending tr s i q : inv tr s -> In (i, q) (sends tr) -> dones i tr = [] -> rd s = RRead -> In (q, i) (pending s).
Proof.
  intros V S D E. pose proof (v_count _ _ V i) as C. destruct (v_sent _ _ V _ _ S) as (k & Ek & N). unfold idle, owners in C. rewrite Ek, E, D in C. replace (i <? length (calls s)) with true in C by (symmetry; apply Nat.ltb_lt, (nth_lt _ _ _ Ek)). cbn [length] in C.
  assert (P : In i (map snd (pending s))). { apply (count_occ_In Nat.eq_dec). unfold occ in C. destruct k; try congruence; lia. } apply in_map_iff in P as ([q' i'] & E' & P). cbn [snd] in E'. subst i'.
  pose proof (proj1 (Forall_forall _ _) (v_pend _ _ V) _ P) as S'. cbn [fst snd] in S'. rewrite (sends_fun _ _ _ _ (v_once _ _ V) S S'). exact P.
Qed.
Lemma found_unique q i p : NoDup (map fst p) -> In (q, i) p -> found q p = Some i.
Proof.
  induction p as [|[q' j] p IH]; intros D I; [destruct I|]. cbn [map fst] in D. inversion_clear D as [|? ? D1 D2]. unfold found. cbn [find fst]. destruct (N.eqb_spec q' q) as [->|N].
  - destruct I as [I|I]; [injection I as <-; reflexivity|]. exfalso. apply D1. apply (in_map fst _ _ I).
  - destruct I as [I|I]; [congruence|]. exact (IH D2 I).
Qed.
Lemma dones_nil_app i tr tr' : dones i (tr ++ tr') = [] -> dones i tr = [] /\ dones i tr' = [].
Proof. rewrite dones_app. intros H. apply app_eq_nil in H. exact H. Qed.
Definition own_answer (body : nat -> str -> result str value) (i : nat) (r : result str str) (c : completion) : Prop := settled body i r c \/ exists e, c = OWrite e.
Lemma got_answer body i q r tr2 : forall tr1 s1 s2, crun body new_client tr1 s1 -> crun body s1 tr2 s2 -> dones i tr1 = [] ->
  (rd s1 = RGot q r /\ In (q, i) (pending s1)) \/ rd s1 = RBody (Some i) r -> Forall (own_answer body i r) (dones i tr2).
Proof.
  induction tr2 as [|l tr2 IH]; intros tr1 s1 s2 R1 R2 D W; [constructor|]. inversion R2 as [|a l' sb tr d S R']; subst. clear R2. pose proof (inv_run _ _ _ R1) as V.
  assert (R1' : crun body new_client (tr1 ++ [l]) sb) by (eapply crun_app; [exact R1|econstructor; [exact S|constructor]]).
  destruct (dones i [l]) as [|c cs] eqn:E.
  - replace (dones i (l :: tr2)) with (dones i tr2) by (change (l :: tr2) with ([l] ++ tr2); rewrite dones_app, E; reflexivity).
    apply (IH (tr1 ++ [l]) sb s2 R1' R'); [rewrite dones_app, D, E; reflexivity|]. clear IH R' R1' R1.
    destruct S; cbn [rd pending] in *; try exact W; try (destruct W as [[W P]|W]; try discriminate W).
    + left. split; [exact W|apply in_or_app; left; exact P].
    + right. exact W.
    + left. split; [exact W|]. unfold without. apply filter_In. split; [exact P|]. cbn [fst]. destruct (N.eqb_spec q q0) as [<-|N]; [|reflexivity]. exfalso.
      apply found_in in H1. pose proof (found_unique _ _ _ (v_keys _ _ V) H1) as F1. pose proof (found_unique _ _ _ (v_keys _ _ V) P) as F2. cbn [pending] in F1, F2. rewrite F1 in F2. injection F2 as ->. cbn [dones] in E. rewrite Nat.eqb_refl in E. discriminate E.
    + right. exact W.
    + injection W as -> ->. right. f_equal. apply (found_unique q i p (v_keys _ _ V) P).
    + injection W as -> <-. cbn [dones] in E. rewrite Nat.eqb_refl in E. discriminate E.
    + injection W as -> <-. cbn [dones] in E. rewrite Nat.eqb_refl in E. discriminate E.
    + injection W as -> <-. cbn [dones] in E. rewrite Nat.eqb_refl in E. discriminate E.
  - assert (Z : dones i tr2 = []).
    { pose proof (once body (tr1 ++ l :: tr2) s2 i) as O. rewrite dones_app in O. change (l :: tr2) with ([l] ++ tr2) in O. rewrite dones_app, E, !app_length in O. cbn [length] in O. destruct (dones i tr2); [reflexivity|]. cbn [length] in O.
      assert (X : crun body new_client (tr1 ++ [l] ++ tr2) s2) by (rewrite app_assoc; eapply crun_app; eassumption). specialize (O X). destruct (i <? _); lia. }
    change (l :: tr2) with ([l] ++ tr2). rewrite dones_app, E, Z, app_nil_r. destruct l as [| | | | |j c'| |]; try discriminate E. cbn [dones] in E. destruct (Nat.eqb_spec i j) as [<-|]; [|discriminate E]. injection E as <- <-. constructor; [|constructor].
    inversion S; subst; cbn [rd pending] in *.
    + exfalso. destruct W as [[-> P]| -> ]; [pose proof (proj1 (Forall_forall _ _) (v_pend _ _ V) _ P) as X; cbn [fst snd] in X|destruct (v_rd _ _ V) as (q0 & X & _)]; destruct (v_sent _ _ V _ _ X) as (k & Ek & N); cbn [calls] in Ek; congruence.
    + right. eauto.
    + destruct W as [[W P]|W]; [discriminate W|]. injection W as <-. left. constructor.
    + destruct W as [[W P]|W]; [discriminate W|]. injection W as <-. left. constructor. assumption.
    + destruct W as [[W P]|W]; [discriminate W|]. injection W as <-. left. apply (se_body body i t e). assumption.
    + destruct W as [[W P]|W]; discriminate W.
Qed.
Lemma answered body tr1 i q tr2 r tr3 s : crun body new_client (tr1 ++ XSend i q :: tr2 ++ XHeader q r :: tr3) s -> dones i (tr1 ++ XSend i q :: tr2) = [] ->
  Forall (fun c => settled body i r c \/ exists e, c = OWrite e) (dones i (tr1 ++ XSend i q :: tr2 ++ XHeader q r :: tr3)).
Proof.
  intros R D. replace (tr1 ++ XSend i q :: tr2 ++ XHeader q r :: tr3) with ((tr1 ++ XSend i q :: tr2) ++ XHeader q r :: tr3) in * by (rewrite <- app_assoc; reflexivity).
  rewrite dones_app, D. cbn [app dones]. apply crun_split in R as (s1 & R1 & R2). inversion R2 as [|a l' sb tr d S R']; subst. pose proof (inv_run _ _ _ R1) as V.
  assert (I : In (q, i) (pending s1)) by (eapply in_pending; [exact V|apply sends_in, in_or_app; right; left; reflexivity|exact D|inversion S; reflexivity]).
  apply (got_answer body i q r tr3 ((tr1 ++ XSend i q :: tr2) ++ [XHeader q r]) sb s); [eapply crun_app; [exact R1|econstructor; [exact S|constructor]]|exact R'|rewrite dones_app, D; reflexivity|]. left. inversion S; subst. cbn [rd pending] in *. auto.
Qed.

(** ** Progress *)
Ltac quickly := split; [split; intros; discriminate|intros; discriminate].
Lemma writer_step body tr s i k : inv tr s -> nth_error (calls s) i = Some k -> writing k -> exists l s', cstep body s l s' /\ quick l.
Proof.
  intros V E W. destruct s as [n p sh cl bz cs r]. cbn [calls] in E. destruct k as [|q|q e|]; try contradiction.
  - eexists _, _. split; [eapply x_sent, E|quickly].
  - assert (F : failing r = false). { destruct (failing r) eqn:F; [|reflexivity]. exfalso. refine (v_apart _ _ V _ _ _ E W). cbn [rd]. destruct r; try discriminate F; reflexivity. }
    destruct (found q p) as [j|] eqn:G; eexists _, _; [split; [eapply x_failed_done; eassumption|quickly]|split; [eapply x_failed_late; eassumption|quickly]].
Qed.
Lemma fail_step body n p sh cl bz cs e todo : exists l s', cstep body (mkClient n p sh cl bz cs (RFail e todo)) l s' /\ quick l.
Proof. destruct todo as [|[q i] todo]; eexists _, _; [split; [apply x_over|quickly]|split; [apply (x_fail body n p sh cl bz cs e [] q i todo)|quickly]]. Qed.
Lemma busy_step body tr s : inv tr s -> busy s = true -> exists l s', cstep body s l s' /\ quick l.
Proof.
  intros V B. destruct (proj1 (v_busy _ _ V) B) as [F|(i & k & E & W)]; [|eapply writer_step; eassumption].
  destruct s as [n p sh cl bz cs r]. cbn [rd] in F. destruct r; try discriminate F. apply fail_step.
Qed.
Lemma progress_step body tr s i : crun body new_client tr s -> i < begun tr -> dones i tr = [] -> exists l s', cstep body s l s' /\ quick l.
Proof.
  intros R L D. pose proof (inv_run _ _ _ R) as V. pose proof (v_count _ _ V i) as C. rewrite (v_len _ _ V), (proj2 (Nat.ltb_lt _ _) L), D in C. cbn [length] in C.
  destruct (busy s) eqn:B; [eapply busy_step; eassumption|]. destruct s as [n p sh cl bz cs r]. cbn [busy] in B. subst bz. unfold idle, owners in C. cbn [calls rd pending] in C.
  assert (K : nth_error cs i = Some KIdle \/ nth_error cs i <> Some KIdle) by (destruct (nth_error cs i) as [[]|]; (left; reflexivity) || (right; discriminate)). destruct K as [K|K].
  - destruct (sh || cl) eqn:F; [eexists _, _; split; [eapply x_refuse; eassumption|quickly]|]. apply Bool.orb_false_elim in F as [-> ->]. eexists _, _. split; [eapply x_send, K|quickly].
  - assert (O : r <> ROver). { intros ->. destruct (nth_error cs i) as [[]|]; cbn in C; try lia. congruence. }
    destruct r as [|q r|[j|] r|e|e todo|]; [| | | | |apply fail_step|congruence].
    + eexists _, _. split; [apply (x_stop body n p sh cl false cs FEof)|quickly].
    + eexists _, _. split; [apply x_match|quickly].
    + destruct r as [t|e]; [destruct (body j t) as [v|e] eqn:Bd|]; eexists _, _; [split; [apply x_result, Bd|quickly]|split; [apply x_body, Bd|quickly]|split; [apply x_error|quickly]].
    + eexists _, _. split; [apply x_skip|quickly].
    + eexists _, _. split; [apply x_end|quickly].
Qed.

(** ** The number of steps *)
Definition weight (k : caller) : nat := match k with KIdle => 4 | KWrite _ => 2 | KFailed _ _ => 1 | KOver => 0 end.
Definition effort (s : cstate) : nat :=
  list_sum (map weight (calls s)) +
  match rd s with
  | RRead => 4 + length (pending s)
  | RGot _ _ => 6 + length (pending s)
  | RBody _ _ => 5 + length (pending s)
  | REnd _ => 3 + length (pending s)
  | RFail _ todo => 1 + length todo
  | ROver => 0
  end.
Lemma put_weight i k k0 l : nth_error l i = Some k0 -> list_sum (map weight (put i k l)) + weight k0 = list_sum (map weight l) + weight k.
Proof.
  intros H. apply nth_error_split in H as (l1 & l2 & -> & <-). unfold put. rewrite firstn_app, firstn_all, Nat.sub_diag. cbn [firstn]. rewrite app_nil_r. replace (skipn (S (length l1)) (l1 ++ k0 :: l2)) with l2 by (rewrite skipn_app, skipn_all2 by lia; replace (S (length l1) - length l1) with 1 by lia; reflexivity).
  rewrite !map_app, !list_sum_app. cbn [map list_sum fold_right]. unfold list_sum. lia.
Qed.
Lemma without_length q p : length (without q p) <= length p.
Proof. unfold without. induction p as [|x p IH]; [apply le_n|]. cbn [filter]. destruct (negb _); cbn [length]; lia. Qed.
Lemma effort_step body tr s l s' : inv tr s -> cstep body s l s' -> effort s' + 1 <= effort s + match l with XGo => 5 | XHeader _ _ => 3 | XClose _ => 1 | _ => 0 end.
Proof.
  intros V S. destruct S; unfold effort; cbn [calls rd pending];
    repeat match goal with H : nth_error ?cs ?i = Some ?k0 |- context [put ?i ?k ?cs] => pose proof (put_weight i k k0 cs H); revert H end; intros; cbn [weight] in *; rewrite ?app_length; cbn [length]; try lia.
  - rewrite map_app, list_sum_app. cbn [map weight list_sum fold_right]. lia.
  - assert (Ov : over r = false) by (symmetry; exact (v_shut _ _ V)). destruct r as [| | | | |]; try discriminate Ov; rewrite ?app_length; cbn [length]; lia.
  - pose proof (without_length q p). destruct r; lia.
  - pose proof (without_length q p). lia.
Qed.
Lemma bounded_from body tr2 : forall tr1 s1 s2, crun body new_client tr1 s1 -> crun body s1 tr2 s2 -> length tr2 + effort s2 <= effort s1 + 5 * begun tr2 + 3 * headers tr2 + closes tr2.
Proof.
  induction tr2 as [|l tr2 IH]; intros tr1 s1 s2 R1 R2; [inversion R2; subst; cbn; lia|]. inversion R2 as [|a l' sb tr d S R']; subst.
  pose proof (effort_step _ _ _ _ _ (inv_run _ _ _ R1) S) as E. assert (R1' : crun body new_client (tr1 ++ [l]) sb) by (eapply crun_app; [exact R1|econstructor; [exact S|constructor]]). specialize (IH _ _ _ R1' R'). destruct l; cbn [length begun headers closes] in *; lia.
Qed.
Lemma bounded body tr s : crun body new_client tr s -> length tr <= 4 + 5 * begun tr + 3 * headers tr + closes tr.
Proof. intros R. pose proof (bounded_from body tr [] new_client s (cr_nil _ _) R) as H. change (effort new_client) with 4 in H. lia. Qed.
(** All calls are completed when reading stops. *)
Lemma everyone (P : nat -> Prop) n : (forall i, P i \/ ~ P i) -> (forall i, i < n -> P i) \/ exists i, i < n /\ ~ P i.
Proof.
  intros D. induction n as [|n [IH|(i & L & N)]]; [left; lia| |right; exists i; split; [lia|exact N]]. destruct (D n) as [H|H]; [left|right; exists n; split; [lia|exact H]]. intros i L. destruct (Nat.eq_dec i n) as [->|K]; [exact H|apply IH; lia].
Qed.
Lemma finishes body tr s : crun body new_client tr s -> exists tr' s', crun body s tr' s' /\ Forall own tr' /\ forall i, i < begun tr -> dones i (tr ++ tr') <> [].
Proof.
  intros R. remember (effort s) as m eqn:E. revert tr s R E. induction m as [m IH] using lt_wf_ind. intros tr s R E.
  destruct (everyone (fun i => dones i tr <> []) (begun tr)) as [A|(i & L & N)].
  - intros i. destruct (dones i tr); [right; intros H; exact (H eq_refl)|left; discriminate].
  - exists [], s. split; [constructor|]. split; [constructor|]. rewrite app_nil_r. exact A.
  - destruct (progress_step body tr s i R L) as (l & s1 & S & [O Q]). { destruct (dones i tr); [reflexivity|]. exfalso. apply N. discriminate. }
    pose proof (effort_step _ _ _ _ _ (inv_run _ _ _ R) S) as M. assert (M' : effort s1 < m). { destruct l; try lia; exfalso; [exact (proj1 O eq_refl)|exact (Q _ _ eq_refl)|exact (proj2 O _ eq_refl)]. }
    assert (R1 : crun body new_client (tr ++ [l]) s1) by (eapply crun_app; [exact R|econstructor; [exact S|constructor]]).
    destruct (IH _ M' _ _ R1 eq_refl) as (tr' & s2 & R2 & O2 & A2). exists (l :: tr'), s2. split; [econstructor; eassumption|]. split; [constructor; assumption|].
    intros j Lj. replace (tr ++ l :: tr') with ((tr ++ [l]) ++ tr') by (rewrite <- app_assoc; reflexivity). apply A2. rewrite begun_app. lia.
Qed.
