(** Lemmas about clients. *)
From Coq Require Import ZifyBool ZifyNat ZifyN.
From Verif Require Import GoBase JsonSpec Client ClientSpec.

Lemma crun_app body s1 tr1 s2 tr2 s3 : crun body s1 tr1 s2 -> crun body s2 tr2 s3 -> crun body s1 (tr1 ++ tr2) s3.
Proof. induction 1 as [|a l c tr d H _ IH]; intros K; [exact K|]. cbn [app]. econstructor; [exact H|apply IH, K]. Qed.
Lemma crun_split body tr1 : forall s1 tr2 s3, crun body s1 (tr1 ++ tr2) s3 -> exists s2, crun body s1 tr1 s2 /\ crun body s2 tr2 s3.
Proof.
  induction tr1 as [|l tr1 IH]; intros s1 tr2 s3 H; [exists s1; split; [constructor|exact H]|]. inversion H as [|a l' c tr d S R]; subst. destruct (IH _ _ _ R) as (s2 & R1 & R2). exists s2. split; [econstructor; eassumption|exact R2].
Qed.
Lemma crun_one body s1 l s2 : crun body s1 [l] s2 -> cstep body s1 l s2.
Proof. intros H. inversion H as [|a l' c tr d S R]; subst. inversion R; subst. exact S. Qed.
Lemma begun_app tr tr' : begun (tr ++ tr') = begun tr + begun tr'.
Proof. induction tr as [|[] tr IH]; cbn [app begun]; lia. Qed.
Lemma sends_app tr tr' : sends (tr ++ tr') = sends tr ++ sends tr'.
Proof. induction tr as [|[] tr IH]; cbn [app sends]; congruence. Qed.
Lemma dones_app i tr tr' : dones i (tr ++ tr') = dones i tr ++ dones i tr'.
Proof. induction tr as [|[] tr IH]; cbn [app dones]; try congruence. destruct (Nat.eqb i i0); cbn [app]; congruence. Qed.
Lemma sends_in i q tr : In (i, q) (sends tr) <-> In (XSend i q) tr.
Proof.
  induction tr as [|l tr IH]; [reflexivity|]. destruct l; cbn [sends In]; rewrite IH; try (split; [auto|intros [E|E]; [discriminate E|exact E]]).
  split; (intros [E|E]; [injection E as -> ->; left; reflexivity|right; exact E]).
Qed.

Lemma put_length i k l : i < length l -> length (put i k l) = length l.
Proof. intros L. unfold put. rewrite app_length, firstn_length. cbn [length]. rewrite skipn_length. lia. Qed.
Lemma put_same i k l : i < length l -> nth_error (put i k l) i = Some k.
Proof. intros L. unfold put. rewrite nth_error_app2 by (rewrite firstn_length; lia). rewrite firstn_length. replace (i - Nat.min i (length l)) with 0 by lia. reflexivity. Qed.
Lemma put_other i j k l : i < length l -> i <> j -> nth_error (put i k l) j = nth_error l j.
Proof.
  intros L N. unfold put. destruct (Nat.lt_ge_cases j i) as [A|A].
  - rewrite nth_error_app1 by (rewrite firstn_length; lia). rewrite <- (firstn_skipn i l) at 2. rewrite nth_error_app1 by (rewrite firstn_length; lia). reflexivity.
  - rewrite nth_error_app2 by (rewrite firstn_length; lia). rewrite firstn_length. replace (j - Nat.min i (length l)) with (S (j - i - 1)) by lia. cbn [nth_error].
    rewrite <- (firstn_skipn (S i) l) at 2. rewrite nth_error_app2 by (rewrite firstn_length; lia). f_equal. rewrite firstn_length. lia.
Qed.
Lemma nth_lt (l : list caller) i k : nth_error l i = Some k -> i < length l.
Proof. intros H. apply nth_error_Some. congruence. Qed.

(** Where a call waits for its completion *)
Definition idle (i : nat) (s : cstate) : nat := match nth_error (calls s) i with Some KIdle => 1 | _ => 0 end.
Definition owners (s : cstate) : list nat :=
  match rd s with
  | RFail _ todo => map snd todo
  | ROver => []
  | RBody (Some i) _ => i :: map snd (pending s)
  | _ => map snd (pending s)
  end.
Definition occ (i : nat) (l : list nat) : nat := count_occ Nat.eq_dec l i.
Definition writing (k : caller) : Prop := match k with KWrite _ => True | KFailed _ _ => True | _ => False end.
Definition over (r : reader) : bool := match r with RFail _ _ => true | ROver => true | _ => false end.
Definition stopped (tr : list clabel) (f : failure) : Prop := In (XStop f) tr \/ exists t j, f = FOther t /\ In (XDone j (OBody t)) tr.
Definition reads (tr : list clabel) (p : list (N * nat)) (r : reader) : Prop :=
  match r with
  | RGot q r => In (XHeader q r) tr
  | RBody (Some i) r => exists q, In (i, q) (sends tr) /\ In (XHeader q r) tr
  | REnd e => stopped tr e
  | RFail e todo => incl todo p /\ exists f, stopped tr f /\ ((e = ended false f /\ ~ In (XClose true) tr) \/ (e = ended true f /\ In (XClose true) tr))
  | ROver => exists f, stopped tr f
  | _ => True
  end.
Record inv (tr : list clabel) (s : cstate) : Prop := {
  v_len : length (calls s) = begun tr;
  v_count : forall i, idle i s + occ i (owners s) + length (dones i tr) = if i <? length (calls s) then 1 else 0;
  v_seq : map snd (sends tr) = map N.of_nat (seq 0 (length (sends tr)));
  v_next : nseq s = N.of_nat (length (sends tr));
  v_pend : Forall (fun m => In (snd m, fst m) (sends tr)) (pending s);
  v_keys : NoDup (map fst (pending s));
  v_sent : forall i q, In (i, q) (sends tr) -> exists k, nth_error (calls s) i = Some k /\ k <> KIdle;
  v_once : NoDup (map fst (sends tr));
  v_write : forall i q, nth_error (calls s) i = Some (KWrite q) -> In (i, q) (sends tr) /\ forall e, ~ In (XSent i e) tr;
  v_failed : forall i q e, nth_error (calls s) i = Some (KFailed q e) -> In (i, q) (sends tr) /\ In (XSent i (Some e)) tr;
  v_busy : busy s = true <-> failing (rd s) = true \/ exists i k, nth_error (calls s) i = Some k /\ writing k;
  v_alone : forall i k j k', nth_error (calls s) i = Some k -> nth_error (calls s) j = Some k' -> writing k -> writing k' -> i = j;
  v_apart : over (rd s) = true -> forall i k, nth_error (calls s) i = Some k -> ~ writing k;
  v_close : closing s = true <-> In (XClose true) tr;
  v_shut : shutdown s = over (rd s);
  v_rd : reads tr (pending s) (rd s);
  v_reply : forall i e, In (XSent i e) tr -> exists q, In (i, q) (sends tr) }.
Lemma inv_new : inv [] new_client.
Proof.
  constructor; cbn; try (intros; discriminate || contradiction); auto; try solve [constructor].
  - intros i. unfold idle. cbn. destruct i; reflexivity.
  - intros [] ? ?; discriminate.
  - intros [] ? ? ?; discriminate.
  - split; [discriminate|intros [E|(i & k & E & _)]; [discriminate|destruct i; discriminate]].
  - intros [] ? ? ? E; discriminate.
  - split; [discriminate|intros []].
Qed.

(** Occurrences *)
Lemma occ_app i l l' : occ i (l ++ l') = occ i l + occ i l'.
Proof. apply count_occ_app. Qed.
Lemma occ_cons i j l : occ i (j :: l) = (if Nat.eqb i j then 1 else 0) + occ i l.
Proof. unfold occ. cbn [count_occ]. destruct (Nat.eq_dec j i) as [->|N]; [rewrite Nat.eqb_refl; reflexivity|]. apply not_eq_sym, Nat.eqb_neq in N. rewrite N. reflexivity. Qed.
Lemma found_in q p i : found q p = Some i -> In (q, i) p.
Proof. unfold found. destruct (find _ p) as [[q' j]|] eqn:E; [|discriminate]. intros H. injection H as <-. apply find_some in E as [I E]. apply N.eqb_eq in E. cbn [fst snd] in *. subst. exact I. Qed.
Lemma found_none q p : found q p = None -> without q p = p.
Proof.
  unfold found. destruct (find _ p) as [x|] eqn:E; [discriminate|]. intros _. pose proof (find_none _ _ E) as N. clear E. unfold without. induction p as [|y p IH]; [reflexivity|]. cbn [filter]. rewrite (N y (or_introl eq_refl)). cbn [negb]. rewrite IH; [reflexivity|]. intros z I. apply N. right. exact I.
Qed.
Lemma found_occ q p i j : NoDup (map fst p) -> found q p = Some i -> occ j (map snd p) = (if Nat.eqb j i then 1 else 0) + occ j (map snd (without q p)).
Proof.
  intros D F. induction p as [|[q' k] p IH]; [discriminate|]. cbn [map fst snd] in D. inversion_clear D as [|? ? D1 D2]. unfold found in F. cbn [find fst] in F. unfold without. cbn [filter map fst snd]. destruct (N.eqb_spec q' q) as [->|Nq].
  - cbn [negb snd] in *. injection F as ->. rewrite occ_cons. f_equal. f_equal. f_equal. fold (without q p). symmetry. apply found_none. unfold found. destruct (find (fun x => N.eqb (fst x) q) p) as [[q2 k2]|] eqn:E; [|reflexivity].
    apply find_some in E as [I E]. apply N.eqb_eq in E. cbn [fst] in E. subst. exfalso. apply D1. apply (in_map fst _ _ I).
  - cbn [negb map snd]. rewrite !occ_cons. fold (without q p). rewrite (IH D2); [lia|]. exact F.
Qed.
Lemma without_incl q p : incl (without q p) p.
Proof. intros x I. apply filter_In in I. apply I. Qed.
Lemma without_nodup q p : NoDup (map fst p) -> NoDup (map fst (without q p)).
Proof.
  induction p as [|x p IH]; intros D; [constructor|]. cbn [map] in D. inversion_clear D as [|? ? D1 D2]. unfold without. cbn [filter]. fold (without q p). destruct (negb (N.eqb (fst x) q)); [|apply IH, D2]. cbn [map]. constructor; [|apply IH, D2]. intros I. apply D1. apply in_map_iff in I as (y & E & I). rewrite <- E. apply in_map, (without_incl q), I.
Qed.
Lemma sends_fun tr i q q' : NoDup (map fst (sends tr)) -> In (i, q) (sends tr) -> In (i, q') (sends tr) -> q = q'.
Proof.
  induction (sends tr) as [|[j x] l IH]; intros D A B; [contradiction|]. cbn [map fst] in D. inversion_clear D as [|? ? D1 D2]. destruct A as [A|A], B as [B|B]; try (injection A as -> ->); try (injection B as -> ->); try congruence; try (exfalso; apply D1; apply (in_map fst _ _ A)); try (exfalso; apply D1; apply (in_map fst _ _ B)). exact (IH D2 A B).
Qed.
Lemma sends_inj tr i j q : map snd (sends tr) = map N.of_nat (seq 0 (length (sends tr))) -> In (i, q) (sends tr) -> In (j, q) (sends tr) -> i = j.
Proof.
  intros E. assert (D : NoDup (map snd (sends tr))). { rewrite E. apply FinFun.Injective_map_NoDup; [intros x y; lia|apply seq_NoDup]. } clear E.
  induction (sends tr) as [|[k x] l IH]; intros A B; [contradiction|]. cbn [map snd] in D. inversion_clear D as [|? ? D1 D2]. destruct A as [A|A], B as [B|B]; try (injection A as -> ->); try (injection B as -> ->); try congruence; try (exfalso; apply D1; apply (in_map snd _ _ A)); try (exfalso; apply D1; apply (in_map snd _ _ B)). exact (IH D2 A B).
Qed.

(** Facts that do not depend on the state survive. *)
Lemma keep (l : clabel) tr x : In x tr -> In x (tr ++ [l]).
Proof. intros I. apply in_or_app. left. exact I. Qed.
Lemma last_in (l : clabel) tr : In l (tr ++ [l]).
Proof. apply in_or_app. right. left. reflexivity. Qed.
Lemma sends_other tr l : (forall i q, l <> XSend i q) -> sends (tr ++ [l]) = sends tr.
Proof. intros H. rewrite sends_app. destruct l; cbn [sends]; rewrite ?app_nil_r; try reflexivity. exfalso. exact (H _ _ eq_refl). Qed.
Lemma begun_other tr l : l <> XGo -> begun (tr ++ [l]) = begun tr.
Proof. intros H. rewrite begun_app. destruct l; cbn [begun]; try lia. congruence. Qed.
Lemma dones_other tr l i : (forall c, l <> XDone i c) -> dones i (tr ++ [l]) = dones i tr.
Proof. intros H. rewrite dones_app. destruct l as [| | | | |j c| |]; cbn [dones]; rewrite ?app_nil_r; try reflexivity. destruct (Nat.eqb_spec i j) as [->|N]; [exfalso; exact (H _ eq_refl)|apply app_nil_r]. Qed.
Lemma dones_this tr j c i : length (dones i (tr ++ [XDone j c])) = (if Nat.eqb i j then 1 else 0) + length (dones i tr).
Proof. rewrite dones_app, app_length. cbn [dones]. destruct (Nat.eqb i j); cbn [length]; lia. Qed.
Lemma close_other tr l : (forall f, l <> XClose f) -> (In (XClose true) (tr ++ [l]) <-> In (XClose true) tr).
Proof. intros H. rewrite in_app_iff. cbn [In]. split; [intros [I|[E|[]]]; [exact I|exfalso; exact (H _ E)]|auto]. Qed.
Lemma stopped_more tr l f : stopped tr f -> stopped (tr ++ [l]) f.
Proof. intros [H|(t & j & E & H)]; [left; apply keep, H|right; exists t, j; split; [exact E|apply keep, H]]. Qed.
Lemma reads_more tr l p p' r : incl p p' \/ over r = false -> (forall f, l <> XClose f) \/ failing r = false -> reads tr p r -> reads (tr ++ [l]) p' r.
Proof.
  intros I Nc. destruct r as [|q r|[i|] r|e|e todo|]; cbn [reads]; auto.
  - apply keep.
  - intros (q & A & B). exists q. rewrite sends_app. split; [apply in_or_app; left; exact A|apply keep, B].
  - apply stopped_more.
  - intros [A (f & B & C)]. split; [destruct I as [I|I]; [intros x X; apply I, A, X|discriminate I]|]. exists f. split; [apply stopped_more, B|]. destruct C as [[C D]|[C D]]; [left; split; [exact C|destruct Nc as [Nc|Nc]; [rewrite close_other by exact Nc; exact D|discriminate Nc]]|right; split; [exact C|apply keep, D]].
  - intros [f H]. exists f. apply stopped_more, H.
Qed.
Lemma sent_other tr l i e : (forall j e, l <> XSent j e) -> ~ In (XSent i e) tr -> ~ In (XSent i e) (tr ++ [l]).
Proof. intros H N I. apply in_app_or in I as [I|[I|[]]]; [exact (N I)|exact (H _ _ I)]. Qed.

Lemma nodup_snoc A (l : list A) x : NoDup l -> ~ In x l -> NoDup (l ++ [x]).
Proof. intros D N. apply (Permutation.Permutation_NoDup (Permutation.Permutation_cons_append l x)). constructor; assumption. Qed.
Lemma reply_other tr l : (forall j e, l <> XSent j e) -> (forall i e, In (XSent i e) tr -> exists q, In (i, q) (sends tr)) -> forall i e, In (XSent i e) (tr ++ [l]) -> exists q, In (i, q) (sends (tr ++ [l])).
Proof. intros N H i e I. apply in_app_or in I as [I|[I|[]]]; [|exfalso; exact (N _ _ I)]. destruct (H _ _ I) as [q S]. exists q. rewrite sends_app. apply in_or_app. left. exact S. Qed.
Ltac side := intros; congruence || discriminate.
Lemma quiet tr n p sh cl bz cs r l n' p' sh' cl' bz' r' :
  inv tr (mkClient n p sh cl bz cs r) -> n' = n -> (l <> XGo) -> (forall i q, l <> XSend i q) -> (forall i e, l <> XSent i e) ->
  incl p' p -> NoDup (map fst p') ->
  (forall i, occ i (owners (mkClient n p sh cl bz cs r)) + length (dones i tr) = occ i (owners (mkClient n' p' sh' cl' bz' cs r')) + length (dones i (tr ++ [l]))) ->
  (bz' = true <-> failing r' = true \/ exists i k, nth_error cs i = Some k /\ writing k) ->
  (over r' = true -> forall i k, nth_error cs i = Some k -> ~ writing k) ->
  (cl' = true <-> In (XClose true) (tr ++ [l])) -> sh' = over r' -> reads (tr ++ [l]) p' r' ->
  inv (tr ++ [l]) (mkClient n' p' sh' cl' bz' cs r').
Proof.
  intros [V1 V2 V3 V4 V5 V6 V7 V8 V9 V10 V11 V12 V13 V14 V15 V16 V17] -> L1 L2 L3 I D C Bz Ap Cl Sh Rd. cbn [calls pending shutdown closing busy rd nseq] in *.
  constructor; cbn [calls pending shutdown closing busy rd nseq]; rewrite ?(sends_other tr l L2); auto.
  - rewrite (begun_other tr l L1). exact V1.
  - intros i. rewrite <- (V2 i). unfold idle. cbn [calls]. specialize (C i). lia.
  - apply Forall_forall. intros x X. exact (proj1 (Forall_forall _ _) V5 x (I x X)).
  - intros i q H. destruct (V9 i q H) as [A E]. split; [exact A|]. intros e. apply sent_other; [exact L3|apply E].
  - intros i q e H. destruct (V10 i q e H) as [A E]. split; [exact A|apply keep, E].
  - rewrite <- (sends_other tr l L2). apply reply_other; [exact L3|exact V17].
Qed.

Lemma put_case i j k k' l : i < length l -> nth_error (put i k l) j = Some k' -> (i = j /\ k' = k) \/ (i <> j /\ nth_error l j = Some k').
Proof. intros L H. destruct (Nat.eq_dec i j) as [->|N]; [rewrite put_same in H by exact L; injection H as <-; left; auto|rewrite put_other in H by assumption; right; auto]. Qed.

(** A call makes a step. *)
Lemma moved tr n p sh cl bz cs r i k0 k l p' bz' :
  inv tr (mkClient n p sh cl bz cs r) -> nth_error cs i = Some k0 -> (k <> KIdle) ->
  (l <> XGo) -> (forall i q, l <> XSend i q) -> (forall j e, l = XSent j e -> j = i) -> (forall f, l <> XClose f) ->
  incl p' p -> NoDup (map fst p') -> (over r = true -> p' = p) ->
  (forall j, idle j (mkClient n p sh cl bz cs r) + occ j (owners (mkClient n p sh cl bz cs r)) + length (dones j tr) = idle j (mkClient n p' sh cl bz' (put i k cs) r) + occ j (owners (mkClient n p' sh cl bz' (put i k cs) r)) + length (dones j (tr ++ [l]))) ->
  (writing k -> writing k0) -> (bz' = true <-> failing r = true \/ writing k \/ (bz = true /\ ~ writing k0)) ->
  (forall q, k <> KWrite q) -> (forall q e, k = KFailed q e -> k0 = KWrite q /\ l = XSent i (Some e)) -> (forall j e, l = XSent j e -> exists q, In (i, q) (sends tr)) ->
  inv (tr ++ [l]) (mkClient n p' sh cl bz' (put i k cs) r).
Proof.
  intros [V1 V2 V3 V4 V5 V6 V7 V8 V9 V10 V11 V12 V13 V14 V15 V16 V17] H Nk L1 L2 L3 L4 I D O C W Bz Wr Fa Sn. cbn [calls pending shutdown closing busy rd nseq] in *.
  pose proof (nth_lt _ _ _ H) as L.
  constructor; cbn [calls pending shutdown closing busy rd nseq]; rewrite ?(sends_other tr l L2); auto.
  - rewrite (begun_other tr l L1), put_length by exact L. exact V1.
  - intros j. rewrite put_length by exact L. rewrite <- (V2 j). symmetry. apply C.
  - apply Forall_forall. intros x X. exact (proj1 (Forall_forall _ _) V5 x (I x X)).
  - intros j q S. destruct (V7 j q S) as (k' & E & N). destruct (Nat.eq_dec i j) as [->|Nj]; [exists k; rewrite put_same by exact L; auto|exists k'; rewrite put_other by assumption; auto].
  - intros j q E. apply put_case in E as [[-> E]|[Nj E]]; [exfalso; exact (Wr _ (eq_sym E))| |exact L]. destruct (V9 j q E) as [A F]. split; [exact A|]. intros e X. apply in_app_or in X as [X|[X|[]]]; [exact (F e X)|]. pose proof (L3 _ _ X). congruence.
  - intros j q e E. apply put_case in E as [[-> E]|[Nj E]]; [| |exact L].
    + destruct (Fa q e (eq_sym E)) as [-> ->]. split; [exact (proj1 (V9 _ _ H))|apply last_in].
    + destruct (V10 _ _ _ E) as [A F]. split; [exact A|apply keep, F].
  - rewrite Bz. split.
    + intros [X|[X|[X Y]]]; [left; exact X|right; exists i, k; rewrite put_same by exact L; auto|]. apply V11 in X as [X|(j & k' & E & X)]; [left; exact X|]. right. exists j, k'. split; [|exact X]. rewrite put_other; [exact E|exact L|]. intros ->. rewrite H in E. injection E as ->. exact (Y X).
    + intros [X|(j & k' & E & X)]; [left; exact X|]. apply put_case in E as [[-> ->]|[Nj E]]; [right; left; exact X| |exact L]. right. right. split; [apply V11; right; exists j, k'; auto|]. intros Y. apply Nj. exact (V12 _ _ _ _ H E Y X).
  - intros a ka c kc A B0 X Y. apply put_case in A; [|exact L]. apply put_case in B0; [|exact L]. destruct A as [[<- ->]|[Na A]], B0 as [[<- ->]|[Nc B0]].
    + reflexivity.
    + exact (V12 _ _ _ _ H B0 (W X) Y).
    + exact (V12 _ _ _ _ A H X (W Y)).
    + exact (V12 _ _ _ _ A B0 X Y).
  - intros Ov j k' E X. apply put_case in E as [[-> ->]|[Nj E]]; [exact (V13 Ov _ _ H (W X))|exact (V13 Ov _ _ E X)|exact L].
  - rewrite close_other by exact L4. exact V14.
  - destruct (over r) eqn:Er; [rewrite (O eq_refl) in *|]; refine (reads_more tr l p _ r _ (or_introl L4) V16); [left; apply incl_refl|right; exact Er].
  - intros j e X. apply in_app_or in X as [X|[X|[]]]; [exact (V17 _ _ X)|]. pose proof (L3 _ _ X) as Y. subst j. exact (Sn _ _ X).
Qed.

Lemma idle_put n p sh cl bz cs r i k j n' p' sh' cl' bz' r' : i < length cs ->
  idle j (mkClient n p sh cl bz (put i k cs) r) = if Nat.eqb j i then match k with KIdle => 1 | _ => 0 end else idle j (mkClient n' p' sh' cl' bz' cs r').
Proof. intros L. unfold idle. cbn [calls]. destruct (Nat.eqb_spec j i) as [->|N]; [rewrite put_same by exact L; reflexivity|rewrite put_other by auto; reflexivity]. Qed.
Lemma owners_late n p sh cl bz cs r i cs' n' sh' cl' bz' : (forall e todo, r <> RFail e todo) -> r <> ROver ->
  occ i (owners (mkClient n p sh cl bz cs r)) = (match r with RBody (Some j) _ => if Nat.eqb i j then 1 else 0 | _ => 0 end) + occ i (map snd p) /\
  occ i (owners (mkClient n' p sh' cl' bz' cs' r)) = (match r with RBody (Some j) _ => if Nat.eqb i j then 1 else 0 | _ => 0 end) + occ i (map snd p).
Proof. intros A B. unfold owners. cbn [rd pending]. destruct r as [|q r|[j|] r|e|e todo|]; rewrite ?occ_cons; try (split; reflexivity); try congruence; exfalso; eapply A; reflexivity. Qed.
Lemma nth_snoc (cs : list caller) i k : nth_error (cs ++ [KIdle]) i = Some k -> nth_error cs i = Some k \/ (i = length cs /\ k = KIdle).
Proof.
  intros H. destruct (Nat.lt_ge_cases i (length cs)) as [A|A]; [rewrite nth_error_app1 in H by exact A; left; exact H|]. rewrite nth_error_app2 in H by exact A. destruct (i - length cs) as [|m] eqn:E; [|destruct m; discriminate H]. injection H as <-. right. split; [lia|reflexivity].
Qed.
Lemma inv_go tr n p sh cl bz cs r : inv tr (mkClient n p sh cl bz cs r) -> inv (tr ++ [XGo]) (mkClient n p sh cl bz (cs ++ [KIdle]) r).
Proof.
  intros [V1 V2 V3 V4 V5 V6 V7 V8 V9 V10 V11 V12 V13 V14 V15 V16 V17]. cbn [calls pending shutdown closing busy rd nseq] in *.
  assert (L2 : forall i q, XGo <> XSend i q) by (intros; discriminate).
  constructor; cbn [calls pending shutdown closing busy rd nseq]; rewrite ?(sends_other tr _ L2); auto.
  - rewrite app_length, begun_app. cbn [length begun]. lia.
  - intros i. rewrite dones_other by (intros; discriminate). specialize (V2 i). unfold idle in *. cbn [calls] in *. unfold owners in *. cbn [rd pending] in *. rewrite app_length. cbn [length].
    destruct (Nat.lt_trichotomy i (length cs)) as [A|[A|A]].
    + rewrite nth_error_app1 by exact A. replace (i <? length cs + 1) with true by lia. replace (i <? length cs) with true in V2 by lia. exact V2.
    + subst i. rewrite nth_error_app2 by lia. rewrite Nat.sub_diag. cbn [nth_error]. replace (length cs <? length cs + 1) with true by lia. rewrite Nat.ltb_irrefl in V2. lia.
    + rewrite (proj2 (nth_error_None (cs ++ [KIdle]) i)) by (rewrite app_length; cbn [length]; lia). replace (i <? length cs + 1) with false by lia. replace (i <? length cs) with false in V2 by lia. destruct (nth_error cs i) as [[]|]; lia.
  - intros i q S. destruct (V7 i q S) as (k & E & N). exists k. split; [|exact N]. rewrite nth_error_app1 by exact (nth_lt _ _ _ E). exact E.
  - intros i q E. apply nth_snoc in E as [E|[_ E]]; [|discriminate E]. destruct (V9 _ _ E) as [A F]. split; [exact A|]. intros e. apply sent_other; [intros; discriminate|apply F].
  - intros i q e E. apply nth_snoc in E as [E|[_ E]]; [|discriminate E]. destruct (V10 _ _ _ E) as [A F]. split; [exact A|apply keep, F].
  - rewrite V11. split; (intros [X|(i & k & E & X)]; [left; exact X|right; exists i, k; split; [|exact X]]).
    + rewrite nth_error_app1 by exact (nth_lt _ _ _ E). exact E.
    + apply nth_snoc in E as [E|[_ ->]]; [exact E|contradiction].
  - intros i k j k' A B0 X Y. apply nth_snoc in A as [A|[_ ->]]; [|contradiction]. apply nth_snoc in B0 as [B0|[_ ->]]; [|contradiction]. exact (V12 _ _ _ _ A B0 X Y).
  - intros O i k E X. apply nth_snoc in E as [E|[_ ->]]; [|contradiction]. exact (V13 O _ _ E X).
  - rewrite close_other by side. exact V14.
  - refine (reads_more tr _ p p r _ (or_introl _) V16); [|intros; discriminate]. left. apply incl_refl.
  - rewrite <- (sends_other tr _ L2). apply reply_other; [intros; discriminate|exact V17].
Qed.
Lemma inv_send tr n p cs r i : nth_error cs i = Some KIdle -> inv tr (mkClient n p false false false cs r) ->
  inv (tr ++ [XSend i n]) (mkClient (n + 1) (p ++ [(n, i)]) false false true (put i (KWrite n) cs) r).
Proof.
  intros H [V1 V2 V3 V4 V5 V6 V7 V8 V9 V10 V11 V12 V13 V14 V15 V16 V17]. cbn [calls pending shutdown closing busy rd nseq] in *. pose proof (nth_lt _ _ _ H) as L.
  assert (Q : forall j k, nth_error cs j = Some k -> ~ writing k). { intros j k E X. assert (B0 : false = true) by (apply V11; right; eauto). discriminate B0. }
  assert (Ns : forall q, ~ In (i, q) (sends tr)). { intros q S. destruct (V7 _ _ S) as (k & E & N). congruence. }
  assert (Es : sends (tr ++ [XSend i n]) = sends tr ++ [(i, n)]) by (rewrite sends_app; reflexivity).
  constructor; cbn [calls pending shutdown closing busy rd nseq]; rewrite ?Es; auto.
  - rewrite put_length by exact L. rewrite begun_other by discriminate. exact V1.
  - intros j. rewrite put_length by exact L. rewrite dones_other by (intros; discriminate). rewrite <- (V2 j). rewrite (idle_put _ _ _ _ _ _ _ _ _ _ n p false false false r) by exact L.
    assert (O1 : forall e todo, r <> RFail e todo) by (intros e todo ->; discriminate V15). assert (O2 : r <> ROver) by (intros ->; discriminate V15).
    rewrite (proj1 (owners_late (n + 1) (p ++ [(n, i)]) false false true (put i (KWrite n) cs) r j cs n false false false O1 O2)), (proj1 (owners_late n p false false false cs r j cs n false false false O1 O2)).
    rewrite map_app, occ_app. cbn [map snd]. rewrite occ_cons. destruct (Nat.eqb_spec j i) as [->|N]; [|cbn; lia]. unfold idle. cbn [calls]. rewrite H. cbn. lia.
  - rewrite map_app, V3, app_length. cbn [map snd length]. rewrite seq_app, map_app. cbn [seq map]. rewrite V4. reflexivity.
  - rewrite V4, app_length. cbn [length]. lia.
  - apply Forall_app. split; [|constructor; [apply in_or_app; right; left; reflexivity|constructor]]. apply Forall_forall. intros x X. apply in_or_app. left. exact (proj1 (Forall_forall _ _) V5 x X).
  - rewrite map_app. cbn [map fst]. apply nodup_snoc; [exact V6|]. intros X. apply in_map_iff in X as ([q j] & E & X). cbn [fst] in E. subst q. apply (proj1 (Forall_forall _ _) V5) in X. cbn [fst snd] in X. apply (in_map snd) in X. rewrite V3 in X. apply in_map_iff in X as (m & E & X). apply in_seq in X. cbn [snd] in E. lia.
  - intros j q S. apply in_app_or in S as [S|[S|[]]]; [|injection S as <- <-; exists (KWrite n); rewrite put_same by exact L; split; [reflexivity|discriminate]].
    destruct (V7 _ _ S) as (k & E & N). exists k. split; [|exact N]. rewrite put_other; [exact E|exact L|]. intros ->. congruence.
  - rewrite map_app. cbn [map fst]. apply nodup_snoc; [exact V8|]. intros X. apply in_map_iff in X as ([j q] & E & X). cbn [fst] in E. subst j. exact (Ns _ X).
  - intros j q E. apply put_case in E as [[-> E]|[Nj E]]; [| |exact L].
    + injection E as ->. split; [apply in_or_app; right; left; reflexivity|]. intros e. apply sent_other; [intros; discriminate|]. intros X. destruct (V17 _ _ X) as [q S]. exact (Ns q S).
    + exfalso. exact (Q _ _ E Logic.I).
  - intros j q e E. apply put_case in E as [[-> E]|[Nj E]]; [discriminate E|exfalso; exact (Q _ _ E Logic.I)|exact L].
  - split; [intros _; right; exists i, (KWrite n); rewrite put_same by exact L; split; [reflexivity|exact Logic.I]|reflexivity].
  - intros a ka c kc A B0 X Y. apply put_case in A; [|exact L]. apply put_case in B0; [|exact L]. destruct A as [[<- ->]|[Na A]], B0 as [[<- ->]|[Nc B0]]; try reflexivity; exfalso; [exact (Q _ _ B0 Y)|exact (Q _ _ A X)|exact (Q _ _ A X)].
  - rewrite <- V15. discriminate.
  - rewrite close_other by side. exact V14.
  - refine (reads_more tr _ p _ r _ (or_introl _) V16); [|intros; discriminate]. right. symmetry. exact V15.
  - rewrite <- Es. apply reply_other; [intros; discriminate|exact V17].
Qed.
(** Steps of the reader outside the final part, Close *)
Lemma busy_same (P : Prop) bz r r' : failing r' = failing r -> (bz = true <-> failing r = true \/ P) -> (bz = true <-> failing r' = true \/ P).
Proof. intros ->. auto. Qed.
Ltac quietly V := eapply quiet; [exact V|reflexivity|discriminate|intros; discriminate|intros; discriminate|try apply incl_refl|try exact (v_keys _ _ V)|
  |try (refine (busy_same _ _ _ _ _ (v_busy _ _ V)); reflexivity)|try (intros; discriminate)|try (rewrite close_other by (intros; discriminate); exact (v_close _ _ V))|try exact (v_shut _ _ V)|].
Lemma inv_step body tr s l s' : inv tr s -> cstep body s l s' -> inv (tr ++ [l]) s'.
Proof.
  intros V S. destruct S as [n p sh cl bz cs r|n p sh cl cs r i H C|n p cs r i H|n p sh cl bz cs r i q H|n p sh cl bz cs r i q e H|n p sh cl bz cs r i q e j H F G|n p sh cl bz cs r i q e H F G
    |n p sh cl bz cs q r|n p sh cl bz cs e|n p sh cl bz cs q r|n p sh cl bz cs r|n p sh cl bz cs i e|n p sh cl bz cs i t v H|n p sh cl bz cs i t e H|n p sh cl cs e|n p sh cl bz cs e m1 q i m2|n p sh cl bz cs e|n p sh bz cs r F|n p sh bz cs r F].
  - apply inv_go, V.
  - eapply moved; [exact V|exact H|discriminate|discriminate|intros; discriminate|intros; discriminate|intros; discriminate|apply incl_refl|exact (v_keys _ _ V)|reflexivity| |intros []| |intros; discriminate|intros; discriminate|intros; discriminate].
    + intros j. rewrite (idle_put _ _ _ _ _ _ _ _ _ _ n p sh cl false r) by exact (nth_lt _ _ _ H). rewrite dones_this. unfold owners. cbn [rd pending]. destruct (Nat.eqb_spec j i) as [->|N]; [|lia]. unfold idle. cbn [calls]. rewrite H. lia.
    + pose proof (v_busy _ _ V) as B0. cbn [busy rd calls] in B0. split; [discriminate|]. intros [X|[[]|[X _]]]; [apply B0; left; exact X|discriminate X].
  - apply inv_send; assumption.
  - eapply moved; [exact V|exact H|discriminate|discriminate|intros; discriminate|intros j e E; injection E as -> _; reflexivity|intros; discriminate|apply incl_refl|exact (v_keys _ _ V)|reflexivity| |intros []| |intros; discriminate|intros; discriminate|intros _ _ _; exists q; exact (proj1 (v_write _ _ V _ _ H))].
    + intros j. rewrite (idle_put _ _ _ _ _ _ _ _ _ _ n p sh cl bz r) by exact (nth_lt _ _ _ H). rewrite dones_other by (intros; discriminate). unfold owners. cbn [rd pending]. destruct (Nat.eqb_spec j i) as [->|N]; [|lia]. unfold idle. cbn [calls]. rewrite H. lia.
    + split; [discriminate|]. intros [X|[[]|[_ X]]]; [|exfalso; apply X; exact Logic.I]. exfalso. refine (v_apart _ _ V _ _ _ H Logic.I). cbn [rd]. destruct r; try discriminate X; reflexivity.
  - eapply moved; [exact V|exact H|discriminate|discriminate|intros; discriminate|intros j e' E; injection E as -> _; reflexivity|intros; discriminate|apply incl_refl|exact (v_keys _ _ V)|reflexivity| |intros _; exact Logic.I| |intros; discriminate| |intros _ _ _; exists q; exact (proj1 (v_write _ _ V _ _ H))].
    + intros j. rewrite (idle_put _ _ _ _ _ _ _ _ _ _ n p sh cl bz r) by exact (nth_lt _ _ _ H). rewrite dones_other by (intros; discriminate). unfold owners. cbn [rd pending]. destruct (Nat.eqb_spec j i) as [->|N]; [|lia]. unfold idle. cbn [calls]. rewrite H. lia.
    + split; [intros _; right; left; exact Logic.I|]. intros _. apply (v_busy _ _ V). right. exists i, (KWrite q). split; [exact H|exact Logic.I].
    + intros q' e' E. injection E as <- <-. split; reflexivity.
  - assert (Ov : over r = false). { destruct (over r) eqn:X; [|reflexivity]. exfalso. exact (v_apart _ _ V X _ _ H Logic.I). }
    assert (Ej : j = i). { apply found_in in G. apply (proj1 (Forall_forall _ _) (v_pend _ _ V)) in G. cbn [fst snd] in G. exact (sends_inj _ _ _ _ (v_seq _ _ V) G (proj1 (v_failed _ _ V _ _ _ H))). }
    eapply moved; [exact V|exact H|discriminate|discriminate|intros; discriminate|intros; discriminate|intros; discriminate|apply without_incl|apply without_nodup; exact (v_keys _ _ V)|rewrite Ov; discriminate| |intros []| |intros; discriminate|intros; discriminate|intros; discriminate].
    + assert (O1 : forall e todo, r <> RFail e todo) by (intros e' todo ->; discriminate Ov). assert (O2 : r <> ROver) by (intros ->; discriminate Ov).
      intros a. rewrite (idle_put _ _ _ _ _ _ _ _ _ _ n p sh cl bz r) by exact (nth_lt _ _ _ H). rewrite dones_this.
      rewrite (proj1 (owners_late n p sh cl bz cs r a cs n sh cl bz O1 O2)), (proj1 (owners_late n (without q p) sh cl false (put i KOver cs) r a cs n sh cl bz O1 O2)). rewrite (found_occ q p j a (v_keys _ _ V) G). subst j. destruct (Nat.eqb_spec a i) as [->|N]; [|lia]. unfold idle. cbn [calls]. rewrite H. lia.
    + split; [discriminate|]. intros [X|[[]|[_ X]]]; [congruence|exfalso; apply X; exact Logic.I].
  - eapply moved; [exact V|exact H|discriminate|discriminate|intros; discriminate|intros; discriminate|intros; discriminate|apply incl_refl|exact (v_keys _ _ V)|reflexivity| |intros []| |intros; discriminate|intros; discriminate|intros; discriminate].
    + intros j. rewrite (idle_put _ _ _ _ _ _ _ _ _ _ n p sh cl bz r) by exact (nth_lt _ _ _ H). rewrite dones_other by (intros; discriminate). unfold owners. cbn [rd pending]. destruct (Nat.eqb_spec j i) as [->|N]; [|lia]. unfold idle. cbn [calls]. rewrite H. lia.
    + split; [discriminate|]. intros [X|[[]|[_ X]]]; [congruence|exfalso; apply X; exact Logic.I].
  - quietly V; [intros i; rewrite dones_other by (intros; discriminate); reflexivity|apply last_in].
  - quietly V; [intros i; rewrite dones_other by (intros; discriminate); reflexivity|left; apply last_in].
  - quietly V; [apply without_incl|apply without_nodup; exact (v_keys _ _ V)| |].
    + intros i. rewrite dones_other by (intros; discriminate). f_equal. unfold owners. cbn [rd pending]. destruct (found q p) as [j|] eqn:G; [rewrite occ_cons; apply found_occ; [exact (v_keys _ _ V)|exact G]|rewrite found_none by exact G; reflexivity].
    + destruct (found q p) as [j|] eqn:G; [|exact Logic.I]. exists q. split; [|apply keep; exact (v_rd _ _ V)]. rewrite sends_other by (intros; discriminate). apply found_in in G. exact (proj1 (Forall_forall _ _) (v_pend _ _ V) _ G).
  - quietly V; [intros i; rewrite dones_other by (intros; discriminate); reflexivity|exact Logic.I].
  - quietly V; [intros j; rewrite dones_this; unfold owners; cbn [rd pending]; rewrite occ_cons; lia|exact Logic.I].
  - quietly V; [intros j; rewrite dones_this; unfold owners; cbn [rd pending]; rewrite occ_cons; lia|exact Logic.I].
  - quietly V; [intros j; rewrite dones_this; unfold owners; cbn [rd pending]; rewrite occ_cons; lia|right; exists (reading ++ e), i; split; [reflexivity|apply last_in]].
  - pose proof (v_busy _ _ V) as B0. cbn [busy rd calls failing] in B0.
    assert (Q : forall j k, nth_error cs j = Some k -> ~ writing k). { intros j k E X. assert (B1 : false = true) by (apply B0; right; eauto). discriminate B1. }
    eapply quiet; [exact V|reflexivity|discriminate|intros; discriminate|intros; discriminate|apply incl_refl|exact (v_keys _ _ V)| |split; [intros _; left; reflexivity|reflexivity]|intros _; exact Q|rewrite close_other by (intros; discriminate); exact (v_close _ _ V)|reflexivity|].
    + intros i. rewrite dones_other by (intros; discriminate). reflexivity.
    + split; [apply incl_refl|]. exists e. split; [apply stopped_more; exact (v_rd _ _ V)|]. destruct cl; [right; split; [reflexivity|apply keep, (v_close _ _ V); reflexivity]|left; split; [reflexivity|]]. rewrite close_other by (intros; discriminate). intros X. apply (v_close _ _ V) in X. discriminate X.
  - pose proof (v_rd _ _ V) as R. cbn [rd reads pending] in R. destruct R as [R1 R2].
    eapply quiet; [exact V|reflexivity|discriminate|intros; discriminate|intros; discriminate|apply incl_refl|exact (v_keys _ _ V)| |exact (v_busy _ _ V)|intros _; exact (v_apart _ _ V eq_refl)|rewrite close_other by (intros; discriminate); exact (v_close _ _ V)|exact (v_shut _ _ V)|].
    + intros j. rewrite dones_this. unfold owners. cbn [rd]. rewrite !map_app, !occ_app. cbn [map snd]. rewrite occ_cons. lia.
    + refine (reads_more tr _ p p (RFail e (m1 ++ m2)) (or_introl (incl_refl p)) (or_introl _) _); [intros; discriminate|]. split; [|exact R2]. intros x X. apply R1. apply in_app_or in X as [X|X]; apply in_or_app; [left|right; right]; exact X.
  - pose proof (v_rd _ _ V) as R. cbn [rd reads pending] in R. destruct R as [R1 (f & R2 & _)].
    eapply quiet; [exact V|reflexivity|discriminate|intros; discriminate|intros; discriminate|apply incl_refl|exact (v_keys _ _ V)| | |intros _; exact (v_apart _ _ V eq_refl)|rewrite close_other by (intros; discriminate); exact (v_close _ _ V)|exact (v_shut _ _ V)|].
    + intros i. rewrite dones_other by (intros; discriminate). reflexivity.
    + split; [discriminate|]. intros [X|(i & k & E & X)]; [discriminate X|]. exfalso. exact (v_apart _ _ V eq_refl _ _ E X).
    + exists f. apply stopped_more, R2.
  - eapply quiet; [exact V|reflexivity|discriminate|intros; discriminate|intros; discriminate|apply incl_refl|exact (v_keys _ _ V)| |exact (v_busy _ _ V)|exact (v_apart _ _ V)| |exact (v_shut _ _ V)|].
    + intros i. rewrite dones_other by (intros; discriminate). reflexivity.
    + split; [intros _; apply last_in|reflexivity].
    + refine (reads_more tr _ p p r (or_introl (incl_refl p)) (or_intror _) (v_rd _ _ V)). assumption.
  - eapply quiet; [exact V|reflexivity|discriminate|intros; discriminate|intros; discriminate|apply incl_refl|exact (v_keys _ _ V)| |exact (v_busy _ _ V)|exact (v_apart _ _ V)| |exact (v_shut _ _ V)|].
    + intros i. rewrite dones_other by (intros; discriminate). reflexivity.
    + split; [intros _; apply keep, (v_close _ _ V); reflexivity|reflexivity].
    + refine (reads_more tr _ p p r (or_introl (incl_refl p)) (or_intror _) (v_rd _ _ V)). assumption.
Qed.
Lemma inv_run body tr s : crun body new_client tr s -> inv tr s.
Proof.
  revert s. induction tr as [|l tr IH] using rev_ind; intros s H; [inversion H; subst; exact inv_new|]. destruct (crun_split _ _ _ _ _ H) as (s' & R & T). exact (inv_step _ _ _ _ _ (IH _ R) (crun_one _ _ _ _ T)).
Qed.
