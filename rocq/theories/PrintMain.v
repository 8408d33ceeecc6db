(** Lemmas about values that are printed and sent by the command line client. *)
From Coq Require Import ZifyBool ZifyNat ZifyN.
From Coq Require Import Sorting.Sorted Permutation.
From Verif Require Import GoBase Utf8 Utf8Dec Utf8Proofs JsonStr JsonSpec Emacs Json JsonProofs Compact CompactProofs ReplyJson Stream StreamSpec StreamProofs StreamRfc
  Backend BackendSpec ReplySpec Server ServerSpec ServerProofs Unmarshal UnmarshalSpec UnmarshalProofs ParseProofs PacketProofs Flags Tools ToolsSpec ToolsProofs Client Print PrintSpec PrintProofs CheckProofs.
Local Open Scope nat_scope.

(** ** The canonical value is unique. *)
Lemma sorted_unique {A} (R : A -> A -> Prop) : (forall x, ~ R x x) -> (forall x y z, R x y -> R y z -> R x z) -> forall l l', StronglySorted R l -> StronglySorted R l' -> (forall x, In x l <-> In x l') -> l = l'.
Proof.
  intros Ir Tr l. induction l as [|x l IH]; intros l' S S' H.
  - destruct l' as [|y l']; [reflexivity|]. exfalso. apply (H y). left. reflexivity.
  - destruct l' as [|y l']; [exfalso; apply (H x); left; reflexivity|]. inversion S as [|? ? S1 F1]; subst. inversion S' as [|? ? S2 F2]; subst. rewrite Forall_forall in F1, F2.
    assert (E : x = y). { destruct (proj1 (H x) (or_introl eq_refl)) as [E|I]; [auto|]. destruct (proj2 (H y) (or_introl eq_refl)) as [E|I']; [auto|]. exfalso. apply (Ir x). eapply Tr; [apply F1, I'|apply F2, I]. }
    subst y. f_equal. apply IH; [assumption|assumption|]. intros z. split; intros I.
    + destruct (proj1 (H z) (or_intror I)) as [<-|I']; [exfalso; exact (Ir _ (F1 _ I))|exact I'].
    + destruct (proj2 (H z) (or_intror I)) as [<-|I']; [exfalso; exact (Ir _ (F2 _ I))|exact I'].
Qed.
Definition name_order (x y : list rune * value) : Prop := bytes_before (string_of (fst x)) (string_of (fst y)).
Lemma name_irrefl x : ~ name_order x x. Proof. apply before_irrefl. Qed.
Lemma name_trans x y z : name_order x y -> name_order y z -> name_order x z. Proof. apply before_trans. Qed.
Lemma split_last {A} (l1 l2 l1' l2' : list (list rune * A)) k v v' : l1 ++ (k, v) :: l2 = l1' ++ (k, v') :: l2' -> ~ In k (map fst l2) -> ~ In k (map fst l2') -> v = v'.
Proof.
  revert l1'. induction l1 as [|x l1 IH]; intros [|y l1'] E N N'; cbn [app] in E.
  - congruence.
  - exfalso. injection E as _ ->. apply N. rewrite map_app, in_app_iff. right. left. reflexivity.
  - exfalso. injection E as _ <-. apply N'. rewrite map_app, in_app_iff. right. left. reflexivity.
  - injection E as _ E. eapply IH; eassumption.
Qed.
Lemma canonical_unique show v : forall w w', canonical show v w -> canonical show v w' -> w = w'.
Proof.
  induction v as [|v|t|s|l IH|l IH] using value_ind'; intros w w' C C'; inversion C as [| | | |? l1 F|? l1 S K E]; subst; inversion C' as [| | | |? l2 F'|? l2 S' K' E']; subst; try reflexivity.
  - f_equal. clear C C'. revert l2 F'. induction F as [|x y l l1 H F IHl]; intros l2 F'; inversion F'; subst; [reflexivity|]. inversion IH; subst. f_equal; auto.
  - f_equal. apply (sorted_unique name_order name_irrefl name_trans); [exact S|exact S'|]. rewrite Forall_forall in IH.
    assert (Z : forall l1 l2, (forall k v, In (k, v) l -> In k (map fst l2)) -> (forall k w, In (k, w) l1 -> exists m1 v m2, l = m1 ++ (k, v) :: m2 /\ ~ In k (map fst m2) /\ canonical show v w) ->
      (forall k w, In (k, w) l2 -> exists m1 v m2, l = m1 ++ (k, v) :: m2 /\ ~ In k (map fst m2) /\ canonical show v w) -> forall x, In x l1 -> In x l2).
    { clear -IH. intros l1 l2 K2 E1 E2 [k w] I. destruct (E1 _ _ I) as (m1 & v & m2 & El & N & Cv). assert (Il : In (k, v) l) by (rewrite El; apply in_or_app; right; left; reflexivity).
      pose proof (K2 _ _ Il) as J. apply in_map_iff in J. destruct J as ([k' w'] & Ek & J). cbn [fst] in Ek. subst k'. destruct (E2 _ _ J) as (m1' & v' & m2' & El' & N' & Cv'). rewrite El in El'. pose proof (split_last _ _ _ _ _ _ _ El' N N') as <-.
      rewrite (IH _ Il w w' Cv Cv'). exact J. }
    intros x. split; [apply (Z l1 l2); assumption|apply (Z l2 l1); assumption].
Qed.

(** ** Without repeated names it is the same value up to order of members. *)
Lemma sorted_key {A} (m : list (list rune * A)) : StronglySorted (fun x y => bytes_before (string_of (fst x)) (string_of (fst y))) m -> forall k a a', In (k, a) m -> In (k, a') m -> a = a'.
Proof.
  intros S. induction S as [|x m S IH F]; intros k a a' I I'; [destruct I|]. rewrite Forall_forall in F. destruct I as [->|I]; destruct I' as [E|I'].
  - congruence.
  - exfalso. exact (before_irrefl _ (F _ I')).
  - subst x. exfalso. exact (before_irrefl _ (F _ I)).
  - eapply IH; eassumption.
Qed.
Lemma sorted_nodup {A} (m : list (list rune * A)) : StronglySorted (fun x y => bytes_before (string_of (fst x)) (string_of (fst y))) m -> NoDup m.
Proof. intros S. induction S as [|x m S IH F]; constructor; [|exact IH]. rewrite Forall_forall in F. intros I. exact (before_irrefl _ (F _ I)). Qed.
Lemma canonical_reordered show v : forall w, canonical show v w -> once_named v -> (forall t, occurs t v -> show t = t) -> reordered v w.
Proof.
  induction v as [|v|t|s|l IH|l IH] using value_ind'; intros w C O H; inversion C as [| | | |? l1 F|? l1 S K E]; subst; try constructor.
  - rewrite (H t) by constructor. constructor.
  - assert (Ol : Forall once_named l) by (inversion O; assumption). clear O C. revert H Ol IH. induction F as [|x y l l1 Cx F IHl]; intros H Ol IH; [constructor|]. inversion Ol; subst. inversion IH; subst.
    constructor; [apply H4; [exact Cx|assumption|]; intros t Ot; apply H; econstructor; [left; reflexivity|exact Ot]|]. apply IHl; auto. intros t Ot. apply H. inversion Ot; subst. econstructor; [right; eassumption|assumption].
  - inversion O as [| | | | |? ND Ol]; subst. rewrite Forall_forall in IH, Ol.
    assert (G : forall x, In x l -> exists y, (fst x = fst y /\ reordered (snd x) (snd y)) /\ In y l1).
    { intros [k v] I. pose proof (K _ _ I) as J. apply in_map_iff in J. destruct J as ([k' w] & Ek & J). cbn [fst] in Ek. subst k'. exists (k, w). split; [|exact J]. split; [reflexivity|]. destruct (E _ _ J) as (m1 & v' & m2 & -> & N & Cv).
      assert (v' = v). { rewrite map_app in ND. cbn [map fst] in ND. apply NoDup_remove_2 in ND. apply in_app_or in I. destruct I as [I|[I|I]]; [|congruence|].
        - exfalso. apply ND, in_or_app. left. apply in_map_iff. exists (k, v). auto.
        - exfalso. apply N. apply in_map_iff. exists (k, v). auto. }
      subst v'. apply (IH _ I); [exact Cv|apply (Ol _ I)|]. intros t Ot. apply H. econstructor; [exact I|exact Ot]. }
    assert (L : exists l2, Forall2 (fun x y => fst x = fst y /\ reordered (snd x) (snd y)) l l2 /\ (forall y, In y l2 -> In y l1)).
    { clear -G. induction l as [|x l IHl]; [exists []; split; [constructor|intros ? []]|]. destruct IHl as (l2 & F & I2); [intros; apply G; right; assumption|]. destruct (G x (or_introl eq_refl)) as (y & Hy & Iy). exists (y :: l2). split; [constructor; assumption|]. intros z [<-|Iz]; auto. }
    destruct L as (l2 & F & I2). apply (ro_obj l l2 l1 F). apply NoDup_Permutation.
    + apply (NoDup_map_inv fst). replace (map fst l2) with (map fst l); [exact ND|]. clear -F. induction F as [|x y l l2 [Hx _] F IH]; [reflexivity|]. cbn [map]. f_equal; assumption.
    + apply sorted_nodup, S.
    + intros [k w]. split; [apply I2|]. intros J. destruct (E _ _ J) as (m1 & v' & m2 & El & _ & _). assert (I : In (k, v') l) by (rewrite El; apply in_or_app; right; left; reflexivity).
      assert (X : exists w', In (k, w') l2). { clear -F I. induction F as [|x y l l2 [Hx _] F IH]; [destruct I|]. destruct I as [->|I]; [destruct y as [k' w']; cbn [fst] in Hx; subst k'; exists w'; left; reflexivity|]. destruct (IH I) as (w' & J). exists w'. right. exact J. }
      destruct X as (w' & J'). rewrite (sorted_key _ S _ _ _ J (I2 _ J')). exact J'.
Qed.

(** ** Printing again *)
Lemma map_of_sorted {A} (m : list (str * A)) : in_order m -> map_of m = m.
Proof.
  induction m as [|x m IH] using rev_ind; intros O; [reflexivity|]. rewrite map_of_snoc.
  assert (Om : in_order m /\ Forall (fun y => bytes_before (fst y) (fst x)) m).
  { clear IH. induction m as [|y m IHm]; [split; constructor|]. cbn [app] in O. inversion O as [|? ? O' F]; subst. destruct (IHm O') as [A1 A2]. rewrite Forall_app in F. destruct F as [F1 F2]. split; [constructor; assumption|]. constructor; [inversion F2; assumption|exact A2]. }
  destruct Om as [Om F]. rewrite IH by exact Om. clear IH O Om. destruct x as [k v]. cbn [fst snd] in *. induction F as [|[k' v'] m B F IH]; [reflexivity|]. cbn [set_key app fst] in *.
  destruct (str_eqb_spec k k') as [->|N]; [exfalso; exact (before_irrefl _ B)|]. destruct (str_ltb k k') eqn:L; [apply ltb_before in L; exfalso; exact (before_irrefl _ (before_trans _ _ _ B L))|]. rewrite IH. reflexivity.
Qed.
Lemma again_any show v : proper v -> (forall t, occurs t v -> show (show t) = show t) -> as_any show (any_value (as_any show v)) = as_any show v.
Proof.
  induction v as [|v|t|s|l IH|l IH] using value_ind'; intros P H; cbn [as_any any_value]; try reflexivity.
  - rewrite H by constructor. reflexivity.
  - rewrite string_runes by apply string_of_valid. reflexivity.
  - f_equal. rewrite !map_map. apply map_ext_in. intros v I. rewrite Forall_forall in IH. apply IH; [exact I| |intros t O; apply H; econstructor; eassumption]. inversion P as [| | | |? Pl|]; subst. rewrite Forall_forall in Pl. auto.
  - f_equal. set (g := fun m : list rune * value => (string_of (fst m), as_any show (snd m))). rewrite map_map. cbn [fst snd].
    assert (X : map (fun x : str * any => (string_of (runes_of (fst x)), as_any show (any_value (snd x)))) (map_of (map g l)) = map_of (map g l)); [|change (map_of (map (fun x : str * any => (string_of (runes_of (fst x)), as_any show (any_value (snd x)))) (map_of (map g l))) = map_of (map g l)); rewrite X; apply map_of_sorted, map_of_order].
    rewrite <- map_id. apply map_ext_in. intros [k a] I. apply map_of_in in I. destruct I as (l1 & l2 & E & _). assert (I : In (k, a) (map g l)) by (rewrite E; apply in_or_app; right; left; reflexivity).
    apply in_map_iff in I. destruct I as ([k' v'] & E' & I). unfold g in E'. cbn [fst snd] in E'. injection E' as <- <-. cbn [fst snd]. rewrite string_runes by apply string_of_valid. f_equal.
    rewrite Forall_forall in IH. apply (IH _ I); [|intros t O; apply H; econstructor; eassumption]. apply proper_obj in P. rewrite Forall_forall in P. exact (proj2 (P _ I)).
Qed.
Lemma print_again show v : proper v -> (forall t, occurs t v -> jnumber (show t)) -> (forall t, occurs t v -> show (show t) = show t) ->
  exists w, parse (print (as_any show v)) = Some w /\ print (as_any show w) = print (as_any show v).
Proof.
  intros P N H. destruct (print_laid _ (as_any_finite show v N)) as (t & L & E & J). exists (any_value (as_any show v)). split; [apply document_parsed, J|]. rewrite again_any by assumption. reflexivity.
Qed.

(** ** Reply *)
Lemma reply_printed f show oops x v : any_body f oops x = Ok v -> (forall t, f t = true -> jnumber (show t)) ->
  exists w t, canonical show v w /\ (forall w', canonical show v w' -> w' = w) /\ laid 0 w t /\ print (as_any show v) = t ++ eol /\ jdocument w (print (as_any show v)).
Proof.
  unfold any_body. intros E S. destruct (parse x) as [v'|] eqn:P; [|discriminate]. destruct (floats f v') eqn:F; [|discriminate]. injection E as ->. apply parsed_proper in P.
  destruct (print_value show v P) as (w & t & C & L & E & J); [intros t O; apply S; revert t O; apply floats_ok; exact F|]. exists w, t. split; [exact C|]. split; [intros w' C'; eapply canonical_unique; eassumption|]. auto.
Qed.

(** ** Reading *)
Lemma unmarshal_exact f show t : (exists a, unmarshal_any f show t = Some a) <-> document_text t /\ exists v, parse t = Some v /\ forall x, occurs x v -> f x = true.
Proof.
  unfold unmarshal_any. destruct (checkValid t) eqn:C; [|].
  - apply check_exact in C. destruct (parse t) as [v|] eqn:P; [|split; [intros (a & E); discriminate|intros (_ & v & E & _); discriminate]].
    destruct (floats f v) eqn:F; [split; [intros _; split; [exact C|exists v; split; [reflexivity|apply floats_ok, F]]|intros _; eexists; reflexivity]|].
    split; [intros (a & E); discriminate|]. intros (_ & v' & E & H). injection E as <-. apply floats_ok in H. congruence.
  - split; [intros (a & E); discriminate|]. intros (D & _). apply check_exact in D. congruence.
Qed.
Lemma document_check v t : jdocument v t -> (N.of_nat (nesting v) <= 10000)%N -> document_text t.
Proof. intros (w1 & x & w2 & W1 & W2 & J & ->) L. exists w1, (nesting v), x, w2. repeat split; try assumption. apply (proj1 rfc_text _ _ J). lia. Qed.
Lemma unmarshal_document f show v t : jdocument v t -> (N.of_nat (nesting v) <= 10000)%N -> (forall x, occurs x v -> f x = true) -> unmarshal_any f show t = Some (as_any show v).
Proof. intros J L F. unfold unmarshal_any. rewrite (proj2 (check_exact t) (document_check _ _ J L)), (document_parsed _ _ J), (proj2 (floats_ok f v) F). reflexivity. Qed.
Lemma unmarshal_refused f show t : ~ document_text t -> unmarshal_any f show t = None.
Proof. intros N. destruct (unmarshal_any f show t) as [a|] eqn:E; [|reflexivity]. exfalso. apply N. apply (unmarshal_exact f show). eauto. Qed.

(** ** Canonical values are understood in the same way. *)
Lemma two_members l k1 v1 k2 v2 nm : different l -> In (k1, v1) l -> In (k2, v2) l -> k1 <> k2 -> same_name k1 nm -> same_name k2 nm -> False.
Proof.
  intros D I1 I2 N S1 S2. destruct (in_split _ _ I1) as (l1 & l2 & ->). apply in_app_or in I2. destruct I2 as [I2|[I2|I2]]; [|congruence|].
  - destruct (in_split _ _ I2) as (m1 & m2 & ->). apply (D m1 k2 v2 m2 k1 v1 l2 nm); [rewrite <- app_assoc; reflexivity|assumption|assumption].
  - destruct (in_split _ _ I2) as (m1 & m2 & ->). apply (D l1 k1 v1 m1 k2 v2 m2 nm); [reflexivity|assumption|assumption].
Qed.
Lemma canonical_has show l l' : canonical show (VObj l) (VObj l') -> different l ->
  different l' /\ (forall nm v, has l nm v -> exists w, has l' nm w /\ canonical show v w) /\ (forall nm w, has l' nm w -> exists v, has l nm v /\ canonical show v w).
Proof.
  intros C D. inversion C as [| | | | |? ? S K E]; subst.
  assert (B : forall nm w, has l' nm w -> exists v, has l nm v /\ canonical show v w).
  { intros nm w (k & I & N). destruct (E _ _ I) as (m1 & v & m2 & -> & _ & Cv). exists v. split; [|exact Cv]. exists k. split; [apply in_or_app; right; left; reflexivity|exact N]. }
  split; [|split; [|exact B]].
  - intros l1 k1 v1 l2 k2 v2 l3 nm El S1 S2. assert (I1 : In (k1, v1) l') by (rewrite El; apply in_or_app; right; left; reflexivity). assert (I2 : In (k2, v2) l') by (rewrite El; apply in_or_app; right; right; apply in_or_app; right; left; reflexivity).
    destruct (E _ _ I1) as (m1 & x1 & m2 & E1 & _). destruct (E _ _ I2) as (n1 & x2 & n2 & E2 & _).
    apply (two_members l k1 x1 k2 x2 nm D); [rewrite E1; apply in_or_app; right; left; reflexivity|rewrite E2; apply in_or_app; right; left; reflexivity| |assumption|assumption].
    intros ->. clear -S El. subst l'. induction l1 as [|y l1 IH]; cbn [app] in S; inversion S as [|? ? S' F]; subst; [|apply IH, S']. rewrite Forall_forall in F. apply (before_irrefl (string_of k2)). apply (F (k2, v2)). apply in_or_app. right. left. reflexivity.
  - intros nm v (k & I & N). pose proof (K _ _ I) as J. apply in_map_iff in J. destruct J as ([k' w] & Ek & J). cbn [fst] in Ek. subst k'. destruct (E _ _ J) as (m1 & v' & m2 & El & _ & Cv).
    assert (v = v'). { apply (has_unique l nm); [exact D|exists k; auto|]. exists k. split; [rewrite El; apply in_or_app; right; left; reflexivity|exact N]. }
    subst v'. exists w. split; [exists k; auto|exact Cv].
Qed.
Lemma canonical_occurs show v : forall w, canonical show v w -> forall t, occurs t w -> exists x, occurs x v /\ t = show x.
Proof.
  induction v as [|v|x|s|l IH|l IH] using value_ind'; intros w C t O; inversion C as [| | | |? l1 F|? l1 S K E]; subst; inversion O as [|? v' I O'|? k v' I O']; subst.
  - exists x. split; [constructor|reflexivity].
  - rewrite Forall_forall in IH. clear C O. assert (X : exists x, In x l /\ canonical show x v'). { clear -F I. induction F as [|x y l l1 C F IHF]; [destruct I|]. destruct I as [->|I]; [exists x; split; [left; reflexivity|exact C]|]. destruct (IHF I) as (z & Iz & Cz). exists z. split; [right; exact Iz|exact Cz]. }
    destruct X as (x & Ix & Cx). destruct (IH _ Ix _ Cx _ O') as (y & Oy & ->). exists y. split; [econstructor; eassumption|reflexivity].
  - rewrite Forall_forall in IH. destruct (E _ _ I) as (m1 & x & m2 & El & _ & Cx). assert (Ix : In (k, x) l) by (rewrite El; apply in_or_app; right; left; reflexivity). destruct (IH _ Ix _ Cx _ O') as (y & Oy & ->). exists y. split; [econstructor; eassumption|reflexivity].
Qed.
Lemma canonical_tidy show v : forall w, canonical show v w -> tidy v -> (forall t, occurs t v -> jnumber (show t)) -> tidy w.
Proof.
  induction v as [|v|x|s|l IH|l IH] using value_ind'; intros w C T N; inversion C as [| | | |? l1 F|? l1 S K E]; subst; try constructor.
  - apply N. constructor.
  - inversion T as [| | | |? Tl|]; subst. clear C T. revert IH Tl N. induction F as [|x y l l1 C F IHF]; intros IH Tl N; [constructor|]. inversion IH; subst. inversion Tl; subst. constructor; [apply H1; [exact C|assumption|]; intros t O; apply N; econstructor; [left; reflexivity|exact O]|].
    apply IHF; [assumption|assumption|]. intros t O. inversion O; subst. apply N. econstructor; [right; eassumption|assumption].
  - inversion T as [| | | | |? D Tl]; subst. apply (canonical_has _ _ _ C D).
  - inversion T as [| | | | |? D Tl]; subst. rewrite Forall_forall in *. intros [k w] I. cbn [snd]. destruct (E _ _ I) as (m1 & x & m2 & El & _ & Cx). assert (Ix : In (k, x) l) by (rewrite El; apply in_or_app; right; left; reflexivity).
    apply (IH _ Ix); [exact Cx|exact (Tl _ Ix)|]. intros t O. apply N. econstructor; eassumption.
Qed.
Lemma canonical_nesting show v : forall w, canonical show v w -> nesting w <= nesting v.
Proof.
  induction v as [|v|x|s|l IH|l IH] using value_ind'; intros w C; inversion C as [| | | |? l1 F|? l1 S K E]; subst; cbn [nesting]; try lia.
  - apply le_n_S. clear C. induction F as [|x y l l1 C F IHF]; cbn [fold_right]; [lia|]. inversion IH; subst. pose proof (H1 _ C). specialize (IHF H2). lia.
  - apply le_n_S. rewrite Forall_forall in IH.
    assert (X : forall y, In y l1 -> nesting (snd y) <= fold_right (fun x n => Nat.max (nesting (snd x)) n) 0 l).
    { intros [k w] I. destruct (E _ _ I) as (m1 & x & m2 & El & _ & Cx). assert (Ix : In (k, x) l) by (rewrite El; apply in_or_app; right; left; reflexivity). cbn [snd]. pose proof (IH _ Ix _ Cx) as L. cbn [snd] in L.
      clear -Ix L. induction l as [|z l IHl]; [destruct Ix|]. cbn [fold_right]. destruct Ix as [->|Ix]; cbn [snd]; [lia|]. specialize (IHl Ix). lia. }
    clear -X. induction l1 as [|y l1 IH1]; cbn [fold_right]; [lia|]. pose proof (X y (or_introl eq_refl)). specialize (IH1 (fun z I => X z (or_intror I))). lia.
Qed.
Lemma canonical_field show A l l' nm (R : value -> A -> Prop) zero a : canonical show (VObj l) (VObj l') -> different l -> (forall v w a, has l nm v -> canonical show v w -> (R v a <-> R w a)) -> (field l nm R zero a <-> field l' nm R zero a).
Proof.
  intros C D H. destruct (canonical_has _ _ _ C D) as (D' & H1 & H2). split; intros F; destruct F as [v a Hv Rv|N].
  - destruct (H1 _ _ Hv) as (w & Hw & Cw). apply (fi_given _ _ _ _ w); [exact Hw|]. apply (H v w); assumption.
  - apply fi_absent. intros w Hw. destruct (H2 _ _ Hw) as (v & Hv & _). exact (N _ Hv).
  - destruct (H2 _ _ Hv) as (w & Hw & Cw). apply (fi_given _ _ _ _ w); [exact Hw|]. apply (H w v); assumption.
  - apply fi_absent. intros w Hw. destruct (H1 _ _ Hw) as (v & Hv & _). exact (N _ Hv).
Qed.
Lemma canonical_checked show A l l' nm (R : value -> A -> Prop) : canonical show (VObj l) (VObj l') -> different l -> (forall v w a, has l nm v -> canonical show v w -> (R v a <-> R w a)) -> (checked l nm R <-> checked l' nm R).
Proof.
  intros C D H. destruct (canonical_has _ _ _ C D) as (D' & H1 & H2). split; intros K v Hv.
  - destruct (H2 _ _ Hv) as (w & Hw & Cw). destruct (K _ Hw) as (a & Ra). exists a. apply (H w v); assumption.
  - destruct (H1 _ _ Hv) as (w & Hw & Cw). destruct (K _ Hw) as (a & Ra). exists a. apply (H v w); assumption.
Qed.
Lemma canonical_object show A (R : list (list rune * value) -> A -> Prop) v w a : canonical show v w -> (forall l l', v = VObj l -> w = VObj l' -> (R l a <-> R l' a)) -> (object R v a <-> object R w a).
Proof.
  intros C H. unfold object. inversion C; subst; try (split; intros [[E _]|(x & E & _)]; discriminate E).
  - split; intros [[E K]|(x & E & _)]; try discriminate E; left; auto.
  - split; intros [[E _]|(x & E & K)]; try discriminate E; right; injection E as <-; eexists; (split; [reflexivity|]); apply (H _ _ eq_refl eq_refl); exact K.
Qed.
Lemma canonical_string show v w s : canonical show v w -> (a_string v s <-> a_string w s).
Proof. intros C. unfold a_string. inversion C; subst; try (split; intros [[E _]|(x & E & _)]; discriminate E); reflexivity. Qed.
Lemma canonical_map show f v w : canonical show v w -> (forall t, occurs t v -> f t = true /\ f (show t) = true) -> (a_map f v <-> a_map f w).
Proof.
  intros C H. unfold a_map.
  assert (E : (v = VNull \/ (exists l, v = VObj l)) <-> (w = VNull \/ (exists l, w = VObj l))). { inversion C; subst; split; (intros [E|(x & E)]; [discriminate E || (left; reflexivity)|discriminate E || (right; eexists; reflexivity)]). }
  rewrite E. clear E. split; intros [A B]; (split; [exact A|]); intros t O; [|apply H, O]. destruct (canonical_occurs _ _ _ C _ O) as (x & Ox & ->). apply H, Ox.
Qed.
Lemma member_occurs l nm v t : has l nm v -> occurs t v -> occurs t (VObj l). Proof. intros (k & I & _) O. econstructor; eassumption. Qed.
Lemma member_tidy l nm v : has l nm v -> tidy (VObj l) -> tidy v.
Proof. intros (k & I & _) T. inversion T as [| | | | |? _ F]; subst. rewrite Forall_forall in F. exact (F _ I). Qed.
Lemma tidy_different l : tidy (VObj l) -> different l. Proof. intros T. inversion T; assumption. Qed.
Lemma canonical_format show f v w a : canonical show v w -> tidy v -> (forall t, occurs t v -> f t = true /\ f (show t) = true) -> (a_format f v a <-> a_format f w a).
Proof.
  intros C T H. unfold a_format. apply (canonical_object show); [exact C|]. intros l l' -> ->. pose proof (tidy_different _ T) as D.
  rewrite (canonical_field show _ l l' (b "format") a_string) by (try assumption; intros; eapply canonical_string; eassumption). rewrite (canonical_field show _ l l' (b "version") a_string) by (try assumption; intros; eapply canonical_string; eassumption).
  rewrite (canonical_checked show _ l l' (b "options")); [reflexivity|assumption|assumption|]. intros v w _ Hv Cv. apply (canonical_map show); [exact Cv|]. intros t O. apply H. eapply member_occurs; eassumption.
Qed.
Lemma canonical_hello show f v w q : canonical show v w -> tidy v -> (forall t, occurs t v -> f t = true /\ f (show t) = true) -> (asks_hello f v q <-> asks_hello f w q).
Proof.
  intros C T H. unfold asks_hello. apply (canonical_object show); [exact C|]. intros l l' -> ->. pose proof (tidy_different _ T) as D.
  rewrite (canonical_checked show _ l l' (b "version") a_string) by (try assumption; intros; eapply canonical_string; eassumption).
  rewrite (canonical_field show _ l l' (b "formats") (a_list (a_format f))); [reflexivity|assumption|assumption|]. intros v w a Hv Cv. pose proof (member_tidy _ _ _ Hv T) as Tv. assert (Hf : forall t, occurs t v -> f t = true /\ f (show t) = true) by (intros t O; apply H; eapply member_occurs; eassumption).
  clear -Cv Tv Hf. unfold a_list. inversion Cv as [| | | |? l1 F|]; subst; try (split; intros [[E _]|(x & E & _)]; discriminate E); [reflexivity|].
  assert (X : Forall2 (a_format f) l a <-> Forall2 (a_format f) l1 a).
  { assert (Tl : Forall tidy l) by (inversion Tv; assumption). assert (Hl : forall x, In x l -> forall t, occurs t x -> f t = true /\ f (show t) = true) by (intros x I t O; apply Hf; econstructor; eassumption). clear Cv Tv Hf. revert a Tl Hl. induction F as [|x y l l1 Cx F IH]; intros a Tl Hl; [reflexivity|]. inversion Tl; subst.
    split; intros G; inversion G; subst; (constructor; [apply (canonical_format show f x y _ Cx H1 (Hl x (or_introl eq_refl))); assumption|apply IH; [assumption| |assumption]; intros z I; apply Hl; right; exact I]). }
  split; intros [[E _]|(x & E & K)]; try discriminate E; injection E as <-; right; eexists; (split; [reflexivity|]); apply X; exact K.
Qed.

(** ** The subcommand hello *)
Lemma hello_sent pi f show v t f' message : jdocument v t -> (N.of_nat (nesting v) <= 10000)%N -> (forall x, occurs x v -> f x = true) -> (forall x, f x = true -> jnumber (show x)) -> tidy v -> (forall x, f x = true -> f' x = true /\ f' (show x) = true) ->
  exists w x p, canonical show v w /\ query_text pi f show [b "hello"; t] = Some x /\ jdocument (hello_object w) x /\ request_packet x = Some p /\ id_shown (pid p) (VNum (b "0")) /\
    forall q, meaning (go_decoders f' message) p (Ok q) <-> wants f' MHello v q.
Proof.
  intros J L F N T F'. assert (P : proper v). { destruct J as (w1 & x & w2 & _ & _ & J & _). eapply jtext_proper, J. }
  set (w := any_value (as_any show v)). assert (C : canonical show v w) by (apply as_any_canonical, P).
  assert (Fin : finite (as_any show v)) by (apply as_any_finite; auto).
  assert (Q : query_text pi f show [b "hello"; t] = Some (hello_request (as_any show v) 0)). { unfold query_text. cbn [subcommand]. change (str_eqb (b "hello") (b "visit")) with false. change (str_eqb (b "hello") (b "mentions")) with false. change (str_eqb (b "hello") (b "capture")) with false. change (str_eqb (b "hello") (b "hello")) with true. cbn match. unfold callHello. rewrite (unmarshal_document f show v t J L F). reflexivity. }
  assert (Jx : jdocument (VObj (whole w (VNum (b "0")) (b "linkremark.hello"))) (hello_request (as_any show v) 0)).
  { unfold hello_request. eexists [], (encode_any _), eol. split; [constructor|]. split; [constructor; [cbn; tauto|constructor]|]. split; [|reflexivity].
    apply (encode_any_ok (AMap [(b "method", AString (b "linkremark.hello")); (b "params", ASlice [as_any show v]); (b "id", AFloat (integer 0))])).
    repeat constructor; cbn [snd]; [exact Fin|apply (integer_ok 0)]. }
  assert (D : different (whole w (VNum (b "0")) (b "linkremark.hello"))) by apply whole_different. destruct (packet_exact _ _ Jx D) as [A B].
  assert (H1 : has (whole w (VNum (b "0")) (b "linkremark.hello")) (b "method") (VStr (runes_of (b "linkremark.hello")))) by (eexists; split; [left; reflexivity|apply fold_name; reflexivity]).
  destruct (proj2 B) as (p & E). { intros x H. rewrite (has_unique _ _ _ _ D H H1). eexists. right. eauto. }
  exists w, (hello_request (as_any show v) 0), p. split; [exact C|]. split; [exact Q|]. split; [exact Jx|]. split; [exact E|]. pose proof (A p E) as Pk.
  split; [eapply id_exact; [exact Pk|exact D|]; eexists; split; [right; right; left; reflexivity|apply fold_name; reflexivity]|].
  assert (Fo : forall x, occurs x v -> f' x = true /\ f' (show x) = true) by auto.
  intros q. rewrite (meaning_exact f' message _ _ _ _ MHello w [] q Pk D H1); [|apply route_exact; reflexivity|eexists; split; [right; left; reflexivity|apply fold_name; reflexivity]|eapply canonical_tidy; eauto].
  cbn [wants]. apply ex_iff. intros x. rewrite (canonical_hello show f' v w x C T Fo). reflexivity.
Qed.
Lemma hello_refused pi f show t : ~ document_text t -> query_text pi f show [b "hello"; t] = None.
Proof. intros N. unfold query_text. cbn [subcommand]. change (str_eqb (b "hello") (b "visit")) with false. change (str_eqb (b "hello") (b "mentions")) with false. change (str_eqb (b "hello") (b "capture")) with false. change (str_eqb (b "hello") (b "hello")) with true. cbn match. unfold callHello. rewrite unmarshal_refused by exact N. reflexivity. Qed.
Lemma hello_default pi f show f' message : exists x p, query_text pi f show [b "hello"] = Some x /\ request_packet x = Some p /\ id_shown (pid p) (VNum (b "0")) /\
  meaning (go_decoders f' message) p (Ok (QHello [(b "org", b "0.2"); (b "object", b "0.2"); (b "org-protocol", b "0.2")])).
Proof.
  eexists _, _. split; [vm_compute; reflexivity|]. split; [vm_compute; reflexivity|]. split; [exact (encode_ok (JInt 0))|].
  match goal with |- meaning ?d ?p (Ok ?q) => replace (Ok q) with (readRequest d p); [apply readRequest_meaning|] end. vm_compute. reflexivity.
Qed.

(** ** The sequence of actions *)
Lemma split_help rest : client_split rest <> LHelp.
Proof. unfold client_split. destruct rest; [discriminate|]. destruct (_ <? 1); [discriminate|]. destruct (_ <=? _); discriminate. Qed.
Lemma started_exact w args name rest queries : started_with w args name rest queries <-> client_main args = LStart name rest queries /\ w_stdin w = None /\ w_stdout w = None /\ w_start w = None.
Proof. rewrite client_starts. unfold started_with. tauto. Qed.
Lemma tool_cases pi f show w args :
  (client_main args = LHelp /\ client_tool pi f show w args = ([], Exit0)) \/ (client_main args = LPanic /\ client_tool pi f show w args = ([], Crash)) \/
  (client_main args = LUsage /\ exists e, client_tool pi f show w args = ([], e) /\ (e = Exit2 \/ e = Exit1 true)) \/
  (exists name rest queries, client_main args = LStart name rest queries /\ client_tool pi f show w args = client_session pi f show w name rest queries).
Proof.
  unfold client_tool, client_main. destruct (ParseFlags [] args tt) as [u rest'| |].
  - pose proof (split_help rest') as H. destruct (client_split rest') as [| | |name' args' queries']; [|congruence| |]; eauto 10.
  - left. auto.
  - right. right. left. split; [reflexivity|]. exists Exit2. auto.
Qed.
Lemma session_cases pi f show w name rest queries : let r := client_session pi f show w name rest queries in
  (~ (w_stdin w = None /\ w_stdout w = None /\ w_start w = None) /\ r = ([], Exit1 false)) \/
  ((w_stdin w = None /\ w_stdout w = None /\ w_start w = None) /\
   ((query_text pi f show queries = None /\ r = ([GStart name rest], Exit1 false)) \/
    exists t, query_text pi f show queries = Some t /\
     (((forall v, w_call w t <> OResult v) /\ r = ([GStart name rest; GRequest t], Exit1 false)) \/
      exists v, w_call w t = OResult v /\
       ((w_close w <> None /\ r = ([GStart name rest; GRequest t; GPrint (print (as_any show v)); GClose], Exit1 false)) \/
        (w_close w = None /\ w_wait w <> None /\ r = ([GStart name rest; GRequest t; GPrint (print (as_any show v)); GClose; GWait], Exit1 false)) \/
        (w_close w = None /\ w_wait w = None /\ r = ([GStart name rest; GRequest t; GPrint (print (as_any show v)); GClose; GWait], Exit0)))))).
Proof.
  unfold client_session. destruct (w_stdin w); [left; split; [intros (A & _); discriminate|reflexivity]|]. destruct (w_stdout w); [left; split; [intros (_ & A & _); discriminate|reflexivity]|]. destruct (w_start w); [left; split; [intros (_ & _ & A); discriminate|reflexivity]|].
  right. split; [auto|]. destruct (query_text pi f show queries) as [t|]; [|left; auto]. right. exists t. split; [reflexivity|]. destruct (w_call w t) as [v| | | |]; try (left; split; [discriminate|reflexivity]).
  right. exists v. split; [reflexivity|]. destruct (w_close w); [left; split; [discriminate|reflexivity]|right]. destruct (w_wait w); [left|right]; (split; [reflexivity|]); (split; [discriminate || reflexivity|reflexivity]).
Qed.
Lemma flow_start pi f show w args name rest : In (GStart name rest) (fst (client_tool pi f show w args)) <-> exists queries, started_with w args name rest queries.
Proof.
  destruct (tool_cases pi f show w args) as [[M ->]|[[M ->]|[[M (e & -> & _)]|(n & r & q & M & ->)]]]; cbn [fst]; try (split; [intros []|intros (qs & S); apply started_exact in S; destruct S as [S _]; congruence]).
  destruct (session_cases pi f show w n r q) as [[N ->]|[S C]]; cbn [fst].
  - split; [intros []|]. intros (qs & S). apply started_exact in S. tauto.
  - split.
    + intros I. exists q. apply started_exact. assert (E : GStart n r = GStart name rest).
      { destruct C as [[_ E]|(t & _ & [[_ E]|(v & _ & [[_ E]|[(_ & _ & E)|(_ & _ & E)]])])]; rewrite E in I; cbn [fst In] in I; repeat (destruct I as [I|I]; [first [exact I|discriminate I]|]); destruct I. }
      injection E as -> ->. tauto.
    + intros (qs & S'). apply started_exact in S'. destruct S' as [E _]. rewrite M in E. injection E as -> -> ->.
      destruct C as [[_ E]|(t & _ & [[_ E]|(v & _ & [[_ E]|[(_ & _ & E)|(_ & _ & E)]])])]; rewrite E; left; reflexivity.
Qed.
Lemma flow_request pi f show w args t : In (GRequest t) (fst (client_tool pi f show w args)) <-> exists name rest queries, started_with w args name rest queries /\ query_text pi f show queries = Some t.
Proof.
  destruct (tool_cases pi f show w args) as [[M ->]|[[M ->]|[[M (e & -> & _)]|(n & r & q & M & ->)]]]; cbn [fst]; try (split; [intros []|intros (n & r & qs & S & _); apply started_exact in S; destruct S as [S _]; congruence]).
  destruct (session_cases pi f show w n r q) as [[N ->]|[S C]]; cbn [fst].
  - split; [intros []|]. intros (n' & r' & qs & S & _). apply started_exact in S. tauto.
  - split.
    + intros I. exists n, r, q. split; [apply started_exact; tauto|].
      destruct C as [[Q E]|(x & Q & [[_ E]|(v & _ & [[_ E]|[(_ & _ & E)|(_ & _ & E)]])])]; rewrite E in I; cbn [fst In] in I; repeat (destruct I as [I|I]; [first [injection I as <-; exact Q|discriminate I]|]); destruct I.
    + intros (n' & r' & qs & S' & Qt). apply started_exact in S'. destruct S' as [E _]. rewrite M in E. injection E as -> -> ->.
      destruct C as [[Q E]|(x & Q & [[_ E]|(v & _ & [[_ E]|[(_ & _ & E)|(_ & _ & E)]])])]; rewrite Q in Qt; try discriminate Qt; injection Qt as ->; rewrite E; right; left; reflexivity.
Qed.
Lemma flow_print pi f show w args x : In (GPrint x) (fst (client_tool pi f show w args)) <-> exists t v, In (GRequest t) (fst (client_tool pi f show w args)) /\ w_call w t = OResult v /\ x = print (as_any show v).
Proof.
  destruct (tool_cases pi f show w args) as [[M ->]|[[M ->]|[[M (e & -> & _)]|(n & r & q & M & ->)]]]; cbn [fst]; try (split; [intros []|intros (t & v & [] & _)]).
  destruct (session_cases pi f show w n r q) as [[N ->]|[S C]]; cbn [fst]; [split; [intros []|intros (t & v & [] & _)]|].
  destruct C as [[Q E]|(t & Q & [[W E]|(v & W & C)])].
  - rewrite E. cbn [fst In]. split; [intros [I|[]]; discriminate I|intros (t & v & [I|[]] & _); discriminate I].
  - rewrite E. cbn [fst In]. split; [intros [I|[I|[]]]; discriminate I|]. intros (t' & v & [I|[I|[]]] & V & _); [discriminate I|]. injection I as <-. destruct (W _ V).
  - assert (E : exists e, fst (client_session pi f show w n r q) = [GStart n r; GRequest t; GPrint (print (as_any show v)); GClose] ++ e /\ (e = [] \/ e = [GWait])) by (destruct C as [[_ E]|[(_ & _ & E)|(_ & _ & E)]]; rewrite E; [exists []|exists [GWait]..]; auto).
    destruct E as (e & -> & He). split.
    + intros I. exists t, v. split; [right; left; reflexivity|]. split; [exact W|]. cbn [app In] in I. destruct I as [I|[I|[I|[I|I]]]]; try discriminate I; [injection I as <-; reflexivity|]. destruct He as [->| ->]; [destruct I|destruct I as [I|[]]; discriminate I].
    + intros (t' & v' & I & V & ->). cbn [app In] in I. destruct I as [I|[I|[I|[I|I]]]]; try discriminate I.
      * injection I as <-. rewrite W in V. injection V as <-. right. right. left. reflexivity.
      * destruct He as [->| ->]; [destruct I|destruct I as [I|[]]; discriminate I].
Qed.
Lemma flow_exit pi f show w args : snd (client_tool pi f show w args) = Exit0 <->
  client_main args = LHelp \/ exists t v, In (GRequest t) (fst (client_tool pi f show w args)) /\ w_call w t = OResult v /\ w_close w = None /\ w_wait w = None.
Proof.
  destruct (tool_cases pi f show w args) as [[M ->]|[[M ->]|[[M (e & -> & Ee)]|(n & r & q & M & ->)]]]; cbn [fst snd].
  - split; auto.
  - split; [discriminate|]. intros [E|(t & v & [] & _)]. congruence.
  - split; [destruct Ee as [->| ->]; discriminate|]. intros [E|(t & v & [] & _)]. congruence.
  - assert (Z : (client_main args = LHelp \/ exists t v, In (GRequest t) (fst (client_session pi f show w n r q)) /\ w_call w t = OResult v /\ w_close w = None /\ w_wait w = None) <->
      exists t v, In (GRequest t) (fst (client_session pi f show w n r q)) /\ w_call w t = OResult v /\ w_close w = None /\ w_wait w = None) by (split; [intros [E|E]; [congruence|exact E]|auto]).
    rewrite Z. clear Z. destruct (session_cases pi f show w n r q) as [[N ->]|[S C]]; cbn [fst snd]; [split; [discriminate|intros (t & v & [] & _)]|].
    destruct C as [[Q E]|(t & Q & [[W E]|(v & W & [[C E]|[(C1 & C2 & E)|(C1 & C2 & E)]])])]; rewrite E; cbn [fst snd].
    + split; [discriminate|]. intros (t & v & [I|[]] & _). discriminate I.
    + split; [discriminate|]. intros (t' & v & [I|[I|[]]] & V & _); [discriminate I|]. injection I as <-. destruct (W _ V).
    + split; [discriminate|]. intros (t' & v' & _ & _ & C' & _). congruence.
    + split; [discriminate|]. intros (t' & v' & _ & _ & _ & C'). congruence.
    + split; [|reflexivity]. intros _. exists t, v. split; [right; left; reflexivity|auto].
Qed.
Lemma flow_order pi f show w args : fst (client_tool pi f show w args) = [] \/ exists name rest t x more, fst (client_tool pi f show w args) ++ more = [GStart name rest; GRequest t; GPrint x; GClose; GWait].
Proof.
  destruct (tool_cases pi f show w args) as [[M ->]|[[M ->]|[[M (e & -> & Ee)]|(n & r & q & M & ->)]]]; cbn [fst]; auto.
  destruct (session_cases pi f show w n r q) as [[N ->]|[S C]]; cbn [fst]; auto. right. exists n, r.
  destruct C as [[Q E]|(t & Q & [[W E]|(v & W & [[C E]|[(C1 & C2 & E)|(C1 & C2 & E)]])])]; rewrite E; cbn [fst].
  - exists [], [], [GRequest []; GPrint []; GClose; GWait]. reflexivity.
  - exists t, [], [GPrint []; GClose; GWait]. reflexivity.
  - eexists t, _, [GWait]. reflexivity.
  - eexists t, _, []. reflexivity.
  - eexists t, _, []. reflexivity.
Qed.
Lemma flow_wait pi f show w args : In GWait (fst (client_tool pi f show w args)) <-> exists x, In (GPrint x) (fst (client_tool pi f show w args)) /\ w_close w = None.
Proof.
  destruct (tool_cases pi f show w args) as [[M ->]|[[M ->]|[[M (e & -> & Ee)]|(n & r & q & M & ->)]]]; cbn [fst]; try (split; [intros []|intros (x & [] & _)]).
  destruct (session_cases pi f show w n r q) as [[N ->]|[S C]]; cbn [fst]; [split; [intros []|intros (x & [] & _)]|].
  destruct C as [[Q E]|(t & Q & [[W E]|(v & W & [[C E]|[(C1 & C2 & E)|(C1 & C2 & E)]])])]; rewrite E; cbn [fst In].
  - split; [intros [I|[]]; discriminate I|intros (x & [I|[]] & _); discriminate I].
  - split; [intros [I|[I|[]]]; discriminate I|intros (x & [I|[I|[]]] & _); discriminate I].
  - split; [intros [I|[I|[I|[I|[]]]]]; discriminate I|intros (x & _ & X); congruence].
  - split; [intros _; eexists; split; [right; right; left; reflexivity|exact C1]|auto 10].
  - split; [intros _; eexists; split; [right; right; left; reflexivity|exact C1]|auto 10].
Qed.
Lemma flow_crash pi f show w args : snd (client_tool pi f show w args) = Crash <-> exists rest, remaining args (b "--" :: rest).
Proof.
  rewrite <- client_panics. destruct (tool_cases pi f show w args) as [[M ->]|[[M ->]|[[M (e & -> & Ee)]|(n & r & q & M & ->)]]]; cbn [snd].
  - split; [discriminate|congruence].
  - split; auto.
  - split; [destruct Ee as [->| ->]; discriminate|congruence].
  - split; [|congruence]. destruct (session_cases pi f show w n r q) as [[N ->]|[S C]]; cbn [snd]; [discriminate|].
    destruct C as [[Q E]|(t & Q & [[W E]|(v & W & [[C E]|[(C1 & C2 & E)|(C1 & C2 & E)]])])]; rewrite E; discriminate.
Qed.
Lemma hello_range pi f show v t x : jdocument v t -> occurs x v -> f x = false -> query_text pi f show [b "hello"; t] = None.
Proof.
  intros J O F. unfold query_text. cbn [subcommand]. change (str_eqb (b "hello") (b "visit")) with false. change (str_eqb (b "hello") (b "mentions")) with false. change (str_eqb (b "hello") (b "capture")) with false. change (str_eqb (b "hello") (b "hello")) with true. cbn match. unfold callHello, unmarshal_any.
  destruct (checkValid t); [|reflexivity]. rewrite (document_parsed _ _ J). destruct (floats f v) eqn:E; [|reflexivity]. apply floats_ok with (t := x) in E; [congruence|exact O].
Qed.
