(** Decoding of requests with repeated members agrees with its specification. *)
From Coq Require Import ZifyBool ZifyNat ZifyN.
From Verif Require Import GoBase Utf8 JsonSpec JsonProofs Json Backend Server ServerSpec ServerProofs Unmarshal UnmarshalSpec UnmarshalProofs ParseProofs PacketProofs RepeatSpec.

(** Numbers of values of documents *)
Definition sound (v : value) : Prop := forall t, occurs t v -> jnumber t.
Lemma text_sound : (forall v t, jtext v t -> sound v) /\ (forall l t, jitems l t -> Forall sound l) /\ (forall l t, jmembers l t -> Forall (fun m => sound (snd m)) l).
Proof.
  apply json_mind.
  - intros t H. inversion H.
  - intros t H. inversion H.
  - intros t H. inversion H.
  - intros t J t' H. inversion H; subst. exact J.
  - intros s t J t' H. inversion H.
  - intros w W t H. inversion H; subst. contradiction.
  - intros l t J F t' H. inversion H as [|l' v I O|]; subst. rewrite Forall_forall in F. exact (F _ I _ O).
  - intros w W t H. inversion H; subst. contradiction.
  - intros l t J F t' H. inversion H as [| |l' k v I O]; subst. rewrite Forall_forall in F. exact (F _ I _ O).
  - intros. constructor; [assumption|constructor].
  - intros. constructor; assumption.
  - intros. constructor; [assumption|constructor].
  - intros. constructor; assumption.
Qed.
Lemma document_sound v t : jdocument v t -> sound v.
Proof. intros (w & x & w' & _ & _ & J & _). exact (proj1 text_sound _ _ J). Qed.
Lemma sound_items l : sound (VArr l) -> Forall sound l.
Proof. intros S. apply Forall_forall. intros v I t O. apply S. econstructor; eassumption. Qed.
Lemma sound_members l : sound (VObj l) -> Forall (fun m => sound (snd m)) l.
Proof. intros S. apply Forall_forall. intros [k v] I t O. apply S. econstructor; eassumption. Qed.

(** [f]: what a variable is *)
Definition writes {A B} (d : dec A) (f : A -> B) (P : value -> B -> B -> Prop) : Prop :=
  steady d /\ forall v a x, sound v -> ((snd (d v a) = true /\ f (fst (d v a)) = x) <-> P v (f a) x).
Lemma null_dec (v : value) : {v = VNull} + {v <> VNull}.
Proof. destruct v; ((left; reflexivity) || (right; discriminate)). Qed.
Lemma string_writes : writes d_string same put_string.
Proof.
  split; [apply string_implements|]. intros v a x _. unfold put_string, same. destruct v; cbn [d_string fst snd].
  all: try (split; [intros [E <-]; solve [discriminate E|auto]|intros [[E1 E2]|(rs & E1 & E2)]; try discriminate E1; solve [subst; auto]]).
  split; [intros [_ <-]; right; eauto|]. intros [[E _]|(rs & E & ->)]; [discriminate E|]. injection E as ->. auto.
Qed.
Lemma int_writes : writes d_int same put_int.
Proof.
  split; [apply int_implements|]. intros v a x S. unfold put_int. destruct (null_dec v) as [->|N].
  - cbn [d_int fst snd]. unfold same. split; [intros [_ <-]; left; auto|intros [[_ ->]|[N _]]; [auto|congruence]].
  - assert (E : (snd (d_int v a) = true /\ same (fst (d_int v a)) = x) <-> an_int v x).
    { destruct v as [| |t| | |]; try (split; [intros [E _]; discriminate E|intros [[E _]|(t & E & _)]; [contradiction|discriminate E]]); [congruence|].
      rewrite <- (proj2 int_implements (VNum t) x) by (constructor; apply S; constructor). cbn [d_int]. destruct (parse_int64 t); [reflexivity|]. split; intros [E _]; discriminate E. }
    rewrite E. split; [auto|intros [[K _]|[_ K]]; [congruence|exact K]].
Qed.
Lemma any_writes fo : writes (d_any fo) same (put_anything fo).
Proof.
  split; [apply any_implements|]. intros v a x _. unfold same, put_anything, anything. rewrite <- floats_ok. destruct v; cbn [d_any fst snd]; (split; [intros [E <-]|intros [E1 E2]]).
  1: split; [split; congruence|reflexivity]. 1: destruct x; intuition congruence.
  all: try (split; [split; congruence|exact E]). all: split; [exact E2|]; symmetry; apply E1; discriminate.
Qed.
Lemma pointer_writes A (d : dec A) zero P : writes d same P -> writes (d_pointer zero d) same (put_optional zero P).
Proof.
  intros [S W]. assert (G : forall v a, v <> VNull -> d_pointer zero d v a = (Some (fst (d v (match a with Some x => x | None => zero end))), snd (d v (match a with Some x => x | None => zero end)))).
  { intros v a N. destruct v; try congruence; cbn [d_pointer]; destruct (d _ _); reflexivity. }
  split.
  - intros v a a'. destruct (null_dec v) as [->|N]; [reflexivity|]. rewrite !G by exact N. cbn [snd]. apply S.
  - intros v a x T. unfold put_optional. destruct (null_dec v) as [->|N].
    + cbn [d_pointer fst snd]. unfold same. split; [intros [_ <-]; left; auto|intros [[_ ->]|[N _]]; [auto|congruence]].
    + rewrite G by exact N. cbn [fst snd]. specialize (W v (match a with Some x => x | None => zero end)). unfold same in *. split.
      * intros [E <-]. right. split; [exact N|]. eexists. split; [reflexivity|]. apply W; auto.
      * intros [[K _]|(_ & y & -> & H)]; [congruence|]. apply W in H; [|exact T]. destruct H as [H <-]. auto.
Qed.
(** Elements and hidden ones *)
Definition halves {A} (s : slice A) : list A * list A := (elements s, skipn (slen s) (store s)).
Lemma halves_all A (s : slice A) : fst (halves s) ++ snd (halves s) = store s.
Proof. apply firstn_skipn. Qed.
Lemma elements_write A (d : dec A) zero P : writes d same P -> forall l st y, Forall sound l ->
  ((snd (d_elements zero d l st) = true /\ halves (mkSlice (fst (d_elements zero d l st)) (length l)) = y) <-> put_each zero P l st y).
Proof.
  intros [S W]. induction l as [|v l IH]; intros st y T; cbn [d_elements].
  - cbn [fst snd]. unfold halves, elements. cbn [store slen length firstn skipn]. split; [intros [_ <-]; constructor|intros H; inversion H; auto].
  - inversion_clear T as [|v' l' T1 T2]. pose (a := match st with x :: _ => x | [] => zero end). pose (st1 := match st with _ :: st' => st' | [] => [] end). fold a st1. specialize (W v a). destruct (d v a) as [x ok] eqn:E. cbn [fst snd] in W.
    pose proof (fun y => IH st1 y T2) as IHy. destruct (d_elements zero d l st1) as [st' ok'] eqn:E'. cbn [fst snd] in *. unfold halves, elements in *. cbn [store slen length firstn skipn] in *. rewrite andb_true_iff. unfold same in W. split.
    + intros [[-> ->] <-]. assert (K : P v a x) by (apply W; auto). pose proof (proj1 (IHy _) (conj eq_refl eq_refl)) as H. unfold a, st1 in *. destruct st; constructor; assumption.
    + intros H. assert (Q : exists x' l' h', P v a x' /\ put_each zero P l st1 (l', h') /\ y = (x' :: l', h')) by (unfold a, st1; inversion H; subst; do 3 eexists; eauto).
      destruct Q as (x' & l' & h' & K & H' & ->). apply W in K; [|exact T1]. destruct K as [-> ->]. apply IHy in H' as [-> H']. injection H' as -> ->. auto.
Qed.
Lemma slice_writes A (d : dec A) zero P : writes d same P -> writes (d_slice zero d) halves (put_list zero P).
Proof.
  intros W. assert (G : forall l a, d_slice zero d (VArr l) a = match l with [] => (no_elements, true) | _ => (mkSlice (fst (d_elements zero d l (store a))) (length l), snd (d_elements zero d l (store a))) end).
  { intros [|v l] a; [reflexivity|]. cbn [d_slice]. destruct (d_elements _ _ _ _). reflexivity. }
  split.
  - intros v a a'. destruct v as [| | | |l|]; try reflexivity. rewrite !G. destruct l; [reflexivity|]. cbn [snd]. rewrite !elements_flag by apply W. reflexivity.
  - intros v a x T. unfold put_list. destruct v as [| | | |l|].
    1: cbn [d_slice fst snd]; split; [intros [_ <-]; left; split; [left; reflexivity|reflexivity]|intros [[_ ->]|(vs & E & _)]; [auto|discriminate]].
    1-3,5: cbn [d_slice fst snd]; (split; [intros [E _]; discriminate|intros [[[E|E] _]|(vs & E & _)]; discriminate]).
    rewrite G. destruct l as [|v l].
    + cbn [fst snd]. split; [intros [_ <-]; left; split; [right; reflexivity|reflexivity]|]. intros [[_ ->]|(vs & E & N & _)]; [auto|congruence].
    + cbn [fst snd]. pose proof (elements_write _ _ zero _ W (v :: l) (store a) x (sound_items _ T)) as H. rewrite H, halves_all. split.
      * intros K. right. exists (v :: l). split; [reflexivity|]. split; [discriminate|exact K].
      * intros [[[E|E] _]|(vs & E & _ & K)]; try discriminate. injection E as <-. exact K.
Qed.

(** Structures *)
Lemma fields_gathered A B C (fs : list (str * dec A)) name (get : A -> B) d (f : B -> C) P : apart fs -> governs fs name get d -> writes d f P -> forall l a b0 x, Forall (fun m => sound (snd m)) l ->
  (((forall v, has l name v -> snd (d v b0) = true) /\ f (get (fst (d_fields fs l a))) = x) <-> gathered P name l (f (get a)) x).
Proof.
  intros N [[d0 I0] G] [S W]. induction l as [|[k v] l IH]; intros a b0 x T.
  - split; [intros [_ <-]; constructor|intros H; inversion H; subst; split; [intros v (k & [] & _)|reflexivity]].
  - inversion_clear T as [|m' l' T1 T2]. cbn [snd] in T1. pose (a1 := fst match find_field fs k with Some d' => d' v a | None => (a, true) end).
    assert (E : fst (d_fields fs ((k, v) :: l) a) = fst (d_fields fs l a1)).
    { cbn [d_fields]. unfold a1. destruct (match find_field fs k with Some d' => d' v a | None => (a, true) end) as [a2 ok]. cbn [fst]. destruct (d_fields fs l a2). reflexivity. }
    rewrite E. clear E. specialize (IH a1 b0 x T2).
    assert (K : (same_name k name /\ get a1 = fst (d v (get a))) \/ (~ same_name k name /\ get a1 = get a)).
    { unfold a1. destruct (find_field fs k) as [d'|] eqn:F.
      - destruct (find_in _ _ _ _ F) as (n' & I & Sf). destruct (G _ _ I) as [[-> Q]|[Q Q']].
        + left. split; [apply fold_name, Sf|apply Q].
        + right. split; [|apply Q']. rewrite <- fold_name. intros S'. apply Q. rewrite <- (fold_same _ _ Sf), <- (fold_same _ _ S'). reflexivity.
      - right. split; [|reflexivity]. rewrite <- fold_name. intros Sf. rewrite (find_ok _ _ N k name d0 I0 Sf) in F. discriminate. }
    destruct K as [[K Ea]|[K Ea]]; rewrite Ea in IH.
    + pose proof (fun y => W v (get a) y T1) as Wv. split.
      * intros [H X]. apply ga_same with (f (fst (d v (get a)))); [exact K|apply Wv; split; [rewrite (S v (get a) b0); apply H, has_cons; left; auto|reflexivity]|]. apply IH. split; [|exact X]. intros v' H'. apply H, has_cons. right. exact H'.
      * intros H. inversion H as [|k' v' l' x' y z Kn Pv Gl|k' v' l' x' z Kn Gl]; subst; [|contradiction].
        apply Wv in Pv as [Ok Ey]. rewrite <- Ey in Gl. apply IH in Gl as [Fl <-]. split; [|reflexivity]. intros v' H'. apply has_cons in H' as [[<- _]|H']; [rewrite (S v b0 (get a)); exact Ok|apply Fl, H'].
    + split.
      * intros [H X]. apply ga_other; [exact K|]. apply IH. split; [|exact X]. intros v' H'. apply H, has_cons. right. exact H'.
      * intros H. inversion H as [|k' v' l' x' y z Kn Pv Gl|k' v' l' x' z Kn Gl]; subst; [contradiction|]. apply IH in Gl as [Fl X]. split; [|exact X]. intros v' H'. apply has_cons in H' as [[_ K']|H']; [contradiction|apply Fl, H'].
Qed.
Lemma struct_writes A B (fs : list (str * dec A)) (f : A -> B) R : all_steady fs -> (forall l a x, Forall (fun m => sound (snd m)) l -> ((snd (d_fields fs l a) = true /\ f (fst (d_fields fs l a)) = x) <-> R l (f a) x)) -> writes (d_struct fs) f (put_object R).
Proof.
  intros S H. split; [apply struct_steady, S|]. intros v a x T. unfold put_object. destruct v as [| | | | |l].
  1: cbn [d_struct fst snd]; split; [intros [_ <-]; left; auto|intros [[_ ->]|(l & K & _)]; [auto|discriminate]].
  1-4: split; [intros [E _]; discriminate E|intros [[E _]|(l' & E & _)]; discriminate E].
  cbn [d_struct]. rewrite H by exact (sound_members _ T). split; [intros K; right; eauto|]. intros [[E _]|(l' & E & K)]; [discriminate|]. injection E as <-. exact K.
Qed.
Lemma kept_gathered A B C (fs : list (str * dec A)) name (get : A -> B) set d (f : B -> C) P l a : apart fs -> governs fs name get d -> writes d f P -> Forall (fun m => sound (snd m)) l ->
  (forall v, has l name v -> snd (keep get set d v a) = true) -> gathered P name l (f (get a)) (f (get (fst (d_fields fs l a)))).
Proof. intros N G W T H. apply (fields_gathered _ _ _ fs name get d f P N G W l a (get a) _ T). split; [|reflexivity]. intros v K. rewrite <- (keep_flag _ _ get set). apply H, K. Qed.
Lemma given_gathered A B C (fs : list (str * dec A)) name (get : A -> B) set d (f : B -> C) P l a x : apart fs -> governs fs name get d -> writes d f P -> Forall (fun m => sound (snd m)) l ->
  gathered P name l (f (get a)) x -> (forall v, has l name v -> snd (keep get set d v a) = true) /\ f (get (fst (d_fields fs l a))) = x.
Proof. intros N G W T H. apply (fields_gathered _ _ _ fs name get d f P N G W l a (get a) x T) in H. destruct H as [H E]. split; [|exact E]. intros v K. rewrite keep_flag. apply H, K. Qed.
Definition types {B C} (d : dec B) (zero : B) (R : value -> C -> Prop) : Prop := forall v, snd (d v zero) = true <-> exists x, R v x.
Lemma types_checked B C (d : dec B) zero (R : value -> C -> Prop) l name : types d zero R -> ((forall v, has l name v -> snd (d v zero) = true) <-> checked l name R).
Proof. intros H. unfold checked. split; intros K v Hv; apply H, K, Hv. Qed.
Lemma string_types : types d_string [] a_string.
Proof. intros v. unfold a_string. destruct v; cbn [d_string snd]; (split; [intros E; try discriminate E; eauto|intros (x & [[E _]|(rs & E & _)]); try discriminate E; reflexivity]). Qed.
Lemma any_types fo : types (d_any fo) false (anything fo).
Proof.
  intros v. unfold anything. setoid_rewrite <- floats_ok. destruct v; cbn [d_any snd]; (split; [intros E|intros (x & _ & E); exact E]).
  1: exists false; split; [split; congruence|reflexivity]. all: exists true; split; [split; [discriminate|reflexivity]|exact E].
Qed.
Lemma map_types fo : types (d_map fo) tt (fun v (_ : unit) => a_map fo v).
Proof.
  intros v. unfold a_map. setoid_rewrite <- floats_ok. destruct v; cbn [d_map snd].
  all: split; [intros E; first [discriminate E|exists tt; split; [first [left; reflexivity|right; eexists; reflexivity]|first [exact E|reflexivity]]]|].
  all: intros (_ & [E1|[l' E1]] & E2); try discriminate E1; first [exact E2|reflexivity].
Qed.

Lemma limit_writes : writes mentions_options same put_limit.
Proof.
  unfold mentions_options. set (fs := [_]). assert (St : all_steady fs) by (constructor; [apply int_implements|constructor]). assert (Ap : apart fs) by apart. assert (G1 : governs fs (b "countLimit") same d_int) by (unfold fs; governs).
  apply struct_writes; [exact St|]. intros l a x T. rewrite flags_ok by assumption. unfold fs at 1. rewrite !Forall_cons_iff. cbn [fst snd]. pose proof (fields_gathered _ _ _ fs _ same d_int same put_int Ap G1 int_writes l a a x T) as F. unfold same in *. rewrite <- F.
  split; [intros [[H _] E]; auto|intros [H E]; auto].
Qed.
Lemma visit_writes : writes location same (put_object (fun l x y => gathered put_string (b "file") l (locFile x) (locFile y) /\ gathered put_int (b "lineNo") l (locLine x) (locLine y))).
Proof.
  unfold location. set (fs := [_; _]).
  assert (St : all_steady fs) by (constructor; [apply keep_steady, string_implements|constructor; [apply keep_steady, int_implements|constructor]]). assert (Ap : apart fs) by apart.
  assert (G1 : governs fs (b "file") locFile d_string) by (unfold fs; governs). assert (G2 : governs fs (b "lineNo") locLine d_int) by (unfold fs; governs).
  apply struct_writes; [exact St|]. intros l a x T. rewrite flags_ok by assumption. unfold fs at 1. rewrite !Forall_cons_iff. cbn [fst snd]. split.
  - intros [(H1 & H2 & _) <-]. split; [exact (kept_gathered _ _ _ fs _ _ _ _ _ _ l a Ap G1 string_writes T H1)|exact (kept_gathered _ _ _ fs _ _ _ _ _ _ l a Ap G2 int_writes T H2)].
  - intros [H1 H2]. destruct (given_gathered _ _ _ fs _ _ (fun x a => mkLocation x (locLine a)) _ _ _ l a _ Ap G1 string_writes T H1) as [F1 E1].
    destruct (given_gathered _ _ _ fs _ _ (fun x a => mkLocation (locFile a) x) _ _ _ l a _ Ap G2 int_writes T H2) as [F2 E2].
    split; [auto|]. unfold same in *. destruct x, (fst _). cbn in E1, E2. congruence.
Qed.
Lemma search_writes : writes search_query same (put_object (fun l x y => gathered put_string (b "q") l (sqQuery x) (sqQuery y) /\ gathered (put_optional 0%Z put_int) (b "limit") l (sqLimit x) (sqLimit y) /\
  gathered (put_optional 0%Z put_int) (b "tol") l (sqTolerance x) (sqTolerance y))).
Proof.
  unfold search_query. set (fs := [_; _; _]). pose proof (pointer_writes _ _ 0%Z _ int_writes) as Pi.
  assert (St : all_steady fs) by (constructor; [apply keep_steady, string_implements|constructor; [apply keep_steady, Pi|constructor; [apply keep_steady, Pi|constructor]]]). assert (Ap : apart fs) by apart.
  assert (G1 : governs fs (b "q") sqQuery d_string) by (unfold fs; governs). assert (G2 : governs fs (b "limit") sqLimit (d_pointer 0%Z d_int)) by (unfold fs; governs).
  assert (G3 : governs fs (b "tol") sqTolerance (d_pointer 0%Z d_int)) by (unfold fs; governs).
  apply struct_writes; [exact St|]. intros l a x T. rewrite flags_ok by assumption. unfold fs at 1. rewrite !Forall_cons_iff. cbn [fst snd]. split.
  - intros [(H1 & H2 & H3 & _) <-]. split; [exact (kept_gathered _ _ _ fs _ _ _ _ _ _ l a Ap G1 string_writes T H1)|]. split; [exact (kept_gathered _ _ _ fs _ _ _ _ _ _ l a Ap G2 Pi T H2)|exact (kept_gathered _ _ _ fs _ _ _ _ _ _ l a Ap G3 Pi T H3)].
  - intros (H1 & H2 & H3). destruct (given_gathered _ _ _ fs _ _ (fun x a => mkSearch x (sqLimit a) (sqTolerance a)) _ _ _ l a _ Ap G1 string_writes T H1) as [F1 E1].
    destruct (given_gathered _ _ _ fs _ _ (fun x a => mkSearch (sqQuery a) x (sqTolerance a)) _ _ _ l a _ Ap G2 Pi T H2) as [F2 E2].
    destruct (given_gathered _ _ _ fs _ _ (fun x a => mkSearch (sqQuery a) (sqLimit a) x) _ _ _ l a _ Ap G3 Pi T H3) as [F3 E3].
    split; [auto|]. unfold same in *. destruct x, (fst _). cbn in E1, E2, E3. congruence.
Qed.
Lemma set_writes : writes set_query halves (put_object (fun l x y => gathered (put_list [] put_string) (b "prefix") l x y)).
Proof.
  unfold set_query. set (fs := [_]). pose proof (slice_writes _ _ [] _ string_writes) as Pi.
  assert (St : all_steady fs) by (constructor; [apply Pi|constructor]). assert (Ap : apart fs) by apart. assert (G1 : governs fs (b "prefix") same (d_slice [] d_string)) by (unfold fs; governs).
  apply struct_writes; [exact St|]. intros l a x T. rewrite flags_ok by assumption. unfold fs at 1. rewrite !Forall_cons_iff. cbn [fst snd].
  pose proof (fields_gathered _ _ _ fs _ same _ _ _ Ap G1 Pi l a a x T) as F. unfold same in *. split; [intros [[H _] E]; apply F; auto|intros H; apply F in H; destruct H; auto].
Qed.
Definition both (q : slice str * option Z) : (list str * list str) * option Z := (halves (fst q), snd q).
Lemma mentions_writes : writes mentions_query both (put_object (fun l x y => gathered (put_list [] put_string) (b "variants") l (fst x) (fst y) /\ gathered (put_optional 0%Z put_limit) (b "options") l (snd x) (snd y))).
Proof.
  unfold mentions_query. set (fs := [_; _]). pose proof (slice_writes _ _ [] _ string_writes) as P1. pose proof (pointer_writes _ _ 0%Z _ limit_writes) as P2.
  assert (St : all_steady fs) by (constructor; [apply keep_steady, P1|constructor; [apply keep_steady, P2|constructor]]). assert (Ap : apart fs) by apart.
  assert (G1 : governs fs (b "variants") fst (d_slice [] d_string)) by (unfold fs; governs). assert (G2 : governs fs (b "options") snd (d_pointer 0%Z mentions_options)) by (unfold fs; governs).
  apply struct_writes; [exact St|]. intros l a x T. rewrite flags_ok by assumption. unfold fs at 1. rewrite !Forall_cons_iff. cbn [fst snd]. split.
  - intros [(H1 & H2 & _) <-]. split; [exact (kept_gathered _ _ _ fs _ _ _ _ _ _ l a Ap G1 P1 T H1)|exact (kept_gathered _ _ _ fs _ _ _ _ _ _ l a Ap G2 P2 T H2)].
  - intros [H1 H2]. destruct (given_gathered _ _ _ fs _ _ (fun x a => (x, snd a)) _ _ _ l a _ Ap G1 P1 T H1) as [F1 E1].
    destruct (given_gathered _ _ _ fs _ _ (fun x a => (fst a, x)) _ _ _ l a _ Ap G2 P2 T H2) as [F2 E2].
    split; [auto|]. unfold same, both in *. destruct x as [xv xl]. cbn [fst snd] in E1, E2. subst xv xl. reflexivity.
Qed.
Lemma format_writes fo : writes (hello_format fo) same (put_format fo).
Proof.
  unfold hello_format. set (fs := [_; _; _]).
  assert (St : all_steady fs) by (constructor; [apply keep_steady, string_implements|constructor; [apply keep_steady, string_implements|constructor; [apply check_steady|constructor]]]). assert (Ap : apart fs) by apart.
  assert (G1 : governs fs (b "format") fst d_string) by (unfold fs; governs). assert (G2 : governs fs (b "version") snd d_string) by (unfold fs; governs).
  apply struct_writes; [exact St|]. intros l a x T. rewrite flags_ok by assumption. unfold fs at 1. rewrite !Forall_cons_iff. cbn [fst snd].
  pose proof (types_checked _ _ _ _ _ l (b "options") (map_types fo)) as C. split.
  - intros [(H1 & H2 & H3 & _) <-]. split; [exact (kept_gathered _ _ _ fs _ _ _ _ _ _ l a Ap G1 string_writes T H1)|]. split; [exact (kept_gathered _ _ _ fs _ _ _ _ _ _ l a Ap G2 string_writes T H2)|]. exact (proj1 C H3).
  - intros (H1 & H2 & H3). destruct (given_gathered _ _ _ fs _ _ (fun x a => (x, snd a)) _ _ _ l a _ Ap G1 string_writes T H1) as [F1 E1].
    destruct (given_gathered _ _ _ fs _ _ (fun x a => (fst a, x)) _ _ _ l a _ Ap G2 string_writes T H2) as [F2 E2]. pose proof (proj2 C H3) as F3.
    split; [auto|]. unfold same in *. destruct x as [x1 x2]. cbn [fst snd] in E1, E2. subst x1 x2. apply surjective_pairing.
Qed.
Lemma hello_writes fo : writes (hello_query fo) halves (put_object (fun l x y => gathered (put_list ([], []) (put_format fo)) (b "formats") l x y /\ checked l (b "version") a_string)).
Proof.
  unfold hello_query. set (fs := [_; _]). pose proof (slice_writes _ _ ([], []) _ (format_writes fo)) as P1.
  assert (St : all_steady fs) by (constructor; [apply P1|constructor; [apply check_steady|constructor]]). assert (Ap : apart fs) by apart.
  assert (G1 : governs fs (b "formats") same (d_slice ([], []) (hello_format fo))) by (unfold fs; governs).
  apply struct_writes; [exact St|]. intros l a x T. rewrite flags_ok by assumption. unfold fs at 1. rewrite !Forall_cons_iff. cbn [fst snd].
  pose proof (fields_gathered _ _ _ fs _ same _ _ _ Ap G1 P1 l a a x T) as F. pose proof (types_checked _ _ _ _ _ l (b "version") string_types) as C. unfold same in *.
  split; [intros [(H1 & H2 & _) E]; split; [apply F; auto|apply C, H2]|intros [H1 H2]; apply F in H1; destruct H1 as [H1 E]; pose proof (proj2 C H2); auto].
Qed.
Lemma page_writes fo : writes (capture_data fo) same (put_page fo).
Proof.
  unfold capture_data. set (fs := [_; _; _]).
  assert (St : all_steady fs) by (constructor; [apply string_implements|constructor; [apply check_steady|constructor; [apply check_steady|constructor]]]). assert (Ap : apart fs) by apart.
  assert (G1 : governs fs (b "url") same d_string) by (unfold fs; governs).
  apply struct_writes; [exact St|]. intros l a x T. rewrite flags_ok by assumption. unfold fs at 1. rewrite !Forall_cons_iff. cbn [fst snd].
  pose proof (fields_gathered _ _ _ fs _ same _ _ _ Ap G1 string_writes l a a x T) as F. pose proof (types_checked _ _ _ _ _ l (b "title") string_types) as C1. pose proof (types_checked _ _ _ _ _ l (b "body") (any_types fo)) as C2. unfold same in *.
  split; [intros [(H1 & H2 & H3 & _) E]; split; [apply F; auto|split; [apply C1, H2|apply C2, H3]]|intros (H1 & H2 & H3); apply F in H1; destruct H1 as [H1 E]; pose proof (proj2 C1 H2); pose proof (proj2 C2 H3); auto].
Qed.
Lemma capture_writes fo : writes (capture_query fo) same (put_object (fun l x y => gathered put_string (b "format") l (cqFormat x) (cqFormat y) /\ checked l (b "version") a_string /\ checked l (b "options") (anything fo) /\
  gathered (put_page fo) (b "data") l (cqUrl x) (cqUrl y) /\ gathered (put_anything fo) (b "error") l (cqError x) (cqError y))).
Proof.
  unfold capture_query. set (fs := [_; _; _; _; _]). pose proof (any_writes fo) as Pa. pose proof (page_writes fo) as Pp.
  assert (St : all_steady fs) by (constructor; [apply keep_steady, string_implements|constructor; [apply check_steady|constructor; [apply check_steady|constructor; [apply keep_steady, Pp|constructor; [apply keep_steady, Pa|constructor]]]]]). assert (Ap : apart fs) by apart.
  assert (G1 : governs fs (b "format") cqFormat d_string) by (unfold fs; governs). assert (G2 : governs fs (b "data") cqUrl (capture_data fo)) by (unfold fs; governs).
  assert (G3 : governs fs (b "error") cqError (d_any fo)) by (unfold fs; governs).
  apply struct_writes; [exact St|]. intros l a x T. rewrite flags_ok by assumption. unfold fs at 1. rewrite !Forall_cons_iff. cbn [fst snd].
  pose proof (types_checked _ _ _ _ _ l (b "version") string_types) as C1. pose proof (types_checked _ _ _ _ _ l (b "options") (any_types fo)) as C2. split.
  - intros [(H1 & H2 & H3 & H4 & H5 & _) <-]. split; [exact (kept_gathered _ _ _ fs _ _ _ _ _ _ l a Ap G1 string_writes T H1)|]. split; [exact (proj1 C1 H2)|]. split; [exact (proj1 C2 H3)|].
    split; [exact (kept_gathered _ _ _ fs _ _ _ _ _ _ l a Ap G2 Pp T H4)|exact (kept_gathered _ _ _ fs _ _ _ _ _ _ l a Ap G3 Pa T H5)].
  - intros (H1 & H2 & H3 & H4 & H5). destruct (given_gathered _ _ _ fs _ _ (fun x a => mkCapture x (cqUrl a) (cqError a)) _ _ _ l a _ Ap G1 string_writes T H1) as [F1 E1].
    destruct (given_gathered _ _ _ fs _ _ (fun x a => mkCapture (cqFormat a) x (cqError a)) _ _ _ l a _ Ap G2 Pp T H4) as [F2 E2].
    destruct (given_gathered _ _ _ fs _ _ (fun x a => mkCapture (cqFormat a) (cqUrl a) x) _ _ _ l a _ Ap G3 Pa T H5) as [F3 E3]. pose proof (proj2 C1 H2) as F4. pose proof (proj2 C2 H3) as F5.
    split; [auto 10|]. unfold same in *. destruct x, (fst _). cbn in E1, E2, E3. congruence.
Qed.

(** Parameters *)
Lemma unmarshal_writes A B C message (d : dec A) zero (f : A -> B) (g : A -> C) P t v vs x : writes d f P -> jdocument (VArr (v :: vs)) t ->
  (unmarshal message d zero g t = Ok x <-> exists a, P v (f zero) (f a) /\ fst (d v zero) = a /\ g a = x).
Proof.
  intros [S W] J. unfold unmarshal. rewrite (document_parsed _ _ J). cbn [d_params]. pose proof (sound_items _ (document_sound _ _ J)) as T. inversion_clear T as [|v' vs' T1 _]. specialize (W v zero). destruct (d v zero) as [a ok]. cbn [fst snd] in *. split.
  - intros H. destruct ok; [|discriminate]. injection H as <-. exists a. split; [apply W; auto|auto].
  - intros (a' & H & <- & <-). apply W in H; [|exact T1]. destruct H as [-> _]. reflexivity.
Qed.
Lemma unmarshal_all A B C message (d : dec A) zero (f : A -> B) (g : A -> C) (h : B -> C) P t v vs x : writes d f P -> (forall a, g a = h (f a)) -> jdocument (VArr (v :: vs)) t ->
  (unmarshal message d zero g t = Ok x <-> exists y, P v (f zero) y /\ h y = x).
Proof.
  intros W G J. rewrite (unmarshal_writes _ _ _ _ _ _ _ _ _ _ _ _ _ W J). split.
  - intros (a & H & _ & <-). exists (f a). rewrite G. auto.
  - intros (y & H & <-). pose proof (sound_items _ (document_sound _ _ J)) as T. inversion_clear T as [|v' vs' T1 _]. pose proof H as H'. apply (proj2 W) in H' as [E1 E2]; [|exact T1]. exists (fst (d v zero)). rewrite E2. split; [exact H|]. split; [reflexivity|]. rewrite G, E2. reflexivity.
Qed.
Lemma put_fields A (R : list (list rune * value) -> A -> A -> Prop) v zero y : R [] zero zero -> (forall y, R [] zero y -> y = zero) -> (put_object R v zero y <-> exists l, fields v l /\ R l zero y).
Proof.
  intros Z U. unfold put_object, fields. split.
  - intros [[-> ->]|(l & -> & H)]; [exists []; auto|exists l; auto].
  - intros (l & [[-> ->]| ->] & H); [left; split; [reflexivity|apply U, H]|right; eauto].
Qed.
Lemma gathered_nil A (P : value -> A -> A -> Prop) name x y : gathered P name [] x y <-> y = x.
Proof. split; [intros H; inversion H; reflexivity|intros ->; constructor]. Qed.
Lemma checked_nil A name (R : value -> A -> Prop) : checked [] name R.
Proof. intros v (k & [] & _). Qed.
Ltac zeroes := cbn [cqFormat cqUrl cqError locFile locLine sqQuery sqLimit sqTolerance fst snd]; rewrite ?gathered_nil; auto using checked_nil.
Lemma params_repeated fo message m t v vs q : jdocument (VArr (v :: vs)) t -> (argument (go_decoders fo message) m t = Ok q <-> demands fo v m q).
Proof.
  intros J. destruct m; cbn [argument go_decoders d_hello d_capture d_mentions d_visit d_search d_set]; rewrite rmap_ok.
  - assert (E : forall x, _ <-> _) by exact (fun x => unmarshal_all _ _ _ (message MHello) _ no_elements _ elements fst _ t v vs x (hello_writes fo) (fun _ => eq_refl) J). split.
    + intros (x & -> & H). apply E in H as ([x' h] & H & <-). apply put_fields in H; [|zeroes|intros z Z; revert Z; zeroes; intros [-> _]; reflexivity]. destruct H as (l & Fl & H1 & H2). exact (de_hello _ _ _ _ _ Fl H1 H2).
    + intros H. inversion H as [l x h Fl H1 H2| | | | |]; subst. exists x. split; [reflexivity|]. apply E. exists (x, h). split; [|reflexivity]. apply put_fields; [zeroes|intros z Z; revert Z; zeroes; intros [-> _]; reflexivity|]. exists l. auto.
  - assert (E : forall x, _ <-> _) by exact (fun x => unmarshal_all _ _ _ (message MCapture) _ (mkCapture [] [] false) _ (fun q => q) same _ t v vs x (capture_writes fo) (fun _ => eq_refl) J). split.
    + intros (x & -> & H). apply E in H as (x' & H & <-). apply put_fields in H; [|zeroes|intros [] Z; revert Z; zeroes; unfold same; cbn; intros (-> & _ & _ & -> & ->); reflexivity]. destruct H as (l & Fl & H1 & H2 & H3 & H4 & H5). exact (de_capture _ _ _ _ Fl H1 H2 H3 H4 H5).
    + intros H. inversion H as [|l x Fl H1 H2 H3 H4 H5| | | |]; subst. exists x. split; [reflexivity|]. apply E. exists x. split; [|reflexivity]. apply put_fields; [zeroes|intros [] Z; revert Z; zeroes; unfold same; cbn; intros (-> & _ & _ & -> & ->); reflexivity|]. exists l. auto 10.
  - assert (E : forall x, _ <-> _) by exact (fun x => unmarshal_all _ _ _ (message MUrlMentions) _ (no_elements, None) _ (fun q => mkMentions (elements (fst q)) (snd q)) (fun y => mkMentions (fst (fst y)) (snd y)) _ t v vs x mentions_writes (fun _ => eq_refl) J). split.
    + intros (x & -> & H). apply E in H as ([[x' h] n] & H & <-). apply put_fields in H; [|zeroes|intros [] Z; revert Z; zeroes; unfold both; cbn; intros (-> & ->); reflexivity]. destruct H as (l & Fl & H1 & H2). exact (de_mentions _ _ _ (mkMentions x' n) _ Fl H1 H2).
    + intros H. inversion H as [| |l x h Fl H1 H2| | |]; subst. exists x. split; [reflexivity|]. apply E. exists ((mqVariants x, h), mqLimit x). split; [|destruct x; reflexivity]. apply put_fields; [zeroes|intros [] Z; revert Z; zeroes; unfold both; cbn; intros (-> & ->); reflexivity|]. exists l. auto.
  - assert (E : forall x, _ <-> _) by exact (fun x => unmarshal_all _ _ _ (message MVisit) _ (mkLocation [] 0) _ (fun q => q) same _ t v vs x visit_writes (fun _ => eq_refl) J). split.
    + intros (x & -> & H). apply E in H as (x' & H & <-). apply put_fields in H; [|zeroes|intros [] Z; revert Z; zeroes; unfold same; cbn; intros (-> & ->); reflexivity]. destruct H as (l & Fl & H1 & H2). exact (de_visit _ _ _ _ Fl H1 H2).
    + intros H. inversion H as [| | |l x Fl H1 H2| |]; subst. exists x. split; [reflexivity|]. apply E. exists x. split; [|reflexivity]. apply put_fields; [zeroes|intros [] Z; revert Z; zeroes; unfold same; cbn; intros (-> & ->); reflexivity|]. exists l. auto.
  - assert (E : forall x, _ <-> _) by exact (fun x => unmarshal_all _ _ _ (message MSearch) _ (mkSearch [] None None) _ (fun q => q) same _ t v vs x search_writes (fun _ => eq_refl) J). split.
    + intros (x & -> & H). apply E in H as (x' & H & <-). apply put_fields in H; [|zeroes|intros [] Z; revert Z; zeroes; unfold same; cbn; intros (-> & -> & ->); reflexivity]. destruct H as (l & Fl & H1 & H2 & H3). exact (de_search _ _ _ _ Fl H1 H2 H3).
    + intros H. inversion H as [| | | |l x Fl H1 H2 H3|]; subst. exists x. split; [reflexivity|]. apply E. exists x. split; [|reflexivity]. apply put_fields; [zeroes|intros [] Z; revert Z; zeroes; unfold same; cbn; intros (-> & -> & ->); reflexivity|]. exists l. auto.
  - assert (E : forall x, _ <-> _) by exact (fun x => unmarshal_all _ _ _ (message MLinkSet) _ no_elements _ elements fst _ t v vs x set_writes (fun _ => eq_refl) J). split.
    + intros (x & -> & H). apply E in H as ([x' h] & H & <-). apply put_fields in H; [|zeroes|intros z Z; revert Z; zeroes]. destruct H as (l & Fl & H1). exact (de_set _ _ _ _ _ Fl H1).
    + intros H. inversion H as [| | | | |l x h Fl H1]; subst. exists x. split; [reflexivity|]. apply E. exists (x, h). split; [|reflexivity]. apply put_fields; [zeroes|intros z Z; revert Z; zeroes|]. exists l. auto.
Qed.

(** Messages *)
Lemma members_gathered B (step : packet -> member -> packet * bool) (get : packet -> B) name (upd : member -> B -> B) (P : value -> B -> B -> Prop) :
  (forall p m, get (fst (step p m)) = if same_fold (key m) name then upd m (get p) else get p) -> forall ms p, (forall m x, In m ms -> same_fold (key m) name = true -> P (snd (fst m)) x (upd m x)) ->
  gathered P name (map fst ms) (get p) (get (fst (members step ms p))).
Proof.
  intros G. induction ms as [|m ms IH]; intros p H; [constructor|].
  assert (E : fst (members step (m :: ms) p) = fst (members step ms (fst (step p m)))). { cbn [members]. destruct (step p m) as [p1 ok]. cbn [fst]. destruct (members step ms p1). reflexivity. }
  rewrite E. clear E. specialize (IH (fst (step p m)) (fun m x I => H m x (or_intror I))). destruct m as [[k v] t]. cbn [map fst]. rewrite G in IH. unfold key in IH at 1. cbn [fst] in IH. destruct (same_fold k name) eqn:F.
  - apply ga_same with (upd (k, v, t) (get p)); [apply fold_name, F|exact (H _ (get p) (or_introl eq_refl) F)|exact IH].
  - apply ga_other; [apply fold_no, F|exact IH].
Qed.
Lemma gathered_more A (P P' : value -> A -> A -> Prop) name l x y : (forall v a a', P v a a' -> P' v a a') -> gathered P name l x y -> gathered P' name l x y.
Proof. intros H. induction 1; [constructor|eapply ga_same; eauto|apply ga_other; auto]. Qed.
Lemma packet_repeated t l : jdocument (VObj l) t -> (forall p, request_packet t = Some p -> merged_packet t l p) /\ ((exists p, request_packet t = Some p) <-> checked l (b "method") a_string).
Proof.
  intros J. pose proof (document_parsed _ _ J) as P. destruct J as (w & x & w' & W & W' & J & ->). inversion J as [| | | | | | |v0 V0 E0|l0 tx M E0]; subst.
  - assert (E : request_packet (w ++ (b "{" ++ v0 ++ b "}") ++ w') = Some nothing) by (unfold request_packet, read_object; rewrite P; reflexivity). rewrite E. split.
    + intros p H. injection H as <-. split; [|split]; constructor.
    + split; [intros _; apply checked_nil|eauto].
  - destruct (members_raw _ _ M) as (_ & ms & R & E & F). assert (N : l <> []) by (destruct M; discriminate). unfold request_packet. fold nothing. rewrite (object_of_members _ packet_member nothing w w' l tx ms W R E N P).
    assert (Fm : snd (members packet_member ms nothing) = true <-> checked l (b "method") a_string).
    { rewrite packet_flag, forallb_forall, <- E. split.
      - intros K v (k & I & Ek). apply in_map_iff in I as ([[k' v'] y] & Em & I). cbn [fst] in Em. injection Em as -> ->. specialize (K _ I). unfold key in K. cbn [fst snd] in K. rewrite (proj2 (fold_name _ _) Ek) in K. apply string_types, K.
      - intros C [[k v] y] I. unfold key. cbn [fst snd]. destruct (same_fold k (b "method")) eqn:Ek; [|reflexivity]. apply string_types, C. exists k. split; [apply (in_map fst _ _ I)|apply fold_name, Ek]. }
    pose proof Fm as Fm'. destruct (snd (members packet_member ms nothing)) eqn:Sn.
    + split; [|split; [intros _; apply Fm; reflexivity|eauto]]. intros p H. injection H as <-. rewrite <- E. rewrite Forall_forall in F.
      assert (Raw : forall m name, In m ms -> same_fold (key m) name = true -> put_text (w ++ (b "{" ++ tx ++ b "}") ++ w') (snd (fst m)) None (raw (snd (fst m)) (snd m))).
      { intros [[k v] y] name I _. destruct (F _ I) as (Jv & z1 & z2 & Et). cbn [fst snd] in *. unfold put_text. apply text_in_more, text_in_more. destruct v; cbn [raw]; [left; auto|..]; (right; split; [discriminate|]; exists y, z1, z2; auto). }
      split; [|split].
      * apply (members_gathered _ packet_member pmethod (b "method") (fun m x => fst (d_string (snd (fst m)) x)) put_string get_method ms nothing). intros m x I Em. apply (proj2 string_writes); [|split; [|reflexivity]].
        -- destruct (F _ I) as (Jv & _). exact (proj1 text_sound _ _ Jv).
        -- rewrite packet_flag, forallb_forall in Sn. specialize (Sn _ I). rewrite Em in Sn. rewrite (proj1 string_writes _ x []). exact Sn.
      * apply (members_gathered _ packet_member pparams (b "params") (fun m _ => raw (snd (fst m)) (snd m)) _ get_params ms nothing). intros m x I Em. exact (Raw m _ I Em).
      * apply (members_gathered _ packet_member pid (b "id") (fun m _ => raw (snd (fst m)) (snd m)) _ get_id ms nothing). intros m x I Em. exact (Raw m _ I Em).
    + split; [discriminate|]. split; [intros (p & H); discriminate|intros C; apply Fm in C; discriminate].
Qed.
