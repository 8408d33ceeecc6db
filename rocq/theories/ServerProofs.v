(** Lemmas about the server: routing and the invariant of sending. *)
From Coq Require Import Permutation ZifyBool ZifyNat ZifyN.
From Verif Require Import GoBase GoSlice Frame FrameSpec FrameProofs Flags LinkTypes JsonSpec JsonStr Json JsonProofs Emacs Backend BackendSpec ReplyJson ReplySpec
  ReplyProofs ReplyMain Compact CompactProofs Server ServerSpec.

(** ** Routing *)
Lemma lookup_in {A} k (m : list (str * A)) v : lookup k m = Some v -> In (k, v) m.
Proof.
  induction m as [|[k' v'] m IH]; cbn [lookup]; [discriminate|]. destruct (str_eqb_spec k k') as [<-|]; [intros [= <-]; left; reflexivity|right; auto].
Qed.
Lemma lookup_none {A} k (m : list (str * A)) : lookup k m = None -> ~ In k (map fst m).
Proof.
  induction m as [|[k' v'] m IH]; cbn [lookup map fst]; [auto|]. destruct (str_eqb_spec k k') as [<-|N]; [discriminate|]. intros H [E|I]; [congruence|]. exact (IH H I).
Qed.
Lemma split_last_spec s : match split_last s with Some (x, y) => s = x ++ "."%char :: y | None => ~ In "."%char s end.
Proof.
  induction s as [|c s IH]; cbn [split_last]; [intros []|]. destruct (split_last s) as [[x y]|]; [subst s; reflexivity|].
  destruct (Ascii.eqb_spec c "."%char) as [->|N]; [reflexivity|]. intros [E|I]; [congruence|contradiction].
Qed.
Lemma split_last_some s : In "."%char s -> exists x y, split_last s = Some (x, y) /\ s = x ++ "."%char :: y.
Proof. intros I. pose proof (split_last_spec s) as H. destruct (split_last s) as [[x y]|]; [eauto|contradiction]. Qed.
Lemma serves_dec name : {exists m, serves name m} + {forall m, ~ serves name m}.
Proof.
  destruct (in_dec (list_eq_dec Ascii.ascii_dec) name (flat_map fst published)) as [I|I]; [left|right].
  - apply in_flat_map in I. destruct I as ([ns m] & I & J). exists m, ns. auto.
  - intros m (ns & J & K). apply I, in_flat_map. exists (ns, m). auto.
Qed.
Lemma route_unknown name : (forall m, ~ serves name m) -> route name = Err (b "rpc: can't find service unknown." ++ name).
Proof.
  intros N. unfold route, mapped. destruct (lookup name methodMap) as [v|] eqn:E.
  - exfalso. assert (I : In name (flat_map fst published)).
    { apply lookup_in in E. unfold methodMap in E. cbn [In] in E. repeat (destruct E as [E|E]; [injection E as <- _; cbn -[b]; tauto|]). contradiction. }
    apply in_flat_map in I. destruct I as ([ns m] & I & J). apply (N m). exists ns. auto.
  - unfold find_method. destruct (split_last_some (b "unknown." ++ name)) as (x & y & E' & Eq); [cbn; tauto|]. rewrite E'.
    destruct (str_eqb_spec x (b "Burl")) as [->|]; [|reflexivity]. exfalso. cbn in Eq. discriminate.
Qed.
Lemma route_serves name m : serves name m -> route name = Ok m.
Proof.
  intros (ns & I & J). unfold published in I. cbn [In] in I.
  repeat (destruct I as [I|I]; [injection I as <- <-; cbn [In] in J; repeat (destruct J as [<-|J]; [reflexivity|]); contradiction|]). contradiction.
Qed.
Lemma route_exact name m : route name = Ok m <-> serves name m.
Proof.
  split; [|apply route_serves]. intros R. destruct (serves_dec name) as [(m' & Sv)|N]; [|rewrite (route_unknown _ N) in R; discriminate].
  rewrite (route_serves _ _ Sv) in R. injection R as <-. exact Sv.
Qed.
Lemma argument_asks d m t name : serves name m -> asks d t m (argument d m t).
Proof.
  intros (ns & I & J). unfold published in I. cbn [In] in I.
  repeat (destruct I as [I|I]; [injection I as <- <-; cbn [argument];
    match goal with |- asks _ _ _ (rmap _ ?x) => destruct x eqn:E; cbn [rmap]; constructor; exact E end|]). contradiction.
Qed.
Lemma readRequest_meaning d p : meaning d p (readRequest d p).
Proof.
  unfold readRequest. destruct (serves_dec (pmethod p)) as [(m & Sv)|N].
  - rewrite (route_serves _ _ Sv). destruct (pparams p) as [t|] eqn:E; [|eapply me_missing; eassumption].
    eapply me_asks; [exact Sv|exact E|]. eapply argument_asks, Sv.
  - rewrite (route_unknown _ N). apply me_unknown, N.
Qed.

(** ** Texts of responses *)
Lemma obj3 i r e x y z : jtext i x -> jtext r y -> jtext e z ->
  jdocument (VObj [(name (b "id"), i); (name (b "result"), r); (name (b "error"), e)])
    (b "{""id"":" ++ x ++ b ",""result"":" ++ y ++ b ",""error"":" ++ z ++ b "}" ++ eol).
Proof.
  intros X Y Z. pose proof space_nil as Sp.
  assert (K1 : jstring (name (b "id")) (b """id""")) by exact (string_ok (b "id")).
  assert (K2 : jstring (name (b "result")) (b """result""")) by exact (string_ok (b "result")).
  assert (K3 : jstring (name (b "error")) (b """error""")) by exact (string_ok (b "error")).
  pose proof (jm_one [] [] [] [] _ _ _ _ Sp Sp Sp Sp K3 Z) as M3.
  pose proof (jm_more [] [] [] [] _ _ _ _ _ _ Sp Sp Sp Sp K2 Y M3) as M2.
  pose proof (jm_more [] [] [] [] _ _ _ _ _ _ Sp Sp Sp Sp K1 X M2) as M1.
  exists [], (b "{""id"":" ++ x ++ b ",""result"":" ++ y ++ b ",""error"":" ++ z ++ b "}"), eol. split; [exact Sp|]. split; [repeat constructor; cbn; tauto|].
  split; [|repeat (cbn [app b list_ascii_of_string] || rewrite <- app_assoc); reflexivity].
  apply jt_obj in M1.
  match type of M1 with jtext _ ?a => match goal with |- jtext _ ?c => replace c with a; [exact M1|] end end.
  repeat (cbn [app b list_ascii_of_string] || rewrite <- app_assoc || rewrite app_nil_r). reflexivity.
Qed.
Lemma id_text id i : id_shown id i -> jtext i (match id with None => b "null" | Some t => compact t end).
Proof. destruct id as [t|]; cbn [id_shown]; [apply compact_value|intros ->; constructor]. Qed.
Lemma done_inj {A} (x y : A) : Done x = Done y -> x = y.
Proof. congruence. Qed.
Lemma error_shown id e t : response id (AError e) = Done t -> response_shown id VNull (text e) t.
Proof. unfold response. cbv zeta. intros E i I. apply done_inj in E. rewrite <- E. apply obj3; [apply id_text, I|constructor|exact (encode_ok (JStr e))]. Qed.
Lemma reply_shown id r t : response id (AResult r) = Done t -> exists v, result_shown r v /\ response_shown id v VNull t.
Proof.
  unfold response. destruct (result_json r) as [j|] eqn:E; [|discriminate]. cbn [obind]. cbv zeta. intros Et. apply done_inj in Et. rewrite <- Et.
  destruct (result_document r j E) as [(v & D) U]. exists v. split; [apply U, D|]. intros i I. apply obj3; [apply id_text, I| |constructor].
  apply encode_document in D. subst v. apply encode_ok.
Qed.

(** ** Sending *)
Definition fr (t : str) : str := le32_encode (N.of_nat (length t) mod 2 ^ 32)%N ++ t.
Definition stream (done : list (nat * str)) : str := flat_map (fun x => fr (snd x)) done.
Lemma stream_snoc done k t : stream (done ++ [(k, t)]) = stream done ++ fr t.
Proof. unfold stream. rewrite flat_map_app. cbn. rewrite app_nil_r. reflexivity. Qed.
Lemma fr_framed t : framed t (fr t).
Proof.
  exists (le32_encode (N.of_nat (length t) mod 2 ^ 32)%N). split; [reflexivity|]. split; [reflexivity|]. intros L.
  exists (le32_encode (N.of_nat (length t))). split; [apply encode_is_header, L|]. unfold fr. rewrite N.mod_small by exact L. reflexivity.
Qed.
Definition holding (x : sender) : bool := match x with SLock _ | SOver => false | _ => true end.

Definition valid (right : nat -> answer -> Prop) (idof : nat -> option str) (cn : conn) (done : list (nat * str)) (kx : nat * sender) : Prop :=
  let '(k, x) := kx in
  match x with
  | SLock a => right k a /\ taken k (pend cn) = Some (idof k) /\ ~ In k (map fst done)
  | SEncode a => right k a /\ taken k (pend cn) = Some (idof k) /\ ~ In k (map fst done) /\ cbuf cn = [] /\ cout cn = stream done
  | SHeader => ~ In k (map fst done) /\ cout cn = stream done /\ exists a, right k a /\ response (idof k) a = Done (cbuf cn)
  | SWrite todo => ~ In k (map fst done) /\ (exists a, right k a /\ response (idof k) a = Done (cbuf cn)) /\
      exists w, w ++ todo = fr (cbuf cn) /\ cout cn = stream done ++ w
  | SUnlock => In k (map fst done) /\ cbuf cn = [] /\ cout cn = stream done
  | SOver => In k (map fst done)
  | SPanic => ~ In k (map fst done) /\ cout cn = stream done /\ exists a, right k a /\ response (idof k) a = Panic
  end.
Record core (right : nat -> answer -> Prop) (idof : nat -> option str) (n : nat) (run : list nat) (snds : list (nat * sender)) (cn : conn) (done : list (nat * str)) : Prop := mkCore {
  c_nodup : NoDup (run ++ map fst snds);
  c_range : forall k, In k (run ++ map fst snds) -> 1 <= k <= n;
  c_cover : forall k, 1 <= k <= n -> In k run \/ In k (map fst snds) \/ In k (map fst done);
  c_once : NoDup (map fst done);
  c_done : Forall (fun kt => 1 <= fst kt <= n /\ exists a, right (fst kt) a /\ response (idof (fst kt)) a = Done (snd kt)) done;
  c_run : Forall (fun k => taken k (pend cn) = Some (idof k) /\ ~ In k (map fst done)) run;
  c_valid : Forall (valid right idof cn done) snds;
  c_excl : length (filter holding (map snd snds)) = if locked cn then 1 else 0;
  c_free : locked cn = false -> cbuf cn = [] /\ cout cn = stream done }.

Lemma filter_perm {A} (f : A -> bool) l l' : Permutation l l' -> Permutation (filter f l) (filter f l').
Proof.
  induction 1; cbn [filter].
  - constructor.
  - destruct (f x); [constructor|]; assumption.
  - destruct (f x), (f y); try reflexivity. constructor.
  - etransitivity; eassumption.
Qed.
Lemma core_perm right idof n run run' snds snds' cn done : Permutation run run' -> Permutation snds snds' ->
  core right idof n run snds cn done -> core right idof n run' snds' cn done.
Proof.
  intros P Q [H1 H2 H3 H4 H5 H6 H7 H8 H9]. assert (PQ : Permutation (run ++ map fst snds) (run' ++ map fst snds')) by (apply Permutation_app; [exact P|apply Permutation_map, Q]).
  constructor; auto.
  - eapply Permutation_NoDup; eassumption.
  - intros k I. apply H2. eapply Permutation_in; [symmetry; exact PQ|exact I].
  - intros k R. destruct (H3 k R) as [I|[I|I]]; [left; eapply Permutation_in; eassumption|right; left; eapply Permutation_in; [apply Permutation_map, Q|exact I]|auto].
  - eapply Permutation_Forall; eassumption.
  - eapply Permutation_Forall; eassumption.
  - rewrite <- H8. apply Permutation_length. symmetry. apply filter_perm, Permutation_map, Q.
Qed.
Lemma core_right (right right' : nat -> answer -> Prop) idof n run snds cn done : (forall k a, right k a -> right' k a) ->
  core right idof n run snds cn done -> core right' idof n run snds cn done.
Proof.
  intros M [H1 H2 H3 H4 H5 H6 H7 H8 H9]. constructor; auto.
  - eapply Forall_impl; [|exact H5]. intros kt (R & a & X & Y). eauto.
  - eapply Forall_impl; [|exact H7]. intros [k x]. cbn [valid]. destruct x; intros V; repeat match goal with H : _ /\ _ |- _ => destruct H | H : exists _, _ |- _ => destruct H end; eauto 10.
Qed.
Lemma core_id right (idof idof' : nat -> option str) n run snds cn done : (forall k, 1 <= k <= n -> idof k = idof' k) ->
  core right idof n run snds cn done -> core right idof' n run snds cn done.
Proof.
  intros M [H1 H2 H3 H4 H5 H6 H7 H8 H9]. constructor; auto.
  - eapply Forall_impl; [|exact H5]. intros kt (R & a & X & Y). rewrite <- (M _ R). eauto.
  - rewrite Forall_forall in H6. apply Forall_forall. intros k I. rewrite <- M; [apply H6, I|]. apply H2, in_or_app. auto.
  - rewrite Forall_forall in H7. apply Forall_forall. intros [k x] I. specialize (H7 _ I).
    assert (E : idof k = idof' k). { apply M, H2, in_or_app. right. apply (in_map fst) in I. exact I. }
    cbn [valid] in *. rewrite <- E. exact H7.
Qed.

Lemma taken_dropped k k' m : k <> k' -> taken k (dropped k' m) = taken k m.
Proof.
  intros N. unfold taken, dropped. induction m as [|[i v] m IH]; [reflexivity|]. cbn [filter find fst].
  destruct (Nat.eqb_spec i k') as [->|]; cbn [negb].
  - replace (k' =? k) with false by lia. exact IH.
  - cbn [find fst]. destruct (i =? k); [reflexivity|exact IH].
Qed.
Lemma no_holder rest : length (filter holding (map snd rest)) = 0 -> Forall (fun kx : nat * sender => holding (snd kx) = false) rest.
Proof.
  induction rest as [|[k x] rest IH]; [constructor|]. cbn [map filter snd]. destruct (holding x) eqn:E; [discriminate|]. constructor; auto.
Qed.

(** Others are not affected. *)
Lemma others right idof cn cn' done done' k rest :
  Forall (fun kx : nat * sender => holding (snd kx) = false) rest -> ~ In k (map fst rest) ->
  (forall k', k' <> k -> taken k' (pend cn') = taken k' (pend cn)) ->
  (forall k', k' <> k -> In k' (map fst done') <-> In k' (map fst done)) ->
  Forall (valid right idof cn done) rest -> Forall (valid right idof cn' done') rest.
Proof.
  intros F N T D V. rewrite Forall_forall in *. intros [k' x] I. specialize (V _ I). specialize (F _ I). cbn [snd] in F.
  assert (Nk : k' <> k). { intros ->. apply N. apply (in_map fst) in I. exact I. }
  specialize (T _ Nk). specialize (D _ Nk). destruct x; cbn [holding] in F; try discriminate F; cbn [valid] in *.
  - rewrite T, D. exact V.
  - rewrite D. exact V.
Qed.

Lemma send_core right idof n run k x rest cn l cn' x' done : l <> VFail -> send k (cn, x) l (cn', x') ->
  core right idof n run ((k, x) :: rest) cn done -> exists done', core right idof n run ((k, x') :: rest) cn' done'.
Proof.
  intros NF St C. destruct C as [H1 H2 H3 H4 H5 H6 H7 H8 H9]. cbn [map fst snd] in *. inversion H7 as [|? ? V VR]; subst.
  assert (Nr : ~ In k (map fst rest) /\ ~ In k run).
  { apply NoDup_remove_2 in H1. split; intros I; apply H1, in_or_app; auto. }
  destruct Nr as [Nr Nk].
  assert (Q : holding x = true \/ locked cn = false -> Forall (fun kx : nat * sender => holding (snd kx) = false) rest).
  { intros [Hx|Hl]; apply no_holder.
    - cbn [filter] in H8. rewrite Hx in H8. cbn [length] in H8. destruct (locked cn); lia.
    - cbn [filter] in H8. rewrite Hl in H8. destruct (holding x); cbn [length] in H8; lia. }
  assert (R : holding x = true \/ locked cn = false -> length (filter holding (map snd rest)) = 0).
  { intros [Hx|Hl].
    - cbn [filter] in H8. rewrite Hx in H8. cbn [length] in H8. destruct (locked cn); lia.
    - cbn [filter] in H8. rewrite Hl in H8. destruct (holding x); cbn [length] in H8; lia. }
  inversion St; subst; cbn [pend locked cbuf cout valid holding filter] in *; try congruence.
  4: { exfalso. destruct V as (_ & V & _). congruence. }
  - (* lock *)
    exists done. destruct (H9 eq_refl) as [-> ->]. destruct V as (V1 & V2 & V3). constructor; cbn [map fst snd pend locked cbuf cout]; [exact H1|exact H2|exact H3|exact H4|exact H5|exact H6|..].
    + constructor; [cbn [valid pend cbuf cout]; auto|]. refine (others _ _ _ _ _ _ k _ _ _ _ _ VR); [apply Q; auto|exact Nr|reflexivity|reflexivity].
    + cbn [filter holding length]. rewrite R by auto. reflexivity.
    + discriminate.
  - (* encoded *)
    exists done. destruct V as (V1 & V2 & V3 & -> & ->). replace id with (idof k) in * by congruence. cbn [app].
    constructor; cbn [map fst snd pend locked cbuf cout]; [exact H1|exact H2|exact H3|exact H4|exact H5|..].
    + rewrite Forall_forall in H6. apply Forall_forall. intros k' I. rewrite taken_dropped by (intros ->; contradiction). auto.
    + constructor; [cbn [valid pend cbuf cout]; eauto|]. refine (others _ _ _ _ _ _ k _ _ _ _ _ VR); [apply Q; auto|exact Nr| |reflexivity]. intros k' N'. apply taken_dropped, N'.
    + exact H8.
    + intros ->. discriminate H8.
  - (* panic *)
    exists done. destruct V as (V1 & V2 & V3 & -> & ->). replace id with (idof k) in * by congruence.
    constructor; cbn [map fst snd pend locked cbuf cout]; [exact H1|exact H2|exact H3|exact H4|exact H5|..].
    + rewrite Forall_forall in H6. apply Forall_forall. intros k' I. rewrite taken_dropped by (intros ->; contradiction). auto.
    + constructor; [cbn [valid pend cbuf cout]; eauto|]. refine (others _ _ _ _ _ _ k _ _ _ _ _ VR); [apply Q; auto|exact Nr| |reflexivity]. intros k' N'. apply taken_dropped, N'.
    + exact H8.
    + intros ->. discriminate H8.
  - (* header *)
    exists done. destruct V as (V1 & -> & V2). constructor; cbn [map fst snd pend locked cbuf cout]; [exact H1|exact H2|exact H3|exact H4|exact H5|exact H6| |exact H8|exact H9].
    constructor; [cbn [valid pend cbuf cout]; split; [exact V1|]; split; [exact V2|exists []; split; [reflexivity|rewrite app_nil_r; reflexivity]]|exact VR].
  - (* written in part *)
    exists done. destruct V as (V1 & V2 & w & V3 & ->). constructor; cbn [map fst snd pend locked cbuf cout]; [exact H1|exact H2|exact H3|exact H4|exact H5|exact H6| |exact H8|].
    + constructor; [cbn [valid pend cbuf cout]; split; [exact V1|]; split; [exact V2|exists (w ++ d); split; [rewrite <- app_assoc; exact V3|rewrite <- app_assoc; reflexivity]]|].
      refine (others _ _ _ _ _ _ k _ _ _ _ _ VR); [apply Q; auto|exact Nr|reflexivity|reflexivity].
    + intros ->. discriminate H8.
  - (* written *)
    destruct V as (V1 & (a & V2 & V3) & w & V4 & ->). rewrite app_nil_r in V4. subst w. exists (done ++ [(k, buf)]).
    assert (Dn : forall k', k' <> k -> In k' (map fst (done ++ [(k, buf)])) <-> In k' (map fst done)).
    { intros k' N'. rewrite map_app, in_app_iff. cbn. intuition congruence. }
    constructor; cbn [map fst snd pend locked cbuf cout]; [exact H1|exact H2|..].
    + intros k' R'. destruct (H3 k' R') as [I|[I|I]]; auto. right. right. rewrite map_app, in_app_iff. auto.
    + rewrite map_app. cbn [map fst]. eapply Permutation_NoDup; [apply Permutation_cons_append|]. constructor; assumption.
    + rewrite Forall_app. split; [exact H5|]. constructor; [|constructor]. cbn [fst snd]. split; [apply H2, in_or_app; right; left; reflexivity|eauto].
    + rewrite Forall_forall in H6. apply Forall_forall. intros k' I. rewrite Dn by (intros ->; contradiction). auto.
    + constructor; [cbn [valid pend cbuf cout]; rewrite stream_snoc, map_app, in_app_iff; cbn; auto|].
      refine (others _ _ _ _ _ _ k _ _ _ _ _ VR); [apply Q; auto|exact Nr|reflexivity|exact Dn].
    + exact H8.
    + intros ->. discriminate H8.
  - (* unlocked *)
    exists done. destruct V as (V1 & -> & ->). constructor; cbn [map fst snd pend locked cbuf cout]; [exact H1|exact H2|exact H3|exact H4|exact H5|exact H6|..].
    + constructor; [exact V1|]. refine (others _ _ _ _ _ _ k _ _ _ _ _ VR); [apply Q; auto|exact Nr|reflexivity|reflexivity].
    + cbn [filter holding]. apply R. auto.
    + auto.
Qed.
