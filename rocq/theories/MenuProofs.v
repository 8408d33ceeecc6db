(** Proofs for the menu of the sample add-on. *)
From Coq Require Import ZifyBool ZifyNat ZifyN.
From Verif Require Import GoBase Utf8 Utf8Dec JsonSpec JsonStr Json JsonProofs Compact CompactProofs Emacs Backend ReplySpec ReplyProofs Server ServerProofs Addon AddonSpec AddonProofs AddonMain Sample Menu MenuSpec.

Definition full : list (str * str) := [(b "1", b "sqrt(2)"); (b "2", b "sqrt(-2)"); (b "3", b "sleep()")].
Definition sane (s : page) : Prop := clicked s = true /\ items s = full \/ clicked s = false /\ items s = [].

Lemma acts_app e s h1 h2 s2 : acts e s (h1 ++ h2) s2 <-> exists s1, acts e s h1 s1 /\ acts e s1 h2 s2.
Proof.
  revert s. induction h1 as [|[a o] h1 IH]; intros s; cbn [app].
  - split; [intros A; exists s; split; [constructor|exact A]|]. intros (s1 & A & B). inversion A; subst. exact B.
  - split.
    + intros A. inversion A as [|? ? ? s1 ? ? E R]; subst. apply IH in R. destruct R as (s3 & R1 & R2). exists s3. split; [econstructor; eassumption|exact R2].
    + intros (s1 & A & B). inversion A as [|? ? ? s3 ? ? E R]; subst. econstructor; [exact E|]. apply IH. eauto.
Qed.
Lemma acts_last e s h a o s2 : acts e s (h ++ [(a, o)]) s2 <-> exists s1, acts e s h s1 /\ act e s1 a = Some (o, s2).
Proof.
  rewrite acts_app. split; intros (s1 & A & B); exists s1; (split; [exact A|]).
  - inversion B as [|? ? ? ? ? ? E R]; subst. inversion R; subst. exact E.
  - econstructor; [exact B|constructor].
Qed.

Lemma str_eqb_sym x y : str_eqb x y = str_eqb y x.
Proof. destruct (str_eqb_spec x y) as [->|N]; [symmetry; apply str_eqb_refl|]. destruct (str_eqb_spec y x); congruence. Qed.
(** A click *)
Lemma click_page e id x y s o s' : sane s -> act e s (AClick id x y) = Some (o, s') ->
  exists t m a u c, In (id, t, (m, a)) [(b "1", b "sqrt(2)", (b "example.Sqrt", b "2")); (b "2", b "sqrt(-2)", (b "example.Sqrt", b "-2")); (b "3", b "sleep()", (b "example.Sleep", b "1500"))] /\
    sendMessage e x y (rpcClient s) = (u, c) /\ o = FRequest (length (asked s)) m a :: reported u /\ items s = full /\ clicked s = true /\ s' = mkPage (clicked s) (items s) (asked s ++ [mkRequest m a]) c.
Proof.
  intros [(C & I)|(C & I)] H; cbn [act] in H; rewrite I in H; [|discriminate H]. unfold onMenu, call in H. destruct (sendMessage e x y (rpcClient s)) as [u c]. rewrite C in H. cbn [existsb full fst] in H.
  rewrite !(str_eqb_sym _ id) in H. unfold MENU_SQRT2, MENU_SQRT_M2, MENU_SLEEP in H.
  destruct (str_eqb id (b "1")) eqn:E1; [apply str_eqb_eq in E1; subst id; injection H as <- <-; do 5 eexists; split; [left; reflexivity|rewrite C, ?I; repeat split]|].
  destruct (str_eqb id (b "2")) eqn:E2; [apply str_eqb_eq in E2; subst id; injection H as <- <-; do 5 eexists; split; [right; left; reflexivity|rewrite C, ?I; repeat split]|].
  destruct (str_eqb id (b "3")) eqn:E3; [apply str_eqb_eq in E3; subst id; injection H as <- <-; do 5 eexists; split; [right; right; left; reflexivity|rewrite C, ?I; repeat split]|discriminate H].
Qed.
Lemma rpc_reported u : flat_map (fun f => match f with FRpc o => [o] | _ => [] end) (reported u) = u.
Proof.
  unfold reported. rewrite flat_map_app. replace (flat_map _ (map FRpc u)) with u by (induction u as [|o u IH]; [reflexivity|cbn; f_equal; exact IH]).
  replace (flat_map _ (flat_map report u)) with (@nil output); [apply app_nil_r|]. induction u as [|o u IH]; [reflexivity|]. cbn [flat_map]. rewrite flat_map_app, <- IH. destruct o as [p|p i c|c []]; reflexivity.
Qed.
Lemma created s : sane s -> sane (createMenu s).
Proof. intros [(C & I)|(C & I)]; left; (split; [reflexivity|]); unfold createMenu; rewrite I; vm_compute; reflexivity. Qed.
Lemma act_page e s a o s' : sane s -> act e s a = Some (o, s') ->
  sane s' /\ (clicked s' = true <-> clicked s = true \/ a = AInstalled) /\ length (asked s') = length (asked s) + clicks [(a, o)] /\ runs e (rpcClient s) (part (a, o)) (rpcClient s').
Proof.
  intros S A. destruct a as [|id x y|v].
  - cbn [act] in A. injection A as <- <-. split; [apply created, S|]. split; [split; auto|]. split; [cbn; lia|constructor].
  - destruct (click_page _ _ _ _ _ _ _ S A) as (t & m & a & u & c & I & M & -> & If & C & ->). cbn [clicked items asked rpcClient]. split; [left; auto|]. split; [rewrite C; split; auto|].
    split; [rewrite app_length; cbn; lia|]. unfold part. cbn [fst snd flat_map app]. rewrite rpc_reported. apply (runs_snoc e _ []). exists (rpcClient s). split; [constructor|]. cbn [step]. rewrite M. reflexivity.
  - assert (Q : exists u c, step e (rpcClient s) v = Some (u, c) /\ o = reported u /\ s' = mkPage (clicked s) (items s) (asked s) c).
    { cbn [act] in A. destruct v as [x y|p m|p err|p]; [discriminate A| | |]; (destruct (step e (rpcClient s) _) as [[u c]|]; [|discriminate A]; injection A as <- <-; eauto). }
    destruct Q as (u & c & Q & -> & ->). cbn [clicked items asked rpcClient]. split; [exact S|]. split; [split; [auto|intros [X|X]; [exact X|discriminate X]]|]. split; [cbn; lia|].
    unfold part. cbn [fst snd]. rewrite rpc_reported. apply (runs_snoc e _ []). exists (rpcClient s). split; [constructor|exact Q].
Qed.
Lemma clicks_app h1 h2 : clicks (h1 ++ h2) = clicks h1 + clicks h2.
Proof. unfold clicks. rewrite filter_app, app_length. reflexivity. Qed.
Lemma page_state e h : forall s, acts e loaded h s ->
  sane s /\ (clicked s = true <-> In AInstalled (map fst h)) /\ length (asked s) = clicks h /\ runs e client (history_of h) (rpcClient s).
Proof.
  induction h as [|[a o] h IH] using rev_ind; intros s A.
  - inversion A; subst. split; [right; auto|]. split; [split; [discriminate|intros []]|]. split; [reflexivity|constructor].
  - apply acts_last in A. destruct A as (s1 & A & B). destruct (IH _ A) as (S & C & L & R). destruct (act_page _ _ _ _ _ S B) as (S' & C' & L' & R').
    split; [exact S'|]. split; [rewrite C', C, map_app, in_app_iff; cbn; split; [intros [X| ->]; auto|intros [X|[X|[]]]; auto]|].
    split; [rewrite clicks_app, L', L; reflexivity|]. unfold history_of. rewrite flat_map_app. apply runs_app. exists (rpcClient s1). split; [exact R|]. cbn [flat_map]. rewrite app_nil_r. exact R'.
Qed.

(** ** Statements *)
Lemma menu_items e h s : acts e loaded h s -> (In AInstalled (map fst h) -> map snd (items s) = titles) /\ (~ In AInstalled (map fst h) -> items s = []).
Proof.
  intros A. destruct (page_state _ _ _ A) as ([(C & I)|(C & I)] & Q & _); rewrite I; split; intros H; try reflexivity.
  - exfalso. apply H, Q, C.
  - apply Q in H. congruence.
Qed.
Lemma menu_client e h s : acts e loaded h s -> runs e client (history_of h) (rpcClient s).
Proof. intros A. apply (page_state _ _ _ A). Qed.
Lemma no_request u c m a : ~ In (FRequest c m a) (reported u).
Proof.
  unfold reported. rewrite in_app_iff. intros [I|I].
  - apply in_map_iff in I. destruct I as (o & E & _). discriminate E.
  - apply in_flat_map in I. destruct I as ([p|p i n|n []] & _ & I); cbn in I; repeat destruct I as [I|I]; try discriminate I; contradiction.
Qed.
Lemma menu_click e h id x y o s : acts e loaded (h ++ [(AClick id x y, o)]) s ->
  forall c m a, In (FRequest c m a) o <-> c = clicks h /\ exists t, In (id, t) (items s) /\ In (t, (m, a)) purposes.
Proof.
  intros A c m a. apply acts_last in A. destruct A as (s1 & A & B). destruct (page_state _ _ _ A) as (S & _ & L & _).
  destruct (click_page _ _ _ _ _ _ _ S B) as (t & m' & a' & u & k & I & M & -> & If & C & ->). cbn [items]. rewrite If, L. split.
  - intros [E|E]; [|exfalso; exact (no_request _ _ _ _ E)]. injection E as <- <- <-. split; [reflexivity|]. exists t. destruct I as [E|[E|[E|[]]]]; injection E as <- <- <- <-; split; cbn; auto.
  - intros (-> & t' & I1 & I2). left. unfold full, purposes in *.
    destruct I as [E|[E|[E|[]]]]; injection E as <- <- <- <-; destruct I1 as [E|[E|[E|[]]]]; try discriminate E; injection E as <-; destruct I2 as [E|[E|[E|[]]]]; try discriminate E; injection E as <- <-; reflexivity.
Qed.
Lemma menu_silent e h v o s : acts e loaded (h ++ [(v, o)]) s -> (forall id x y, v <> AClick id x y) -> forall c m a, ~ In (FRequest c m a) o.
Proof.
  intros A N c m a I. apply acts_last in A. destruct A as (s1 & A & B). destruct v as [|id x y|v]; cbn [act] in B.
  - injection B as <- <-. contradiction.
  - eapply N. reflexivity.
  - destruct v as [x y|p z|p err|p]; [discriminate B| | |]; (destruct (step e (rpcClient s1) _) as [[u k]|]; [|discriminate B]; injection B as <- <-; exact (no_request _ _ _ _ I)).
Qed.
Lemma reported_settled u c f k : message c f k -> (In k (reported u) <-> In (OSettle c f) u).
Proof.
  intros M. unfold reported. rewrite in_app_iff, in_flat_map. split.
  - intros [I|(o & I & J)].
    + exfalso. apply in_map_iff in I. destruct I as (o & E & _). destruct M; discriminate E.
    + destruct o as [p|p i n|n g]; [contradiction|contradiction|]. assert (E : c = n /\ f = g); [|destruct E; subst; exact I].
      destruct M as [v|f N]; destruct g; cbn in J; destruct J as [E|[]]; try discriminate E; injection E as E1 E2; split; congruence.
  - intros I. right. exists (OSettle c f). split; [exact I|]. destruct M as [v|f N]; [left; reflexivity|]. destruct f; try (left; reflexivity). exfalso. eapply N. reflexivity.
Qed.
Lemma act_reported e s v o s' : sane s -> act e s v = Some (o, s') -> o = [] \/ exists u, o = reported u \/ exists c m a, o = FRequest c m a :: reported u.
Proof.
  intros S A. destruct v as [|id x y|v].
  - cbn in A. injection A as <- <-. auto.
  - destruct (click_page _ _ _ _ _ _ _ S A) as (t & m & a & u & k & I & M & -> & _). right. exists u. right. eauto.
  - cbn [act] in A. destruct v as [x y|p z|p err|p]; [discriminate A| | |]; (destruct (step e (rpcClient s) _) as [[u k]|]; [|discriminate A]; injection A as <- <-; eauto).
Qed.
(** The console *)
Lemma menu_console e h v o s : acts e loaded (h ++ [(v, o)]) s ->
  (forall c f k, message c f k -> (In k o <-> In (OSettle c f) (outputs (part (v, o))))) /\ forall id, ~ In (FUnknown id) o.
Proof.
  intros A. apply acts_last in A. destruct A as (s1 & A & B). destruct (page_state _ _ _ A) as (S & _).
  assert (P : forall f, In (FRpc f) o <-> In f (outputs (part (v, o)))).
  { intros f. destruct v as [|id x y|v]; [cbn in B; injection B as <- <-; cbn; tauto| |]; unfold part, outputs; cbn [fst snd flat_map]; rewrite app_nil_r, in_flat_map;
      (split; [intros I; exists (FRpc f); split; [exact I|left; reflexivity]|intros (z & I & J); destruct z; try contradiction; destruct J as [->|[]]; exact I]). }
  assert (R : forall u f, In (FRpc f) (reported u) <-> In f u).
  { intros u f. unfold reported. rewrite in_app_iff, in_map_iff, in_flat_map. split; [intros [(z & E & I)|(z & I & J)]; [injection E as ->; exact I|]|intros I; left; eauto].
    exfalso. destruct z as [p|p i n|n []]; cbn in J; repeat destruct J as [J|J]; try discriminate J; contradiction. }
  assert (U : forall u id, ~ In (FUnknown id) (reported u)).
  { intros u id. unfold reported. rewrite in_app_iff, in_map_iff, in_flat_map. intros [(z & E & _)|(z & I & J)]; [discriminate E|]. destruct z as [p|p i n|n []]; cbn in J; repeat destruct J as [J|J]; try discriminate J; contradiction. }
  destruct (act_reported _ _ _ _ _ S B) as [->|(u & [->|(c0 & m & a & ->)])].
  - split; [|intros id []]. intros c f k M. rewrite <- P. split; intros [].
  - split; [|apply U]. intros c f k M. rewrite <- P, R. apply reported_settled, M.
  - split; [|intros id [E|I]; [discriminate E|exact (U _ _ I)]]. intros c f k M. rewrite <- P. cbn [In]. rewrite R. rewrite <- (reported_settled u c f k M).
    split; [intros [E|I]; [destruct M; discriminate E|auto]|intros [E|I]; [discriminate E|auto]].
Qed.
(** The dialog with the sample backend *)
Lemma menu_told e h p m o s c q id f k : unique e -> acts e loaded (h ++ [(ARpc (EMessage p m), o)]) s -> posted (history_of h) q id c -> waits (history_of h) c -> tells e id m f -> message c f k -> In k o.
Proof.
  intros U A P W T M. destruct (menu_console _ _ _ _ _ A) as (K & _). apply (K _ _ _ M). clear K. pose proof (menu_client _ _ _ A) as R. unfold history_of in R. rewrite flat_map_app in R. cbn [flat_map] in R. rewrite app_nil_r in R.
  unfold part, outputs in *. cbn [fst snd flat_map] in *. rewrite app_nil_r. apply (settled_exact _ _ _ _ _ U R). cbn [settles_now]. split; [exact W|]. exists q, id. auto.
Qed.
Lemma menu_negative e negative root h p m o s c q id w : unique e -> acts e loaded (h ++ [(ARpc (EMessage p m), o)]) s -> posted (history_of h) q id c -> waits (history_of h) c ->
  jnumber w -> num e w = Some id -> negative (b "-2") = true -> jdocument m (sqrt_response negative root w (b "-2")) -> In (FError c (Failed (text (b "square root of negative number")))) o.
Proof.
  intros U A P W J N H D. eapply menu_told; [exact U|exact A|exact P|exact W|exact (sqrt_tells _ _ _ _ _ _ _ J N D H)|]. constructor. discriminate.
Qed.
Lemma menu_sleep e h p m o s c q id w : unique e -> zeroes e -> acts e loaded (h ++ [(ARpc (EMessage p m), o)]) s -> posted (history_of h) q id c -> waits (history_of h) c ->
  jnumber w -> num e w = Some id -> jdocument m (sleep_response w 1500) -> In (FResult c (VNum (b "1500"))) o.
Proof.
  intros U Z A P W J N D. eapply menu_told; [exact U|exact A|exact P|exact W| |constructor]. apply (sleep_tells _ _ _ _ _ _ Z J N D). reflexivity.
Qed.
Lemma menu_root e negative root h p m o s c q id w : unique e -> acts e loaded (h ++ [(ARpc (EMessage p m), o)]) s -> posted (history_of h) q id c -> waits (history_of h) c ->
  jnumber w -> num e w = Some id -> negative (b "2") = false -> jnumber (root (b "2")) -> num e (root (b "2")) <> Some 0%N -> jdocument m (sqrt_response negative root w (b "2")) -> In (FResult c (VNum (root (b "2")))) o.
Proof.
  intros U A P W J N H Jr Z D. eapply menu_told; [exact U|exact A|exact P|exact W| |constructor]. unfold sqrt_response, Sqrt in D. rewrite H in D. unfold sample_response in D.
  pose proof (obj3 _ _ _ _ _ _ (compact_value _ _ (jt_num _ J)) (jt_num _ Jr) jt_null) as Q. rewrite (document_same _ _ _ D Q). apply answer_tells; [exact N|].
  left. split; [reflexivity|]. intros F. inversion F. contradiction.
Qed.

(** ** A witness: the browser is started again *)
Lemma restarted : ~ forall e h s, acts e loaded h s -> map snd (items s) = titles.
Proof. intros H. specialize (H (mkEnv (fun _ => None) N.of_nat) [] loaded (acts_nil _ _)). discriminate H. Qed.
Lemma perform_acts e l : forall s h s', perform e s l = Some (h, s') -> acts e s h s'.
Proof.
  induction l as [|a l IH]; intros s h s' P; cbn [perform] in P; [injection P as <- <-; constructor|].
  destruct (act e s a) as [[o s1]|] eqn:A; [|discriminate]. destruct (perform e s1 l) as [[h1 s2]|] eqn:P1; [|discriminate]. injection P as <- <-. econstructor; [exact A|]. apply IH, P1.
Qed.
