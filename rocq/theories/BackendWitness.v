(** Proofs: executable schedules, negotiation. *)
From Verif Require Import GoBase GoSlice Flags LinkTypes LinkSpec Emacs Backend BackendSpec BackendProofs.
From Coq Require Import Lia ZifyBool ZifyNat.

(** ** Schedules.  A result of a command or content of a file is used if the step needs it. *)
Inductive input := IExec (r : xres) | IRead (r : rres).
Definition append1 (m : mem) (s : slice) (xs : list str) : mem * slice * list (nat * str) :=
  if len s + length xs <=? cap m s
  then (m, mkSlice (arr s) (len s + length xs), combine (seq (len s) (length xs)) xs)
  else (m ++ [contents m s ++ xs ++ repeat [] 0], mkSlice (length m) (len s + length xs), []).
Lemma append1_ok m s xs m' s' todo : append1 m s xs = (m', s', todo) -> appended m s xs m' s' todo.
Proof.
  unfold append1. destruct (Nat.leb_spec (len s + length xs) (cap m s)); intros E; injection E as <- <- <-; [apply app_in_place|apply (app_copy _ _ _ 0)]; assumption.
Qed.
Definition run1 {R} (e : emacs_cfg) (init : hprog notes) (g : glob) (t : thread R) (i : input) : option (label R * glob * thread R) :=
  match t with
  | TRun (HExec args k) => let '(m, s, todo) := append1 (gmem g) (UserArgs e) Args in Some (LTau, mkGlob m (gonce g), TBuild s todo (Some args) k)
  | TBuild s ((j, x) :: todo) more k => Some (LTau, mkGlob (poke (gmem g) (arr s) j x) (gonce g), TBuild s todo more k)
  | TBuild s [] (Some args) k => let '(m, s', todo) := append1 (gmem g) s args in Some (LTau, mkGlob m (gonce g), TBuild s' todo None k)
  | TBuild s [] None k => Some (LStart (EmacsCommand e :: contents (gmem g) s), g, TWait k)
  | TWait k => match i with IExec r => Some (LEnd r, g, TRun (k r)) | _ => None end
  | TRun (HRead n k) => match i with IRead r => Some (LRead n r, g, TRun (k r)) | _ => None end
  | TRun (HOnce k) =>
      match gonce g with
      | ONew => Some (LTau, mkGlob (gmem g) OBusy, TInit init k)
      | OBusy => None
      | ODone v => Some (LTau, g, TRun (k v))
      end
  | TInit (HRead n p) k => match i with IRead r => Some (LInit n r, g, TInit (p r) k) | _ => None end
  | TInit (HRet v) k => Some (LTau, mkGlob (gmem g) (ODone v), TRun (k v))
  | TRun (HRet r) => Some (LReply r, g, TOver r)
  | _ => None
  end.
Lemma run1_ok {R} e init g (t : thread R) i l g' t' : run1 e init g t i = Some (l, g', t') -> tstep e init (g, t) l (g', t') /\ ~ crashed t.
Proof.
  destruct g as [m o]. intros H.
  assert (NC : ~ crashed t). { intros C. destruct t; cbn in C, H; try contradiction; discriminate. }
  split; [|exact NC]. destruct t as [p|s todo more k|k|p k|r|]; cbn in H; try discriminate.
  - destruct p as [a| |args k|n k|k]; try discriminate.
    + injection H as <- <- <-. constructor.
    + destruct (append1 _ _ _) as [[m' s] todo] eqn:E. injection H as <- <- <-. constructor. apply append1_ok, E.
    + destruct i; [discriminate|]. injection H as <- <- <-. constructor.
    + destruct o; try discriminate; injection H as <- <- <-; constructor.
  - destruct todo as [|[j x] todo].
    + destruct more as [args|].
      * destruct (append1 _ _ _) as [[m' s'] todo] eqn:E. injection H as <- <- <-. constructor. apply append1_ok, E.
      * injection H as <- <- <-. constructor.
    + injection H as <- <- <-. constructor.
  - destruct i; [|discriminate]. injection H as <- <- <-. constructor.
  - destruct p as [a| |args k0|n k0|k0]; try discriminate.
    + injection H as <- <- <-. constructor.
    + destruct i; [discriminate|]. injection H as <- <- <-. constructor.
Qed.

Definition alive {R} (t : thread R) : bool := match t with TCrash => false | _ => true end.
Fixpoint run {R} (e : emacs_cfg) (init : hprog notes) (g : glob) (ts : list (thread R)) (sched : list (nat * input))
  : option (list (nat * label R) * glob * list (thread R)) :=
  match sched with
  | [] => Some ([], g, ts)
  | (n, i) :: sched' =>
      if forallb alive ts then
        match nth_error ts n with
        | Some t =>
            match run1 e init g t i with
            | Some (l, g', t') =>
                match run e init g' (replace_at ts n t') sched' with
                | Some (tr, g'', ts') => Some ((n, l) :: tr, g'', ts')
                | None => None
                end
            | None => None
            end
        | None => None
        end
      else None
  end.
Lemma alive_ok {R} (ts : list (thread R)) : forallb alive ts = true -> Forall (fun t => ~ crashed t) ts.
Proof. rewrite forallb_forall, Forall_forall. intros H t HI. specialize (H t HI). intros C. destruct t; cbn in *; try contradiction; discriminate. Qed.
Lemma run_ok {R} e init sched : forall g (ts : list (thread R)) tr g' ts', run e init g ts sched = Some (tr, g', ts') ->
  steps e init (g, ts) tr (g', ts').
Proof.
  induction sched as [|[n i] sched IH]; intros g ts tr g' ts' H; cbn [run] in H.
  - injection H as <- <- <-. constructor.
  - destruct (forallb alive ts) eqn:AL; [|discriminate]. destruct (nth_error ts n) as [t|] eqn:Ht; [|discriminate].
    destruct (run1 e init g t i) as [[[l g1] t1]|] eqn:E; [|discriminate].
    destruct (run e init g1 (replace_at ts n t1) sched) as [[[tr0 g2] ts2]|] eqn:E2; [|discriminate]. injection H as <- <- <-.
    apply IH in E2. econstructor; [|exact E2]. apply alive_ok in AL.
    destruct (nth_error_split _ _ Ht) as (pre & post & -> & <-). rewrite replace_at_app. constructor; [exact AL|].
    apply (run1_ok _ _ _ _ _ _ _ _ E).
Qed.

(** ** Two captures *)
Definition dflt_cfg : emacs_cfg := mkEmacs (mkSlice 0 0) (b "emacsclient").
Definition dflt_glob : glob := mkGlob [repeat [] 4] ONew.
Definition dflt_ext : extractors := mkX (fun _ _ _ => Done (None, None)) (fun _ _ _ _ s => Done (s, None)).
Definition dflt_backend : backend := mkBackend [] false dflt_ext (fun r => r).
Definition dflt_orders : orders := mkOrders [(b "http:", b "https:"); (b "https:", b "http:")] (fun l => l).
Definition cap_req (u : str) : orders * request := (dflt_orders, QCapture (mkCapture (b "org-protocol") u false)).
Definition uri1 := b "org-protocol:/capture?url=one".
Definition uri2 := b "org-protocol:/capture?url=two".
Definition succ := IExec (XOk (b "org-protocol")).
Definition times (n i : nat) : list (nat * input) := repeat (i, succ) n.
Definition race : list (nat * input) := times 16 0 ++ times 16 1 ++ times 5 0 ++ times 5 1 ++ times 3 0 ++ times 3 1.

Lemma dflt_booted : booted dflt_cfg [] dflt_glob.
Proof. split; [reflexivity|]. split; [cbn; lia|]. split; reflexivity. Qed.

Lemma race_lost : exists e users bk g o1 q1 o2 q2 tr g' ts,
  booted e users g /\ steps e (initializer bk) (g, serving bk [(o1, QCapture q1); (o2, QCapture q2)]) tr (g', ts) /\
  cqUrl q1 <> cqUrl q2 /\
  replied (of_thread 0 tr) (PCapture false (b "success")) /\ replied (of_thread 1 tr) (PCapture false (b "success")) /\
  (forall argv, In argv (commands (map snd tr)) -> ~ In (cqUrl q1) argv) /\
  length (filter (fun argv => existsb (str_eqb (cqUrl q2)) argv) (commands (map snd tr))) = 2.
Proof.
  exists dflt_cfg, [], dflt_backend, dflt_glob, dflt_orders, (mkCapture (b "org-protocol") uri1 false), dflt_orders, (mkCapture (b "org-protocol") uri2 false).
  pose (res := run dflt_cfg (initializer dflt_backend) dflt_glob (serving dflt_backend [cap_req uri1; cap_req uri2]) race).
  assert (C : match res with
              | Some (tr, _, _) =>
                  forallb (fun argv => negb (existsb (str_eqb uri1) argv)) (commands (map snd tr)) = true /\
                  length (filter (fun argv => existsb (str_eqb uri2) argv) (commands (map snd tr))) = 2 /\
                  replied (of_thread 0 tr) (PCapture false (b "success")) /\ replied (of_thread 1 tr) (PCapture false (b "success"))
              | None => False
              end).
  { vm_compute. tauto. }
  destruct res as [[[tr g'] ts]|] eqn:E; [|destruct C]. destruct C as (C1 & C2 & C3 & C4).
  exists tr, g', ts. split; [exact dflt_booted|]. split; [exact (run_ok _ _ _ _ _ _ _ _ E)|].
  split; [vm_compute; discriminate|]. split; [exact C3|]. split; [exact C4|]. split; [|exact C2].
  intros argv HI HU. rewrite forallb_forall in C1. specialize (C1 _ HI). apply negb_true_iff in C1. cbn [cqUrl] in HU.
  assert (existsb (str_eqb uri1) argv = true); [|congruence]. apply existsb_exists. exists uri1. split; [exact HU|apply str_eqb_refl].
Qed.

(** ** Negotiation *)
Lemma hello_none q : (~ In (b "org-protocol") (map fst q)) -> hello_version q = [].
Proof.
  induction q as [|[f v] q IH]; intros H; [reflexivity|]. cbn [hello_version]. destruct (str_eqb_spec f (b "org-protocol")) as [->|N].
  - exfalso. apply H. left. reflexivity.
  - apply IH. intros X. apply H. right. exact X.
Qed.
Lemma hello_offers q v : offers q v -> hello_version q = v.
Proof.
  intros (pre & post & -> & N). induction pre as [|[f v0] pre IH].
  - reflexivity.
  - cbn [app hello_version]. destruct (str_eqb_spec f (b "org-protocol")) as [->|NE].
    + exfalso. apply N. left. reflexivity.
    + apply IH. intros X. apply N. right. exact X.
Qed.
Lemma offers_dec q : (exists v, offers q v) \/ ~ In (b "org-protocol") (map fst q).
Proof.
  induction q as [|[f v] q IH]; [right; intros []|]. destruct (str_eqb_spec f (b "org-protocol")) as [->|NE].
  - left. exists v, [], q. split; [reflexivity|]. intros [].
  - destruct IH as [(v0 & pre & post & -> & N)|N].
    + left. exists v0, ((f, v) :: pre), post. split; [reflexivity|]. intros [X|X]; [exact (NE X)|exact (N X)].
    + right. intros [X|X]; [exact (NE X)|exact (N X)].
Qed.
Lemma offers_unique q v v' : offers q v -> offers q v' -> v = v'.
Proof. intros H H'. rewrite <- (hello_offers _ _ H). apply hello_offers, H'. Qed.

Lemma hello_ok bk o q : exists r, handle bk o (QHello q) = HRet r /\
  ((exists v, offers q v /\ v <> []) \/ r = PError ETooOld) /\
  forall v, offers q v -> v <> [] -> exists caps, r = PHello (b "org-protocol") v caps /\
    (In (b "visit") caps <-> srcFiles bk <> []) /\ (In (b "urlMentions") caps <-> srcFiles bk <> []) /\
    (In (b "linkSet") caps <-> srcFiles bk <> [] /\ linkSetDisabled bk = false).
Proof.
  exists (Hello bk q). split; [reflexivity|]. split.
  - unfold Hello. destruct (offers_dec q) as [(v & H)|H].
    + rewrite (hello_offers _ _ H). destruct v; [right; reflexivity|left]. eexists. split; [exact H|discriminate].
    + rewrite (hello_none _ H). right. reflexivity.
  - intros v H N. unfold Hello. rewrite (hello_offers _ _ H). destruct v as [|c v]; [contradiction|].
    eexists. split; [reflexivity|].
    destruct (srcFiles bk) as [|s l]; destruct (linkSetDisabled bk); cbn; intuition (try discriminate); try congruence.
Qed.

(** A single thread *)
Lemma steps_one {R} e init x tr y : @steps R e init x tr y -> forall g t, x = (g, [t]) ->
  exists g' t', y = (g', [t']) /\ tsteps e init (g, t) (map snd tr) (g', t').
Proof.
  induction 1 as [x|x l y tr z S H IH]; intros g t ->.
  - exists g, t. split; [reflexivity|constructor].
  - inversion S as [g0 pre t0 post l0 g1 t1 F T]; subst. match goal with X : _ ++ _ = [_] |- _ => rename X into E1 end. destruct pre as [|t2 [|t3 pre]]; [|destruct post; discriminate|discriminate].
    injection E1 as -> ->. destruct (IH g1 t1 eq_refl) as (g' & t' & -> & K). exists g', t'. split; [reflexivity|]. cbn. econstructor; eassumption.
Qed.
Lemma run_one {R} e init g (t : thread R) sched tr g' t' : run e init g [t] sched = Some (tr, g', [t']) ->
  tsteps e init (g, t) (map snd tr) (g', t').
Proof.
  intros H. apply run_ok in H. destruct (steps_one _ _ _ _ _ H _ _ eq_refl) as (g1 & t1 & E & K). injection E as <- <-. exact K.
Qed.
