(** Executable schedules of the server. *)
From Verif Require Import GoBase GoSlice Frame FrameSpec Flags LinkTypes JsonSpec Json Emacs Backend BackendSpec BackendProofs BackendWitness ReplyJson ReplySpec
  Server ServerSpec ServerMain.

(** [PReader o n]: a step of the goroutine that reads requests, [PCall i x n]: a step of the [i]-th call; [n] bytes are written. *)
Inductive pick := PReader (o : orders) (n : nat) | PCall (i : nat) (x : input) (n : nat).
Definition send1 (k : nat) (cn : conn) (x : sender) (n : nat) : option (slabel * conn * sender) :=
  match x with
  | SLock a => if locked cn then None else Some (VTau, mkConn (pend cn) true (cbuf cn) (cout cn), SEncode a)
  | SEncode a =>
      match taken k (pend cn) with
      | Some id =>
          match response id a with
          | Done t => Some (VTau, mkConn (dropped k (pend cn)) (locked cn) (cbuf cn ++ t) (cout cn), SHeader)
          | Panic => Some (VCrash, mkConn (dropped k (pend cn)) (locked cn) (cbuf cn) (cout cn), SPanic)
          end
      | None => None
      end
  | SHeader => Some (VTau, cn, SWrite (le32_encode (N.of_nat (length (cbuf cn)) mod 2 ^ 32)%N ++ cbuf cn))
  | SWrite [] => Some (VTau, mkConn (pend cn) (locked cn) [] (cout cn), SUnlock)
  | SWrite (c :: todo) => Some (VOut (firstn (S n) (c :: todo)), mkConn (pend cn) (locked cn) (cbuf cn) (cout cn ++ firstn (S n) (c :: todo)), SWrite (skipn (S n) (c :: todo)))
  | SUnlock => Some (VTau, mkConn (pend cn) false (cbuf cn) (cout cn), SOver)
  | _ => None
  end.
Lemma send1_ok k cn x n l cn' x' : send1 k cn x n = Some (l, cn', x') -> send k (cn, x) l (cn', x').
Proof.
  destruct cn as [m lk buf out]. destruct x as [a|a| |todo| | |]; cbn [send1 pend locked cbuf cout]; try discriminate.
  - destruct lk; [discriminate|]. intros E. injection E as <- <- <-. constructor.
  - destruct (taken k m) as [id|] eqn:T; [|discriminate]. destruct (response id a) as [t|] eqn:R; intros E; injection E as <- <- <-; econstructor; eassumption.
  - intros E. injection E as <- <- <-. constructor.
  - destruct todo as [|c todo]; intros E; injection E as <- <- <-; [constructor|]. pose proof (s_write k m lk buf out (firstn (S n) (c :: todo)) (skipn (S n) (c :: todo))) as H.
    rewrite firstn_skipn in H. apply H. discriminate.
  - intros E. injection E as <- <- <-. constructor.
Qed.
Definition fine (j : job) : bool := match j with JRun TCrash | JSend SPanic => false | _ => true end.
Definition alive1 (s : server) : bool := forallb (fun cl => fine (cjob cl)) (scalls s) && match sreader s with RSend _ SPanic => false | _ => true end.
Lemma alive1_ok s : alive1 s = true -> Server.alive s.
Proof.
  intros H. apply andb_true_iff in H. destruct H as [H1 H2]. split; [|intros k E; rewrite E in H2; discriminate H2].
  rewrite forallb_forall in H1. apply Forall_forall. intros cl I [E|E]; specialize (H1 _ I); rewrite E in H1; discriminate H1.
Qed.
Definition over1 (cl : call) : bool := match cjob cl with JSend SOver => true | _ => false end.
Definition move (c : config) (s : server) (p : pick) : option (slabel * server) :=
  if alive1 s then
    match p with
    | PReader o n =>
        match sreader s with
        | RRead =>
            match sinput s with
            | [] => Some (VTau, mkServer (sglob s) [] (sseq s) RWait (scalls s) (sconn s))
            | p :: rest =>
                let k := S (sseq s) in
                let cn := mkConn ((k, pid p) :: pend (sconn s)) (locked (sconn s)) (cbuf (sconn s)) (cout (sconn s)) in
                match readRequest (c_dec c) p with
                | Ok q => Some (VAccept p (Some o), mkServer (sglob s) rest k RRead (scalls s ++ [mkCall k (JRun (TRun (handle (c_back c) o q)))]) cn)
                | Err msg => Some (VAccept p None, mkServer (sglob s) rest k (RSend k (SLock (AError msg))) (scalls s) cn)
                end
            end
        | RSend k SOver => Some (VTau, mkServer (sglob s) (sinput s) (sseq s) RRead (scalls s) (sconn s))
        | RSend k x =>
            match send1 k (sconn s) x n with
            | Some (l, cn, x') => Some (l, mkServer (sglob s) (sinput s) (sseq s) (RSend k x') (scalls s) cn)
            | None => None
            end
        | RWait =>
            if forallb over1 (scalls s)
            then Some (VClose, mkServer (sglob s) (sinput s) (sseq s) RClosed (scalls s) (mkConn (pend (sconn s)) (locked (sconn s)) [] (cout (sconn s))))
            else None
        | RClosed => None
        end
    | PCall i x n =>
        match nth_error (scalls s) i with
        | Some (mkCall k (JRun (TOver r))) =>
            Some (VTau, mkServer (sglob s) (sinput s) (sseq s) (sreader s) (replace_at (scalls s) i (mkCall k (JSend (SLock (answer_of (c_text c) r))))) (sconn s))
        | Some (mkCall k (JRun t)) =>
            match run1 (c_emacs c) (initializer (c_back c)) (sglob s) t x with
            | Some (l, g, t') => Some (VBack i l, mkServer g (sinput s) (sseq s) (sreader s) (replace_at (scalls s) i (mkCall k (JRun t'))) (sconn s))
            | None => None
            end
        | Some (mkCall k (JSend x)) =>
            match send1 k (sconn s) x n with
            | Some (l, cn, x') => Some (l, mkServer (sglob s) (sinput s) (sseq s) (sreader s) (replace_at (scalls s) i (mkCall k (JSend x'))) cn)
            | None => None
            end
        | None => None
        end
    end
  else None.
Lemma move_ok c s p l s' : move c s p = Some (l, s') -> sstep c s l s'.
Proof.
  unfold move. destruct (alive1 s) eqn:A; [|discriminate]. apply alive1_ok in A. destruct s as [g inp n r cs cn]. cbn [sglob sinput sseq sreader scalls sconn].
  destruct p as [o m|i x m].
  - destruct r as [|k x| |]; [| | |discriminate].
    + destruct inp as [|p rest]; [intros E; injection E as <- <-; apply v_end, A|].
      destruct (readRequest (c_dec c) p) as [q|msg] eqn:R; intros E; injection E as <- <-; [apply v_call|eapply v_error]; eassumption.
    + assert (Z : match send1 k cn x m with Some (l0, cn0, x') => Some (l0, mkServer g inp n (RSend k x') cs cn0) | None => None end = Some (l, s') ->
                  sstep c (mkServer g inp n (RSend k x) cs cn) l s').
      { destruct (send1 k cn x m) as [[[l0 cn0] x']|] eqn:E; [|discriminate]. intros E'. injection E' as <- <-. apply v_error_send; [exact A|]. eapply send1_ok, E. }
      destruct x; try exact Z. intros E. injection E as <- <-. apply v_error_sent, A.
    + destruct (forallb over1 cs) eqn:F; [|discriminate]. intros E. injection E as <- <-. apply v_close. rewrite forallb_forall in F. apply Forall_forall.
      intros cl I. specialize (F _ I). unfold over1 in F. destruct (cjob cl) as [|[]]; try discriminate F. reflexivity.
  - destruct (nth_error cs i) as [[k j]|] eqn:N; [|discriminate]. destruct (nth_error_split _ _ N) as (pre & post & -> & <-).
    destruct j as [t|y].
    + assert (Z : match run1 (c_emacs c) (initializer (c_back c)) g t x with
                  | Some (l0, g0, t') => Some (VBack (length pre) l0, mkServer g0 inp n r (replace_at (pre ++ mkCall k (JRun t) :: post) (length pre) (mkCall k (JRun t'))) cn)
                  | None => None end = Some (l, s') ->
                sstep c (mkServer g inp n r (pre ++ mkCall k (JRun t) :: post) cn) l s').
      { destruct (run1 _ _ g t x) as [[[l0 g0] t']|] eqn:E; [|discriminate]. rewrite replace_at_app. intros E'. injection E' as <- <-. apply v_back; [exact A|]. eapply run1_ok, E. }
      destruct t; try exact Z. rewrite replace_at_app. intros E. injection E as <- <-. apply v_over, A.
    + destruct (send1 k cn y m) as [[[l0 cn0] y']|] eqn:E; [|discriminate]. rewrite replace_at_app. intros E'. injection E' as <- <-. apply v_send; [exact A|]. eapply send1_ok, E.
Qed.
Fixpoint moves (c : config) (s : server) (ps : list pick) : option (list slabel * server) :=
  match ps with
  | [] => Some ([], s)
  | p :: ps' =>
      match move c s p with
      | Some (l, s1) => match moves c s1 ps' with Some (tr, s2) => Some (l :: tr, s2) | None => None end
      | None => None
      end
  end.
Lemma moves_ok c ps : forall s tr s', moves c s ps = Some (tr, s') -> srun c s tr s'.
Proof.
  induction ps as [|p ps IH]; intros s tr s'; cbn [moves]; [intros E; injection E as <- <-; constructor|].
  destruct (move c s p) as [[l s1]|] eqn:M; [|discriminate]. destruct (moves c s1 ps) as [[tr1 s2]|] eqn:N; [|discriminate].
  intros E. injection E as <- <-. econstructor; [eapply move_ok, M|eapply IH, N].
Qed.

(** Executions that pass a test *)
Lemma moves_test c s ps (test : list slabel -> bool) : match moves c s ps with Some (tr, _) => test tr | None => false end = true ->
  exists tr s', srun c s tr s' /\ test tr = true.
Proof. destruct (moves c s ps) as [[tr s']|] eqn:E; [|discriminate]. intros T. exists tr, s'. split; [eapply moves_ok, E|exact T]. Qed.
Definition is_fail (l : slabel) : bool := match l with VFail => true | _ => false end.
Definition is_close (l : slabel) : bool := match l with VClose => true | _ => false end.
Definition is_crash (l : slabel) : bool := match l with VCrash => true | _ => false end.
Lemma no_fail tr : existsb is_fail tr = false -> ~ In VFail tr.
Proof. intros H I. assert (X : existsb is_fail tr = true) by (apply existsb_exists; exists VFail; auto). congruence. Qed.
Definition ends_with (f : slabel -> bool) (tr : list slabel) : bool := match rev tr with l :: _ => f l | [] => false end.
Lemma ends_with_ok f tr : ends_with f tr = true -> exists tr' l, tr = tr' ++ [l] /\ f l = true.
Proof.
  unfold ends_with. destruct (rev tr) as [|l tr'] eqn:R; [discriminate|]. intros H. exists (rev tr'), l. split; [|exact H]. rewrite <- (rev_involutive tr), R. reflexivity.
Qed.
Definition opt_eqb (x y : option str) : bool := match x, y with Some a, Some c => str_eqb a c | None, None => true | _, _ => false end.
Definition packet_eqb (p q : packet) : bool := opt_eqb (pid p) (pid q) && str_eqb (pmethod p) (pmethod q) && opt_eqb (pparams p) (pparams q).
Fixpoint packets_eqb (x y : list packet) : bool :=
  match x, y with
  | [], [] => true
  | p :: x', q :: y' => packet_eqb p q && packets_eqb x' y'
  | _, _ => false
  end.
Lemma opt_eqb_ok x y : opt_eqb x y = true -> x = y.
Proof. destruct x, y; cbn; try discriminate; [|reflexivity]. intros H. f_equal. destruct (str_eqb_spec s s0); congruence. Qed.
Lemma str_eqb_ok x y : str_eqb x y = true -> x = y.
Proof. destruct (str_eqb_spec x y); congruence. Qed.
Lemma packets_eqb_ok x : forall y, packets_eqb x y = true -> x = y.
Proof.
  induction x as [|[i m a] x IH]; intros [|[i' m' a'] y]; cbn [packets_eqb]; try discriminate; [reflexivity|]. intros H. apply andb_true_iff in H. destruct H as [H1 H2].
  unfold packet_eqb in H1. cbn [pid pmethod pparams] in H1. apply andb_true_iff in H1. destruct H1 as [H1 H4]. apply andb_true_iff in H1. destruct H1 as [H1 H3].
  apply opt_eqb_ok in H1, H4. apply str_eqb_ok in H3. apply IH in H2. congruence.
Qed.
