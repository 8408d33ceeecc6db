(** path/filepath of the Go standard library for Unix; used by pkg/burl_fileutil/fileutil.go
    and pkg/webextensions/manifest.go. *)
From Verif Require Import GoBase.

Definition slash : ascii := "/"%char.
Definition dot : ascii := "."%char.
Definition is_slash (a : ascii) : bool := Ascii.eqb a slash.

(** split at every slash *)
Fixpoint comps_of (s : str) : list str :=
  match s with
  | [] => [[]]
  | a :: s' =>
      if is_slash a then [] :: comps_of s'
      else match comps_of s' with
           | c :: cs => (a :: c) :: cs
           | [] => [[a]]
           end
  end.

Fixpoint join_slash (cs : list str) : str :=
  match cs with
  | [] => []
  | [c] => c
  | c :: cs' => c ++ slash :: join_slash cs'
  end.

(** filepath.IsAbs *)
Definition IsAbs (p : str) : bool := match p with a :: _ => is_slash a | [] => false end.

(** filepath.Clean: components are processed from left to right, [st] is the reversed output.  The Go
    function keeps the output in a buffer and drops the last component when it meets "..". *)
Fixpoint clean_loop (rooted : bool) (cs : list str) (st : list str) : list str :=
  match cs with
  | [] => rev st
  | c :: cs' =>
      if str_eqb c [] || str_eqb c [dot] then clean_loop rooted cs' st
      else if str_eqb c [dot; dot] then
        match st with
        | x :: st' => if str_eqb x [dot; dot] then clean_loop rooted cs' (c :: st) else clean_loop rooted cs' st'
        | [] => if rooted then clean_loop rooted cs' [] else clean_loop rooted cs' [c]
        end
      else clean_loop rooted cs' (c :: st)
  end.
Definition Clean (p : str) : str :=
  let cs := clean_loop (IsAbs p) (comps_of p) [] in
  if IsAbs p then slash :: join_slash cs
  else match cs with [] => [dot] | _ => join_slash cs end.

(** filepath.Join for two elements *)
Definition Join (x y : str) : str :=
  match x, y with
  | [], [] => []
  | [], _ => Clean y
  | _, _ => Clean (x ++ slash :: y)
  end.

(** filepath.Abs; [cwd]: os.Getwd, None is its failure *)
Definition Abs (cwd : option str) (p : str) : option str :=
  if IsAbs p then Some (Clean p)
  else match cwd with Some d => Some (Join d p) | None => None end.

(** remove leading slashes *)
Fixpoint skip_slashes (s : str) : str := match s with a :: s' => if is_slash a then skip_slashes s' else s | [] => [] end.
(** the part before the first slash *)
Fixpoint upto_slash (s : str) : str := match s with [] => [] | a :: s' => if is_slash a then [] else a :: upto_slash s' end.
Fixpoint from_slash (s : str) : str := match s with [] => [] | a :: s' => if is_slash a then s else from_slash s' end.

(** filepath.Base; works on the reversed path since it searches from the end *)
Definition Base (p : str) : str :=
  match p with
  | [] => [dot]
  | _ =>
      match skip_slashes (rev p) with
      | [] => [slash]
      | r => rev (upto_slash r)
      end
  end.

(** filepath.Dir: Clean of everything up to the last slash *)
Definition Dir (p : str) : str := Clean (rev (from_slash (rev p))).

(** filepath.Ext: from the last dot after the last slash *)
Fixpoint ext_loop (r : str) (acc : str) : str :=
  match r with
  | [] => []
  | a :: r' =>
      if is_slash a then []
      else if Ascii.eqb a dot then a :: acc
      else ext_loop r' (a :: acc)
  end.
Definition Ext (p : str) : str := ext_loop (rev p) [].

(** ** Facts *)

(** a component of a normalised absolute path *)
Definition good (c : str) : Prop := c <> [] /\ ~ In slash c /\ c <> [dot] /\ c <> [dot; dot].
Definition abs_path (cs : list str) : str := slash :: join_slash cs.

Lemma is_slash_iff a : is_slash a = true <-> a = slash.
Proof. apply Ascii.eqb_eq. Qed.
Lemma is_slash_no a : a <> slash -> is_slash a = false.
Proof. intros H. destruct (is_slash a) eqn:E; [apply is_slash_iff in E; contradiction|reflexivity]. Qed.

Lemma comps_no_slash s : Forall (fun c => ~ In slash c) (comps_of s).
Proof.
  induction s as [|a s IH]; cbn [comps_of].
  - repeat constructor. intros [].
  - destruct (is_slash a) eqn:E; [constructor; [intros []|exact IH]|].
    assert (N : a <> slash) by (intros ->; discriminate).
    destruct (comps_of s) as [|c cs]; [constructor; [intros [H|[]]; contradiction|constructor]|].
    inversion IH; subst. constructor; [intros [H|H]; contradiction|assumption].
Qed.
Lemma comps_ne s : comps_of s <> [].
Proof. destruct s as [|a s]; cbn; [discriminate|]. destruct (is_slash a); [discriminate|]. destruct (comps_of s); discriminate. Qed.
Lemma comps_app c s : ~ In slash c -> comps_of (c ++ slash :: s) = c :: comps_of s.
Proof.
  induction c as [|a c IH]; intros H; cbn [app comps_of].
  - reflexivity.
  - rewrite is_slash_no by (intros ->; apply H; left; reflexivity). rewrite IH by (intros Q; apply H; right; exact Q). reflexivity.
Qed.
Lemma comps_one c : ~ In slash c -> comps_of c = [c].
Proof.
  induction c as [|a c IH]; intros H; cbn [comps_of]; [reflexivity|].
  rewrite is_slash_no by (intros ->; apply H; left; reflexivity). rewrite IH by (intros Q; apply H; right; exact Q). reflexivity.
Qed.
Lemma comps_join cs : cs <> [] -> Forall (fun c => ~ In slash c) cs -> comps_of (join_slash cs) = cs.
Proof.
  induction cs as [|c cs IH]; intros N H; [congruence|]. inversion H; subst. cbn [join_slash]. destruct cs as [|c2 cs].
  - apply comps_one. assumption.
  - rewrite comps_app by assumption. rewrite IH; [reflexivity|discriminate|assumption].
Qed.

Lemma clean_good cs : forall st, Forall good st -> Forall (fun c => ~ In slash c) cs -> Forall good (clean_loop true cs st).
Proof.
  induction cs as [|c cs IH]; intros st G H; cbn [clean_loop].
  - apply Forall_rev. exact G.
  - inversion H; subst. destruct (str_eqb_spec c []) as [->|N1]; cbn [orb]; [apply IH; assumption|].
    destruct (str_eqb_spec c [dot]) as [->|N2]; [apply IH; assumption|].
    destruct (str_eqb_spec c [dot; dot]) as [->|N3].
    + destruct st as [|x st]; [apply IH; assumption|]. inversion G; subst.
      destruct (str_eqb_spec x [dot; dot]) as [->|N]; [exfalso; apply H4; reflexivity|apply IH; assumption].
    + apply IH; [|assumption]. constructor; [repeat split; assumption|exact G].
Qed.
Lemma clean_abs p : IsAbs p = true -> exists cs, Forall good cs /\ Clean p = abs_path cs.
Proof.
  intros H. unfold Clean. rewrite H. eexists. split; [|reflexivity]. apply clean_good; [constructor|apply comps_no_slash].
Qed.
Lemma clean_id cs : forall r st, Forall good cs -> clean_loop r cs st = rev st ++ cs.
Proof.
  induction cs as [|c cs IH]; intros r st H; cbn [clean_loop]; [rewrite app_nil_r; reflexivity|].
  inversion H as [|? ? (A & B & C & D) H']; subst.
  destruct (str_eqb_spec c []); [contradiction|]. destruct (str_eqb_spec c [dot]); [contradiction|].
  destruct (str_eqb_spec c [dot; dot]); [contradiction|]. cbn [orb]. rewrite IH by assumption. cbn [rev]. rewrite <- app_assoc. reflexivity.
Qed.
Lemma good_slash cs : Forall good cs -> Forall (fun c => ~ In slash c) cs.
Proof. intros H. eapply Forall_impl; [|exact H]. intros c (_ & A & _). exact A. Qed.
Lemma clean_step_empty r cs st : clean_loop r ([] :: cs) st = clean_loop r cs st.
Proof. reflexivity. Qed.
Lemma comps_abs cs : Forall good cs -> comps_of (abs_path cs) = [] :: (match cs with [] => [[]] | _ => cs end).
Proof.
  intros H. unfold abs_path. cbn [comps_of]. change (is_slash slash) with true. cbv iota. f_equal. destruct cs; [reflexivity|].
  apply comps_join; [discriminate|apply good_slash; exact H].
Qed.
Lemma clean_abs_path cs : Forall good cs -> Clean (abs_path cs) = abs_path cs.
Proof.
  intros H. unfold Clean. change (IsAbs (abs_path cs)) with true. cbv iota. rewrite comps_abs by exact H. rewrite clean_step_empty.
  unfold abs_path. f_equal. f_equal. destruct cs; [reflexivity|]. rewrite clean_id by exact H. reflexivity.
Qed.

Lemma join_snoc cs x : join_slash (cs ++ [x]) = match cs with [] => x | _ => join_slash cs ++ slash :: x end.
Proof.
  induction cs as [|c cs IH]; [reflexivity|]. cbn [app join_slash]. destruct cs as [|c2 cs].
  - reflexivity.
  - cbn [app] in *. rewrite IH, <- app_assoc. reflexivity.
Qed.
Lemma abs_snoc cs x : exists p, abs_path (cs ++ [x]) = p ++ slash :: x /\
  (p = [] /\ cs = [] \/ p = abs_path cs /\ cs <> []).
Proof.
  unfold abs_path. rewrite join_snoc. destruct cs as [|c cs].
  - exists []. split; [reflexivity|]. left. auto.
  - exists (slash :: join_slash (c :: cs)). split; [reflexivity|]. right. split; [reflexivity|discriminate].
Qed.

Lemma upto_app x r : ~ In slash x -> upto_slash (x ++ slash :: r) = x.
Proof.
  induction x as [|a x IH]; intros H; cbn; [reflexivity|]. rewrite is_slash_no by (intros ->; apply H; left; reflexivity).
  rewrite IH; [reflexivity|]. intros Q. apply H. right. exact Q.
Qed.
Lemma from_app x r : ~ In slash x -> from_slash (x ++ slash :: r) = slash :: r.
Proof.
  induction x as [|a x IH]; intros H; cbn; [reflexivity|]. rewrite is_slash_no by (intros ->; apply H; left; reflexivity).
  apply IH. intros Q. apply H. right. exact Q.
Qed.

Lemma rev_snoc_slash (p : str) (x : str) : rev (p ++ slash :: x) = rev x ++ slash :: rev p.
Proof. rewrite rev_app_distr. cbn [rev]. rewrite <- app_assoc. reflexivity. Qed.

Lemma Base_abs cs x : good x -> Base (abs_path (cs ++ [x])) = x.
Proof.
  intros (A & B & _). destruct (abs_snoc cs x) as (p & E & _). rewrite E. unfold Base.
  destruct (p ++ slash :: x) as [|y l] eqn:Q; [destruct p; discriminate|]. rewrite <- Q, rev_snoc_slash.
  assert (B' : ~ In slash (rev x)) by (intros H; apply in_rev in H; contradiction).
  assert (S : skip_slashes (rev x ++ slash :: rev p) = rev x ++ slash :: rev p).
  { destruct (rev x) as [|a r] eqn:R; [exfalso; apply A; rewrite <- (rev_involutive x), R; reflexivity|].
    cbn [app skip_slashes]. rewrite is_slash_no; [reflexivity|]. intros ->. apply B'. left. reflexivity. }
  rewrite S. destruct (rev x ++ slash :: rev p) eqn:Z; [destruct (rev x); discriminate|]. rewrite <- Z, upto_app by exact B'.
  apply rev_involutive.
Qed.
Lemma clean_loop_app r cs1 : forall cs2 st, Forall good cs1 -> clean_loop r (cs1 ++ cs2) st = clean_loop r cs2 (rev cs1 ++ st).
Proof.
  induction cs1 as [|c cs IH]; intros cs2 st H; cbn [app clean_loop rev]; [reflexivity|].
  inversion H as [|? ? (A & B & C & D) H']; subst.
  destruct (str_eqb_spec c []); [contradiction|]. destruct (str_eqb_spec c [dot]); [contradiction|].
  destruct (str_eqb_spec c [dot; dot]); [contradiction|]. cbn [orb]. rewrite IH by assumption. rewrite <- app_assoc. reflexivity.
Qed.
Lemma comps_join_app cs s : cs <> [] -> Forall (fun c => ~ In slash c) cs -> comps_of (join_slash cs ++ slash :: s) = cs ++ comps_of s.
Proof.
  induction cs as [|c cs IH]; intros N H; [congruence|]. inversion H; subst. cbn [join_slash]. destruct cs as [|c2 cs].
  - rewrite comps_app by assumption. reflexivity.
  - rewrite <- app_assoc. cbn [app]. rewrite comps_app by assumption. rewrite IH; [reflexivity|discriminate|assumption].
Qed.
(** a relative path after an absolute one *)
Lemma clean_abs_app cs s : Forall good cs -> Clean (abs_path cs ++ slash :: s) = abs_path (clean_loop true (comps_of s) (rev cs)).
Proof.
  intros H. unfold Clean. change (IsAbs (abs_path cs ++ slash :: s)) with true. cbv iota.
  unfold abs_path. f_equal. f_equal. cbn [app comps_of]. change (is_slash slash) with true. cbv iota. rewrite clean_step_empty.
  destruct cs as [|c cs].
  - cbn [join_slash app comps_of rev]. change (is_slash slash) with true. cbv iota. apply clean_step_empty.
  - rewrite comps_join_app; [|discriminate|apply good_slash; exact H]. rewrite clean_loop_app by exact H. rewrite app_nil_r. reflexivity.
Qed.
Lemma Join_abs cs x : Forall good cs -> good x -> Join (abs_path cs) x = abs_path (cs ++ [x]).
Proof.
  intros H G. unfold Join, abs_path at 1. change (slash :: join_slash cs) with (abs_path cs).
  rewrite clean_abs_app by exact H. destruct G as (A & B & C & D). rewrite comps_one by exact B.
  rewrite clean_id by (constructor; [repeat split; assumption|constructor]). rewrite rev_involutive. reflexivity.
Qed.
Lemma Join_abs_any cs x : Forall good cs -> exists cs', Forall good cs' /\ Join (abs_path cs) x = abs_path cs'.
Proof.
  intros H. unfold Join, abs_path at 1. change (slash :: join_slash cs) with (abs_path cs). apply clean_abs. reflexivity.
Qed.
Lemma Dir_abs cs x : Forall good cs -> good x -> Dir (abs_path (cs ++ [x])) = abs_path cs.
Proof.
  intros H (A & B & _). destruct (abs_snoc cs x) as (p & E & C). rewrite E. unfold Dir. rewrite rev_snoc_slash.
  rewrite from_app by (intros Q; apply in_rev in Q; contradiction). cbn [rev]. rewrite rev_involutive.
  destruct C as [[-> ->]|[-> N]]; [reflexivity|].
  rewrite clean_abs_app by exact H. cbn [comps_of clean_loop]. rewrite rev_involutive. reflexivity.
Qed.

Lemma ext_loop_app r : forall acc, exists n, ext_loop r acc = [] \/ ext_loop r acc = rev (firstn n r) ++ acc.
Proof.
  induction r as [|a r IH]; intros acc; cbn [ext_loop].
  - exists 0. left. reflexivity.
  - destruct (is_slash a); [exists 0; left; reflexivity|]. destruct (Ascii.eqb a dot).
    + exists 1. right. reflexivity.
    + destruct (IH (a :: acc)) as (n & [E|E]); [exists 0; left; exact E|]. exists (S n). right. rewrite E. cbn [firstn rev].
      rewrite <- app_assoc. reflexivity.
Qed.
(** the extension is a suffix *)
Lemma Ext_suffix p : exists s, p = s ++ Ext p.
Proof.
  unfold Ext. destruct (ext_loop_app (rev p) []) as (n & [E|E]); rewrite E; [exists p; rewrite app_nil_r; reflexivity|].
  rewrite app_nil_r. exists (rev (skipn n (rev p))). rewrite <- rev_app_distr, firstn_skipn, rev_involutive. reflexivity.
Qed.
Lemma abs_inj cs cs' : Forall good cs -> Forall good cs' -> abs_path cs = abs_path cs' -> cs = cs'.
Proof.
  intros H H' E. apply (f_equal comps_of) in E. rewrite !comps_abs in E by assumption.
  destruct cs, cs'; inversion E; subst; try reflexivity.
  - inversion H'; subst. destruct H2 as [N _]. congruence.
  - inversion H; subst. destruct H2 as [N _]. congruence.
Qed.
