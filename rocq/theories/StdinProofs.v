(** Lemmas about notes that are read from standard input. *)
From Coq Require Import ZifyBool ZifyNat ZifyN.
From Verif Require Import GoBase Utf8 Regex Flags LinkTypes LinkTree LinkSpec Emacs Backend Extract ExtractSpec Scanner ScannerSpec Real TextExactSpec TextExact Stdin Frame FrameSpec Stream StreamSpec StreamProofs StreamMain StreamWitness.

Lemma some_exact unmarshal ts s2 : forall s1 d r, is_stream s1 ts -> Forall object_text ts -> Forall (accepted unmarshal) ts ->
  Forall (fun m => N.of_nat (length m) <= 1073741824)%N ts -> unread d = [] -> derr d = None -> roomy d -> Nleft r = 0%N -> rest (R r) = s1 ++ s2 ->
  exists d' r', some_messages (length ts) unmarshal d r = Some (ts, d', r') /\ unread d' = [] /\ derr d' = None /\ roomy d' /\ Nleft r' = 0%N /\ rest (R r') = s2 /\ fin (R r') = fin (R r).
Proof.
  induction ts as [|t ts IH]; intros s1 d r S T A L Eu Ed Rm E0 Er; cbn [some_messages length].
  - inversion S; subst. exists d, r. auto 10.
  - inversion S as [|f m s ms Fr S']; subst. inversion_clear T as [|? ? T1 T2]. inversion_clear A as [|? ? A1 A2]. inversion_clear L as [|? ? L1 L2]. rewrite <- app_assoc in Er.
    destruct (message_ok unmarshal t [] (s ++ s2) [] d r f) as (d' & r' & y1 & y2 & HM & Ey & Eu2 & Ed2 & Rm2 & En2 & Er2 & Ef2); try assumption; try (rewrite app_nil_r; assumption); [constructor|].
    symmetry in Ey. apply app_eq_nil in Ey. destruct Ey as [-> ->]. rewrite HM. destruct (IH s d' r') as (d3 & r3 & H3 & R3); auto. rewrite H3. exists d3, r3. cbn [app]. split; [reflexivity|]. rewrite <- Ef2. exact R3.
Qed.
Lemma shared_exact unmarshal x kd s1 s2 ts tree sch fuel : is_stream s1 ts -> Forall object_text ts -> Forall (accepted unmarshal) ts ->
  Forall (fun m => N.of_nat (length m) <= 1073741824)%N ts -> xtree x kd s2 false = Done (tree, None) -> 0 < fuel ->
  shared_stdin (length ts) fuel unmarshal x kd (mkSrc (s1 ++ s2) EOF sch 0) = Some (tree, (ts, EHeader (Io EOF))).
Proof.
  intros S T A L X F. unfold shared_stdin. destruct (some_exact unmarshal ts s2 s1 NewDecoder (NewFrameLimitedReader (mkSrc (s1 ++ s2) EOF sch 0)) S T A L) as (d & r & -> & Eu & Ed & Rm & En & Er & Ef); auto; [apply le_n|].
  rewrite Er, Ef. cbn [fin R NewFrameLimitedReader]. rewrite X.
  rewrite (session_exact unmarshal [] [] d); auto; [rewrite app_nil_r; reflexivity|constructor].
Qed.
Lemma shared_links unmarshal u c chunk s1 s2 ts lines links sch fuel : is_stream s1 ts -> Forall object_text ts -> Forall (accepted unmarshal) ts ->
  Forall (fun m => N.of_nat (length m) <= 1073741824)%N ts -> seen_lines s2 false lines None -> text_links u None 1 lines links -> 0 < fuel ->
  exists tree, shared_stdin (length ts) fuel unmarshal (real u c chunk) Txt (mkSrc (s1 ++ s2) EOF sch 0) = Some (Some tree, (ts, EHeader (Io EOF))) /\ paths tree = map (fun l => ([PNil], l)) links.
Proof.
  intros S T A L SL TL F. destruct (text_exact u chunk None s2 false lines None links SL TL) as (t & E & P). exists t. split; [|exact P]. apply shared_exact; auto.
Qed.
Lemma shared_refuted : ~ forall unmarshal x kd k fuel s ms tree ts, is_stream (rest s) ms -> Forall object_text ms -> Forall (accepted unmarshal) ms -> shared_stdin k fuel unmarshal x kd s = Some (tree, (ts, EHeader (Io EOF))) -> ts = ms.
Proof.
  intros H. specialize (H (fun _ => true) (mkX (fun _ _ _ => Done (None, None)) (fun _ _ _ _ set => Done (set, None))) Txt 1 1 (mkSrc (ex_frame (b "{}") ++ ex_frame (b "{}")) EOF (fun _ => 0) 0) [b "{}"; b "{}"] None [b "{}"]).
  assert (O : object_text (b "{}")) by (exists [], 1, (b "}"); split; [constructor|]; split; [apply (gt_obj0 0 []); constructor|]; split; [discriminate|reflexivity]).
  assert (F : is_stream (ex_frame (b "{}") ++ ex_frame (b "{}")) [b "{}"; b "{}"]) by (rewrite <- (app_nil_r (ex_frame (b "{}"))) at 2; apply (ex_framed [b "{}"; b "{}"]); repeat constructor).
  discriminate (H F ltac:(auto) ltac:(repeat constructor; intros ? ?; reflexivity) ltac:(vm_compute; reflexivity)).
Qed.
