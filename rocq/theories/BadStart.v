(** Lemmas about messages that can not be values of JSON since their first byte. *)
From Coq Require Import ZifyBool ZifyNat ZifyN.
From Verif Require Import GoBase JsonSpec Flags LinkTypes Emacs Backend Stdin StdinProofs Frame FrameSpec FrameProofs Stream StreamSpec StreamProofs StreamMain ParseProofs Tools ToolsProofs WrapperLong.

Lemma start_fails c : ~ space [c] -> ~ In c (b "{[""-0123456789tfn") -> sstep reset (N_of_ascii c) = fail reset.
Proof.
  intros S0 N. assert (S : ~ JsonProofs.space_char c) by (intros H; apply S0; constructor; [exact H|constructor]). rewrite space_is in S. unfold sstep, reset. cbn [step]. unfold do_BeginValue. apply not_true_is_false in S. rewrite S.
  assert (Q : forall k, In k [123; 91; 34; 45; 48; 116; 102; 110; 49; 50; 51; 52; 53; 54; 55; 56; 57]%N -> (N_of_ascii c =? k)%N = false).
  { intros k I. apply N.eqb_neq. intros E. apply N. rewrite <- (ascii_N_embedding c), E. clear - I. cbn in I. repeat destruct I as [<-|I]; try (vm_compute; tauto); contradiction. }
  rewrite !Q by (cbn; tauto). destruct (N.leb_spec 49 (N_of_ascii c)) as [A|A]; [|reflexivity]. destruct (N.leb_spec (N_of_ascii c) 57) as [B|B]; [|reflexivity]. exfalso.
  assert (C : In (N_of_ascii c) [49; 50; 51; 52; 53; 54; 55; 56; 57]%N) by (cbn; lia). specialize (Q (N_of_ascii c)). rewrite N.eqb_refl in Q. discriminate Q. revert C. cbn. tauto.
Qed.
Lemma header_any r h size tail : Nleft r = 0%N -> is_header h size -> (size <= 1073741824)%N -> rest (R r) = h ++ tail ->
  exists r', ReadHeader r = (Ok tt, r') /\ Nleft r' = size /\ rest (R r') = tail /\ fin (R r') = fin (R r).
Proof.
  intros H0 Hh L Er. pose proof (ReadHeader_spec r H0) as S. destruct (ReadHeader r) as [[[]|e] r'].
  - destruct S as (h' & Hh' & Er' & Ef & _). rewrite Er in Er'. apply app_eq_prefix in Er'; [|rewrite (header_length _ _ Hh), (header_length _ _ Hh'); reflexivity]. destruct Er' as [-> Et].
    exists r'. split; [reflexivity|]. split; [|auto]. apply header_decode in Hh. apply header_decode in Hh'. congruence.
  - exfalso. destruct S as [(h' & size' & Hh' & Er' & _ & G & _)|(Ls & _)].
    + rewrite Er in Er'. apply app_eq_prefix in Er'; [|rewrite (header_length _ _ Hh), (header_length _ _ Hh'); reflexivity]. destruct Er' as [-> _].
      apply header_decode in Hh. apply header_decode in Hh'. unfold MaxInSize in G. lia.
    + rewrite Er, app_length, (header_length _ _ Hh) in Ls. lia.
Qed.
Lemma Decode_start c x d r : sstep reset (N_of_ascii c) = fail reset -> unread d = [] -> derr d = None -> roomy d -> Nleft r <> 0%N -> rest (R r) = c :: x -> exists d' r', Decode d r = (Err ESyntax, d', r').
Proof.
  intros C Eu Ed Rm En Er. unfold Decode. rewrite Ed. change (2 + length (rest (R r))) with (Datatypes.S (1 + length (rest (R r)))). generalize (1 + length (rest (R r))). intros f. cbn [readValue]. rewrite skip_more, Eu. cbn [skipn scan_bytes]. unfold refill. fold (unread d). rewrite Eu. cbn [length]. rewrite !Nat.sub_0_r.
  set (cap := if _ : bool then _ else _). assert (K : cap <> 0) by (unfold cap, minRead; destruct (Nat.ltb_spec (dcap d) 512); lia).
  pose proof (lr_read_spec cap r) as S. destruct (lr_read cap r) as [[bs [e|]] r'].
  - destruct S as (_ & _ & [[Z _]|(_ & Z & _)]); exfalso; [contradiction|rewrite Er in Z; discriminate].
  - destruct S as (_ & Es & _ & _ & _ & _ & Nb & _). rewrite Er in Es. destruct bs as [|c' bs]; [specialize (Nb eq_refl); contradiction|]. injection Es as <- _. cbn [app].
    assert (B : forall fuel err rr dd, dbuf dd = c :: bs -> scanp dd = 0 -> exists d' r', readValue fuel reset 0 err dd rr = (Err ESyntax, d', r')).
    { intros fuel err rr dd E1 E2. destruct fuel; cbn [readValue]; rewrite E1, E2; cbn [plus skipn scan_bytes]; rewrite C; cbn [fail go]; eauto. }
    match goal with |- context [readValue ?f reset ?n ?e ?dd ?rr] => replace n with 0 by (rewrite unread_length, Eu; reflexivity); destruct (B f e rr dd eq_refl eq_refl) as (d2 & r2 & ->) end. eauto.
Qed.
Lemma session_some unmarshal k : forall d r ts d' r' fuel, some_messages k unmarshal d r = Some (ts, d', r') -> session (k + fuel) unmarshal d r = match session fuel unmarshal d' r' with Some (l, e) => Some (ts ++ l, e) | None => None end.
Proof.
  induction k as [|k IH]; intros d r ts d' r' fuel H; cbn [some_messages plus session] in *.
  - injection H as <- <- <-. destruct (session fuel unmarshal d r) as [[l e]|]; reflexivity.
  - destruct (ReadMessage unmarshal d r) as [[[t|e] d1] r1]; [|discriminate]. destruct (some_messages k unmarshal d1 r1) as [[[l d2] r2]|] eqn:E; [|discriminate]. injection H as <- <- <-.
    rewrite (IH _ _ _ _ _ fuel E). destruct (session fuel unmarshal d2 r2) as [[l' e]|]; reflexivity.
Qed.
Lemma session_start unmarshal s1 ts h size c x fin sch fuel : is_stream s1 ts -> Forall object_text ts -> Forall (accepted unmarshal) ts -> Forall (fun m => N.of_nat (length m) <= 1073741824)%N ts ->
  is_header h size -> (0 < size <= 1073741824)%N -> ~ space [c] -> ~ In c (b "{[""-0123456789tfn") -> length ts < fuel ->
  session fuel unmarshal NewDecoder (NewFrameLimitedReader (mkSrc (s1 ++ h ++ c :: x) fin sch 0)) = Some (ts, EDecode ESyntax).
Proof.
  intros S T A L Hh [Ls1 Ls2] C1 C2 F. destruct (some_exact unmarshal ts (h ++ c :: x) s1 NewDecoder (NewFrameLimitedReader (mkSrc (s1 ++ h ++ c :: x) fin sch 0)) S T A L) as (d & r & E & Eu & Ed & Rm & En & Er & _); auto; [apply le_n|].
  replace fuel with (length ts + Datatypes.S (fuel - length ts - 1)) by lia. rewrite (session_some _ _ _ _ _ _ _ _ E). cbn [session]. unfold ReadMessage.
  destruct (header_any r h size (c :: x) En Hh Ls2 Er) as (r1 & -> & E1 & E2 & _). destruct (Decode_start c x d r1 (start_fails c C1 C2) Eu Ed Rm) as (d2 & r2 & ->); [rewrite E1; lia|exact E2|]. rewrite app_nil_r. reflexivity.
Qed.
Lemma wrapper_client unmarshal exe fin sch fuel : (256 <= length (wrapper_error exe))%nat -> (N.of_nat (length (wrapper_error exe)) < 4096)%N -> 0 < fuel ->
  session fuel unmarshal NewDecoder (NewFrameLimitedReader (mkSrc (wrapper_output (fun s => N.of_nat (length s)) exe) fin sch 0)) = Some ([], EDecode ESyntax).
Proof.
  intros G L F. set (n := N.of_nat (length (wrapper_error exe))) in *. assert (B : (256 <= n < 4096)%N) by lia.
  assert (M : (n mod 16 < 16)%N) by (apply N.mod_lt; discriminate). destruct (digit_char _ M) as [_ C2].
  assert (Bv : (byte_value (hexdigit (n mod 16)) < 256)%N) by (unfold byte_value; destruct (hexdigit (n mod 16)) as [[] [] [] [] [] [] [] []]; reflexivity).
  unfold wrapper_output. fold n. unfold wrapper_header. rewrite hex_three by exact B. cbn [map app repeat].
  set (c1 := ascii_of_N _). set (c2 := hexdigit _) in *.
  assert (B1 : (byte_value c1 < 256)%N) by (unfold byte_value; destruct c1 as [[] [] [] [] [] [] [] []]; reflexivity).
  apply (session_start unmarshal [] [] [c1; c2; ascii_of_N 0; ascii_of_N 0] (byte_value c1 + 256 * byte_value c2)%N (ascii_of_N 0) (wrapper_error exe)); [constructor|constructor|constructor|constructor| | | | |exact F].
  - exists c1, c2, (ascii_of_N 0), (ascii_of_N 0). split; [reflexivity|]. cbn. lia.
  - split; lia.
  - intros H. inversion_clear H as [|? ? I _]. vm_compute in I. repeat destruct I as [I|I]; try discriminate I; contradiction.
  - intros H. vm_compute in H. repeat destruct H as [H|H]; try discriminate H; contradiction.
Qed.
