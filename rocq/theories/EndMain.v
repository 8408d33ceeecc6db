(** Lemmas about requests of the command line client and its output. *)
From Coq Require Import Permutation ZifyBool ZifyNat ZifyN.
From Verif Require Import GoBase Utf8 JsonSpec Json JsonProofs Frame FrameSpec Stream StreamSpec ParseProofs Emacs Backend BackendSpec ReplySpec
  Server ServerSpec ServerMain Tools ToolsSpec ToolsProofs Unmarshal UnmarshalSpec UnmarshalProofs PacketProofs Client ClientSpec ClientProofs ClientMain ResponseProofs Print PrintSpec PrintProofs PrintMain EndSpec EndProofs.

Lemma request_asks float_ok m method query q n : serves (string_of (runes_of method)) m -> tidy (value_of query) -> (N.of_nat (nesting (value_of query)) <= 9998)%N -> wants float_ok m (value_of query) q ->
  (n <= 18446744073709551615)%N -> asks_for float_ok q n (client_request method query (Z.of_N n)).
Proof.
  intros S T L W Ln. unfold client_request. exists (encode (JObj [(b "method", JStr method); (b "params", JArr [query]); (b "id", JInt (Z.of_N n))])), eol, (whole (value_of query) (value_of (JInt (Z.of_N n))) method), (runes_of method), m, (value_of query), [].
  assert (H1 : has (whole (value_of query) (value_of (JInt (Z.of_N n))) method) (b "method") (VStr (runes_of method))) by (eexists; split; [left; reflexivity|apply fold_name; reflexivity]).
  split; [reflexivity|]. split; [constructor; [cbn; tauto|constructor]|]. split; [|split; [exact H1|]].
  - exists [], (encode (JObj [(b "method", JStr method); (b "params", JArr [query]); (b "id", JInt (Z.of_N n))])). split; [constructor|]. split; [exact (encode_ok (JObj [(b "method", JStr method); (b "params", JArr [query]); (b "id", JInt (Z.of_N n))]))|]. split; [reflexivity|].
    split; [unfold whole; cbn [nesting fold_right snd value_of]; lia|]. split; [apply whole_different|]. intros v H. rewrite (has_unique _ _ _ _ (whole_different _ _ _) H H1). eexists. right. eauto.
  - split; [exact S|]. split; [eexists; split; [right; left; reflexivity|apply fold_name; reflexivity]|]. split; [exact T|]. split; [exact W|]. split; [|exact Ln]. eexists. split; [right; right; left; reflexivity|apply fold_name; reflexivity].
Qed.
Lemma strings_flat l : fold_right (fun x n => Nat.max (nesting x) n) 0 (map value_of (map JStr l)) = 0.
Proof. induction l as [|s l IH]; [reflexivity|]. cbn [map fold_right value_of nesting]. rewrite IH. reflexivity. Qed.
Lemma strings_tidy l : Forall tidy (map value_of (map JStr l)).
Proof. induction l as [|s l IH]; constructor; [constructor|exact IH]. Qed.
Fixpoint apart (l : list (list rune * value)) : bool :=
  match l with
  | [] => true
  | m :: l' => negb (existsb (fun m' => if list_eq_dec N.eq_dec (map fold_rune (fst m)) (map fold_rune (fst m')) then true else false) l') && apart l'
  end.
Lemma apart_different l : apart l = true -> different l.
Proof.
  induction l as [|m l IH]; intros H l1 k1 v1 l2 k2 v2 l3 nm E S1 S2; [destruct l1; discriminate E|]. apply andb_true_iff in H as [H1 H2]. destruct l1 as [|m' l1]; cbn [app] in E; injection E as -> ->; [|eapply (IH H2); [reflexivity|exact S1|exact S2]].
  apply negb_true_iff in H1. apply fold_name, fold_same in S1. apply fold_name, fold_same in S2. rewrite existsb_app in H1. cbn [existsb fst] in H1. destruct (list_eq_dec N.eq_dec (map fold_rune k1) (map fold_rune k2)) as [_|N]; [|congruence]. rewrite orb_true_r in H1. discriminate H1.
Qed.
Lemma client_tidy pi queries q method query : client_query pi queries q -> subcommand pi queries = CCall method query -> tidy (value_of query) /\ (N.of_nat (nesting (value_of query)) <= 9998)%N.
Proof.
  intros H E. destruct H as [urls|prefixes|uri|path|path line n P R]; cbn in E; try (rewrite P in E); injection E as <- <-; cbn [value_of map nesting fold_right fst snd]; try rewrite strings_flat.
  all: split; [|cbn; lia].
  1, 2: constructor; [apply apart_different; reflexivity|]; constructor; [|constructor]; cbn [snd]; constructor; apply strings_tidy.
  all: constructor; [apply apart_different; reflexivity|]; repeat (constructor; cbn [snd]); try apply integer_ok. apply apart_different; reflexivity.
Qed.
Lemma client_asks pi queries q float_ok : client_query pi queries q -> exists method query, subcommand pi queries = CCall method query /\
  forall n, (n <= 18446744073709551615)%N -> asks_for float_ok q n (client_request method query (Z.of_N n)).
Proof.
  intros H. destruct (client_decoded pi queries q float_ok (fun _ _ => []) H) as (method & m & query & E & S & A). exists method, query. split; [exact E|]. intros n L. destruct (client_tidy _ _ _ _ _ H E) as [T Ns].
  apply request_asks with m; auto. pose proof (encode_ok (JArr [query])) as J. apply (params_exact float_ok (fun _ _ => []) m _ _ [] q (text_document _ _ J) T), A, J.
Qed.
(** What is printed *)
Lemma queries_same w args n1 r1 q1 n2 r2 q2 : started_with w args n1 r1 q1 -> started_with w args n2 r2 q2 -> q1 = q2.
Proof.
  intros (_ & _ & _ & A) (_ & _ & _ & B). apply client_starts in A. apply client_starts in B. rewrite A in B. congruence.
Qed.
Lemma query_asked pi f show w args name rest queries q t float_ok : started_with w args name rest queries -> client_query pi queries q -> In (GRequest t) (fst (client_tool pi f show w args)) -> asks_for float_ok q 0 t.
Proof.
  intros Sw Cq I. apply flow_request in I. destruct I as (n' & r' & q' & Sw' & E). rewrite <- (queries_same _ _ _ _ _ _ _ _ Sw Sw') in E. destruct (client_asks pi queries q float_ok Cq) as (method & query & Es & A).
  unfold query_text in E. rewrite Es in E. injection E as <-. exact (A 0%N ltac:(lia)).
Qed.
Lemma request_once pi f show w args t t' : In (GRequest t) (fst (client_tool pi f show w args)) -> In (GRequest t') (fst (client_tool pi f show w args)) -> t = t'.
Proof.
  intros I I'. apply flow_request in I. apply flow_request in I'. destruct I as (n1 & r1 & q1 & S1 & E1). destruct I' as (n2 & r2 & q2 & S2 & E2). rewrite (queries_same _ _ _ _ _ _ _ _ S1 S2) in E1. congruence.
Qed.
Lemma printed pi f show oops w args X t q : In (GPrint X) (fst (client_tool pi f show w args)) -> In (GRequest t) (fst (client_tool pi f show w args)) -> (forall t, f t = true -> jnumber (show t)) ->
  forall ctr cs float_ok message out z fin sch fuel input e c g str s z' fin' sch' fuel' hs e', asks_for float_ok q 0 t ->
  Client.crun (fun _ => any_body f oops) new_client ctr cs -> sends ctr = [(0, 0%N)] -> In (XDone 0 (w_call w t)) ctr -> is_stream out [t] ->
  beginning z out -> requests fuel (mkSrc z fin sch 0) = Some (input, e) -> c_dec c = go_decoders float_ok message -> srun c (start g input) str s -> ~ In VFail str -> fit c str -> shallow str ->
  beginning z' (sent str) -> responses f fuel' (mkSrc z' fin' sch' 0) = Some (hs, e') -> beginning (heard ctr) hs ->
  exists x v v' y, handled c g str 0 q (Ok x) /\ jtext v x /\ canonical show v v' /\ laid 0 v' y /\ X = y ++ eol.
Proof.
  intros IP IR Sh ctr cs float_ok message out z fin sch fuel input e c g str s z' fin' sch' fuel' hs e' Ask Rc Sd Dn St B Rq Dec Rs NF Ft Sw B' Rp Hh.
  apply flow_print in IP. destruct IP as (t' & v & IR' & Ev & ->). pose proof (request_once _ _ _ _ _ _ _ IR IR') as <-. rewrite Ev in Dn.
  destruct (connected (fun _ => any_body f oops) ctr cs float_ok message (fun _ => q) [t] out z fin sch fuel input e c g str s f z' fin' sch' fuel' hs e' Rc) with (i := 0) (x := OResult v) as (k & r & Is & Hd & Se); try assumption.
  - rewrite Sd. constructor; [exact Ask|constructor].
  - exact Logic.I.
  - assert (k = 0) as -> by (apply sends_in in Is; rewrite Sd in Is; destruct Is as [E|[]]; injection E as E; lia).
    inversion Se as [|x v0 Bd|]; subst. destruct (reply_printed f show oops x v Bd Sh) as (v' & y & Ca & _ & La & Pr & _). exists x, v, v', y. split; [exact Hd|]. split; [|auto].
    destruct Hd as [qs g' ts j o r _ _ _ _ _ Ex]. inversion Ex as [|r0 v1 x0 _ _ J]; subst. unfold any_body in Bd. rewrite (document_parsed _ _ (text_document _ _ J)) in Bd. destruct (floats f v1); [injection Bd as <-; exact J|discriminate Bd].
Qed.
