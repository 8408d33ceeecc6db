(** Lemmas about parsing of patterns that are assembled from parts. *)
From Coq Require Import ZifyBool ZifyNat ZifyN.
From Verif Require Import GoBase Utf8 Utf8Proofs Utf8Dec Regex RegexParse RegexSpec RegexProofs Pieces.
Local Open Scope N_scope.

(** ** Lexer as a relation *)
Inductive lexes : list rune -> list token -> Prop :=
| lexes_nil : lexes [] []
| lexes_cons x t tok r ts : lex1 x t = Some (tok, r) -> lexes r ts -> lexes (x :: t) (tok :: ts).

Definition suffix_of (r t : list rune) : Prop := exists p, t = p ++ r.
Lemma suffix_refl t : suffix_of t t. Proof. exists []. reflexivity. Qed.
Lemma suffix_cons x r t : suffix_of r t -> suffix_of r (x :: t).
Proof. intros [p ->]. exists (x :: p). reflexivity. Qed.
Lemma suffix_tail x r t : suffix_of (x :: r) t -> suffix_of r t.
Proof. intros [p ->]. exists (p ++ [x]). rewrite <- app_assoc. reflexivity. Qed.
Lemma suffix_trans x y z : suffix_of x y -> suffix_of y z -> suffix_of x z.
Proof. intros [p ->] [q ->]. exists (q ++ p). rewrite app_assoc. reflexivity. Qed.
Lemma suffix_skipn n t : suffix_of (skipn n t) t.
Proof. exists (firstn n t). symmetry. apply firstn_skipn. Qed.

Lemma class_char_suffix l x r : class_char l = Some (x, r) -> suffix_of r l.
Proof.
  unfold class_char. destruct l as [|c t]; [discriminate|]. destruct (c =? _).
  - destruct t as [|y t']; [discriminate|]. destruct (escape y); [|discriminate]. intros E. injection E as _ <-. apply suffix_cons, suffix_cons, suffix_refl.
  - intros E. injection E as _ <-. apply suffix_cons, suffix_refl.
Qed.
Lemma posix_name_suffix l : forall acc x r, posix_name l acc = Some (x, r) -> suffix_of r l.
Proof.
  induction l as [|c l IH]; intros acc x r E; [discriminate|]. cbn [posix_name] in E. destruct l as [|y l']; [discriminate|].
  destruct ((c =? _) && (y =? _)).
  - injection E as _ <-. apply suffix_cons, suffix_cons, suffix_refl.
  - apply suffix_cons. eapply IH. exact E.
Qed.
Lemma strip_suffix p l r : strip_prefix p l = Some r -> suffix_of r l.
Proof. unfold strip_prefix. destruct (runes_eqb _ _); [|discriminate]. intros E. injection E as <-. apply suffix_skipn. Qed.
Lemma class_loop_suffix fuel : forall first l acc x r, class_loop fuel first l acc = Some (x, r) -> suffix_of r l.
Proof.
  induction fuel as [|fuel IH]; intros first l acc x r E; [discriminate|]. cbn [class_loop] in E.
  destruct l as [|c t]; [discriminate|]. destruct ((c =? ch "]") && negb first).
  { injection E as _ <-. apply suffix_cons, suffix_refl. }
  assert (OTHER : forall lo t1 (X : option (list citem * list rune)), class_char (c :: t) = Some (lo, t1) ->
     match t1 with
     | y :: (z :: _) as t2 =>
         if (y =? ch "-") && negb (z =? ch "]") then
           match class_char t2 with
           | Some (hi, t3) => if hi <? lo then None else class_loop fuel false t3 (CRange lo hi :: acc)
           | None => None
           end
         else class_loop fuel false t1 (CRange lo lo :: acc)
     | _ => class_loop fuel false t1 (CRange lo lo :: acc)
     end = Some (x, r) -> suffix_of r (c :: t)).
  { intros lo t1 _ C E'. apply class_char_suffix in C. destruct t1 as [|y [|z t2]]; try (apply IH in E'; eapply suffix_trans; eassumption).
    destruct ((y =? _) && _); [|apply IH in E'; eapply suffix_trans; eassumption].
    destruct (class_char (z :: t2)) as [[hi t3]|] eqn:C2; [|discriminate]. destruct (hi <? lo); [discriminate|]. apply IH in E'.
    apply class_char_suffix in C2. eapply suffix_trans; [exact E'|]. eapply suffix_trans; [exact C2|]. eapply suffix_tail. exact C. }
  assert (OTHER' : match class_char (c :: t) with
              | None => None
              | Some (lo, t1) =>
                  match t1 with
                  | y :: (z :: _) as t2 =>
                      if (y =? ch "-") && negb (z =? ch "]") then
                        match class_char t2 with
                        | Some (hi, t3) => if hi <? lo then None else class_loop fuel false t3 (CRange lo hi :: acc)
                        | None => None
                        end
                      else class_loop fuel false t1 (CRange lo lo :: acc)
                  | _ => class_loop fuel false t1 (CRange lo lo :: acc)
                  end
              end = Some (x, r) -> suffix_of r (c :: t)).
  { destruct (class_char (c :: t)) as [[lo t1]|]; [|discriminate]. intros H. eapply OTHER; [exact None|reflexivity|exact H]. }
  clear OTHER. revert OTHER' E. set (oth := match class_char (c :: t) with Some _ => _ | None => _ end). intros OTHER E.
  destruct (c =? ch "["); [destruct t as [|y t']|].
  - destruct (c =? ch "\"); [|auto]. destruct (strip_prefix _ _) as [t'|] eqn:S; [|discriminate]. apply IH in E. apply strip_suffix in S.
    eapply suffix_trans; [exact E|]. apply suffix_cons. exact S.
  - destruct (y =? ch ":"); [|auto]. destruct (posix_name t' []) as [[name t'']|] eqn:P; [|auto]. destruct (posix_items name); [|discriminate].
    apply IH in E. apply posix_name_suffix in P. eapply suffix_trans; [exact E|]. apply suffix_cons, suffix_cons. exact P.
  - destruct (c =? ch "\"); [|auto]. destruct (strip_prefix _ _) as [t'|] eqn:S.
    + apply IH in E. apply strip_suffix in S. eapply suffix_trans; [exact E|]. apply suffix_cons. exact S.
    + destruct t as [|y t']; [discriminate|]. destruct (perl_items y); [|auto]. apply IH in E. eapply suffix_trans; [exact E|].
      apply suffix_cons, suffix_cons, suffix_refl.
Qed.
Lemma lazy_suffix t : suffix_of (snd (lazy_mark t)) t.
Proof. destruct t as [|x t]; [apply suffix_refl|]. cbn. destruct (x =? _); cbn; [apply suffix_cons, suffix_refl|apply suffix_refl]. Qed.
Lemma digits_suffix l : forall acc, suffix_of (snd (digits l acc)) l.
Proof.
  induction l as [|x l IH]; intros acc; cbn [digits]; [apply suffix_refl|]. destruct (inr 48 57 x); [|apply suffix_refl].
  destruct acc as [[|n]|]; [apply suffix_refl|apply suffix_cons, IH|apply suffix_cons, IH].
Qed.
Lemma lex_repeat_suffix l n m r : lex_repeat l = Some (n, m, r) -> suffix_of r l.
Proof.
  unfold lex_repeat. pose proof (digits_suffix l None) as D. destruct (digits l None) as [[k|] [|x t]]; cbn [snd] in D; try discriminate.
  apply suffix_tail in D. destruct (x =? _); [intros E; injection E as _ _ <-; exact D|]. destruct (x =? _); [|discriminate].
  destruct t as [|y t']; [discriminate|]. destruct (y =? _). { intros E; injection E as _ _ <-. eapply suffix_tail; exact D. }
  pose proof (digits_suffix (y :: t') None) as D2. destruct (digits (y :: t') None) as [[k2|] [|z t'']]; cbn [snd] in D2; try discriminate.
  destruct (z =? _); [|discriminate]. intros E; injection E as _ _ <-. eapply suffix_trans; [eapply suffix_tail; exact D2|exact D].
Qed.
Lemma lex1_suffix x t tok r : lex1 x t = Some (tok, r) -> suffix_of r t.
Proof.
  unfold lex1. destruct (x =? ch "\").
  { destruct t as [|y t']; [discriminate|]. destruct (y =? ch "b"). { intros E; injection E as _ <-. apply suffix_cons, suffix_refl. }
    destruct (strip_prefix _ _) as [t''|] eqn:S. { intros E; injection E as _ <-. apply strip_suffix in S. exact S. }
    destruct (perl_items y). { intros E; injection E as _ <-. apply suffix_cons, suffix_refl. }
    destruct (if inr 65 90 y then _ else _). { intros E; injection E as _ <-. apply suffix_cons, suffix_refl. }
    destruct (escape y); [|discriminate]. cbn. intros E; injection E as _ <-. apply suffix_cons, suffix_refl. }
  do 5 (destruct (x =? _); [intros E; injection E as _ <-; apply suffix_refl|]).
  destruct (x =? _).
  { destruct t as [|y t']; [intros E; injection E as _ <-; apply suffix_refl|]. destruct (y =? _); [|intros E; injection E as _ <-; apply suffix_refl].
    destruct t' as [|z t'']; [discriminate|]. destruct (z =? _). { intros E; injection E as _ <-. apply suffix_cons, suffix_cons, suffix_refl. }
    destruct (z =? _); [|discriminate]. destruct t'' as [|w t3]; [discriminate|]. destruct (w =? _); [|discriminate].
    intros E; injection E as _ <-. apply suffix_cons, suffix_cons, suffix_cons, suffix_refl. }
  destruct (x =? _).
  { unfold lex_class. destruct t as [|y t']; [discriminate|]. destruct (y =? _).
    - destruct (class_loop _ _ _ _) as [[its r']|] eqn:C; [|discriminate]. cbn. intros E; injection E as _ <-. apply class_loop_suffix in C. apply suffix_cons. exact C.
    - destruct (class_loop _ _ _ _) as [[its r']|] eqn:C; [|discriminate]. cbn. intros E; injection E as _ <-. apply class_loop_suffix in C. exact C. }
  do 3 (destruct (x =? _); [pose proof (lazy_suffix t) as L; destruct (lazy_mark t) as [g r']; intros E; injection E as _ <-; exact L|]).
  destruct (x =? _).
  { destruct (lex_repeat t) as [[[n m] r']|] eqn:R; [|intros E; injection E as _ <-; apply suffix_refl].
    apply lex_repeat_suffix in R. pose proof (lazy_suffix r') as L. destruct (lazy_mark r') as [g r'']. intros E; injection E as _ <-. eapply suffix_trans; eassumption. }
  intros E; injection E as _ <-. apply suffix_refl.
Qed.
Lemma suffix_length r t : suffix_of r t -> (length r <= length t)%nat.
Proof. intros [p ->]. rewrite app_length. lia. Qed.
Lemma lex_lexes fuel : forall l ts, (length l <= fuel)%nat -> lex fuel l = Some ts <-> lexes l ts.
Proof.
  induction fuel as [|fuel IH]; intros [|x t] ts H; cbn [length] in H; try lia.
  - cbn. split; [intros E; injection E as <-; constructor|intros L; inversion L; reflexivity].
  - cbn. split; [intros E; injection E as <-; constructor|intros L; inversion L; reflexivity].
  - cbn [lex]. destruct (lex1 x t) as [[tok r]|] eqn:E.
    + pose proof (lex1_suffix _ _ _ _ E) as S. apply suffix_length in S. split.
      * destruct (lex fuel r) as [ts'|] eqn:E'; [|discriminate]. cbn. intros Ex. injection Ex as <-. econstructor; [exact E|]. apply IH; [lia|exact E'].
      * intros L. inversion L as [|? ? ? ? ? L1 L2]. subst. rewrite E in L1. injection L1 as <- <-. apply IH in L2; [|lia]. rewrite L2. reflexivity.
    + split; [discriminate|]. intros L. inversion L as [|? ? ? ? ? L1 L2]. subst. congruence.
Qed.
Lemma lexes_fun l ts ts' : lexes l ts -> lexes l ts' -> ts = ts'.
Proof. intros A B. apply (lex_lexes (length l)) in A, B; try lia. congruence. Qed.

Lemma compile_some s r : compile s = Some r -> valid_utf8 s /\ exists ts st, lexes (runes_of s) ts /\ prun pstart ts = Some st /\ below st = [] /\ r = alt_of (top st).
Proof.
  unfold compile. destruct (str_eqb _ _) eqn:V; [|discriminate]. apply str_eqb_eq in V. apply string_runes_iff in V.
  destruct (lex _ _) as [ts|] eqn:L; [|discriminate]. apply lex_lexes in L; [|lia]. destruct (prun _ _) as [st|] eqn:P; [|discriminate].
  unfold pfinish. destruct (below st) eqn:B; [|discriminate]. intros E. injection E as <-. split; [exact V|]. exists ts, st. auto.
Qed.
Lemma compile_intro s ts st : valid_utf8 s -> lexes (runes_of s) ts -> prun pstart ts = Some st -> below st = [] -> compile s = Some (alt_of (top st)).
Proof.
  intros V L P B. unfold compile. apply string_runes_iff in V. rewrite V, str_eqb_refl. apply (lex_lexes (length (runes_of s))) in L; [|lia].
  rewrite L, P. unfold pfinish. rewrite B. reflexivity.
Qed.

(** ** Words: literal characters, some of them optional *)
Record item := mkItem { irune : rune; iopt : bool }.
Definition src_item (i : item) : list rune :=
  (if meta (irune i) then [92; irune i] else [irune i]) ++ (if iopt i then [63] else []).
Definition tok_item (i : item) : list token :=
  TCls (single (irune i)) :: (if iopt i then [TRep 0 (Some 1%nat) true] else []).
Definition re_item (i : item) : re :=
  if iopt i then RAlt (RCls (single (irune i))) REmpty else RCls (single (irune i)).

Lemma lex1_literal x t : meta x = false -> lex1 x t = Some (TCls (single x), t).
Proof.
  unfold meta. intros M. unfold lex1. cbn [existsb b list_ascii_of_string] in M. repeat (apply orb_false_iff in M; destruct M as [? M]).
  repeat match goal with H : (x =? _) = false |- _ => rewrite H; clear H end. reflexivity.
Qed.
Lemma meta_cases x : meta x = true -> In x (map ch (b "\.+*?()|[]{}^$")).
Proof.
  unfold meta. intros M. apply existsb_exists in M. destruct M as (c & I & E). apply N.eqb_eq in E. subst. apply in_map. exact I.
Qed.
Lemma lex1_escaped x t : meta x = true -> lex1 92 (x :: t) = Some (TCls (single x), t).
Proof.
  intros M. apply meta_cases in M. cbn in M. unfold ch in M. cbn in M.
  repeat (destruct M as [<-|M]; [vm_compute; reflexivity|]). destruct M.
Qed.
Lemma lazy_not t : match t with x :: _ => x <> 63 | [] => True end -> lazy_mark t = (true, t).
Proof. destruct t as [|x t]; [reflexivity|]. intros H. cbn. change (ch "?") with 63. apply N.eqb_neq in H. rewrite H. reflexivity. Qed.
Lemma lex1_opt t : match t with x :: _ => x <> 63 | [] => True end -> lex1 63 t = Some (TRep 0 (Some 1%nat) true, t).
Proof. intros H. unfold lex1. cbn -[lazy_mark]. rewrite lazy_not by exact H. reflexivity. Qed.
Lemma src_first i t : match src_item i ++ t with x :: _ => x <> 63 | [] => True end.
Proof. unfold src_item. destruct (meta (irune i)) eqn:E; cbn [app]; [discriminate|]. intros X. rewrite X in E. discriminate. Qed.
Lemma lexes_word w rest ts : match rest with x :: _ => x <> 63 | [] => True end -> lexes rest ts ->
  lexes (flat_map src_item w ++ rest) (flat_map tok_item w ++ ts).
Proof.
  intros N L. induction w as [|i w IH]; [exact L|]. cbn [flat_map]. rewrite <- !app_assoc.
  assert (N' : match flat_map src_item w ++ rest with x :: _ => x <> 63 | [] => True end).
  { destruct w as [|j w]; [exact N|]. cbn [flat_map]. rewrite <- app_assoc. apply src_first. }
  assert (L' : lexes ((if iopt i then [63] else []) ++ flat_map src_item w ++ rest) ((if iopt i then [TRep 0 (Some 1%nat) true] else []) ++ flat_map tok_item w ++ ts)).
  { destruct (iopt i); [|exact IH]. cbn [app]. econstructor; [|exact IH]. apply lex1_opt. exact N'. }
  unfold src_item at 1. unfold tok_item at 1. rewrite <- app_assoc. destruct (meta (irune i)) eqn:M; cbn [app]; econstructor; try exact L'.
  - apply lex1_escaped. exact M.
  - apply lex1_literal. exact M.
Qed.

(** ** Parser *)
Lemma prun_app x : forall st y, prun st (x ++ y) = match prun st x with Some st' => prun st' y | None => None end.
Proof. induction x as [|t x IH]; intros st y; [reflexivity|]. cbn [app prun]. destruct (pstep st t); [apply IH|reflexivity]. Qed.
Definition push (st : pstate) (l : list re) (rep : bool) : pstate :=
  mkP (mkFrame (falts (top st)) (l ++ fcur (top st)) (fgroup (top st)) (ffold (top st))) (below st) (ncap st) (folding st) rep.
Lemma prun_item st i : folding st = false -> prun st (tok_item i) = Some (push st [re_item i] (iopt i)).
Proof.
  intros F. unfold tok_item. cbn [prun pstep]. rewrite F. destruct (iopt i) eqn:E; cbn [prun]; unfold push, re_item; rewrite E; cbn; reflexivity.
Qed.
Lemma prun_word w : forall st, folding st = false -> w <> [] ->
  exists rep, prun st (flat_map tok_item w) = Some (push st (rev (map re_item w)) rep).
Proof.
  induction w as [|i w IH] using rev_ind; intros st F N; [congruence|].
  rewrite flat_map_app, prun_app. cbn [flat_map]. rewrite app_nil_r.
  assert (E : prun st (flat_map tok_item w) = Some st /\ w = [] \/ w <> [] /\ exists rep, prun st (flat_map tok_item w) = Some (push st (rev (map re_item w)) rep)).
  { destruct w as [|j w]; [left; auto|]. right. split; [discriminate|]. apply IH; [exact F|discriminate]. }
  rewrite map_app, rev_app_distr. destruct E as [[E ->]|(_ & rep & E)]; rewrite E.
  - eexists. apply prun_item. exact F.
  - rewrite prun_item by exact F. eexists. reflexivity.
Qed.

(** Alternatives: w1 | w2 | ... *)
Fixpoint src_alts (ws : list (list item)) : list rune :=
  match ws with
  | [] => []
  | [w] => flat_map src_item w
  | w :: ws' => flat_map src_item w ++ [124] ++ src_alts ws'
  end.
Fixpoint tok_alts (ws : list (list item)) : list token :=
  match ws with
  | [] => []
  | [w] => flat_map tok_item w
  | w :: ws' => flat_map tok_item w ++ [TBar] ++ tok_alts ws'
  end.
Lemma src_alts_first ws rest : match rest with x :: _ => x <> 63 | [] => True end ->
  match src_alts ws ++ rest with x :: _ => x <> 63 | [] => True end.
Proof.
  intros H. destruct ws as [|w ws]; [exact H|]. cbn [src_alts]. destruct w as [|i w].
  - destruct ws; cbn; [exact H|discriminate].
  - destruct ws; cbn [flat_map]; rewrite <- ?app_assoc; apply src_first.
Qed.
Lemma lexes_alts ws : forall rest ts, match rest with x :: _ => x <> 63 | [] => True end -> lexes rest ts ->
  lexes (src_alts ws ++ rest) (tok_alts ws ++ ts).
Proof.
  induction ws as [|w ws IH]; intros rest ts N L; [exact L|]. cbn [src_alts tok_alts]. destruct ws as [|w' ws].
  - apply lexes_word; assumption.
  - rewrite <- !app_assoc. apply lexes_word; [discriminate|]. cbn [app]. econstructor; [reflexivity|]. apply IH; assumption.
Qed.

Definition word_re (w : list item) : re := seq_of (rev (map re_item w)).
(** The state after alternatives: the last one is in the current sequence *)
Definition alts_state (st : pstate) (first : list item) (ws : list (list item)) (rep : bool) : pstate :=
  match rev ws with
  | [] => push st (rev (map re_item first)) rep
  | w :: r =>
      mkP (mkFrame (map word_re r ++ seq_of (rev (map re_item first) ++ fcur (top st)) :: falts (top st)) (rev (map re_item w)) (fgroup (top st)) (ffold (top st)))
        (below st) (ncap st) (folding st) rep
  end.
Lemma push_nil st rep : fcur (top st) = fcur (top st) -> push st [] rep = mkP (top st) (below st) (ncap st) (folding st) rep.
Proof. intros _. unfold push. destruct st as [[]]. reflexivity. Qed.
Lemma prun_alts ws : forall st w, folding st = false -> w <> [] -> Forall (fun x => x <> []) ws ->
  exists rep, prun st (tok_alts (w :: ws)) = Some (alts_state st w ws rep).
Proof.
  induction ws as [|w' ws IH] using rev_ind; intros st w F N A.
  - cbn [tok_alts]. destruct (prun_word w st F N) as (rep & E). exists rep. rewrite E. reflexivity.
  - apply Forall_app in A. destruct A as [A A']. inversion A' as [|? ? N' _]. subst. clear A'.
    assert (T : forall l, tok_alts ((w :: l) ++ [w']) = tok_alts (w :: l) ++ [TBar] ++ flat_map tok_item w').
    { clear. intros l. revert w. induction l as [|a l IH]; intros w; [reflexivity|].
      change (tok_alts ((w :: a :: l) ++ [w'])) with (flat_map tok_item w ++ [TBar] ++ tok_alts ((a :: l) ++ [w'])). rewrite IH.
      change (tok_alts (w :: a :: l)) with (flat_map tok_item w ++ [TBar] ++ tok_alts (a :: l)). rewrite <- !app_assoc. reflexivity. }
    rewrite app_comm_cons, T, prun_app. destruct (IH st w F N A) as (rep & E). rewrite E. cbn [app prun pstep].
    set (st1 := mkP _ _ _ _ _). assert (F1 : folding st1 = false). { unfold st1, alts_state. destruct (rev ws); exact F. }
    destruct (prun_word w' st1 F1 N') as (rep' & E'). exists rep'. rewrite E'. f_equal. unfold st1, alts_state. rewrite rev_app_distr. cbn [rev app].
    destruct (rev ws) as [|x r]; unfold push; cbn [top falts fcur fgroup ffold below ncap folding app map]; rewrite app_nil_r; reflexivity.
Qed.
