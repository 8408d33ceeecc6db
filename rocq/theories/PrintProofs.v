(** Lemmas about printing. *)
From Coq Require Import ZifyBool ZifyNat ZifyN.
From Coq Require Import Sorting.Sorted Permutation.
From Verif Require Import GoBase Utf8 Utf8Dec Utf8Proofs JsonStr JsonSpec Emacs Json JsonProofs Compact CompactProofs ReplyJson StreamSpec StreamRfc Print PrintSpec.
Local Open Scope nat_scope.

(** ** Induction *)
Lemma any_ind' (P : any -> Prop) : P ANull -> (forall v, P (ABool v)) -> (forall t, P (AFloat t)) -> (forall s, P (AString s)) ->
  (forall l, Forall P l -> P (ASlice l)) -> (forall l, Forall (fun m => P (snd m)) l -> P (AMap l)) -> forall a, P a.
Proof.
  intros A B C D E F. fix IH 1. intros [|v|n|s|l|l]; [exact A|apply B|apply C|apply D|apply E|apply F].
  - induction l; constructor; auto.
  - induction l as [|[k j] l IHl]; constructor; auto.
Qed.
Lemma value_ind' (P : value -> Prop) : P VNull -> (forall v, P (VBool v)) -> (forall t, P (VNum t)) -> (forall s, P (VStr s)) ->
  (forall l, Forall P l -> P (VArr l)) -> (forall l, Forall (fun m => P (snd m)) l -> P (VObj l)) -> forall v, P v.
Proof.
  intros A B C D E F. fix IH 1. intros [|v|n|s|l|l]; [exact A|apply B|apply C|apply D|apply E|apply F].
  - induction l; constructor; auto.
  - induction l as [|[k j] l IHl]; constructor; auto.
Qed.
(** The value *)
Fixpoint any_value (a : any) : value :=
  match a with
  | ANull => VNull
  | ABool v => VBool v
  | AFloat t => VNum t
  | AString s => VStr (runes_of s)
  | ASlice l => VArr (map any_value l)
  | AMap l => VObj (map (fun m => (runes_of (fst m), any_value (snd m))) l)
  end.
Inductive finite : any -> Prop :=
| fn_null : finite ANull
| fn_bool v : finite (ABool v)
| fn_float t : jnumber t -> finite (AFloat t)
| fn_string s : finite (AString s)
| fn_slice l : Forall finite l -> finite (ASlice l)
| fn_map l : Forall (fun m => finite (snd m)) l -> finite (AMap l).
Fixpoint pretty (d : nat) (a : any) : str :=
  match a with
  | ASlice (x :: l) => b "[" ++ separated (map (fun a => fresh_line (S d) ++ pretty (S d) a) (x :: l)) ++ fresh_line d ++ b "]"
  | AMap (x :: l) => b "{" ++ separated (map (fun m => fresh_line (S d) ++ json_string (fst m) ++ b ": " ++ pretty (S d) (snd m)) (x :: l)) ++ fresh_line d ++ b "}"
  | _ => encode_any a
  end.

(** ** Indent *)
Definition inert (c : ascii) : Prop := is_space (N_of_ascii c) = false /\ ~ In c (b "{}[],:") /\ N_of_ascii c <> 34%N.
Lemma one_of_ok c s : one_of c s = true <-> In c s.
Proof.
  unfold one_of. rewrite existsb_exists. split; [intros (x & I & E); apply Ascii.eqb_eq in E; subst; exact I|intros I; exists c; split; [exact I|apply Ascii.eqb_refl]].
Qed.
Lemma one_of_no c s : ~ In c s -> one_of c s = false.
Proof. intros N. destruct (one_of c s) eqn:E; [apply one_of_ok in E; contradiction|reflexivity]. Qed.
Lemma inert_step d c x : inert c -> indent_loop Outside false d (c :: x) = c :: indent_loop Outside false d x.
Proof.
  intros (S & N & Q). cbn [indent_loop]. cbv zeta. rewrite S. rewrite !one_of_no by (intros I; apply N; cbn in *; tauto). cbn [app next_state].
  destruct (N.eqb_spec (N_of_ascii c) 34); [contradiction|reflexivity].
Qed.
Lemma inert_word d t x : Forall inert t -> indent_loop Outside false d (t ++ x) = t ++ indent_loop Outside false d x.
Proof. induction 1 as [|c t C F IH]; [reflexivity|]. cbn [app]. rewrite inert_step by exact C. rewrite IH. reflexivity. Qed.
Lemma need_step d c x : is_space (N_of_ascii c) = false -> ~ In c (b "}]") -> indent_loop Outside true d (c :: x) = fresh_line (S d) ++ indent_loop Outside false (S d) (c :: x).
Proof. intros S N. cbn [indent_loop]. cbv zeta. rewrite S. rewrite (one_of_no c (b "}]")) by exact N. reflexivity. Qed.
Lemma inside_step d t x : gchars t -> indent_loop Inside false d (t ++ x) = t ++ indent_loop Inside false d x.
Proof.
  assert (H : forall c y, c <> quote -> c <> backslash -> indent_loop Inside false d (c :: y) = c :: indent_loop Inside false d y).
  { intros c y Q B. cbn [indent_loop next_state]. destruct (N.eqb_spec (N_of_ascii c) 34) as [E|_]; [exfalso; apply Q; rewrite <- (ascii_N_embedding c), E; reflexivity|].
    destruct (N.eqb_spec (N_of_ascii c) 92) as [E|_]; [exfalso; apply B; rewrite <- (ascii_N_embedding c), E; reflexivity|]. reflexivity. }
  assert (Hx : forall c y, hex_byte c -> indent_loop Inside false d (c :: y) = c :: indent_loop Inside false d y).
  { intros c y (n & Hn). apply H; intros ->; unfold hex_digit in Hn; cbn in Hn; lia. }
  induction 1 as [|c t C Q B G IH|c t I G IH|h1 h2 h3 h4 t H1 H2 H3 H4 G IH]; [reflexivity|..]; cbn [app].
  - rewrite H by assumption. rewrite IH. reflexivity.
  - cbn [indent_loop next_state]. cbn [N.eqb]. change (N_of_ascii backslash =? 34)%N with false. change (N_of_ascii backslash =? 92)%N with true. cbn match. cbn [indent_loop next_state]. rewrite IH. reflexivity.
  - change (indent_loop Inside false d (backslash :: "u"%char :: h1 :: h2 :: h3 :: h4 :: t ++ x)) with (backslash :: "u"%char :: indent_loop Inside false d (h1 :: h2 :: h3 :: h4 :: t ++ x)).
    rewrite !Hx by assumption. rewrite IH. reflexivity.
Qed.
Lemma string_indent d t x : gstring t -> indent_loop Outside false d (t ++ x) = t ++ indent_loop Outside false d x.
Proof.
  intros (y & G & ->). cbn [app]. change (indent_loop Outside false d (quote :: (y ++ [quote]) ++ x)) with (quote :: indent_loop Inside false d ((y ++ [quote]) ++ x)).
  rewrite <- app_assoc, inside_step by exact G. rewrite <- app_assoc. reflexivity.
Qed.
Lemma json_string_gstring s : gstring (json_string s).
Proof. eapply rfc_string, string_ok. Qed.
Lemma num_inert c : num_char c -> inert c.
Proof.
  intros [H|H]; unfold inert, is_space.
  - split; [lia|]. split; [|lia]. intros I. cbn in I. repeat (destruct I as [<-|I]; [cbn in H; lia|]). exact I.
  - cbn in H. repeat (destruct H as [<-|H]; [split; [reflexivity|split; [cbn; intros I; repeat (destruct I as [I|I]; [discriminate I|]); exact I|discriminate]]|]). contradiction.
Qed.
Ltac inert_word := repeat (constructor; [split; [reflexivity|split; [cbn; intros I; repeat (destruct I as [I|I]; [discriminate I|]); exact I|discriminate]]|]); constructor.
Lemma first_byte a : finite a -> exists c y, encode_any a = c :: y /\ is_space (N_of_ascii c) = false /\ ~ In c (b "}]").
Proof.
  intros F. destruct F as [|v|t J|s|l _|l _]; cbn [encode_any].
  - eexists _, _. split; [reflexivity|]. split; [reflexivity|cbn; intuition discriminate].
  - destruct v; eexists _, _; (split; [reflexivity|]); (split; [reflexivity|cbn; intuition discriminate]).
  - destruct (number_chars _ J) as (F & c & y & -> & _). exists c, y. split; [reflexivity|]. inversion F as [|? ? C _]; subst. destruct (num_inert _ C) as (S & N & _). split; [exact S|]. intros I. apply N. cbn in *; tauto.
  - eexists _, _. split; [reflexivity|]. split; [reflexivity|cbn; intuition discriminate].
  - eexists _, _. split; [reflexivity|]. split; [reflexivity|cbn; intuition discriminate].
  - eexists _, _. split; [reflexivity|]. split; [reflexivity|cbn; intuition discriminate].
Qed.
Lemma need_any d a x : finite a -> indent_loop Outside true d (encode_any a ++ x) = fresh_line (S d) ++ indent_loop Outside false (S d) (encode_any a ++ x).
Proof. intros F. destruct (first_byte a F) as (c & y & -> & S & N). cbn [app]. apply need_step; assumption. Qed.
Lemma comma_step d x : indent_loop Outside false d (","%char :: x) = b "," ++ fresh_line d ++ indent_loop Outside false d x. Proof. reflexivity. Qed.
Lemma colon_step d x : indent_loop Outside false d (":"%char :: x) = b ": " ++ indent_loop Outside false d x. Proof. reflexivity. Qed.
Lemma close_step d c x : In c (b "}]") -> indent_loop Outside false (S d) (c :: x) = fresh_line d ++ c :: indent_loop Outside false d x.
Proof. intros I. cbn in I. destruct I as [<-|[<-|[]]]; cbn [indent_loop]; rewrite Nat.sub_0_r || idtac; cbn; rewrite ?Nat.sub_0_r; reflexivity. Qed.
(** Elements after a bracket *)
Lemma items_indent {A} (e : A -> str) (p : nat -> A -> str) d l : l <> [] ->
  (forall a x, In a l -> indent_loop Outside true d (e a ++ x) = fresh_line (S d) ++ indent_loop Outside false (S d) (e a ++ x)) ->
  (forall a x, In a l -> indent_loop Outside false (S d) (e a ++ x) = p (S d) a ++ indent_loop Outside false (S d) x) ->
  forall c x, In c (b "}]") -> indent_loop Outside true d (commas (map e l) ++ c :: x) = separated (map (fun a => fresh_line (S d) ++ p (S d) a) l) ++ fresh_line d ++ c :: indent_loop Outside false d x.
Proof.
  intros NE Hn Hf c x I.
  assert (K : forall l a, (forall a' y, In a' (a :: l) -> indent_loop Outside false (S d) (e a' ++ y) = p (S d) a' ++ indent_loop Outside false (S d) y) ->
    fresh_line (S d) ++ indent_loop Outside false (S d) (commas (map e (a :: l)) ++ c :: x) = separated (map (fun a => fresh_line (S d) ++ p (S d) a) (a :: l)) ++ fresh_line d ++ c :: indent_loop Outside false d x).
  { clear l NE Hn Hf. induction l as [|a' l IH]; intros a H.
    - cbn [map commas separated]. rewrite H by (left; reflexivity). rewrite close_step by exact I. rewrite <- app_assoc. reflexivity.
    - change (commas (map e (a :: a' :: l))) with (e a ++ b "," ++ commas (map e (a' :: l))). rewrite <- !app_assoc. rewrite H by (left; reflexivity).
      change (b "," ++ commas (map e (a' :: l)) ++ c :: x) with (","%char :: commas (map e (a' :: l)) ++ c :: x). rewrite comma_step.
      rewrite IH by (intros; apply H; right; assumption).
      change (separated (map (fun a0 => fresh_line (S d) ++ p (S d) a0) (a :: a' :: l))) with ((fresh_line (S d) ++ p (S d) a) ++ b "," ++ separated (map (fun a0 => fresh_line (S d) ++ p (S d) a0) (a' :: l))).
      rewrite <- !app_assoc. reflexivity. }
  destruct l as [|a l]; [congruence|]. destruct l as [|a' l].
  - cbn [map commas]. rewrite Hn by (left; reflexivity). exact (K [] a Hf).
  - rewrite <- (K (a' :: l) a Hf). change (commas (map e (a :: a' :: l))) with (e a ++ b "," ++ commas (map e (a' :: l))). rewrite <- !app_assoc. apply Hn. left. reflexivity.
Qed.
Lemma need_string d s x y : indent_loop Outside true d ((json_string s ++ x) ++ y) = fresh_line (S d) ++ indent_loop Outside false (S d) ((json_string s ++ x) ++ y).
Proof. unfold json_string, dquote. cbn [app]. apply need_step; [reflexivity|cbn; intuition discriminate]. Qed.
Lemma indent_any a : finite a -> forall d x, indent_loop Outside false d (encode_any a ++ x) = pretty d a ++ indent_loop Outside false d x.
Proof.
  induction a as [|v|t|s|l IH|l IH] using any_ind'; intros F d x.
  - apply inert_word. inert_word.
  - destruct v; apply inert_word; inert_word.
  - apply inert_word. inversion F as [| |? J| | |]; subst. destruct (number_chars _ J) as (C & _). eapply Forall_impl; [|exact C]. apply num_inert.
  - apply string_indent, json_string_gstring.
  - inversion F as [| | | |? Fl|]; subst. destruct l as [|a l]; [reflexivity|]. cbn [encode_any pretty].
    change ((b "[" ++ commas (map encode_any (a :: l)) ++ b "]") ++ x) with ("["%char :: (commas (map encode_any (a :: l)) ++ b "]") ++ x). rewrite <- app_assoc.
    change (indent_loop Outside false d ("["%char :: commas (map encode_any (a :: l)) ++ b "]" ++ x)) with ("["%char :: indent_loop Outside true d (commas (map encode_any (a :: l)) ++ "]"%char :: x)).
    rewrite Forall_forall in IH, Fl. rewrite (items_indent encode_any pretty); [|discriminate| | |cbn; tauto].
    + cbn [app b list_ascii_of_string]. rewrite <- !app_assoc. reflexivity.
    + intros a' y I. apply need_any, Fl, I.
    + intros a' y I. apply IH; auto.
  - inversion F as [| | | | |? Fl]; subst. destruct l as [|m l]; [reflexivity|]. cbn [encode_any pretty].
    set (e := fun m : str * any => json_string (fst m) ++ b ":" ++ encode_any (snd m)). set (p := fun d (m : str * any) => json_string (fst m) ++ b ": " ++ pretty d (snd m)).
    change ((b "{" ++ commas (map e (m :: l)) ++ b "}") ++ x) with ("{"%char :: (commas (map e (m :: l)) ++ b "}") ++ x). rewrite <- app_assoc.
    change (indent_loop Outside false d ("{"%char :: commas (map e (m :: l)) ++ b "}" ++ x)) with ("{"%char :: indent_loop Outside true d (commas (map e (m :: l)) ++ "}"%char :: x)).
    rewrite Forall_forall in IH, Fl. rewrite (items_indent e p); [|discriminate| | |cbn; tauto].
    + cbn [app b list_ascii_of_string]. rewrite <- !app_assoc. reflexivity.
    + intros m' y I. apply need_string.
    + intros m' y I. unfold e, p. rewrite <- !app_assoc. rewrite string_indent by apply json_string_gstring. change (b ":" ++ encode_any (snd m') ++ y) with (":"%char :: encode_any (snd m') ++ y). rewrite colon_step. rewrite IH; auto. 
Qed.
Lemma print_pretty a : finite a -> print a = pretty 0 a ++ eol.
Proof. intros F. unfold print. rewrite <- (app_nil_r (encode_any a)), indent_any by exact F. cbn [indent_loop]. rewrite app_nil_r. reflexivity. Qed.

(** ** Layout *)
Lemma fresh_line_is d : fresh_line d = line_start d.
Proof.
  unfold fresh_line, line_start. change eol with [ascii_of_nat 10]. cbn [app]. f_equal. induction d as [|d IH]; [reflexivity|].
  replace (2 * S d) with (S (S (2 * d))) by lia. cbn [repeat concat]. rewrite IH. reflexivity.
Qed.
Lemma encode_number t : jnumber t -> t <> [].
Proof. intros J ->. destruct (number_chars _ J) as (_ & c & x & E & _). discriminate. Qed.
Lemma pretty_laid a : finite a -> forall d, laid d (any_value a) (pretty d a).
Proof.
  induction a as [|v|t|s|l IH|l IH] using any_ind'; intros F d.
  - constructor.
  - destruct v; constructor.
  - constructor. inversion F; assumption.
  - constructor. apply string_ok.
  - inversion F as [| | | |? Fl|]; subst. destruct l as [|a l]; [exact (la_arr0 d)|]. cbn [any_value pretty].
    replace (separated (map (fun a => fresh_line (S d) ++ pretty (S d) a) (a :: l))) with (separated (map (fun t => line_start (S d) ++ t) (map (pretty (S d)) (a :: l)))) by (rewrite map_map; f_equal; apply map_ext; intros; rewrite fresh_line_is; reflexivity).
    rewrite fresh_line_is. apply la_arr; [discriminate|]. clear F. induction Fl as [|x xs Fx Fl IHl]; [constructor|]. inversion IH; subst. constructor; auto.
  - inversion F as [| | | | |? Fl]; subst. destruct l as [|m l]; [exact (la_obj0 d)|]. cbn [any_value pretty].
    replace (separated (map (fun m => fresh_line (S d) ++ json_string (fst m) ++ b ": " ++ pretty (S d) (snd m)) (m :: l)))
      with (separated (map (fun t => line_start (S d) ++ t) (map (fun m => json_string (fst m) ++ b ": " ++ pretty (S d) (snd m)) (m :: l)))) by (rewrite map_map; f_equal; apply map_ext; intros; rewrite fresh_line_is; reflexivity).
    rewrite fresh_line_is. apply la_obj; [discriminate|]. clear F. induction Fl as [|x xs Fx Fl IHl]; [constructor|]. inversion IH; subst. constructor; auto.
    cbn [fst snd]. eexists _, _. split; [apply string_ok|]. split; [auto|reflexivity].
Qed.
Lemma line_space d : space (line_start d).
Proof. unfold line_start. constructor; [cbn; tauto|]. induction (2 * d); constructor; [cbn; tauto|assumption]. Qed.
(** Such a text is a text of the value. *)
Lemma laid_items d l ts : l <> [] -> Forall2 jtext l ts -> jitems l (separated (map (fun t => line_start (S d) ++ t) ts) ++ line_start d).
Proof.
  intros NE F. induction F as [|v t l ts J F IH]; [congruence|]. destruct F as [|v' t' l ts J' F].
  - cbn [map separated]. rewrite <- app_assoc. apply ji_one; [apply line_space|apply line_space|exact J].
  - change (separated (map (fun t0 => line_start (S d) ++ t0) (t :: t' :: ts))) with ((line_start (S d) ++ t) ++ b "," ++ separated (map (fun t0 => line_start (S d) ++ t0) (t' :: ts))).
    rewrite <- !app_assoc. change (t ++ b "," ++ ?x) with (t ++ [] ++ b "," ++ x). apply ji_more; [apply line_space|apply space_nil|exact J|apply IH; discriminate].
Qed.
Lemma laid_members d l ts : l <> [] -> Forall2 (fun m t => exists kt vt, jstring (fst m) kt /\ jtext (snd m) vt /\ t = kt ++ b ": " ++ vt) l ts -> jmembers l (separated (map (fun t => line_start (S d) ++ t) ts) ++ line_start d).
Proof.
  assert (Sp : space (b " ")) by (constructor; [cbn; tauto|constructor]).
  intros NE F. induction F as [|[k v] t l ts (kt & vt & K & J & ->) F IH]; [congruence|]. cbn [fst snd] in *. destruct F as [|m' t' l ts J' F].
  - cbn [map separated]. rewrite <- !app_assoc. change (kt ++ b ": " ++ vt ++ ?x) with (kt ++ [] ++ b ":" ++ b " " ++ vt ++ x). apply jm_one; auto using line_space, space_nil.
  - change (separated (map (fun t0 => line_start (S d) ++ t0) ((kt ++ b ": " ++ vt) :: t' :: ts))) with ((line_start (S d) ++ kt ++ b ": " ++ vt) ++ b "," ++ separated (map (fun t0 => line_start (S d) ++ t0) (t' :: ts))).
    rewrite <- !app_assoc. change (kt ++ b ": " ++ vt ++ b "," ++ ?x) with (kt ++ [] ++ b ":" ++ b " " ++ vt ++ [] ++ b "," ++ x). apply jm_more; auto using line_space, space_nil. apply IH; discriminate.
Qed.
Lemma laid_text v : forall d t, laid d v t -> jtext v t.
Proof.
  induction v as [|v|t|s|l IH|l IH] using value_ind'; intros d t0 L; inversion L as [| | |? J|? ? J| |? ts NE F| |? ts NE F]; subst; try (constructor; assumption).
  - exact (jt_arr0 [] space_nil).
  - rewrite (app_assoc _ (line_start d)). apply jt_arr, laid_items; [exact NE|]. clear L NE. induction F as [|v t l ts J F IHl]; [constructor|]. inversion IH; subst. constructor; eauto.
  - exact (jt_obj0 [] space_nil).
  - rewrite (app_assoc _ (line_start d)). apply jt_obj, laid_members; [exact NE|]. clear L NE. induction F as [|v t l ts (kt & vt & K & J & E) F IHl]; [constructor|]. inversion IH; subst. constructor; eauto 8.
Qed.
Lemma print_laid a : finite a -> exists t, laid 0 (any_value a) t /\ print a = t ++ eol /\ jdocument (any_value a) (print a).
Proof.
  intros F. exists (pretty 0 a). pose proof (pretty_laid a F 0) as L. rewrite print_pretty by exact F. split; [exact L|]. split; [reflexivity|].
  exists [], (pretty 0 a), eol. split; [constructor|]. split; [constructor; [cbn; tauto|constructor]|]. split; [eapply laid_text, L|reflexivity].
Qed.
(** The compact text *)
Lemma any_items l : l <> [] -> Forall (fun a => jtext (any_value a) (encode_any a)) l -> jitems (map any_value l) (commas (map encode_any l)).
Proof.
  intros NE F. induction F as [|v l J F IH]; [congruence|]. destruct F as [|v' l J' F].
  - cbn [map commas]. pose proof (ji_one [] [] _ _ space_nil space_nil J) as X. cbn [app] in X. rewrite app_nil_r in X. exact X.
  - change (commas (map encode_any (v :: v' :: l))) with ([] ++ encode_any v ++ [] ++ b "," ++ commas (map encode_any (v' :: l))). apply ji_more; [apply space_nil|apply space_nil|exact J|apply IH; discriminate].
Qed.
Lemma any_members (l : list (str * any)) : l <> [] -> Forall (fun m => jtext (any_value (snd m)) (encode_any (snd m))) l ->
  jmembers (map (fun m => (runes_of (fst m), any_value (snd m))) l) (commas (map (fun m => json_string (fst m) ++ b ":" ++ encode_any (snd m)) l)).
Proof.
  intros NE F. induction F as [|v l J F IH]; [congruence|]. destruct F as [|v' l J' F].
  - cbn [map commas]. pose proof (jm_one [] [] [] [] _ _ _ _ space_nil space_nil space_nil space_nil (string_ok (fst v)) J) as X. cbn [app] in X. rewrite app_nil_r in X. exact X.
  - set (e := fun m : str * any => json_string (fst m) ++ b ":" ++ encode_any (snd m)) in *.
    change (commas (map e (v :: v' :: l))) with ((json_string (fst v) ++ b ":" ++ encode_any (snd v)) ++ b "," ++ commas (map e (v' :: l))). rewrite <- !app_assoc.
    change (json_string (fst v) ++ b ":" ++ encode_any (snd v) ++ b "," ++ ?x) with ([] ++ json_string (fst v) ++ [] ++ b ":" ++ [] ++ encode_any (snd v) ++ [] ++ b "," ++ x).
    apply jm_more; auto using space_nil, string_ok. apply IH; discriminate.
Qed.
Lemma encode_any_ok a : finite a -> jtext (any_value a) (encode_any a).
Proof.
  induction a as [|v|t|s|l IH|l IH] using any_ind'; intros F.
  - constructor.
  - destruct v; constructor.
  - constructor. inversion F; assumption.
  - constructor. apply string_ok.
  - inversion F as [| | | |? Fl|]; subst. destruct l as [|a l]; [exact (jt_arr0 [] space_nil)|]. apply jt_arr, any_items; [discriminate|]. rewrite Forall_forall in *. auto.
  - inversion F as [| | | | |? Fl]; subst. destruct l as [|a l]; [exact (jt_obj0 [] space_nil)|]. apply jt_obj, any_members; [discriminate|]. rewrite Forall_forall in *. auto.
Qed.

(** ** Maps *)
Lemma ltb_before x : forall y, str_ltb x y = true <-> bytes_before x y.
Proof.
  induction x as [|c x IH]; intros [|d y]; cbn [str_ltb].
  - split; [discriminate|intros H; inversion H].
  - split; [constructor|reflexivity].
  - split; [discriminate|intros H; inversion H].
  - rewrite orb_true_iff, andb_true_iff, N.ltb_lt, N.eqb_eq, IH. split.
    + intros [H|[E H]]; [apply bb_less, H|]. assert (c = d) by (rewrite <- (ascii_N_embedding c), E; apply ascii_N_embedding). subst. apply bb_same, H.
    + intros H. inversion H; subst; auto.
Qed.
Lemma before_trans x y z : bytes_before x y -> bytes_before y z -> bytes_before x z.
Proof.
  intros H. revert z. induction H as [c y|c d x y L|c x y H IH]; intros z K; inversion K; subst; try constructor; auto; lia.
Qed.
Lemma before_irrefl x : ~ bytes_before x x.
Proof. induction x as [|c x IH]; intros H; inversion H; subst; [lia|auto]. Qed.
Lemma before_total x : forall y, x = y \/ bytes_before x y \/ bytes_before y x.
Proof.
  induction x as [|c x IH]; intros [|d y]; [auto|right; left; constructor|right; right; constructor|].
  destruct (N.lt_trichotomy (N_of_ascii c) (N_of_ascii d)) as [L|[E|L]]; [right; left; apply bb_less, L| |right; right; apply bb_less, L].
  assert (c = d) by (rewrite <- (ascii_N_embedding c), E; apply ascii_N_embedding). subst. destruct (IH y) as [->|[H|H]]; [left; reflexivity|right; left; apply bb_same, H|right; right; apply bb_same, H].
Qed.
Definition in_order {A} (m : list (str * A)) : Prop := StronglySorted (fun x y => bytes_before (fst x) (fst y)) m.
Lemma in_order_key {A} k (v : A) m x : in_order ((k, v) :: m) -> In x m -> bytes_before k (fst x).
Proof. intros H I. inversion H as [|? ? _ F]; subst. rewrite Forall_forall in F. exact (F x I). Qed.
Lemma set_key_in {A} k (v : A) m x : in_order m -> (In x (set_key k v m) <-> x = (k, v) \/ (fst x <> k /\ In x m)).
Proof.
  induction m as [|[k' v'] m IH]; intros O; cbn [set_key In].
  - split; [intros [<-|[]]; auto|intros [->|[_ []]]; auto].
  - assert (O' : in_order m) by (inversion O; assumption). destruct (str_eqb_spec k k') as [<-|NE].
    + cbn [In]. split.
      * intros [<-|I]; [auto|]. right. split; [|auto]. intros E. pose proof (in_order_key _ _ _ _ O I) as H. rewrite E in H. exact (before_irrefl _ H).
      * intros [->|[NE [<-|I]]]; [auto|cbn in NE; congruence|auto].
    + destruct (str_ltb k k') eqn:L.
      * cbn [In]. apply ltb_before in L. split.
        -- intros [<-|[<-|I]]; [auto|right; split; [cbn; congruence|auto]|]. right. split; [|auto]. intros E. pose proof (in_order_key _ _ _ _ O I) as H. rewrite E in H. exact (before_irrefl _ (before_trans _ _ _ L H)).
        -- intros [->|[_ H]]; auto.
      * cbn [In]. rewrite IH by exact O'. split.
        -- intros [<-|[->|[H I]]]; [right; split; [cbn; congruence|auto]|auto|auto].
        -- intros [->|[H [<-|I]]]; auto.
Qed.
Lemma set_key_order {A} k (v : A) m : in_order m -> in_order (set_key k v m).
Proof.
  unfold in_order. induction m as [|[k' v'] m IH]; intros O; cbn [set_key].
  - repeat constructor.
  - inversion O as [|? ? O' F]; subst. destruct (str_eqb_spec k k') as [<-|NE]; [constructor; assumption|]. destruct (str_ltb k k') eqn:L.
    + apply ltb_before in L. constructor; [exact O|]. constructor; [exact L|]. eapply Forall_impl; [|exact F]. cbn [fst]. intros x. apply before_trans, L.
    + assert (G : bytes_before k' k). { destruct (before_total k k') as [E|[H|H]]; [congruence|apply ltb_before in H; congruence|exact H]. }
      constructor; [apply IH, O'|]. rewrite Forall_forall in *. intros x I. apply set_key_in in I; [|exact O']. destruct I as [->|[_ I]]; [exact G|apply F, I].
Qed.
Lemma map_of_snoc {A} (l : list (str * A)) x : map_of (l ++ [x]) = set_key (fst x) (snd x) (map_of l).
Proof. unfold map_of. rewrite fold_left_app. reflexivity. Qed.
Lemma map_of_order {A} (l : list (str * A)) : in_order (map_of l).
Proof. induction l as [|x l IH] using rev_ind; [constructor|]. rewrite map_of_snoc. apply set_key_order, IH. Qed.
Lemma map_of_in {A} (l : list (str * A)) k v : In (k, v) (map_of l) <-> exists l1 l2, l = l1 ++ (k, v) :: l2 /\ ~ In k (map fst l2).
Proof.
  induction l as [|[k' v'] l IH] using rev_ind.
  - split; [intros []|]. intros ([|] & ? & E & _); discriminate.
  - rewrite map_of_snoc, set_key_in by apply map_of_order. cbn [fst snd]. split.
    + intros [E|[NE I]].
      * injection E as -> ->. exists l, []. split; [reflexivity|intros []].
      * apply IH in I. destruct I as (l1 & l2 & -> & N). exists l1, (l2 ++ [(k', v')]). split; [rewrite <- app_assoc; reflexivity|]. rewrite map_app, in_app_iff. cbn [map In fst] in *. intuition congruence.
    + intros (l1 & l2 & E & N). destruct l2 as [|y l2] using rev_ind.
      * apply app_inj_tail in E. destruct E as [_ E]. left. congruence.
      * clear IHl2. rewrite app_comm_cons, app_assoc in E. apply app_inj_tail in E. destruct E as [E <-]. rewrite map_app, in_app_iff in N. cbn [map In fst] in N. right. split; [cbn; intuition congruence|]. apply IH. exists l1, l2. split; [exact E|tauto].
Qed.
Lemma last_named {A} (l : list (str * A)) k : In k (map fst l) -> exists l1 v l2, l = l1 ++ (k, v) :: l2 /\ ~ In k (map fst l2).
Proof.
  induction l as [|[k' v'] l IH] using rev_ind; [intros []|]. rewrite map_app, in_app_iff. cbn [map In fst]. intros I. destruct (str_eqb_spec k' k) as [->|NE].
  - exists l, v', []. split; [reflexivity|intros []].
  - destruct I as [I|[I|[]]]; [|congruence]. destruct (IH I) as (l1 & v & l2 & -> & N). exists l1, v, (l2 ++ [(k', v')]). split; [rewrite <- app_assoc; reflexivity|]. rewrite map_app, in_app_iff. cbn [map In fst]. intuition congruence.
Qed.

(** ** Values of the type interface{} *)
Lemma proper_obj l : proper (VObj l) -> Forall (fun m => Forall (fun r => valid_rune r = true) (fst m) /\ proper (snd m)) l.
Proof. intros P. inversion P; assumption. Qed.
Lemma string_inj k k' : Forall (fun r => valid_rune r = true) k -> Forall (fun r => valid_rune r = true) k' -> string_of k = string_of k' -> k = k'.
Proof. intros V V' E. rewrite <- (runes_string k V), E. apply runes_string, V'. Qed.
Lemma sorted_map {A B} (f : A -> B) (R : A -> A -> Prop) (R' : B -> B -> Prop) l : (forall x y, In x l -> In y l -> R x y -> R' (f x) (f y)) -> StronglySorted R l -> StronglySorted R' (map f l).
Proof.
  intros H S. induction S as [|x l S IH F]; [constructor|]. cbn [map]. constructor; [apply IH; intros; apply H; auto using in_cons|].
  apply Forall_map. rewrite Forall_forall in *. intros y I. apply H; auto using in_eq, in_cons.
Qed.
Lemma as_any_canonical show v : proper v -> canonical show v (any_value (as_any show v)).
Proof.
  induction v as [|v|t|s|l IH|l IH] using value_ind'; intros P; cbn [as_any any_value]; try constructor.
  - rewrite runes_string by (inversion P; assumption). constructor.
  - assert (Pl : Forall proper l) by (inversion P; assumption). clear P. rewrite map_map. induction l as [|x l IHl]; [constructor|]. inversion IH; subst. inversion Pl; subst. constructor; auto.
  - apply proper_obj in P. rewrite Forall_forall in P, IH. set (g := fun m : list rune * value => (string_of (fst m), as_any show (snd m))).
    assert (K : forall x, In x (map_of (map g l)) -> exists k v, In (k, v) l /\ x = (string_of k, as_any show v)).
    { intros [k a] I. apply map_of_in in I. destruct I as (l1 & l2 & E & _). assert (I : In (k, a) (map g l)) by (rewrite E; apply in_or_app; right; left; reflexivity). apply in_map_iff in I. destruct I as ([k' v'] & E' & I). exists k', v'. split; [exact I|]. symmetry. exact E'. }
    eapply sorted_map; [|apply map_of_order]. intros x y Ix Iy B. destruct (K x Ix) as (k & v & I & ->). destruct (K y Iy) as (k' & v' & I' & ->). cbn [fst snd] in *. destruct (P _ I) as [V _]. destruct (P _ I') as [V' _]. rewrite !runes_string by assumption. exact B.
  - apply proper_obj in P. rewrite Forall_forall in P, IH. set (g := fun m : list rune * value => (string_of (fst m), as_any show (snd m))).
    intros k v I. destruct (P _ I) as [V _]. cbn [fst] in V. rewrite map_map. cbn [fst].
    destruct (last_named (map g l) (string_of k)) as (l1 & a & l2 & E & N). { rewrite map_map. apply in_map_iff. exists (k, v). split; [reflexivity|exact I]. }
    apply in_map_iff. exists (string_of k, a). split; [cbn; apply runes_string, V|]. apply map_of_in. eauto.
  - apply proper_obj in P. rewrite Forall_forall in P, IH. set (g := fun m : list rune * value => (string_of (fst m), as_any show (snd m))).
    intros k w I. apply in_map_iff in I. destruct I as ([s a] & E & I). cbn [fst snd] in E. apply map_of_in in I. destruct I as (l1 & l2 & El & N).
    apply map_eq_app in El. destruct El as (m1 & m2 & -> & <- & E2). apply map_eq_cons in E2. destruct E2 as ([k' v'] & m3 & -> & Eg & <-). unfold g in Eg. cbn [fst snd] in Eg. injection Eg as <- <-.
    assert (I : In (k', v') (m1 ++ (k', v') :: m3)) by (apply in_or_app; right; left; reflexivity). destruct (P _ I) as [V Pv]. cbn [fst snd] in *. rewrite runes_string in E by exact V. injection E as <- <-.
    exists m1, v', m3. split; [reflexivity|]. split.
    + intros J. apply N. rewrite map_map. apply in_map_iff in J. destruct J as (y & <- & J). apply in_map_iff. exists y. split; [reflexivity|exact J].
    + apply (IH _ I Pv).
Qed.
Lemma as_any_finite show v : (forall t, UnmarshalSpec.occurs t v -> jnumber (show t)) -> finite (as_any show v).
Proof.
  induction v as [|v|t|s|l IH|l IH] using value_ind'; intros H; cbn [as_any]; constructor.
  - apply H. constructor.
  - apply Forall_map. rewrite Forall_forall in *. intros x I. apply IH; [exact I|]. intros t O. apply H. econstructor; eassumption.
  - rewrite Forall_forall in *. intros [k a] I. apply map_of_in in I. destruct I as (l1 & l2 & E & _). assert (I : In (k, a) (map (fun m : list rune * value => (string_of (fst m), as_any show (snd m))) l)) by (rewrite E; apply in_or_app; right; left; reflexivity).
    apply in_map_iff in I. destruct I as ([k' v'] & E' & I). injection E' as <- <-. cbn [snd]. apply (IH _ I). intros t O. apply H. econstructor; eassumption.
Qed.
Lemma print_value show v : proper v -> (forall t, UnmarshalSpec.occurs t v -> jnumber (show t)) ->
  exists w t, canonical show v w /\ laid 0 w t /\ print (as_any show v) = t ++ eol /\ jdocument w (print (as_any show v)).
Proof.
  intros P F. destruct (print_laid _ (as_any_finite show v F)) as (t & L & E & J). exists (any_value (as_any show v)), t. auto using as_any_canonical.
Qed.
