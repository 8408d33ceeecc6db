(** Lemmas about command line tools and the wrapper. *)
From Coq Require Import ZifyBool ZifyNat ZifyN.
From Verif Require Import GoBase GoSlice Scanner Utf8 Utf8Proofs Url Flags LinkTypes LinkTree LinkSpec LinkMain Frame FrameSpec FrameProofs Emacs Backend Extract Real JsonSpec JsonStr Json JsonProofs
  ReplySpec ReplyProofs CompactProofs Server ServerSpec Tools ToolsSpec.

(** ** burl_tool *)
Lemma gives_bind {A B} (p : hprog A) (f : A -> hprog B) reads r : gives (hbind p f) reads r ->
  exists r1 a r2, reads = r1 ++ r2 /\ gives p r1 a /\ gives (f a) r2 r.
Proof.
  revert reads. induction p as [v| |args k IH|n k IH|k IH]; cbn [hbind]; intros reads H; try (inversion H; fail).
  - exists [], v, reads. split; [reflexivity|]. split; [constructor|exact H].
  - inversion H; subst. destruct (IH _ _ H4) as (r1 & a & r2 & -> & G1 & G2). exists ((n, r0) :: r1), a, r2. split; [reflexivity|]. split; [constructor; exact G1|exact G2].
Qed.
Lemma bind_gives {A B} (p : hprog A) (f : A -> hprog B) r1 a r2 r : gives p r1 a -> gives (f a) r2 r -> gives (hbind p f) (r1 ++ r2) r.
Proof. induction 1; intros G; cbn [hbind app]; [exact G|constructor; auto]. Qed.

Fixpoint answers {A} (p : hprog A) (reads : list (str * rres)) : option A :=
  match p, reads with
  | HRet a, [] => Some a
  | HRead name k, (n, r) :: reads' => if str_eqb n name then answers (k r) reads' else None
  | _, _ => None
  end.
Lemma answers_gives {A} (p : hprog A) : forall reads a, answers p reads = Some a -> gives p reads a.
Proof.
  induction p as [v| |args k IH|n k IH|k IH]; intros reads a H; cbn [answers] in H; try discriminate; destruct reads as [|[m r] reads]; try discriminate.
  - injection H as ->. constructor.
  - destruct (str_eqb_spec m n) as [->|]; [|discriminate]. constructor. apply IH, H.
Qed.

Lemma filter_true {A} (f : A -> bool) l : (forall x, f x = true) -> filter f l = l.
Proof. intros T. induction l as [|x l IH]; [reflexivity|]. cbn [filter]. rewrite T, IH. reflexivity. Qed.
Lemma org_all u c f : (forall l, f l = true) -> forall lines n st, org_lines u c (Some f) n lines st = org_lines u c None n lines st.
Proof.
  intros T. induction lines as [|line lines IH]; intros n st; [reflexivity|]. cbn [org_lines]. unfold filtered. rewrite filter_true by (intros; apply T).
  match goal with |- (let! h := ?x in _) = _ => destruct x as [st1|] end; [|reflexivity]. cbn [obind].
  match goal with |- (let! h := ?x in _) = _ => destruct x end; [apply IH|reflexivity].
Qed.
Lemma txt_all u f : (forall l, f l = true) -> forall lines n h, txt_lines u (Some f) n lines h = txt_lines u None n lines h.
Proof.
  intros T. induction lines as [|line lines IH]; intros n h; [reflexivity|]. cbn [txt_lines]. rewrite filter_true by exact T.
  match goal with |- (let! h := ?x in _) = _ => destruct x end; [apply IH|reflexivity].
Qed.
Lemma real_all u c chunk f k content broken : (forall l, f l = true) -> xtree (real_filtered u c chunk f) k content broken = xtree (real u c chunk) k content broken.
Proof.
  intros T. unfold real_filtered, real. cbn [xtree]. destruct k; unfold OrgExtract, TxtExtract; destruct (scan_lines _ _ _) as [[lines e]|]; try reflexivity.
  - rewrite org_all by exact T. reflexivity.
  - rewrite txt_all by exact T. reflexivity.
Qed.
Lemma file_same x x' src reads r : (forall k content broken, xtree x k content broken = xtree x' k content broken) ->
  gives (ExtractLinksFromFile x src) reads r -> gives (ExtractLinksFromFile x' src) reads r.
Proof.
  intros E H. destruct src as [k name]. cbn [ExtractLinksFromFile] in *. inversion H; subst. constructor. destruct r0 as [|content broken]; [assumption|]. rewrite <- E. assumption.
Qed.
Lemma loop_same x x' srcs : (forall k content broken, xtree x k content broken = xtree x' k content broken) ->
  forall acc reads r, gives (group_loop x srcs acc) reads r -> gives (group_loop x' srcs acc) reads r.
Proof.
  intros E. induction srcs as [|src srcs IH]; intros acc reads r H; cbn [group_loop] in *; [exact H|].
  apply gives_bind in H. destruct H as (r1 & [t err] & r2 & -> & G1 & G2). eapply bind_gives; [eapply file_same; eassumption|]. destruct err; [exact G2|apply IH, G2].
Qed.
Lemma group_same x x' srcs : (forall k content broken, xtree x k content broken = xtree x' k content broken) ->
  forall reads r, gives (ExtractLinksFromFileGroup x srcs) reads r -> gives (ExtractLinksFromFileGroup x' srcs) reads r.
Proof.
  intros E reads r H. unfold ExtractLinksFromFileGroup in *. destruct srcs as [|src srcs]; [exact H|].
  apply gives_bind in H. destruct H as (r1 & [t err] & r2 & -> & G1 & G2). eapply bind_gives; [eapply loop_same; eassumption|exact G2].
Qed.
Lemma group_inner x srcs reads t err : gives (ExtractLinksFromFileGroup x srcs) reads (Some t, err) -> exists ch, t = Inner PFileGroup ch.
Proof.
  unfold ExtractLinksFromFileGroup. destruct srcs as [|src srcs]; [intros H; inversion H|]. intros H. apply gives_bind in H. destruct H as (r1 & [ts e] & r2 & _ & _ & G2).
  inversion G2; subst. destruct ts; [discriminate|]. match goal with H : Some _ = Some _ |- _ => injection H as <- end. eauto.
Qed.
Lemma tool_ignores u c chunk entries order o url url' files : set o = [] ->
  tool_main u c chunk entries order o (url :: files) = tool_main u c chunk entries order o (url' :: files).
Proof. intros E. unfold tool_main. rewrite E. reflexivity. Qed.
Lemma by_name files : Forall2 file_source files (map (fun a => (if has_suffix a (b ".org") then Org else Txt, a)) files).
Proof.
  induction files as [|f files IH]; [constructor|]. cbn [map]. constructor; [|exact IH]. split; [reflexivity|]. cbn [fst]. destruct (has_suffix f (b ".org")) eqn:E.
  - apply has_suffix_iff in E. split; auto.
  - split; [discriminate|]. intros H. apply has_suffix_iff in H. congruence.
Qed.
Lemma sources_ok options files :
  tool_sources options files (AddSourceArgs (match files, options with [], [] => [(Txt, b "-")] | [], s :: l => s :: l | _, _ => options end) files).
Proof.
  unfold AddSourceArgs, tool_sources. destruct files as [|f files], options as [|o options]; try (left; split; [reflexivity|split; reflexivity]); right; (split; [auto with datatypes; (left + right); discriminate|]); eexists; (split; [reflexivity|apply by_name]).
Qed.
Lemma tool_tree u c chunk entries order o url files reads r err : set o = [] ->
  gives (tool_main u c chunk entries order o (url :: files)) reads (OTree (Some r) err) ->
  exists srcs tree, tool_sources (linkSources o) files srcs /\ gives (ExtractLinksFromFileGroup (real u c chunk) srcs) reads (Some tree, err) /\
    (nmatches (fun _ => true) tree * 8 <= maxint -> pruned (reply_node (fun _ => true)) tree r /\ nlinks r <= 8 /\
      (nmatches (fun _ => true) tree <= 8 -> complete (fun _ => true) tree r))%Z.
Proof.
  intros E H. unfold tool_main in H. rewrite E in H.
  apply gives_bind in H. destruct H as (r1 & [g e] & r2 & -> & G1 & G2). destruct g as [tree|]; [|inversion G2].
  eapply group_same in G1; [|intros; apply real_all; reflexivity].
  cbn [orb] in G2. change (fun _ : link => true) with (fun l : link => true) in G2. destruct (limited _ tree 8) as [[c0|]|] eqn:L; inversion G2; subst. rewrite app_nil_r. eexists _, tree. split; [apply sources_ok|]. split; [exact G1|]. intros M.
  destruct (group_inner _ _ _ _ _ G1) as (ch & ->). destruct (root_ok (fun _ => true) PFileGroup ch 8 ltac:(lia) M) as (c' & L' & P & N & _ & C).
  change (limited (fun _ : link => true) (Inner PFileGroup ch) 8 = Some (Done r)) in L. rewrite L in L'. injection L' as <-. split; [exact P|]. split; [exact N|]. intros K. apply C; lia.
Qed.

(** ** burl_client *)
Lemma str_eq_dec (x y : str) : {x = y} + {x <> y}.
Proof. apply list_eq_dec, ascii_dec. Qed.
Lemma index_in x l : In x l -> exists pre post, l = pre ++ x :: post /\ ~ In x pre /\ index x l = length pre.
Proof.
  induction l as [|y l IH]; [contradiction|]. intros I. cbn [index]. destruct (str_eqb_spec y x) as [->|N].
  - exists [], l. auto.
  - destruct I as [I|I]; [congruence|]. destruct (IH I) as (pre & post & -> & Np & E). exists (y :: pre), post. split; [reflexivity|]. split; [intros [?|?]; [congruence|contradiction]|]. cbn. lia.
Qed.
Lemma index_out x l : ~ In x l -> index x l = length l.
Proof. induction l as [|y l IH]; [reflexivity|]. intros N. cbn [index length]. destruct (str_eqb_spec y x) as [->|]; [exfalso; apply N; left; reflexivity|]. rewrite IH; [reflexivity|]. intros I. apply N. right. exact I. Qed.
Inductive split_result : list str -> client -> Prop :=
| sr_nil : split_result [] LUsage
| sr_first x : split_result (b "--" :: x) LPanic
| sr_none cmd args : ~ In (b "--") (cmd :: args) -> split_result (cmd :: args) LUsage
| sr_empty cmd args : ~ In (b "--") (cmd :: args) -> split_result (cmd :: args ++ [b "--"]) LUsage
| sr_start cmd args q qs : ~ In (b "--") (cmd :: args) -> split_result (cmd :: args ++ b "--" :: q :: qs) (LStart cmd args (q :: qs)).
Lemma client_split_ok rest : split_result rest (client_split rest).
Proof.
  destruct rest as [|cmd more]; [constructor|]. destruct (in_dec str_eq_dec (b "--") (cmd :: more)) as [I|N].
  - destruct (index_in _ _ I) as (pre & post & E & Np & Ei). unfold client_split. rewrite Ei. destruct pre as [|x pre]; cbn [app length] in *.
    + injection E as -> ->. constructor.
    + injection E as <- ->. change ["-"%char; "-"%char] with (b "--") in *. destruct (Nat.ltb_spec (S (length pre)) 1); [lia|]. replace (S (length pre) - 1) with (length pre) by lia. rewrite app_length.
      destruct post as [|q qs].
      * match goal with |- context [if ?x then _ else _] => destruct x eqn:Z end; [constructor; exact Np|]. apply Nat.leb_gt in Z. cbn [length] in Z. lia.
      * match goal with |- context [if ?x then _ else _] => destruct x eqn:Z end; [apply Nat.leb_le in Z; cbn [length] in Z; lia|]. clear Z.
        assert (F : firstn (length pre) (pre ++ b "--" :: q :: qs) = pre) by (rewrite firstn_app, Nat.sub_diag, firstn_all, firstn_O, app_nil_r; reflexivity).
        assert (K : skipn (S (length pre) + 1) (cmd :: pre ++ b "--" :: q :: qs) = q :: qs).
        { replace (S (length pre) + 1) with (length (cmd :: pre) + 1) by (cbn [length]; lia). change (cmd :: pre ++ b "--" :: q :: qs) with ((cmd :: pre) ++ b "--" :: q :: qs).
          rewrite skipn_app, skipn_all2 by lia. replace (length (cmd :: pre) + 1 - length (cmd :: pre)) with 1 by lia. reflexivity. }
        rewrite F, K. constructor. exact Np.
  - unfold client_split. rewrite (index_out _ _ N). cbn [length]. destruct (Nat.ltb_spec (S (length more)) 1); [lia|]. destruct (Nat.leb_spec (S (length more) - 1) (S (length more))); [|lia].
    constructor. exact N.
Qed.
Lemma remaining_ok args rest : remaining args rest -> ParseFlags (C := unit) [] args tt = PArgs tt rest.
Proof.
  intros H. inversion H; subst; try reflexivity. destruct s as [|a s]; [reflexivity|]. cbn [ParseFlags].
  destruct a as [[] [] [] [] [] [] [] []]; try reflexivity. exfalso. exact (H0 s eq_refl).
Qed.
Lemma not_remaining args : (forall rest, ~ remaining args rest) -> client_main args = LUsage \/ client_main args = LHelp.
Proof.
  intros N. unfold client_main. destruct args as [|s rest]; [exfalso; eapply N; constructor|].
  assert (D : (forall x, s <> "-"%char :: x) \/ exists x, s = "-"%char :: x).
  { destruct s as [|a s]; [left; discriminate|]. destruct (ascii_dec a "-"%char) as [->|Na]; [eauto|left; congruence]. }
  destruct D as [D|(x & ->)]; [exfalso; eapply N, rem_plain, D|]. destruct x as [|a x]; [exfalso; eapply N, rem_dash|].
  cbn [ParseFlags].
  assert (Z : forall nm, match (match nm with
            | [] => PBad
            | "-"%char :: _ | "="%char :: _ => PBad
            | _ => let '(name, value) := split_value nm in match find_flag (C := unit) name [] with
                | None => if str_eqb name (b "help") || str_eqb name (b "h") then PHelp else PBad
                | Some set => match value, rest with
                    | Some v, _ => match set tt v with Some c' => ParseFlags [] rest c' | None => PBad end
                    | None, v :: rest' => match set tt v with Some c' => ParseFlags [] rest' c' | None => PBad end
                    | None, [] => PBad
                    end
                end
            end) with PArgs _ r => client_split r | PHelp => LHelp | PBad => LUsage end = LUsage \/
            match (match nm with
            | [] => PBad
            | "-"%char :: _ | "="%char :: _ => PBad
            | _ => let '(name, value) := split_value nm in match find_flag (C := unit) name [] with
                | None => if str_eqb name (b "help") || str_eqb name (b "h") then PHelp else PBad
                | Some set => match value, rest with
                    | Some v, _ => match set tt v with Some c' => ParseFlags [] rest c' | None => PBad end
                    | None, v :: rest' => match set tt v with Some c' => ParseFlags [] rest' c' | None => PBad end
                    | None, [] => PBad
                    end
                end
            end) with PArgs _ r => client_split r | PHelp => LHelp | PBad => LUsage end = LHelp).
  { intros nm. destruct nm as [|c nm]; [auto|]. destruct (split_value (c :: nm)) as [n v]. cbn [find_flag].
    destruct (str_eqb n (b "help") || str_eqb n (b "h")); destruct c as [[] [] [] [] [] [] [] []]; auto. }
  destruct (Ascii.eqb a "-") eqn:Ea; [|exact (Z (a :: x))]. apply Ascii.eqb_eq in Ea. subst a. destruct x as [|a x]; [exfalso; eapply N, rem_separator|]. exact (Z (a :: x)).
Qed.
Lemma remaining_dec args : (exists rest, remaining args rest) \/ (forall rest, ~ remaining args rest).
Proof.
  destruct args as [|s rest]; [left; eexists; constructor|]. destruct s as [|a s]; [left; eexists; apply rem_plain; discriminate|].
  destruct (ascii_dec a "-"%char) as [->|Na]; [|left; eexists; apply rem_plain; congruence]. destruct s as [|a s]; [left; eexists; apply rem_dash|].
  destruct (str_eq_dec (a :: s) (b "-")) as [E|N]; [rewrite E; left; eexists; apply rem_separator|]. right. intros rest' H. inversion H as [| | |s0 r0 D]; subst; [apply N; reflexivity|]. eapply D. reflexivity.
Qed.
Lemma split_unique (x : str) : forall p q p' q', p ++ x :: q = p' ++ x :: q' -> ~ In x p -> ~ In x p' -> p = p' /\ q = q'.
Proof.
  induction p as [|y p IH]; intros q p' q' E N N'.
  - destruct p' as [|y' p']; [injection E as ->; auto|]. injection E as E1 E2. exfalso. apply N'. left. symmetry. exact E1.
  - destruct p' as [|y' p']; injection E as E1 E2; [exfalso; apply N; left; exact E1|]. subst y'. destruct (IH _ _ _ E2) as [-> ->]; [intros I; apply N; right; exact I|intros I; apply N'; right; exact I|auto].
Qed.
Lemma client_ok args rest : remaining args rest -> split_result rest (client_main args).
Proof. intros H. unfold client_main. rewrite (remaining_ok _ _ H). apply client_split_ok. Qed.
(** ** Requests of the client *)
Lemma texts l : map value_of (map JStr l) = map text l.
Proof. rewrite map_map. reflexivity. Qed.
Lemma asked pi queries method v0 : client_asks pi queries method v0 ->
  exists query, subcommand pi queries = CCall method query /\ client_asks pi queries method (value_of query).
Proof.
  intros H. inversion H as [urls|prefixes|uri|path|path line n t Pn Nn]; subst.
  - eexists. split; [reflexivity|]. cbn [value_of map fst snd]. rewrite texts. constructor.
  - eexists. split; [reflexivity|]. cbn [value_of map fst snd]. rewrite texts. constructor.
  - eexists. split; [reflexivity|constructor].
  - eexists. split; [reflexivity|constructor].
  - exists (JObj [(b "file", JStr path); (b "lineNo", JInt n)]). split; [cbn; rewrite Pn; reflexivity|].
    exact (ca_visit_line pi path line n (integer n) Pn (number_ok n)).
Qed.
Lemma asked_document pi queries method v0 id : client_asks pi queries method v0 ->
  exists query v, subcommand pi queries = CCall method query /\ client_asks pi queries method v /\
    jdocument (VObj [(name (b "method"), text method); (name (b "params"), VArr [v]); (name (b "id"), value_of (JInt id))]) (client_request method query id).
Proof.
  intros H. destruct (asked _ _ _ _ H) as (query & E & A). exists query, (value_of query). split; [exact E|]. split; [exact A|].
  unfold client_request. eexists [], (encode _), eol. split; [constructor|]. split; [constructor; [cbn; tauto|constructor]|]. split; [|reflexivity].
  exact (encode_ok (JObj [(b "method", JStr method); (b "params", JArr [query]); (b "id", JInt id)])).
Qed.
Lemma asked_number pi queries method v0 id : client_asks pi queries method v0 ->
  exists query v n, subcommand pi queries = CCall method query /\ client_asks pi queries method v /\ number id n /\
    jdocument (VObj [(name (b "method"), text method); (name (b "params"), VArr [v]); (name (b "id"), n)]) (client_request method query id).
Proof. intros H. destruct (asked_document _ _ _ _ id H) as (query & v & E & A & J). exists query, v, (value_of (JInt id)). split; [exact E|]. split; [exact A|]. split; [apply number_ok|exact J]. Qed.
Lemma asked_served pi queries method v : client_asks pi queries method v -> exists m, serves method m.
Proof.
  intros H. inversion H; subst; [exists MUrlMentions, [b "burl.urlMentions"; b "linkremark.urlMentions"]|exists MLinkSet, [b "burl.linkSet"; b "linkremark.linkSet"]
    |exists MCapture, [b "capture"; b "burl.capture"; b "linkremark.capture"]|exists MVisit, [b "burl.visit"; b "linkremark.visit"]..]; split; cbn; tauto.
Qed.

(** ** The wrapper *)
Lemma hex_small n : (n < 256)%N -> hex_of n = if (n <? 16)%N then [n] else [(n / 16)%N; (n mod 16)%N].
Proof.
  intros L. unfold hex_of. cbn [hex_loop]. destruct (N.ltb_spec n 16) as [|G]; [reflexivity|].
  assert (4 <= N.log2 n)%N by (change 4%N with (N.log2 16); apply N.log2_le_mono; exact G).
  destruct (N.to_nat (N.log2 n)) as [|f] eqn:E; [lia|]. cbn [hex_loop].
  assert (n / 16 < 16)%N by (apply N.div_lt_upper_bound; lia). destruct (N.ltb_spec (n / 16) 16); [reflexivity|lia].
Qed.
Lemma hex_acc fuel : forall n acc, length acc <= length (hex_loop fuel n acc).
Proof. induction fuel as [|f IH]; intros n acc; cbn [hex_loop]; [lia|]. destruct (n <? 16)%N; [cbn; lia|]. specialize (IH (n / 16)%N ((n mod 16)%N :: acc)). cbn [length] in IH. lia. Qed.
Lemma hex_big n : (256 <= n)%N -> 3 <= length (hex_of n).
Proof.
  intros G. unfold hex_of. assert (8 <= N.log2 n)%N by (change 8%N with (N.log2 256); apply N.log2_le_mono; exact G).
  destruct (N.to_nat (N.log2 n)) as [|[|f]] eqn:E; try lia. cbn [hex_loop]. destruct (N.ltb_spec n 16); [lia|].
  assert (16 <= n / 16)%N by (apply N.div_le_lower_bound; lia). destruct (N.ltb_spec (n / 16) 16); [lia|].
  destruct (N.ltb_spec (n / 16 / 16) 16); [cbn; lia|]. pose proof (hex_acc f (n / 16 / 16 / 16)%N [(n / 16 / 16) mod 16; (n / 16) mod 16; n mod 16]%N). cbn [length] in *. lia.
Qed.
Lemma wrapper_small n : (n < 256)%N -> is_header (wrapper_header n) n.
Proof.
  intros L. exists (ascii_of_N n), (ascii_of_N 0), (ascii_of_N 0), (ascii_of_N 0). split.
  - unfold wrapper_header. rewrite hex_small by exact L. destruct (N.ltb_spec n 16); [reflexivity|]. cbn [map app repeat].
    pose proof (N.div_mod n 16). f_equal. f_equal. lia.
  - unfold byte_value. rewrite !N_ascii_embedding by lia. lia.
Qed.
Lemma wrapper_big n : (256 <= n)%N -> length (wrapper_header n) <> 4.
Proof.
  intros G. pose proof (hex_big n G) as L. unfold wrapper_header. destruct (hex_of n) as [|d1 [|d2 [|d3 l]]]; cbn [length] in L; try lia. rewrite app_length, repeat_length. cbn [length map]. lia.
Qed.
Lemma header_value h n m : is_header h n -> is_header h m -> n = m.
Proof. intros (a & b0 & c & d & -> & ->) (a' & b' & c' & d' & E & ->). injection E as -> -> -> ->. reflexivity. Qed.
Lemma wrapper_frame size exe :
  is_frame (wrapper_output size exe) (wrapper_error exe) <->
  size (wrapper_error exe) = N.of_nat (length (wrapper_error exe)) /\ length (wrapper_error exe) <= 255.
Proof.
  unfold wrapper_output. set (err := wrapper_error exe). split.
  - intros (h & Hh & E). assert (Lh : length (wrapper_header (size err)) = 4). { apply (f_equal (@length ascii)) in E. rewrite !app_length in E. pose proof (header_length _ _ Hh). lia. }
    destruct (N.lt_ge_cases (size err) 256) as [L|G]; [|apply wrapper_big in G; contradiction].
    assert (Eh : wrapper_header (size err) = h) by (apply app_inv_tail in E; exact E).
    pose proof (wrapper_small _ L) as W. rewrite Eh in W. pose proof (header_value _ _ _ W Hh). split; [assumption|lia].
  - intros [E L]. exists (wrapper_header (size err)). split; [|reflexivity]. rewrite <- E. apply wrapper_small. lia.
Qed.
Lemma tr_app s t : tr (s ++ t) = tr s ++ tr t. Proof. apply map_app. Qed.
Lemma chomp_none s : Forall (fun c => c <> ascii_of_N 10) s -> chomp s = s.
Proof. induction 1 as [|c s N F IH]; [reflexivity|]. cbn [chomp]. rewrite IH. destruct s; [|reflexivity]. destruct (Ascii.eqb_spec c (ascii_of_N 10)); [contradiction|reflexivity]. Qed.
Lemma tr_high t : Forall (fun c => 128 <= N_of_ascii c)%N t -> tr t = t.
Proof.
  induction 1 as [|c t L F IH]; [reflexivity|]. unfold tr in *. cbn [map]. rewrite IH.
  destruct (Ascii.eqb_spec c (ascii_of_N 92)) as [->|]; [cbn in L; lia|]. destruct (Ascii.eqb_spec c (ascii_of_N 34)) as [->|]; [cbn in L; lia|]. reflexivity.
Qed.
Lemma tr_utf8 r : valid_rune r = true -> (32 <= r)%N -> tr (utf8 r) = utf8 (shown_char r) /\ Forall (fun c => c <> ascii_of_N 10) (tr (utf8 r)).
Proof.
  intros V L. destruct (N.lt_ge_cases r 128) as [S|G].
  - assert (E : utf8 r = [ascii_of_N r]). { unfold utf8, encode1. destruct (N.ltb_spec r 128); [reflexivity|lia]. } rewrite E. unfold shown_char, tr. cbn [map].
    assert (Q : forall k, (k < 128)%N -> Ascii.eqb (ascii_of_N r) (ascii_of_N k) = (r =? k)%N).
    { intros k K. destruct (N.eqb_spec r k) as [->|Ne]; [apply Ascii.eqb_refl|]. apply Ascii.eqb_neq. intros Ea. apply (f_equal N_of_ascii) in Ea. rewrite !N_ascii_embedding in Ea by lia. contradiction. }
    rewrite !Q by lia. destruct (N.eqb_spec r 92) as [->|]; [split; [reflexivity|repeat constructor; discriminate]|]. destruct (N.eqb_spec r 34) as [->|]; [split; [reflexivity|repeat constructor; discriminate]|].
    split; [symmetry; exact E|]. repeat constructor. intros Ea. apply (f_equal N_of_ascii) in Ea. rewrite !N_ascii_embedding in Ea by lia. lia.
  - destruct (utf8_bytes r V G) as (c & t & E & Lc & Ft & _). assert (F : Forall (fun c => 128 <= N_of_ascii c)%N (utf8 r)). { rewrite E. constructor; [exact Lc|]. eapply Forall_impl; [|exact Ft]. cbn. lia. }
    rewrite tr_high by exact F. split.
    + unfold shown_char. destruct (N.eqb_spec r 92); [lia|]. destruct (N.eqb_spec r 34); [lia|]. reflexivity.
    + eapply Forall_impl; [|exact F]. cbn. intros a La ->. cbn in La. lia.
Qed.
Lemma jchars_app r1 t1 r2 t2 : jchars r1 t1 -> jchars r2 t2 -> jchars (r1 ++ r2) (t1 ++ t2).
Proof.
  induction 1; intros J; cbn [app]; [exact J|..].
  - rewrite <- app_assoc. apply jc_plain; auto.
  - apply jc_escape; auto.
  - rewrite <- app_assoc. apply jc_code; auto.
  - rewrite <- !app_assoc. cbn [app]. rewrite <- app_assoc. apply jc_pair; auto.
Qed.
Lemma path_chars rs : Forall (fun r => valid_rune r = true /\ (32 <= r)%N) rs ->
  jchars (map shown_char rs) (chomp (tr (flat_map utf8 rs))) /\ Forall (fun c => c <> ascii_of_N 10) (tr (flat_map utf8 rs)).
Proof.
  intros F. assert (Z : jchars (map shown_char rs) (tr (flat_map utf8 rs)) /\ Forall (fun c => c <> ascii_of_N 10) (tr (flat_map utf8 rs))).
  { induction F as [|r rs [V L] F [IH1 IH2]]; [split; constructor|]. cbn [flat_map map]. rewrite tr_app. destruct (tr_utf8 r V L) as [E N]. split; [|apply Forall_app; auto]. rewrite E.
    assert (shown_char r <> 34 /\ shown_char r <> 92 /\ 32 <= shown_char r)%N as (A & B & C).
    { unfold shown_char. destruct (N.eqb_spec r 92); [lia|]. destruct (N.eqb_spec r 34); lia. }
    apply jc_plain; auto. unfold shown_char. destruct (N.eqb_spec r 92); [reflexivity|]. destruct (N.eqb_spec r 34); [reflexivity|exact V]. }
  destruct Z as [J N]. split; [|exact N]. rewrite chomp_none by exact N. exact J.
Qed.
Lemma plain_ascii s : Forall (fun c => 32 <= N_of_ascii c < 128 /\ N_of_ascii c <> 34 /\ N_of_ascii c <> 92)%N s -> jchars (runes_of s) s.
Proof.
  intros F. rewrite runes_ascii by (eapply Forall_impl; [|exact F]; cbn; lia). induction F as [|c s (L & Q & B) F IH]; [constructor|].
  assert (E : utf8 (N_of_ascii c) = [c]). { unfold utf8, encode1. destruct (N.ltb_spec (N_of_ascii c) 128); [|lia]. cbn [strN map]. rewrite ascii_N_embedding. reflexivity. }
  change (c :: s) with ([c] ++ s). rewrite <- E at 2. cbn [bytesN map]. apply jc_plain; auto; [|lia]. unfold valid_rune. rewrite orb_true_iff. left. apply N.ltb_lt. lia.
Qed.
Lemma chomp_lines s n : Forall (fun c => c <> ascii_of_N 10) s -> chomp (s ++ repeat (ascii_of_N 10) n) = s.
Proof.
  induction 1 as [|c s N F IH].
  - cbn [app]. induction n as [|n IH]; [reflexivity|]. cbn [repeat chomp]. rewrite IH. reflexivity.
  - cbn [app chomp]. rewrite IH. destruct s; [|reflexivity]. destruct (Ascii.eqb_spec c (ascii_of_N 10)); [contradiction|reflexivity].
Qed.
Lemma tr_lines n : tr (repeat (ascii_of_N 10) n) = repeat (ascii_of_N 10) n.
Proof. unfold tr. induction n as [|n IH]; [reflexivity|]. cbn [repeat map]. rewrite IH. reflexivity. Qed.
Lemma wrapper_lines rs n : Forall (fun r => valid_rune r = true /\ (32 <= r)%N) rs ->
  wrapper_error (flat_map utf8 rs ++ repeat (ascii_of_N 10) n) = wrapper_error (flat_map utf8 rs).
Proof.
  intros F. destruct (path_chars rs F) as [_ N]. unfold wrapper_error. rewrite tr_app, tr_lines, chomp_lines, chomp_none by exact N. reflexivity.
Qed.
Lemma wrapper_json rs : Forall (fun r => valid_rune r = true /\ (32 <= r)%N) rs ->
  jdocument (VObj [(name (b "error"), VStr (map shown_char rs ++ name (b ": file not found or not executable")))]) (wrapper_error (flat_map utf8 rs)).
Proof.
  intros F. destruct (path_chars rs F) as [J _]. exists [], (wrapper_error (flat_map utf8 rs)), []. split; [constructor|]. split; [constructor|]. split; [|rewrite app_nil_r; reflexivity].
  assert (P : forall s, forallb (fun c => (32 <=? N_of_ascii c) && (N_of_ascii c <? 128) && negb (N_of_ascii c =? 34) && negb (N_of_ascii c =? 92))%N s = true -> jchars (name s) s).
  { intros s H. apply plain_ascii. rewrite forallb_forall in H. apply Forall_forall. intros c I. specialize (H c I). cbn in H. lia. }
  pose proof (jchars_app _ _ _ _ J (P (b ": file not found or not executable") eq_refl)) as J2.
  pose proof (P (b "error") eq_refl) as J1.
  assert (Js1 : jstring (name (b "error")) (quote :: b "error" ++ [quote])) by (eexists; split; [exact J1|reflexivity]).
  match type of J2 with jchars ?r ?t => assert (Js2 : jstring r (quote :: t ++ [quote])) by (eexists; split; [exact J2|reflexivity]) end.
  pose proof (jm_one [] [] [ascii_of_N 32] [] _ _ _ _ ltac:(constructor) ltac:(constructor) ltac:(constructor; [cbn; tauto|constructor]) ltac:(constructor) Js1 (jt_str _ _ Js2)) as M.
  apply jt_obj in M.
  match goal with |- jtext ?v ?t => match type of M with jtext ?v' ?t' => cut (t = t'); [intros E; rewrite E; exact M|] end end.
  unfold wrapper_error. generalize (chomp (tr (flat_map utf8 rs))). intros x. cbn [app b list_ascii_of_string]. rewrite !app_nil_r, <- !app_assoc. reflexivity.
Qed.
Lemma wrapper_json_lines rs n : Forall (fun r => valid_rune r = true /\ (32 <= r)%N) rs ->
  jdocument (VObj [(name (b "error"), VStr (map shown_char rs ++ name (b ": file not found or not executable")))]) (wrapper_error (flat_map utf8 rs ++ repeat (ascii_of_N 10) n)).
Proof. intros F. rewrite wrapper_lines by exact F. exact (wrapper_json rs F). Qed.

(** ** Exact results of the client *)
Lemma client_starts args cmd bargs qs : client_main args = LStart cmd bargs qs <->
  (qs <> [] /\ ~ In (b "--") (cmd :: bargs) /\ remaining args (cmd :: bargs ++ b "--" :: qs)).
Proof.
  split.
  - intros E. destruct (remaining_dec args) as [(rest & R)|N].
    + pose proof (client_ok _ _ R) as S. rewrite E in S. inversion S; subst. split; [discriminate|]. split; assumption.
    + destruct (not_remaining _ N) as [Z|Z]; congruence.
  - intros (Q & N & R). pose proof (client_ok _ _ R) as S. remember (cmd :: bargs ++ b "--" :: qs) as rest eqn:Er. remember (client_main args) as res eqn:Em. clear Em.
    destruct S as [|x|cmd' args' N'|cmd' args' N'|cmd' args' q qs' N'].
    + discriminate.
    + injection Er as Ec _. exfalso. apply N. left. symmetry. exact Ec.
    + injection Er as -> ->. exfalso. apply N'. right. apply in_or_app. right. left. reflexivity.
    + injection Er as -> Er. apply (split_unique (b "--")) in Er; [|intros I; apply N'; right; exact I|intros I; apply N; right; exact I]. destruct Er as [-> Er]. congruence.
    + injection Er as -> Er. apply (split_unique (b "--")) in Er; [|intros I; apply N'; right; exact I|intros I; apply N; right; exact I]. destruct Er as [-> <-]. reflexivity.
Qed.
Lemma client_panics args : client_main args = LPanic <-> exists rest, remaining args (b "--" :: rest).
Proof.
  split.
  - intros E. destruct (remaining_dec args) as [(rest & R)|N].
    + pose proof (client_ok _ _ R) as S. rewrite E in S. inversion S; subst. eauto.
    + destruct (not_remaining _ N) as [Z|Z]; congruence.
  - intros (rest & R). unfold client_main. rewrite (remaining_ok _ _ R). reflexivity.
Qed.
