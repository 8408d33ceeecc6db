(** Lemmas about output of burl_tool and manifests as JSON documents. *)
From Coq Require Import Permutation ZifyBool ZifyNat ZifyN.
From Verif Require Import GoBase Path FileSys FileUtil FileSpec Manifest Install InstallSpec GoSlice Scanner ScannerSpec Utf8 Utf8Proofs Utf8Dec Url Flags LinkTypes LinkTree LinkSpec LinkMain FrameSpec Emacs Backend BackendSpec Extract ExtractSpec SetSpec Real RealProofs
  JsonSpec JsonStr Json JsonProofs Compact ReplyJson ReplySpec ReplyProofs ReplyMain Tools ToolsSpec ToolsProofs Print PrintSpec PrintProofs Output OutputSpec.

(** ** Command line *)
Definition flag_case (rest : list str) (o : tool_options) (nm : str) : parsed tool_options :=
  match nm with
  | [] => PBad
  | "-"%char :: _ | "="%char :: _ => PBad
  | _ =>
      let '(name, value) := split_value nm in
      match find_flag name tool_flags with
      | None => if str_eqb name (b "help") || str_eqb name (b "h") then PHelp else PBad
      | Some set =>
          match value, rest with
          | Some v, _ => match set o v with Some c' => ParseFlags tool_flags rest c' | None => PBad end
          | None, v :: rest' => match set o v with Some c' => ParseFlags tool_flags rest' c' | None => PBad end
          | None, [] => PBad
          end
      end
  end.
Lemma parse_flag a s rest o : ParseFlags tool_flags (("-"%char :: a :: s) :: rest) o =
  if Ascii.eqb a "-" then match s with [] => PArgs o rest | _ => flag_case rest o s end else flag_case rest o (a :: s).
Proof. reflexivity. Qed.
Lemma cut_value_spec s : (cut_value s = (s, None)) \/ exists n v, cut_value s = (n, Some v) /\ s = n ++ b "=" ++ v.
Proof.
  induction s as [|a s IH]; [left; reflexivity|]. destruct (ascii_dec a "="%char) as [->|N]; [right; exists [], s; split; reflexivity|].
  assert (E : cut_value (a :: s) = let '(n, v) := cut_value s in (a :: n, v)) by (destruct a as [[] [] [] [] [] [] [] []]; reflexivity || (exfalso; apply N; reflexivity)).
  rewrite E. destruct IH as [->|(n & v & -> & ->)]; [left; reflexivity|right; exists (a :: n), v; split; reflexivity].
Qed.
Lemma split_value_spec s : split_value s = (s, None) \/ exists n v, split_value s = (n, Some v) /\ s = n ++ b "=" ++ v.
Proof. destruct s as [|a s]; [left; reflexivity|]. cbn [split_value]. destruct (cut_value_spec s) as [->|(n & v & -> & ->)]; [left; reflexivity|right; exists (a :: n), v; split; reflexivity]. Qed.
Lemma cut_value_eq n v : ~ In "="%char n -> cut_value (n ++ b "=" ++ v) = (n, Some v).
Proof.
  induction n as [|a n IH]; intros N; [reflexivity|]. change ((a :: n) ++ b "=" ++ v) with (a :: (n ++ b "=" ++ v)).
  assert (E : cut_value (a :: (n ++ b "=" ++ v)) = let '(n, v) := cut_value (n ++ b "=" ++ v) in (a :: n, v)).
  { assert (Na : a <> "="%char) by (intros ->; apply N; left; reflexivity). destruct a as [[] [] [] [] [] [] [] []]; reflexivity || (exfalso; apply Na; reflexivity). }
  rewrite E, IH by (intros I; apply N; right; exact I). reflexivity.
Qed.
Definition add_option (name value : str) (o : tool_options) : tool_options :=
  if str_eqb name (b "set") then mkTool (linkSources o) (set o ++ [value])
  else mkTool (linkSources o ++ [(if str_eqb name (b "org") then Org else Txt, value)]) (set o).
Lemma option_parsed name value w more o : In name [b "txt"; b "org"; b "set"] -> option_words name value w ->
  ParseFlags tool_flags (w ++ more) o = ParseFlags tool_flags more (add_option name value o).
Proof.
  intros I (d & D & W). cbn in I. destruct D as [-> | ->]; destruct W as [-> | ->]; destruct I as [<-|[<-|[<-|[]]]]; reflexivity.
Qed.
Lemma words_parsed ws files prefixes : tool_words ws files prefixes -> forall more o,
  ParseFlags tool_flags (ws ++ more) o = ParseFlags tool_flags more (mkTool (linkSources o ++ files) (set o ++ prefixes)).
Proof.
  induction 1 as [|v w ws files prefixes O W IH|v w ws files prefixes O W IH|v w ws files prefixes O W IH]; intros more o.
  - cbn [app]. rewrite !app_nil_r. destruct o; reflexivity.
  - rewrite <- app_assoc, (option_parsed (b "txt") v w) by (cbn; tauto || exact O). rewrite IH. unfold add_option. cbn. rewrite <- app_assoc. reflexivity.
  - rewrite <- app_assoc, (option_parsed (b "org") v w) by (cbn; tauto || exact O). rewrite IH. unfold add_option. cbn. rewrite <- app_assoc. reflexivity.
  - rewrite <- app_assoc, (option_parsed (b "set") v w) by (cbn; tauto || exact O). rewrite IH. unfold add_option. cbn. rewrite <- app_assoc. reflexivity.
Qed.
Lemma remaining_flags more rest o : remaining more rest -> ParseFlags tool_flags more o = PArgs o rest.
Proof.
  intros H. inversion H; subst; try reflexivity. destruct s as [|a s]; [reflexivity|]. cbn [ParseFlags].
  destruct a as [[] [] [] [] [] [] [] []]; try reflexivity. exfalso. exact (H0 s eq_refl).
Qed.
Lemma help_parsed h more o : help_word h -> ParseFlags tool_flags (h :: more) o = PHelp.
Proof. intros (d & n & D & N & W). destruct D as [-> | ->]; destruct N as [-> | ->]; destruct W as [-> | (v & ->)]; reflexivity. Qed.
Lemma words_line w ws files prefixes rest : forall k v, option_words (Flag k) v w -> tool_line ws files prefixes rest -> tool_line (w ++ ws) ((k, v) :: files) prefixes rest.
Proof.
  intros k v O (ws1 & more & -> & W & R). exists (w ++ ws1), more. split; [apply app_assoc|]. split; [|exact R]. destruct k; constructor; assumption.
Qed.
Lemma words_line_set w ws files prefixes rest v : option_words (b "set") v w -> tool_line ws files prefixes rest -> tool_line (w ++ ws) files (v :: prefixes) rest.
Proof.
  intros O (ws1 & more & -> & W & R). exists (w ++ ws1), more. split; [apply app_assoc|]. split; [|exact R]. constructor; assumption.
Qed.
Lemma words_help w ws : forall name v, In name [b "txt"; b "org"; b "set"] -> option_words name v w -> tool_help ws -> tool_help (w ++ ws).
Proof.
  intros name v I O (ws1 & files & prefixes & h & more & -> & W & H). cbn in I. destruct I as [<-|[<-|[<-|[]]]].
  - exists (w ++ ws1), ((Txt, v) :: files), prefixes, h, more. split; [apply app_assoc|]. split; [constructor; assumption|exact H].
  - exists (w ++ ws1), ((Org, v) :: files), prefixes, h, more. split; [apply app_assoc|]. split; [constructor; assumption|exact H].
  - exists (w ++ ws1), files, (v :: prefixes), h, more. split; [apply app_assoc|]. split; [constructor; assumption|exact H].
Qed.
Inductive line_class (args : list str) : Prop :=
| lc_args files prefixes rest : tool_line args files prefixes rest -> line_class args
| lc_help : tool_help args -> line_class args
| lc_bad : (forall o, ParseFlags tool_flags args o = PBad) -> line_class args.
Lemma option_class name value w ws : In name [b "txt"; b "org"; b "set"] -> option_words name value w -> line_class ws -> line_class (w ++ ws).
Proof.
  intros I O [files prefixes rest L|H|B].
  - pose proof I as I'. cbn in I'. destruct I' as [<-|[<-|[<-|[]]]]; [eapply lc_args, (words_line _ _ _ _ _ Txt)|eapply lc_args, (words_line _ _ _ _ _ Org)|eapply lc_args, words_line_set]; eassumption.
  - apply lc_help. eapply words_help; eassumption.
  - apply lc_bad. intros o. rewrite (option_parsed _ _ _ _ _ I O). apply B.
Qed.
Lemma find_flag_spec n : (exists set, find_flag n tool_flags = Some set /\ In n [b "txt"; b "org"; b "set"]) \/ (find_flag n tool_flags = None /\ ~ In n [b "txt"; b "org"; b "set"]).
Proof.
  unfold tool_flags. cbn [find_flag]. destruct (str_eqb_spec (b "txt") n) as [<-|N1]; [left; eexists; split; [reflexivity|cbn; auto]|].
  destruct (str_eqb_spec (b "org") n) as [<-|N2]; [left; eexists; split; [reflexivity|cbn; auto]|].
  destruct (str_eqb_spec (b "set") n) as [<-|N3]; [left; eexists; split; [reflexivity|cbn; auto]|].
  right. split; [reflexivity|]. intros [I|[I|[I|[]]]]; congruence.
Qed.
Lemma flag_class d nm rest : dashes d -> nm <> [] -> (d = b "-" -> forall x, nm <> "-"%char :: x) ->
  (forall o, ParseFlags tool_flags ((d ++ nm) :: rest) o = flag_case rest o nm) ->
  (forall ws, length ws <= length rest -> line_class ws) -> line_class ((d ++ nm) :: rest).
Proof.
  intros D NE ND P IH.
  destruct nm as [|a nm']; [congruence|]. destruct (ascii_dec a "-"%char) as [->|Na1]; [apply lc_bad; intros o; rewrite P; reflexivity|].
  destruct (ascii_dec a "="%char) as [->|Na2]; [apply lc_bad; intros o; rewrite P; reflexivity|].
  assert (Q : forall o, flag_case rest o (a :: nm') = let '(name, value) := split_value (a :: nm') in
      match find_flag name tool_flags with
      | None => if str_eqb name (b "help") || str_eqb name (b "h") then PHelp else PBad
      | Some set =>
          match value, rest with
          | Some v, _ => match set o v with Some c' => ParseFlags tool_flags rest c' | None => PBad end
          | None, v :: rest' => match set o v with Some c' => ParseFlags tool_flags rest' c' | None => PBad end
          | None, [] => PBad
          end
      end).
  { intros o. destruct a as [[] [] [] [] [] [] [] []]; try reflexivity; (exfalso; (apply Na1; reflexivity) || (apply Na2; reflexivity)). }
  set (nm := a :: nm') in *. destruct (split_value_spec nm) as [E|(n & v & E & En)].
  - destruct (find_flag_spec nm) as [(st & F & I)|(F & I)].
    + destruct rest as [|v rest]; [apply lc_bad; intros o; rewrite P, Q, E, F; reflexivity|].
      change ((d ++ nm) :: v :: rest) with ([d ++ nm; v] ++ rest). apply (option_class nm v); [exact I|exists d; auto|apply IH; apply le_S, le_n].
    + destruct (str_eqb_spec nm (b "help")) as [Eh|Nh]; [apply lc_help; exists [], [], [], (d ++ nm), rest; split; [reflexivity|]; split; [constructor|]; exists d, nm; auto|].
      destruct (str_eqb_spec nm (b "h")) as [Eh|Nh']; [apply lc_help; exists [], [], [], (d ++ nm), rest; split; [reflexivity|]; split; [constructor|]; exists d, nm; auto|].
      apply lc_bad. intros o. rewrite P, Q, E, F. destruct (str_eqb_spec nm (b "help")); [contradiction|]. destruct (str_eqb_spec nm (b "h")); [contradiction|]. reflexivity.
  - rewrite En in *. destruct (find_flag_spec n) as [(st & F & I)|(F & I)].
    + change ((d ++ n ++ b "=" ++ v) :: rest) with ([d ++ n ++ b "=" ++ v] ++ rest). apply (option_class n v); [exact I|exists d; auto|apply IH, le_n].
    + destruct (str_eqb_spec n (b "help")) as [Eh|Nh]; [apply lc_help; exists [], [], [], (d ++ n ++ b "=" ++ v), rest; split; [reflexivity|]; split; [constructor|]; exists d, n; eauto 6|].
      destruct (str_eqb_spec n (b "h")) as [Eh|Nh']; [apply lc_help; exists [], [], [], (d ++ n ++ b "=" ++ v), rest; split; [reflexivity|]; split; [constructor|]; exists d, n; eauto 6|].
      apply lc_bad. intros o. rewrite P, Q, E, F. destruct (str_eqb_spec n (b "help")); [contradiction|]. destruct (str_eqb_spec n (b "h")); [contradiction|]. reflexivity.
Qed.
Lemma args_class : forall k args, length args <= k -> line_class args.
Proof.
  induction k as [|k IH]; intros args L.
  - destruct args; [|cbn in L; lia]. eapply lc_args. exists [], []. split; [reflexivity|]. split; constructor.
  - destruct args as [|s rest]; [eapply lc_args; exists [], []; split; [reflexivity|]; split; constructor|]. cbn [length] in L.
    assert (Rem : forall rest', remaining (s :: rest) rest' -> line_class (s :: rest)) by (intros rest' R; eapply lc_args; exists [], (s :: rest); split; [reflexivity|]; split; [constructor|exact R]).
    destruct s as [|a s]; [eapply Rem, rem_plain; discriminate|]. destruct (ascii_dec a "-"%char) as [->|Na]; [|eapply Rem, rem_plain; congruence].
    destruct s as [|a s]; [eapply Rem, rem_dash|]. destruct (ascii_dec a "-"%char) as [->|Na].
    + destruct s as [|a s]; [eapply Rem, rem_separator|]. change ("-"%char :: "-"%char :: a :: s) with (b "--" ++ a :: s). apply flag_class; [right; reflexivity|discriminate|discriminate|intros o; apply parse_flag|intros ws Lw; apply IH; apply le_S_n; eapply Nat.le_trans; [apply le_n_S, Lw|exact L]].
    + change ("-"%char :: a :: s) with (b "-" ++ a :: s). apply flag_class; [left; reflexivity|discriminate|congruence| |intros ws Lw; apply IH; apply le_S_n; eapply Nat.le_trans; [apply le_n_S, Lw|exact L]].
      intros o. change (b "-" ++ a :: s) with ("-"%char :: a :: s). rewrite parse_flag. destruct (Ascii.eqb_spec a "-"); [contradiction|reflexivity].
Qed.
Definition no_options : tool_options := mkTool [] [].
Lemma line_parsed args files prefixes rest : tool_line args files prefixes rest <-> ParseFlags tool_flags args no_options = PArgs (mkTool files prefixes) rest.
Proof.
  assert (F : forall files prefixes rest, tool_line args files prefixes rest -> ParseFlags tool_flags args no_options = PArgs (mkTool files prefixes) rest).
  { intros fs ps rs (ws & more & -> & W & R). rewrite (words_parsed _ _ _ W). apply remaining_flags, R. }
  assert (H : tool_help args -> ParseFlags tool_flags args no_options = PHelp).
  { intros (ws & fs & ps & h & more & -> & W & Hw). rewrite (words_parsed _ _ _ W). apply help_parsed, Hw. }
  split; [apply F|]. intros P. destruct (args_class _ args (le_n _)) as [fs ps rs L|L|B].
  - pose proof (F _ _ _ L) as E. rewrite P in E. assert (fs = files /\ ps = prefixes /\ rs = rest) as (-> & -> & ->) by (repeat split; congruence). exact L.
  - rewrite (H L) in P. discriminate.
  - rewrite B in P. discriminate.
Qed.
Lemma help_line args : tool_help args <-> ParseFlags tool_flags args no_options = PHelp.
Proof.
  split.
  - intros (ws & fs & ps & h & more & -> & W & Hw). rewrite (words_parsed _ _ _ W). apply help_parsed, Hw.
  - intros P. destruct (args_class _ args (le_n _)) as [fs ps rs L|L|B]; [apply line_parsed in L; congruence|exact L|rewrite B in P; discriminate].
Qed.
Lemma bad_line args : ParseFlags tool_flags args no_options = PBad <-> ~ (tool_help args \/ exists files prefixes rest, tool_line args files prefixes rest).
Proof.
  split.
  - intros P [H|(fs & ps & rs & L)]; [apply help_line in H|apply line_parsed in L]; congruence.
  - intros N. destruct (args_class _ args (le_n _)) as [fs ps rs L|L|B]; [exfalso; eauto 6|exfalso; eauto|apply B].
Qed.

(** ** Layout *)
Fixpoint any_of (j : json) : any :=
  match j with
  | JNull => ANull
  | JBool v => ABool v
  | JInt n => AFloat (integer n)
  | JStr s => AString s
  | JArr l => ASlice (map any_of l)
  | JObj l => AMap (map (fun m => (fst m, any_of (snd m))) l)
  end.
Lemma any_of_ok j : encode_any (any_of j) = encode j /\ finite (any_of j) /\ any_value (any_of j) = value_of j.
Proof.
  induction j as [|v|n|s|l F|l F] using json_ind'; cbn [any_of encode_any encode any_value value_of].
  - split; [reflexivity|]. split; [constructor|reflexivity].
  - split; [reflexivity|]. split; [constructor|reflexivity].
  - split; [reflexivity|]. split; [constructor; apply integer_ok|reflexivity].
  - split; [reflexivity|]. split; [constructor|reflexivity].
  - rewrite Forall_forall in F. rewrite !map_map. split; [|split].
    + do 3 f_equal. apply map_ext_in. intros j I. apply (F j I).
    + constructor. apply Forall_forall. intros a I. apply in_map_iff in I. destruct I as (j & <- & I). apply (F j I).
    + f_equal. apply map_ext_in. intros j I. apply (F j I).
  - rewrite Forall_forall in F. rewrite !map_map. cbn [fst snd]. split; [|split].
    + do 3 f_equal. apply map_ext_in. intros [k j] I. cbn [fst snd]. do 2 f_equal. apply (F _ I).
    + constructor. apply Forall_forall. intros a I. apply in_map_iff in I. destruct I as ([k j] & <- & I). cbn [snd]. apply (F _ I).
    + f_equal. apply map_ext_in. intros [k j] I. cbn [fst snd]. f_equal. apply (F _ I).
Qed.
Lemma laid_shown v x : laid 0 v x -> shown_text v (x ++ [line_break]).
Proof.
  intros L. exists x. split; [exact L|]. split; [reflexivity|]. assert (D : jdocument v (x ++ [line_break])).
  { exists [], x, [line_break]. split; [constructor|]. split; [constructor; [cbn; tauto|constructor]|]. split; [eapply laid_text, L|reflexivity]. }
  intros v'. split; [intros D'; eapply document_same; eassumption|intros ->; exact D].
Qed.
Lemma json_shown j : shown_text (value_of j) (indent_loop Outside false 0 (encode j) ++ eol).
Proof.
  destruct (any_of_ok j) as (E & F & V). change (indent_loop Outside false 0 (encode j) ++ eol) with (indent_loop Outside false 0 (encode j) ++ [line_break]). rewrite <- E, <- V.
  change (indent_loop Outside false 0 (encode_any (any_of j)) ++ [line_break]) with (print (any_of j)). rewrite print_pretty by exact F. apply laid_shown, pretty_laid, F.
Qed.

(** ** Results *)
Lemma tool_tree' u c chunk entries order files url more reads r : 
  gives (tool_main u c chunk entries order (mkTool files []) (url :: more)) reads r ->
  exists srcs group err t, tool_sources files more srcs /\ gives (ExtractLinksFromFileGroup (real u c chunk) srcs) reads (group, err) /\ r = OTree t err /\
    match group with
    | None => t = None
    | Some tree => exists part, t = Some part /\ (nmatches (fun _ => true) tree * 8 <= maxint -> pruned (reply_node (fun _ => true)) tree part /\ nlinks part <= 8 /\
        (nmatches (fun _ => true) tree <= 8 -> complete (fun _ => true) tree part))%Z
    end.
Proof.
  intros H. destruct r as [|keys err|t err].
  - exfalso. unfold tool_main in H. cbn [set] in H. apply gives_bind in H. destruct H as (r1 & [g e] & r2 & _ & _ & G2). destruct g as [tree|]; [|inversion G2]. destruct (limited _ tree 8) as [[c0|]|]; inversion G2.
  - exfalso. unfold tool_main in H. cbn [set] in H. apply gives_bind in H. destruct H as (r1 & [g e] & r2 & _ & _ & G2). destruct g as [tree|]; [|inversion G2]. destruct (limited _ tree 8) as [[c0|]|]; inversion G2.
  - destruct t as [part|].
    + destruct (tool_tree u c chunk entries order (mkTool files []) url more reads part err eq_refl H) as (srcs & tree & S & G & K).
      exists srcs, (Some tree), err, (Some part). split; [exact S|]. split; [exact G|]. split; [reflexivity|]. exists part. split; [reflexivity|exact K].
    + unfold tool_main in H. cbn [set linkSources] in H. apply gives_bind in H. destruct H as (r1 & [g e] & r2 & -> & G1 & G2).
      destruct g as [tree|]; [destruct (limited _ tree 8) as [[c0|]|]; inversion G2|]. inversion G2; subst. rewrite app_nil_r.
      eapply group_same in G1; [|intros; apply real_all; reflexivity]. eexists _, None, err, None. split; [apply sources_ok|]. split; [exact G1|]. split; reflexivity.
Qed.
Lemma gives_set x filters srcs : forall set0 reads set1 err, gives (ExtractLinkSetFromFileGroup x srcs filters set0) reads (set1, err) -> set_from x filters srcs reads set0 set1 err.
Proof.
  induction srcs as [|[k name] srcs IH]; intros set0 reads set1 err H; cbn [ExtractLinkSetFromFileGroup] in H; inversion H; subst.
  - constructor.
  - match goal with H : gives (match ?r with _ => _ end) _ _ |- _ => destruct r as [|content broken]; [inversion H; subst; apply (sf_open _ _ (k, name))|] end.
    destruct (xset x k content broken filters set0) as [[set2 [e|]]|] eqn:E; match goal with H : gives _ _ _ |- _ => try (inversion H; fail) end.
    + match goal with H : gives (HRet _) _ _ |- _ => inversion H; subst end. apply (sf_error _ _ (k, name)). exact E.
    + apply (sf_file _ _ (k, name) _ _ _ _ _ set2); [exact E|]. apply IH. assumption.
Qed.
Lemma set_from_real u c chunk f filters srcs reads s0 s1 err : set_from (real_filtered u c chunk f) filters srcs reads s0 s1 err -> set_from (real u c chunk) filters srcs reads s0 s1 err.
Proof. induction 1; [constructor|constructor|apply sf_error; assumption|eapply sf_file; eassumption]. Qed.
Lemma tool_set u c chunk entries order files prefixes args reads r : prefixes <> [] -> args <> [] ->
  gives (tool_main u c chunk entries order (mkTool files prefixes) args) reads r ->
  exists srcs found err, tool_sources files args srcs /\ set_from (real u c chunk) prefixes srcs reads [] found err /\
    r = OSet (match err with None => order found | Some _ => [] end) err.
Proof.
  intros NP NA H. destruct args as [|url more]; [congruence|]. destruct prefixes as [|p ps]; [congruence|]. unfold tool_main in H. cbn [set linkSources] in H.
  apply gives_bind in H. destruct H as (r1 & [keys err] & r2 & -> & G1 & G2). apply gives_set, set_from_real in G1.
  assert (E : r2 = [] /\ r = OSet (match err with None => order keys | Some _ => [] end) err) by (destruct err; inversion G2; auto). destruct E as (-> & ->). rewrite app_nil_r.
  eexists _, keys, err. split; [|split; [exact G1|reflexivity]]. right. split; [right; discriminate|]. eexists. split; [reflexivity|]. apply by_name.
Qed.
(** Links are parts of lines *)
Lemma lines_no_break s ls : lines_of s ls -> Forall (fun l => ~ In newline l) ls.
Proof. induction 1; repeat constructor; assumption. Qed.
Lemma seen_no_break content broken lines err : seen_lines content broken lines err -> Forall (fun l => ~ In newline l) lines.
Proof.
  assert (Cr : forall l m, without_cr l m -> ~ In newline l -> ~ In newline m).
  { intros l m W N I. destruct W; subst; apply N; [apply in_or_app; left; exact I|exact I]. }
  assert (F : forall ls ms, Forall2 without_cr ls ms -> Forall (fun l => ~ In newline l) ls -> Forall (fun l => ~ In newline l) ms).
  { induction 1 as [|x y ls ms W _ IH]; intros H0; constructor; inversion H0; subst; eauto. }
  intros (all & L & H). apply lines_no_break in L. destruct H as [(_ & W & _)|(x & l & y & -> & _ & _ & W & _)]; [eapply F; eassumption|].
  eapply F; [exact W|]. apply Forall_app in L. apply L.
Qed.
Lemma link_in_line k p line x : set_link k p line x -> forall a, In a x -> In a line.
Proof.
  intros (more & _ & [(_ & d & (pre & tail & post & -> & _) & _)|[(_ & (pre & post & ->) & _)|((pre & post & -> & _) & _)]]) a I; repeat (apply in_or_app; auto; right); auto.
Qed.
Lemma set_file u c chunk p srcs reads s0 s1 err : set_from (real u c chunk) p srcs reads s0 s1 err -> err = None -> forall x, In x s1 -> In x s0 \/
  exists src content broken lines line, In src srcs /\ In (snd src, RData content broken) reads /\ seen_lines content broken lines None /\ In line lines /\ set_link (fst src) p line x.
Proof.
  intros H. induction H as [set| | |src srcs content broken reads set set1 set2 err E H IH]; intros Ee x I; try discriminate; [auto|].
  cbn [real xset] in E. apply set_once in E. destruct E as (P & found & lines & _ & D & _ & S & L). destruct (IH Ee x I) as [J|(s & ct & br & ls & l & A & B & K)].
  - apply D in J. destruct J as [J|J]; [auto|right]. rewrite Forall_forall in L. destruct (L x J) as (line & J1 & J2).
    exists src, content, broken, lines, line. split; [left; reflexivity|]. split; [left; reflexivity|]. auto.
  - right. exists s, ct, br, ls, l. split; [right; exact A|]. split; [right; exact B|exact K].
Qed.

(** ** The program *)
Lemma program_line u c chunk entries order args files prefixes rest reads out fin : tool_line args files prefixes rest ->
  gives (tool_program u c chunk entries order args) reads (out, fin) ->
  exists r, gives (tool_main u c chunk entries order (mkTool files prefixes) rest) reads r /\ tool_print r = (out, fin).
Proof.
  intros L H. apply line_parsed in L. unfold tool_program, burl_tool in H. unfold no_options in L. rewrite L in H. apply gives_bind in H. destruct H as (r1 & r & r2 & -> & G1 & G2).
  inversion G2; subst. rewrite app_nil_r. eauto.
Qed.
Lemma output_tree u c chunk entries order args files url more reads out fin : tool_line args files [] (url :: more) ->
  gives (tool_program u c chunk entries order args) reads (out, fin) ->
  exists srcs group err, tool_sources files more srcs /\ gives (ExtractLinksFromFileGroup (real u c chunk) srcs) reads (group, err) /\
    match group with
    | None => out = [] /\ (fin = Exit0 <-> err = None) /\ (fin = Exit1 false <-> err <> None)
    | Some tree => exists part,
        (nmatches (fun _ => true) tree * 8 <= maxint -> pruned (reply_node (fun _ => true)) tree part /\ nlinks part <= 8 /\
          (nmatches (fun _ => true) tree <= 8 -> complete (fun _ => true) tree part))%Z /\
        ((exists p, In p (inner_props part) /\ missing p) /\ out = [] /\ fin = Crash \/
         ~ (exists p, In p (inner_props part) /\ missing p) /\ (exists v, shown part v /\ shown_text v out) /\ (fin = Exit0 <-> err = None) /\ (fin = Exit1 false <-> err <> None))
    end.
Proof.
  intros L H. destruct (program_line _ _ _ _ _ _ _ _ _ _ _ _ L H) as (r & G & P). destruct (tool_tree' _ _ _ _ _ _ _ _ _ _ G) as (srcs & group & err & t & S & G' & -> & K).
  exists srcs, group, err. split; [exact S|]. split; [exact G'|].
  assert (X : forall e : finish, e = tool_exit err -> (e = Exit0 <-> err = None) /\ (e = Exit1 false <-> err <> None)).
  { intros e ->. destruct err; cbn; split; split; intros; congruence. }
  destruct group as [tree|].
  - destruct K as (part & -> & K). exists part. split; [exact K|]. cbn [tool_print] in P. destruct (MarshalJSON part) as [j|] eqn:M.
    + right. split; [intros N; apply marshal_panic in N; congruence|]. injection P as <- <-. split; [|apply X; reflexivity]. exists (value_of j). split; [apply marshal_shown, M|apply json_shown].
    + left. split; [apply marshal_panic, M|]. injection P as <- <-. split; reflexivity.
  - subst t. injection P as <- <-. split; [reflexivity|apply X; reflexivity].
Qed.
Lemma output_set u c chunk entries order args files prefixes rest reads out fin : tool_line args files prefixes rest -> prefixes <> [] -> rest <> [] ->
  (forall l, Permutation (order l) l) -> gives (tool_program u c chunk entries order args) reads (out, fin) ->
  exists srcs found err, tool_sources files rest srcs /\ set_from (real u c chunk) prefixes srcs reads [] found err /\
    (err <> None -> out = [] /\ fin = Exit1 false) /\
    (err = None -> fin = Exit0 /\ prefixes_ok prefixes /\ exists keys, lines_text keys out /\ NoDup keys /\ Permutation keys found /\
      forall x, In x keys -> exists src content broken lines line, In src srcs /\ In (snd src, RData content broken) reads /\ seen_lines content broken lines None /\
        In line lines /\ set_link (fst src) prefixes line x).
Proof.
  intros L NP NR O H. destruct (program_line _ _ _ _ _ _ _ _ _ _ _ _ L H) as (r & G & P). destruct (tool_set _ _ _ _ _ _ _ _ _ _ NP NR G) as (srcs & found & err & S & F & ->).
  exists srcs, found, err. split; [exact S|]. split; [exact F|]. cbn [tool_print] in P. injection P as P1 P2. split.
  - intros N. destruct err; [|congruence]. subst. split; reflexivity.
  - intros ->. split; [symmetry; exact P2|]. destruct (set_union _ _ _ _ _ _ _ _ F) as (A & _ & C & _). split.
    { apply A. destruct S as [(_ & E & _)|(_ & l & -> & F2)]; [congruence|]. destruct F2; [congruence|]. intros E. apply app_eq_nil in E. destruct E. discriminate. }
    assert (K : forall x, In x (order found) -> exists src content broken lines line, In src srcs /\ In (snd src, RData content broken) reads /\ seen_lines content broken lines None /\
        In line lines /\ set_link (fst src) prefixes line x).
    { intros x I. apply (Permutation_in _ (O found)) in I. destruct (set_file _ _ _ _ _ _ _ _ _ F eq_refl x I) as [[]|K]. exact K. }
    exists (order found). split; [|split; [|split; [apply O|exact K]]].
    + split; [symmetry; exact P1|]. apply Forall_forall. intros x I B. destruct (K x I) as (src & content & broken & lines & line & _ & _ & Sn & Il & Sl).
      apply seen_no_break in Sn. rewrite Forall_forall in Sn. apply (Sn line Il). eapply link_in_line; eassumption.
    + eapply Permutation_NoDup; [apply Permutation_sym, O|]. apply C. constructor.
Qed.
Lemma output_other u c chunk entries order args reads out fin : (forall files prefixes rest, tool_line args files prefixes rest -> rest = []) ->
  gives (tool_program u c chunk entries order args) reads (out, fin) ->
  reads = [] /\ out = [] /\ (fin = Exit0 <-> tool_help args) /\ (fin = Exit1 true <-> exists files prefixes, tool_line args files prefixes []) /\
  (fin = Exit2 <-> ~ (tool_help args \/ exists files prefixes rest, tool_line args files prefixes rest)).
Proof.
  intros N H. destruct (args_class _ args (le_n _)) as [fs ps rs L|L|B].
  - rewrite (N _ _ _ L) in L. pose proof L as L'. apply line_parsed in L'. unfold tool_program, burl_tool in H. unfold no_options in L'. rewrite L' in H. inversion H; subst.
    repeat (split; [reflexivity|]). split; [split; [discriminate|intros T; apply help_line in T; unfold no_options in T; congruence]|]. split; [split; [eauto|reflexivity]|]. split; [discriminate|]. intros K. exfalso. apply K. eauto.
  - pose proof L as L'. apply help_line in L'. unfold tool_program, burl_tool in H. unfold no_options in L'. rewrite L' in H. inversion H; subst.
    repeat (split; [reflexivity|]). split; [split; [auto|reflexivity]|]. split; [split; [discriminate|intros (fs & ps & K); apply line_parsed in K; unfold no_options in K; congruence]|]. split; [discriminate|]. intros K. exfalso. apply K. auto.
  - specialize (B no_options). pose proof B as B'. apply bad_line in B'. unfold tool_program, burl_tool in H. unfold no_options in B. rewrite B in H. inversion H; subst.
    repeat (split; [reflexivity|]). split; [split; [discriminate|intros T; exfalso; apply B'; auto]|]. split; [split; [discriminate|intros (fs & ps & K); exfalso; apply B'; eauto]|]. split; [auto|reflexivity].
Qed.

(** ** Manifests *)
Lemma separated_lines l : forall d, l <> [] -> PrintSpec.separated (map (fun t => line_start d ++ t) l) = nl ++ Manifest.separated (map (fun t => repeat (ascii_of_nat 32) (2 * d) ++ t) l).
Proof.
  intros d NE. induction l as [|x l IH]; [congruence|]. destruct l as [|y l]; [reflexivity|].
  change (PrintSpec.separated (map (fun t => line_start d ++ t) (x :: y :: l))) with ((line_start d ++ x) ++ b "," ++ PrintSpec.separated (map (fun t => line_start d ++ t) (y :: l))).
  rewrite IH by discriminate. change (Manifest.separated (map (fun t => repeat (ascii_of_nat 32) (2 * d) ++ t) (x :: y :: l)))
    with ((repeat (ascii_of_nat 32) (2 * d) ++ x) ++ b "," ++ nl ++ Manifest.separated (map (fun t => repeat (ascii_of_nat 32) (2 * d) ++ t) (y :: l))). reflexivity.
Qed.
Lemma strings_laid l : l <> [] -> laid 1 (VArr (map text l)) (json_list l).
Proof.
  intros NE. assert (E : json_list l = b "[" ++ PrintSpec.separated (map (fun t => line_start 2 ++ t) (map json_string l)) ++ line_start 1 ++ b "]").
  { rewrite separated_lines by (destruct l; [congruence|discriminate]). rewrite map_map. unfold json_list. change (line_start 1 ++ b "]") with (nl ++ b "  ]"). rewrite <- app_assoc. reflexivity. }
  rewrite E. constructor; [destruct l; [congruence|discriminate]|]. clear. induction l as [|x l IH]; constructor; [|exact IH]. constructor. apply string_ok.
Qed.
Lemma field_laid k v t : laid 1 v t -> exists kt vt, jstring (runes_of k) kt /\ laid 1 v vt /\ json_string k ++ b ": " ++ t = kt ++ b ": " ++ vt.
Proof. intros L. exists (json_string k), t. split; [apply string_ok|]. split; [exact L|reflexivity]. Qed.
Lemma manifest_laid m : laid 0 (manifest_value m) (MarshalIndent m).
Proof.
  set (ts := [json_string (b "name") ++ b ": " ++ json_string (mName m); json_string (b "description") ++ b ": " ++ json_string (mDescription m);
              json_string (b "path") ++ b ": " ++ json_string (mPath m); json_string (b "type") ++ b ": " ++ json_string (mType m)] ++
             (if empty (mOrigins m) then [] else [json_string (b "allowed_origins") ++ b ": " ++ json_list (mOrigins m)]) ++
             (if empty (mExtensions m) then [] else [json_string (b "allowed_extensions") ++ b ": " ++ json_list (mExtensions m)])).
  assert (E : MarshalIndent m = b "{" ++ PrintSpec.separated (map (fun t => line_start 1 ++ t) ts) ++ line_start 0 ++ b "}").
  { rewrite separated_lines by discriminate. unfold MarshalIndent. change (line_start 0 ++ b "}") with (nl ++ b "}"). rewrite <- app_assoc. do 3 f_equal. unfold ts. rewrite !map_app. cbn [map].
    destruct (empty (mOrigins m)), (empty (mExtensions m)); reflexivity. }
  rewrite E. constructor; [discriminate|]. unfold ts.
  apply Forall2_app; [|apply Forall2_app].
  - repeat (apply Forall2_cons; [cbn [fst snd]; unfold ReplySpec.name; apply field_laid; constructor; apply string_ok|]). constructor.
  - destruct (mOrigins m) as [|x l]; cbn [empty]; [constructor|]. constructor; [|constructor]. cbn [fst snd]. unfold ReplySpec.name. apply field_laid, strings_laid. discriminate.
  - destruct (mExtensions m) as [|x l]; cbn [empty]; [constructor|]. constructor; [|constructor]. cbn [fst snd]. unfold ReplySpec.name. apply field_laid, strings_laid. discriminate.
Qed.
Lemma manifest_shown m : shown_text (manifest_value m) (MarshalIndent m ++ nl).
Proof. change (MarshalIndent m ++ nl) with (MarshalIndent m ++ [line_break]). apply laid_shown, manifest_laid. Qed.
Lemma installed_shown q u s0 c dest content : generated q u s0 c dest content 420 ->
  exists m, valid_manifest u m /\ manifest_target u s0 c (mPath m) /\ dest = mFile m /\ mType m = b "stdio" /\ shown_text (manifest_value m) content.
Proof.
  intros G. remember 420%N as mode eqn:E. destruct G as [|m file s V T D M _ _ _ _ _]; [discriminate|]. exists m. repeat (split; [assumption || reflexivity|]). apply manifest_shown.
Qed.
Lemma manifest_path m v : jdocument v (MarshalIndent m ++ nl) -> exists l rs, v = VObj l /\ In (ReplySpec.name (b "path"), VStr rs) l /\ (string_of rs = mPath m <-> valid_utf8 (mPath m)).
Proof.
  intros D. destruct (manifest_shown m) as (x & _ & _ & U). apply U in D. subst v. eexists _, (runes_of (mPath m)). split; [reflexivity|].
  split; [right; right; left; reflexivity|]. apply string_runes_iff.
Qed.
