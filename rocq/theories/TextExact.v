(** Text files: URLs are exactly those that are seen there. *)
From Coq Require Import ZifyBool ZifyNat ZifyN.
From Verif Require Import GoBase GoSlice Utf8 Utf8Dec Regex RegexSpec RegexProofs Pieces Patterns Scanner ScannerSpec LinkTypes LinkTree LinkHeap Emacs Fuzzy FuzzySpec FuzzyRank
  Extract ExtractSpec TextSpec ExtractTree HeadingProofs OrgProofs TextProofs ExtractMain Urls UrlsSpec UrlsProofs CharsUnique TextFoundSpec TextFound TextFoundMain TextExactSpec.

(** ** Text without URLs *)
Lemma no_url_match u pre (x mid z : list (rune * str)) post new : Forall piece_ok mid -> no_url u (map fst (x ++ mid ++ z)) -> mlist u reUrl pre mid post new -> MatchIsUrl (mkMatch (text_of mid) new) = false.
Proof.
  intros H N M. destruct (MatchIsUrl _) eqn:V; [exfalso|reflexivity]. rewrite !map_app in N. exact (N _ _ _ eq_refl (url_shape u pre mid post new H M V)).
Qed.
Lemma walk_none u tail n : forall lead pre pv p e fuel, length lead <= n -> at_state pre (lead ++ tail) (mkSt pv p (lead ++ tail) []) -> length (lead ++ tail) < fuel -> nocross u pre lead tail ->
  Forall piece_ok lead -> no_url u (map fst lead) ->
  exists pv' p' e' fuel' ms, at_state (pre ++ lead) tail (mkSt pv' p' tail []) /\ length tail < fuel' /\ Forall (fun m => MatchIsUrl m = false) ms /\
    all_matches fuel u reUrl pv p (lead ++ tail) e = ms ++ all_matches fuel' u reUrl pv' p' tail e'.
Proof.
  induction n as [|n IH]; intros lead pre pv p e fuel Ln H Lf NC OK NU; (destruct lead as [|[c bs] lead]; [exists pv, p, e, fuel, []; rewrite app_nil_r; auto|]); [cbn in Ln; lia|].
  destruct fuel as [|fuel]; [lia|]. destruct (url_search u _ _ _ _ H) as (mid & post & new & El & M & S).
  assert (Lm : length mid <= length ((c, bs) :: lead)). { apply (NC [] _ mid post new); [reflexivity|discriminate|exact El|rewrite app_nil_r; exact M]. }
  destruct (app_split _ _ _ _ El Lm) as (d & Ed & Ep). cbn [all_matches]. rewrite S.
  assert (MO : match_of (mkSt pv p (((c, bs) :: lead) ++ tail) [], move (mkSt pv p (((c, bs) :: lead) ++ tail) []) mid post new) = mkMatch (text_of mid) new).
  { unfold match_of. cbn [fst snd]. f_equal; [|cbn [move caps]; apply app_nil_r]. rewrite El in *. eapply between_move. exact H. }
  rewrite MO. assert (NM : MatchIsUrl (mkMatch (text_of mid) new) = false).
  { apply (no_url_match u pre [] mid d post new); [rewrite Ed in OK; apply Forall_app in OK; apply OK|cbn [app]; rewrite <- Ed; exact NU|exact M]. }
  clear MO. assert (NS : forall x z, (c, bs) :: lead = x ++ z -> no_url u (map fst z)).
  { intros x z E a y t Ey. apply (NU (map fst x ++ a) y t). rewrite E, map_app, Ey, !app_assoc. reflexivity. }
  destruct mid as [|x mid].
  - cbn [move pos prev rest]. change (length (@nil (rune * str))) with 0. rewrite Nat.add_0_r, Nat.eqb_refl. cbn [app]. cbn [app] in H. apply at_step in H.
    destruct (IH lead (pre ++ [(c, bs)]) (Some c) (Datatypes.S p) (Some p) fuel) as (pv' & p' & e' & fuel' & ms & A & B & N & C); [cbn in Ln; lia|exact H|cbn in Lf; lia| |inversion OK; assumption|exact (NS [_] lead eq_refl)|].
    { intros a c' mid post' new' E N Em Mm. apply (NC ((c, bs) :: a) c' mid post' new'); [rewrite E; reflexivity|exact N|exact Em|]. rewrite <- app_assoc in Mm. exact Mm. }
    rewrite C. eexists pv', p', e', fuel', (_ ++ ms). rewrite <- app_assoc in A. split; [exact A|]. split; [exact B|]. split; [|rewrite <- app_assoc; reflexivity]. apply Forall_app. split; [|exact N].
    destruct (negb _); [constructor; [exact NM|constructor]|constructor].
  - cbn [move pos prev rest]. replace (p + length (x :: mid) =? p) with false by (cbn; lia). cbn [andb negb].
    destruct (IH d (pre ++ x :: mid) (last_rune (x :: mid)) (p + length (x :: mid)) (Some (p + length (x :: mid))) fuel) as (pv' & p' & e' & fuel' & ms & A & B & N & C).
    + apply (f_equal (@length _)) in Ed. rewrite app_length in Ed. cbn [length] in *. lia.
    + rewrite El in H. pose proof (move_at pre (x :: mid) post [] _ H) as H'. rewrite Ep in H'. exact H'.
    + apply (f_equal (@length _)) in El. rewrite Ep in El. rewrite (app_length (x :: mid)) in El. cbn [length] in *. lia.
    + intros a c' mid' post' new' E N Em Mm. apply (NC ((x :: mid) ++ a) c' mid' post' new'); [rewrite Ed, E, <- app_assoc; reflexivity|exact N|exact Em|]. rewrite <- app_assoc in Mm. exact Mm.
    + rewrite Ed in OK. apply Forall_app in OK. apply OK.
    + exact (NS _ _ Ed).
    + rewrite <- Ep in C. rewrite C. eexists pv', p', e', fuel', (_ :: ms). rewrite <- app_assoc in A. rewrite Ed. split; [exact A|]. split; [exact B|]. split; [constructor; [exact NM|exact N]|reflexivity].
Qed.
Lemma rest_none u fuel pre pv p e : at_state pre [] (mkSt pv p [] []) -> no_url u [] -> Forall (fun m => MatchIsUrl m = false) (all_matches fuel u reUrl pv p [] e).
Proof.
  intros H N. destruct fuel as [|fuel]; [constructor|]. cbn [all_matches]. destruct (url_search u _ _ _ _ H) as (mid & post & new & El & M & S). rewrite S. symmetry in El. apply app_eq_nil in El. destruct El as [-> ->].
  cbn [move pos]. change (length (@nil (rune * str))) with 0. rewrite Nat.add_0_r, Nat.eqb_refl, app_nil_r.
  assert (MO : match_of (mkSt pv p [] [], move (mkSt pv p [] []) [] [] new) = mkMatch (text_of []) new).
  { unfold match_of. cbn [fst snd]. f_equal; [|cbn [move caps]; apply app_nil_r]. apply (between_move pre [] []). exact H. }
  rewrite MO. destruct (negb _); [constructor; [exact (no_url_match u pre [] [] [] [] new (Forall_nil _) N M)|constructor]|constructor].
Qed.
Definition parts_caps (m : rmatch) (p : parts) : Prop := url_caps m (pscheme p) (pdomain p) (ppath p).
Lemma filter_none ms : Forall (fun m => MatchIsUrl m = false) ms -> filter MatchIsUrl ms = [].
Proof. intros F. induction F as [|m ms E F IH]; [reflexivity|]. cbn [filter]. rewrite E. exact IH. Qed.
Lemma urls_exact u l us : urls_in u l us -> forall pre pv p e fuel, at_state pre l (mkSt pv p l []) -> length l < fuel -> Forall piece_ok l ->
  Forall2 parts_caps (filter MatchIsUrl (all_matches fuel u reUrl pv p l e)) us.
Proof.
  intros H. induction H as [l N|before s d p after more N St U En H IH]; intros pre pv q e fuel A Lf OK.
  - destruct (walk_none u [] (length l) l pre pv q e fuel) as (pv' & p' & e' & fuel' & ms & A' & _ & F & E); try (rewrite app_nil_r); try assumption; [lia| |].
    { intros a c mid post new _ _ E _. rewrite app_nil_r in E. rewrite E, app_length. lia. }
    rewrite app_nil_r in E. rewrite E, filter_app, (filter_none ms F). rewrite filter_none; [constructor|]. apply (rest_none u fuel' _ _ _ _ A').
    intros x y z Ez. apply (N x y (z ++ map fst l)). rewrite !app_assoc. rewrite <- (app_assoc x y z), <- Ez. reflexivity.
  - apply Forall_app in OK. destruct OK as [OB OK]. assert (OK' : Forall piece_ok (s ++ d ++ p)) by (rewrite !Forall_app in *; tauto).
    destruct (walk_none u (s ++ d ++ p ++ after) (length before) before pre pv q e fuel) as (pv' & p' & e' & fuel' & ms & A' & Lf' & F & E); try assumption; [lia|apply started_nocross; exact St|].
    rewrite E, filter_app, (filter_none ms F). cbn [app]. destruct (url_best u s d p after _ _ U En A' OK') as (new & B & Cp & V & NE).
    destruct fuel' as [|fuel']; [lia|]. cbn [all_matches].
    assert (Se : search u reUrl pv' p' (s ++ d ++ p ++ after) = Some (mkSt pv' p' (s ++ d ++ p ++ after) [], move (mkSt pv' p' (s ++ d ++ p ++ after) []) (s ++ d ++ p) after new)).
    { pose proof (B _ Some _ eq_refl) as Eb. destruct (s ++ d ++ p ++ after) as [|[h hb] l]; cbn [search]; rewrite Eb; reflexivity. }
    assert (MO : match_of (mkSt pv' p' (s ++ d ++ p ++ after) [], move (mkSt pv' p' (s ++ d ++ p ++ after) []) (s ++ d ++ p) after new) = mkMatch (text_of (s ++ d ++ p)) new).
    { unfold match_of. cbn [fst snd]. f_equal; [|cbn [move caps]; apply app_nil_r].
      replace (s ++ d ++ p ++ after) with ((s ++ d ++ p) ++ after) in * by (rewrite <- !app_assoc; reflexivity). eapply between_move. exact A'. }
    rewrite Se. cbn beta iota zeta. rewrite MO. cbn [move pos prev rest]. replace (p' + length (s ++ d ++ p) =? p') with false by (destruct (s ++ d ++ p); [congruence|cbn [length]; lia]). cbn [andb negb app].
    cbn [filter]. rewrite V. constructor; [exact Cp|].
    pose proof (move_at (pre ++ before) (s ++ d ++ p) after [] (mkSt pv' p' (s ++ d ++ p ++ after) [])) as H'.
    replace (s ++ d ++ p ++ after) with ((s ++ d ++ p) ++ after) in * by (rewrite <- !app_assoc; reflexivity).
    apply (IH _ _ _ _ _ (H' A')); [|apply Forall_app in OK; apply OK].
    rewrite app_length in Lf'. destruct (s ++ d ++ p); [congruence|]. cbn [length] in Lf'. lia.
Qed.
Lemma word_exact u w us : word_urls_are u w us -> Forall2 parts_caps (word_urls u w) us.
Proof.
  intros (l & C & H). apply characters_unique in C. subst l. apply (urls_exact u _ _ H []); [apply at_start|lia|apply pieces_shape].
Qed.
Lemma words_exact u words us : words_urls_are u words us -> Forall2 parts_caps (flat_map (word_urls u) words) us.
Proof. intros H. induction H as [|w words us more W H IH]; [constructor|]. cbn [flat_map]. apply Forall2_app; [apply word_exact; exact W|exact IH]. Qed.

(** ** Files *)
Lemma txt_links_words u n line : txt_links u n line = map (fun m => mkLink (whole m) [] n) (flat_map (word_urls u) (Fields line)).
Proof.
  unfold txt_links. rewrite <- (words_fields (length line) line) by lia. generalize (words_loop (length line) line). intros ws.
  assert (X : forall w, flat_map (fun m => if MatchIsUrl m then [mkLink (whole m) [] n] else []) (FindAll u reUrl w) = map (fun m => mkLink (whole m) [] n) (word_urls u w)).
  { intros w. unfold word_urls. induction (FindAll u reUrl w) as [|m ms IH]; [reflexivity|]. cbn [flat_map filter]. rewrite IH. destruct (MatchIsUrl m); reflexivity. }
  induction ws as [|w ws IH]; [reflexivity|]. cbn [flat_map filter]. rewrite IH, X. destruct w as [|c w]; [rewrite word_urls_nil; reflexivity|]. cbn [nonempty flat_map]. rewrite map_app. reflexivity.
Qed.
Lemma line_exact u n line words us : line_words line words -> words_urls_are u words us -> txt_links u n line = map (fun p => mkLink (parts_text p) [] n) us.
Proof.
  intros W H. apply line_words_unique in W. subst words. rewrite txt_links_words. apply words_exact in H. induction H as [|m p ms ps C H IH]; [reflexivity|]. cbn [map]. rewrite IH. f_equal. f_equal. apply C.
Qed.
Lemma kept_filtered f ls ls' : kept f ls ls' -> txt_filtered f ls = ls'.
Proof. intros P. induction P as [|l ls ls' H P IH|l ls ls' H P IH]; destruct f as [g|]; cbn [txt_filtered filter] in *; try reflexivity; try tauto; rewrite ?H, ?IH; reflexivity. Qed.
Lemma txt_lines_exact u f lines : forall n links, text_links u f n lines links -> forall done, txt_lines u f n lines (layout 0 (txt_tree done)) = Done (layout 0 (txt_tree (done ++ links))).
Proof.
  induction lines as [|line lines IH]; intros n links H done; inversion H as [|n0 l0 ls0 words us ls more W U P H']; subst.
  - cbn. rewrite app_nil_r. reflexivity.
  - cbn [txt_lines]. change (match f with None => txt_links u n line | Some f => List.filter f (txt_links u n line) end) with (txt_filtered f (txt_links u n line)).
    rewrite (line_exact _ _ _ _ _ W U), (kept_filtered _ _ _ P). fold add_all. rewrite add_all_ok. cbn [obind]. rewrite (IH _ _ H'), app_assoc. reflexivity.
Qed.
Lemma text_exact u chunk f content broken lines err links : seen_lines content broken lines err -> text_links u f 1 lines links ->
  exists t, TxtExtract u chunk f content broken = Done (Some t, err) /\ paths t = map (fun l => ([PNil], l)) links.
Proof.
  intros S H. destruct (scan_seen broken chunk _ _ _ S) as (e & Es & Ee). pose proof (txt_lines_exact u f lines 1 links H []) as E. cbn [app] in E.
  exists (txt_tree links). unfold TxtExtract. rewrite Es. change [OInner PNil []] with (layout 0 (txt_tree [])). rewrite E. cbn [obind]. rewrite read_root, Ee.
  2:{ unfold txt_tree. destruct links; cbn; lia. }
  split; [reflexivity|]. unfold txt_tree. destruct links as [|l ls]; [reflexivity|]. cbn [paths flat_map]. rewrite app_nil_r, map_map. reflexivity.
Qed.
Lemma calls_exact u chunk content broken words err us : seen_words content broken words err -> words_urls_are u words us ->
  exists calls, ExtractUrls u (fun _ _ => true) chunk content broken = Done (calls, err) /\
    Forall2 (fun m p => whole m = parts_text p /\ group m 1 = concat (map snd (pscheme p)) /\ group m 3 = concat (map snd (pdomain p)) /\ group m 5 = concat (map snd (ppath p))) calls us.
Proof.
  intros S H. destruct (seen_words_unique _ _ _ _ S) as (ws & R & X & Ee). unfold ExtractUrls. rewrite (scan_words_ok _ _ _ _ R), X.
  change (fun _ _ => true) with always. eexists. split; [rewrite Ee; reflexivity|]. rewrite url_words_always. exact (words_exact u words us H).
Qed.
