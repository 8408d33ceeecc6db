(** URLs in text files are not missed: files. *)
From Coq Require Import ZifyBool ZifyNat ZifyN.
From Verif Require Import GoBase GoSlice Utf8 Utf8Dec Regex RegexProofs Pieces Patterns Scanner ScannerSpec LinkTypes LinkTree LinkHeap Emacs Fuzzy FuzzySpec FuzzyRank
  Extract ExtractSpec TextSpec ExtractTree HeadingProofs OrgProofs TextProofs ExtractMain Urls UrlsSpec UrlsProofs CharsUnique TextFoundSpec TextFound.

(** ** Words are unique *)
Lemma words_fields_loop l ws : words_of (fun c : rune * str => white (fst c)) l ws -> Forall (fun p => snd p <> []) l -> map text_of ws = fields_loop l [].
Proof.
  intros H. induction H as [|a s ws Wh H IH|w NE F|w a s ws NE F Wh H IH]; intros PS.
  - reflexivity.
  - inversion PS. subst. destruct a as [r bs]. cbn [fields_loop fst] in *. apply IsSpace_white in Wh. rewrite Wh. auto.
  - assert (F' : Forall (fun p : rune * str => IsSpace (fst p) = false) w) by (eapply Forall_impl; [|exact F]; intros a; apply IsSpace_not).
    replace (fields_loop w []) with (fields_loop (w ++ []) []) by (rewrite app_nil_r; reflexivity). rewrite fields_word by exact F'. cbn [fields_loop app map].
    destruct (text_of w) eqn:Z; [|reflexivity]. exfalso. destruct w as [|p w]; [congruence|]. apply Forall_inv in PS. change (text_of (p :: w)) with (snd p ++ text_of w) in Z. apply app_eq_nil in Z. destruct Z. contradiction.
  - apply Forall_app in PS. destruct PS as [Pw PS]. inversion PS. subst.
    assert (F' : Forall (fun p : rune * str => IsSpace (fst p) = false) w) by (eapply Forall_impl; [|exact F]; intros q; apply IsSpace_not).
    rewrite fields_word by exact F'. destruct a as [r bs]. cbn [fields_loop app fst map] in *. apply IsSpace_white in Wh. rewrite Wh.
    destruct (text_of w) eqn:Z; [|f_equal; auto]. exfalso. destruct w as [|p w]; [congruence|]. apply Forall_inv in Pw. change (text_of (p :: w)) with (snd p ++ text_of w) in Z. apply app_eq_nil in Z. destruct Z. contradiction.
Qed.
Lemma line_words_unique line words : line_words line words -> words = Fields line.
Proof.
  intros (chars & ws & C & W & ->). apply characters_unique in C. subst chars. apply words_fields_loop in W; [exact W|apply pieces_ok].
Qed.
Lemma rooms_unique l ws : rooms l ws -> forall ws', rooms l ws' -> ws' = ws.
Proof.
  intros H. induction H as [|a s ws Wh H IH|w NE F|w a s ws NE F Wh H IH]; intros ws' H'.
  - inversion H' as [| |? N F E|x a s ws N F Wh R E]; [reflexivity|congruence|destruct x; discriminate].
  - apply IH. apply (rooms_spaces [a]); [constructor; [apply IsSpace_white; exact Wh|constructor]|exact H'].
  - apply rooms_only in H'; [exact H'|exact NE|]. eapply Forall_impl; [|exact F]. intros q. apply IsSpace_not.
  - apply rooms_first in H'; [|exact NE|eapply Forall_impl; [|exact F]; intros q; apply IsSpace_not|apply IsSpace_white; exact Wh]. destruct H' as (ws2 & -> & H2).
    rewrite (IH _ H2). reflexivity.
Qed.
Lemma seen_words_unique content broken words err : seen_words content broken words err ->
  exists ws, rooms (pieces content) ws /\ expected_words broken ws = (words, snd (expected_words broken ws)) /\ err = scan_error (snd (expected_words broken ws)).
Proof.
  intros (chars & ws & C & R & D). apply characters_unique in C. subst chars. exists ws. split; [exact R|]. destruct D as [(F & -> & ->)|(before & w & rest & -> & F & N & -> & ->)].
  - rewrite expected_fit by exact F. split; [reflexivity|]. cbn [snd]. symmetry. apply scan_error_final.
  - rewrite expected_over by assumption. split; reflexivity.
Qed.

(** ** Links *)
Lemma txt_has u n line w m : In w (Fields line) -> In m (FindAll u reUrl w) -> MatchIsUrl m = true -> In (mkLink (whole m) [] n) (txt_links u n line).
Proof.
  intros Iw Im V. unfold txt_links. apply in_flat_map. exists w. split.
  - rewrite <- (words_fields (length line) line) in Iw by lia. apply filter_In in Iw. apply Iw.
  - apply in_flat_map. exists m. split; [exact Im|]. rewrite V. left. reflexivity.
Qed.
Lemma txt_lines_all u f lines : forall n done, exists ls, txt_lines u f n lines (layout 0 (txt_tree done)) = Done (layout 0 (txt_tree (done ++ ls))) /\
  forall i line, nth_error lines i = Some line -> incl (txt_filtered f (txt_links u (n + i) line)) ls.
Proof.
  induction lines as [|line lines IH]; intros n done.
  - exists []. split; [cbn; rewrite app_nil_r; reflexivity|]. intros [|i] line E; discriminate.
  - destruct (IH (S n) (done ++ txt_filtered f (txt_links u n line))) as (ls & E & L). exists (txt_filtered f (txt_links u n line) ++ ls). split.
    + cbn [txt_lines]. change (match f with None => txt_links u n line | Some f => List.filter f (txt_links u n line) end) with (txt_filtered f (txt_links u n line)).
      fold add_all. rewrite add_all_ok. cbn [obind]. rewrite E, app_assoc. reflexivity.
    + intros [|i] line' E'; cbn [nth_error] in E'.
      * injection E' as <-. rewrite Nat.add_0_r. apply incl_appl, incl_refl.
      * apply incl_appr. replace (n + S i) with (S n + i) by lia. apply L. exact E'.
Qed.
Lemma text_found u chunk f content broken t err lines e n line words w s d p :
  TxtExtract u chunk f content broken = Done (Some t, err) -> seen_lines content broken lines e ->
  nth_error lines n = Some line -> line_words line words -> In w words -> word_has u w s d p ->
  forall l, l = mkLink (concat (map snd (s ++ d ++ p))) [] (S n) -> (match f with Some f => f l = true | None => True end) -> In ([PNil], l) (paths t).
Proof.
  intros E S N W Iw H l -> A. apply line_words_unique in W. subst words. destruct (url_reported u w s d p H) as (m & Im & V & Cm & _).
  destruct (scan_seen broken chunk _ _ _ S) as (e2 & Es & Ee). unfold TxtExtract in E. rewrite Es in E. destruct (txt_lines_all u f lines 1 []) as (ls & El & L). cbn [app] in El.
  change [OInner PNil []] with (layout 0 (txt_tree [])) in E. rewrite El in E. cbn [obind] in E. rewrite read_root in E.
  2:{ unfold txt_tree. destruct ls; cbn; lia. }
  injection E as <- _. specialize (L n line N). change (1 + n) with (Datatypes.S n) in L.
  assert (I : In (mkLink (whole m) [] (Datatypes.S n)) ls).
  { apply L. pose proof (txt_has u (Datatypes.S n) line w m Iw Im V) as I. destruct f as [f|]; [|exact I]. cbn [txt_filtered]. apply filter_In. split; [exact I|]. rewrite Cm. exact A. }
  rewrite Cm in I. unfold txt_tree. destruct ls as [|l0 ls]; [destruct I|]. cbn [paths flat_map]. rewrite app_nil_r, map_map. apply in_map_iff. eexists. split; [reflexivity|]. exact I.
Qed.
Lemma call_found u chunk content broken calls err words e w s d p :
  ExtractUrls u (fun _ _ => true) chunk content broken = Done (calls, err) -> seen_words content broken words e -> In w words -> word_has u w s d p ->
  exists m, In m calls /\ whole m = concat (map snd (s ++ d ++ p)) /\ group m 1 = concat (map snd s) /\ group m 3 = concat (map snd d) /\ group m 5 = concat (map snd p).
Proof.
  intros E S Iw H. destruct (url_reported u w s d p H) as (m & Im & V & Cm). exists m. split; [|exact Cm].
  destruct (seen_words_unique _ _ _ _ S) as (ws & R & X & _). unfold ExtractUrls in E. rewrite (scan_words_ok _ _ _ _ R), X in E. injection E as <- _.
  change (fun _ _ => true) with always. rewrite url_words_always. apply in_flat_map. exists w. split; [exact Iw|]. unfold word_urls. apply filter_In. auto.
Qed.

(** ** What is missed *)
Definition address_url : str := b "http://127.0.0.1/path".
Lemma address_is_url u : text_url u (runes_of address_url).
Proof.
  exists (map N_of_ascii (b "http:")), [], (map N_of_ascii (b "//127.0.0.1/path")). split; [reflexivity|]. split.
  - exists [[]; map N_of_ascii (b "127.0.0.1"); map N_of_ascii (b "path")]. split; [|reflexivity].
    assert (G : forall s, Forall (fun c => alnum u (N_of_ascii c) \/ In (N_of_ascii c) [46; 64; 44; 126; 95; 45]%N) s -> segment u (map N_of_ascii s)).
    { intros s F. induction F as [|c s C F IH]; [constructor|]. cbn [map]. apply segment_char; assumption. }
    constructor; [constructor|]. constructor; [|constructor; [|constructor]]; apply G; repeat (constructor; [unfold alnum, is_letter, is_digit; cbn; lia|]); constructor.
  - left. split; [|split; [discriminate|left; reflexivity]]. exists (map N_of_ascii (b "http")). split; [discriminate|]. split; [|left; reflexivity].
    repeat (constructor; [unfold is_letter; cbn; lia|]). constructor.
Qed.
Lemma missed_address : ~ forall u chunk w t err, text_url u (runes_of w) -> Forall (fun r => ~ white r) (runes_of w) ->
  TxtExtract u chunk None w false = Done (Some t, err) -> In ([PNil], mkLink w [] 1) (paths t).
Proof.
  intros H. set (u := fun _ : rune => false). specialize (H u (fun _ => 4096%N) address_url (txt_tree []) None (address_is_url u)).
  assert (W : Forall (fun r => ~ white r) (runes_of address_url)) by (vm_compute; repeat (constructor; [intuition discriminate|]); constructor).
  apply (H W). vm_compute. reflexivity.
Qed.
