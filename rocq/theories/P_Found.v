(** Property C107: URLs in words of text files are not missed. *)
From Verif Require Import GoBase Utf8 Utf8Dec Regex LinkTypes LinkTree Emacs FuzzySpec Extract ExtractSpec TextSpec Scanner Urls UrlsSpec TextFoundSpec TextFoundMain.

Definition ex_u : rune -> bool := fun _ => false.
Definition ex_chunk : nat -> N := fun _ => 3%N.
Definition ex_word : str := b "x=(http://a.org/b%20c)".
Definition ex_file : str := b "text" ++ [newline] ++ b "see " ++ ex_word ++ b " d.org, e".
Definition ex_runes (s : string) : list rune := map N_of_ascii (b s).
Definition ex_pieces (s : string) : list (rune * str) := map (fun c => (N_of_ascii c, [c])) (b s).

(** A word with a complete URL that is separated from other characters of the word: there is a link in the line. *)
Theorem C107_link : forall u chunk f content broken t err lines e n line words w s d p,
  TxtExtract u chunk f content broken = Done (Some t, err) -> seen_lines content broken lines e ->
  nth_error lines n = Some line -> line_words line words -> In w words -> word_has u w s d p ->
  forall l, l = mkLink (concat (map snd (s ++ d ++ p))) [] (S n) ->
  match f with Some f => f l = true | None => True end -> In ([PNil], l) (paths t).
Proof. exact text_found. Qed.
Print Assumptions C107_link.
Example C107_link_example :
  word_has ex_u ex_word (ex_pieces "http://") (ex_pieces "a.org") (ex_pieces "/b%20c") /\
  match TxtExtract ex_u ex_chunk None ex_file false with
  | Done (Some t, None) => map (fun p => (LineNo (snd p), string_of_list_ascii (URL (snd p)))) (paths t)
  | _ => []
  end = [(2, "http://a.org/b%20c"); (2, "d.org")]%string.
Proof.
  split; [|vm_compute; reflexivity]. exists (ex_pieces "x=("), (ex_pieces ")"). split; [|split; [|split]].
  - split; [vm_compute; reflexivity|]. split; [vm_compute; reflexivity|]. vm_compute. repeat (constructor; [reflexivity|]). constructor.
  - split.
    + exists [ex_runes "b%20c"]. split; [|reflexivity]. constructor; [|constructor].
      apply segment_char; [left; left; right; left; cbn; lia|]. apply segment_hex; [left; unfold is_digit; cbn; lia|left; unfold is_digit; cbn; lia|].
      apply segment_char; [left; left; right; left; cbn; lia|]. constructor.
    + left. split.
      * exists (ex_runes "http"). split; [discriminate|]. split; [|right; reflexivity]. repeat (constructor; [right; left; cbn; lia|]). constructor.
      * exists [ex_runes "a"], (ex_runes "org"). split; [cbn; lia|]. split; [|split; [|reflexivity]].
        -- constructor; [|constructor]. exists 97%N. split; [left; right; left; cbn; lia|]. left. reflexivity.
        -- exists (ex_runes "org"). split; [cbn; lia|]. split; [|left; reflexivity]. repeat (constructor; [right; left; cbn; lia|]). constructor.
  - exists (ex_runes "x=("), []. split; [reflexivity|]. split; [|constructor]. right. exists (ex_runes "x="), 40%N. split; [reflexivity|].
    split; [unfold alnum, is_letter, is_digit|cbn]; lia.
  - cbn. unfold alnum, is_letter, is_digit. lia.
Qed.

(** ExtractUrls passes such URL to the callback with its parts: scheme, domain, path. *)
Theorem C107_call : forall u chunk content broken calls err words e w s d p,
  ExtractUrls u (fun _ _ => true) chunk content broken = Done (calls, err) -> seen_words content broken words e -> In w words -> word_has u w s d p ->
  exists m, In m calls /\ whole m = concat (map snd (s ++ d ++ p)) /\
    group m 1 = concat (map snd s) /\ group m 3 = concat (map snd d) /\ group m 5 = concat (map snd p).
Proof. exact call_found. Qed.
Print Assumptions C107_call.
Example C107_call_example :
  match ExtractUrls ex_u (fun _ _ => true) ex_chunk ex_file false with
  | Done (m :: _, None) => map string_of_list_ascii [whole m; group m 1; group m 3; group m 5]
  | _ => []
  end = ["http://a.org/b%20c"; "http://"; "a.org"; "/b%20c"]%string.
Proof. vm_compute. reflexivity. Qed.

(** It is not so for a URL with an IP address: http://127.0.0.1/path is a possible link, a file consisting of it has no
    links. *)
Theorem C107_address_refuted : ~ forall u chunk w t err, text_url u (runes_of w) -> Forall (fun r => ~ white r) (runes_of w) ->
  TxtExtract u chunk None w false = Done (Some t, err) -> In ([PNil], mkLink w [] 1) (paths t).
Proof. exact missed_address. Qed.
Print Assumptions C107_address_refuted.
