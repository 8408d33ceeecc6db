(** Property C106: URLs that are passed to a callback. *)
From Verif Require Import GoBase Utf8 Regex LinkTypes LinkTree Emacs FuzzySpec Extract ExtractSpec TextSpec Scanner Urls UrlsSpec UrlsProofs.

Definition ex_u : rune -> bool := fun _ => false.
Definition ex_chunk : nat -> N := fun _ => 3%N.
Definition ex_space : str := map ascii_of_nat [194; 160].
Definition ex_file : str := b "see (http://a.org/x,mid:1@b.org)" ++ ex_space ++ b "d.org  text " ++ [newline] ++ b "e.org/y".
Definition ex_urls (cb : list rmatch -> rmatch -> bool) (content : str) : option (list string * option berr) :=
  match ExtractUrls ex_u cb ex_chunk content false with
  | Done (calls, e) => Some (map (fun m => string_of_list_ascii (whole m)) calls, e)
  | Panic => None
  end.

(** Words separated by white space are visited in order until one does not fit into the buffer together with the next
    character.  URLs of a word are the same as in a file with this word alone.  The callback is called for each URL of a
    word until it returns false.  The result does not depend on sizes of blocks. *)
Theorem C106_calls : forall u content broken, exists words err, seen_words content broken words err /\
  forall chunk, exists urls,
    Forall2 (fun w ms => ExtractUrls u (fun _ _ => true) chunk w false = Done (ms, None)) words urls /\
    forall cb, exists calls, ExtractUrls u cb chunk content broken = Done (calls, err) /\ visited cb [] urls calls.
Proof. exact calls_ok. Qed.
Print Assumptions C106_calls.
Example C106_calls_example :
  ex_urls (fun _ _ => true) ex_file = Some (["http://a.org/x,mid"; "b.org"; "d.org"; "e.org/y"]%string, None) /\
  ex_urls (fun done _ => match done with [] => false | _ => true end) ex_file = Some (["http://a.org/x,mid"; "d.org"; "e.org/y"]%string, None).
Proof. split; vm_compute; reflexivity. Qed.

(** The callback gets parts of words that are URLs. *)
Theorem C106_urls : forall u cb chunk content broken calls err, ExtractUrls u cb chunk content broken = Done (calls, err) ->
  forall m, In m calls -> text_url u (runes_of (whole m)) /\
    exists words w x y, line_words content words /\ In w words /\ w = x ++ whole m ++ y.
Proof. exact urls_ok. Qed.
Print Assumptions C106_urls.

(** URLs are the same as ones of links found by Extract for text files, if there are no too long words and lines. *)
Theorem C106_links : forall u chunk chunk' content broken calls err t err',
  ExtractUrls u (fun _ _ => true) chunk content broken = Done (calls, err) -> err <> Some ETooLong ->
  TxtExtract u chunk' None content broken = Done (Some t, err') -> err' <> Some ETooLong ->
  err = err' /\ map whole calls = map (fun p => URL (snd p)) (paths t).
Proof. exact same_urls. Qed.
Print Assumptions C106_links.
Example C106_links_example :
  match TxtExtract ex_u ex_chunk None ex_file false with
  | Done (Some t, None) => map (fun p => (LineNo (snd p), string_of_list_ascii (URL (snd p)))) (paths t)
  | _ => []
  end = [(1, "http://a.org/x,mid"); (1, "b.org"); (1, "d.org"); (2, "e.org/y")]%string.
Proof. vm_compute. reflexivity. Qed.

(** False returned by the callback does not stop extraction (extract_txt.go:80-81 says what it was conceived for). *)
Theorem C106_stop_refuted : ~ forall u cb chunk content broken calls err, ExtractUrls u cb chunk content broken = Done (calls, err) ->
  forall before m after, calls = before ++ m :: after -> cb before m = false -> after = [].
Proof. exact not_stopped. Qed.
Print Assumptions C106_stop_refuted.
