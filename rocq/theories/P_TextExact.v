(** Property C117: URLs of text files are exactly those that are seen there (pkg/burl_links/extract_txt.go:50-102, pkg/burl_url/extract_url.go). *)
From Verif Require Import GoBase Utf8 Utf8Dec Regex LinkTypes LinkTree Emacs FuzzySpec Extract ExtractSpec ExtractWitness TextSpec Scanner ScannerSpec Urls UrlsSpec TextFoundSpec TextExactSpec RealProofs TextExact TextExactWitness.

(** C117.  Links of a file: URLs of words of lines, one after another. *)
Theorem C117_file : forall u chunk f content broken lines err links,
  seen_lines content broken lines err -> text_links u f 1 lines links ->
  exists t, TxtExtract u chunk f content broken = Done (Some t, err) /\ paths t = map (fun l => ([PNil], l)) links.
Proof. exact text_exact. Qed.
Print Assumptions C117_file.
Example C117_file_example : text_links y_u None 1 (map b y_lines) y_links /\ seen_lines (w_lines y_lines) false (map b y_lines) None /\
  map (fun l => (LineNo l, string_of_list_ascii (URL l))) y_links = [(1, "http://a.org/b%20c"); (1, "d.org"); (3, "mailto:e.net")]%string.
Proof. split; [exact y_text|]. split; [exact (w_check y_lines eq_refl)|vm_compute; reflexivity]. Qed.

(** ExtractUrls: calls of the callback *)
Theorem C117_calls : forall u chunk content broken words err us,
  seen_words content broken words err -> words_urls_are u words us ->
  exists calls, ExtractUrls u (fun _ _ => true) chunk content broken = Done (calls, err) /\
    Forall2 (fun m p => whole m = parts_text p /\ group m 1 = concat (map snd (pscheme p)) /\ group m 3 = concat (map snd (pdomain p)) /\ group m 5 = concat (map snd (ppath p))) calls us.
Proof. exact calls_exact. Qed.
Print Assumptions C117_calls.
Example C117_calls_example : words_urls_are y_u (map b ["see"; "x=(http://a.org/b%20c);d.org!"; "etc"]%string)
  [mkParts (y_pieces "http://") (y_pieces "a.org") (y_pieces "/b%20c"); mkParts [] (y_pieces "d.org") []].
Proof. exact y_words. Qed.
