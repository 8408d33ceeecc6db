(** Witnesses: all URLs of a text file. *)
From Coq Require Import ZifyBool ZifyNat ZifyN.
From Verif Require Import GoBase Utf8 Utf8Dec Regex LinkTypes LinkTree Emacs FuzzySpec Extract ExtractSpec ExtractWitness TextSpec Scanner ScannerSpec Urls UrlsSpec TextFoundSpec TextExactSpec TextExact.
From Verif Require Import Fuzzy.
From Verif Require TextProofs FuzzyRank.

Definition y_u : rune -> bool := fun _ => false.
Definition y_pieces (s : string) : list (rune * str) := map (fun c => (N_of_ascii c, [c])) (b s).
Definition y_runes (s : string) : list rune := map N_of_ascii (b s).
Definition y_lines : list string := ["see x=(http://a.org/b%20c);d.org! etc"; "nothing"; "mailto:e.net"]%string.
Definition y_parts : list (nat * parts) :=
  [(1, mkParts (y_pieces "http://") (y_pieces "a.org") (y_pieces "/b%20c")); (1, mkParts [] (y_pieces "d.org") []); (3, mkParts (y_pieces "mailto:") (y_pieces "e.net") [])].
Definition y_links : list link := map (fun p => mkLink (parts_text (snd p)) [] (fst p)) y_parts.

Lemma url_mark u rs : text_url u rs -> In 58%N rs \/ In 46%N rs.
Proof.
  intros (s & d & p & -> & _ & [((x & _ & _ & E) & _)|(-> & cs & t & NC & D)]).
  - left. apply in_or_app. left. destruct E as [->| ->]; apply in_or_app; right; left; reflexivity.
  - right. cbn [app]. apply in_or_app. left. destruct D as (_ & _ & _ & ->). destruct cs as [|c cs]; [congruence|]. cbn [map concat]. apply in_or_app. left. apply in_or_app. left. apply in_or_app. right. left. reflexivity.
Qed.
Lemma no_url_check u l : forallb (fun r => negb (N.eqb r 58) && negb (N.eqb r 46))%bool l = true -> no_url u l.
Proof.
  intros H x y z -> T. rewrite forallb_forall in H. apply url_mark in T. destruct T as [T|T]; (assert (I : In _ (x ++ y ++ z)) by (apply in_or_app; right; apply in_or_app; left; exact T)); specialize (H _ I); discriminate H.
Qed.
Lemma chars_check s l : pieces s = l -> characters s l.
Proof. intros <-. apply FuzzyRank.characters_pieces. Qed.
Ltac chars := apply chars_check; vm_compute; reflexivity.
Lemma plain_word s : forallb (fun c => N_of_ascii c <? 128)%N (b s) = true -> forallb (fun r => negb (N.eqb r 58) && negb (N.eqb r 46))%bool (map N_of_ascii (b s)) = true ->
  characters (b s) (y_pieces s) -> word_urls_are y_u (b s) [].
Proof.
  intros _ H C. exists (y_pieces s). split; [exact C|]. constructor. apply no_url_check. unfold y_pieces. rewrite map_map. exact H.
Qed.
Lemma y_words : words_urls_are y_u (map b ["see"; "x=(http://a.org/b%20c);d.org!"; "etc"]%string) (map snd (firstn 2 y_parts)).
Proof.
  change (map snd (firstn 2 y_parts)) with ([] ++ (map snd (firstn 2 y_parts)) ++ [] ++ []).
  apply words_more. { apply plain_word; [reflexivity..|chars]. }
  apply words_more; [|apply words_more; [apply plain_word; [reflexivity..|chars]|constructor]].
  exists (y_pieces "x=(" ++ y_pieces "http://" ++ y_pieces "a.org" ++ y_pieces "/b%20c" ++ y_pieces ");" ++ [] ++ y_pieces "d.org" ++ [] ++ y_pieces "!"). split; [chars|].
  apply urls_more.
  - apply no_url_check. reflexivity.
  - exists (y_runes "x=("), []. split; [reflexivity|]. split; [|constructor]. right. exists (y_runes "x="), 40%N. split; [reflexivity|]. split; [unfold alnum, is_letter, is_digit|cbn]; lia.
  - split.
    + exists [y_runes "b%20c"]. split; [|reflexivity]. constructor; [|constructor].
      apply segment_char; [left; left; right; left; cbn; lia|]. apply segment_hex; [left; unfold is_digit; cbn; lia|left; unfold is_digit; cbn; lia|].
      apply segment_char; [left; left; right; left; cbn; lia|]. constructor.
    + left. split.
      * exists (y_runes "http"). split; [discriminate|]. split; [|right; reflexivity]. repeat (constructor; [right; left; cbn; lia|]). constructor.
      * exists [y_runes "a"], (y_runes "org"). split; [cbn; lia|]. split; [|split; [|reflexivity]].
        -- constructor; [|constructor]. exists 97%N. split; [left; right; left; cbn; lia|]. left. reflexivity.
        -- exists (y_runes "org"). split; [cbn; lia|]. split; [|left; reflexivity]. repeat (constructor; [right; left; cbn; lia|]). constructor.
  - cbn. unfold alnum, is_letter, is_digit. lia.
  - apply (urls_more y_u (y_pieces ");") [] (y_pieces "d.org") [] (y_pieces "!") []).
    + apply no_url_check. reflexivity.
    + exists [], (y_runes ");"). split; [reflexivity|]. split; [left; reflexivity|]. repeat (constructor; [unfold alnum, is_letter, is_digit; cbn; lia|]). constructor.
    + split; [exists []; split; [constructor|reflexivity]|]. right. right. split; [reflexivity|]. exists [y_runes "d"], (y_runes "org"). split; [discriminate|]. split; [cbn; lia|]. split; [|split; [|reflexivity]].
      * constructor; [|constructor]. exists 100%N. split; [left; right; left; cbn; lia|]. left. reflexivity.
      * exists (y_runes "org"). split; [cbn; lia|]. split; [|left; reflexivity]. repeat (constructor; [right; left; cbn; lia|]). constructor.
    + cbn. unfold alnum, is_letter, is_digit. lia.
    + constructor. apply no_url_check. reflexivity.
Qed.
Lemma y_mail : words_urls_are y_u [b "mailto:e.net"] (map snd (skipn 2 y_parts)).
Proof.
  change (map snd (skipn 2 y_parts)) with ((map snd (skipn 2 y_parts)) ++ []). apply words_more; [|constructor].
  exists ([] ++ y_pieces "mailto:" ++ y_pieces "e.net" ++ [] ++ []). split; [chars|]. apply urls_more.
  - apply no_url_check. reflexivity.
  - exists [], []. split; [reflexivity|]. split; [left; reflexivity|constructor].
  - split; [exists []; split; [constructor|reflexivity]|]. left. split.
    + exists (y_runes "mailto"). split; [discriminate|]. split; [|left; reflexivity]. repeat (constructor; [right; left; cbn; lia|]). constructor.
    + exists [y_runes "e"], (y_runes "net"). split; [cbn; lia|]. split; [|split; [|reflexivity]].
      * constructor; [|constructor]. exists 101%N. split; [left; right; left; cbn; lia|]. left. reflexivity.
      * exists (y_runes "net"). split; [cbn; lia|]. split; [|left; reflexivity]. repeat (constructor; [right; left; cbn; lia|]). constructor.
  - exact Logic.I.
  - constructor. apply no_url_check. reflexivity.
Qed.
Lemma fields_are line words : Fields line = words -> line_words line words.
Proof. intros <-. apply TextProofs.line_words_ok. Qed.
Lemma y_text : text_links y_u None 1 (map b y_lines) y_links.
Proof.
  change y_links with (firstn 2 y_links ++ [] ++ skipn 2 y_links ++ []).
  eapply text_line; [apply fields_are; vm_compute; reflexivity|exact y_words| |].
  { repeat (apply kept_take; [exact Logic.I|]). constructor. }
  eapply text_line; [apply fields_are; vm_compute; reflexivity| | |].
  { change (@nil parts) with (@nil parts ++ []). apply words_more; [|constructor]. apply (plain_word "nothing"); [reflexivity..|chars]. }
  { constructor. }
  eapply text_line; [apply fields_are; vm_compute; reflexivity|exact y_mail| |constructor].
  repeat (apply kept_take; [exact Logic.I|]). constructor.
Qed.
