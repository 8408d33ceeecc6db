(** Properties C12, C13, C14: URL variants (pkg/burl_url/url.go). *)
From Verif Require Import GoBase Utf8 Utf8Proofs Url UrlSpec UrlProofs.
From Coq Require Import Sorting.Permutation Sorting.Sorted.

(** C12.  For a valid non-empty URL the variants (without scheme change) are
    exactly the URL with a part of its redundant tail dropped; they are listed
    from the shortest one without repetitions and the last is the URL itself. *)
Theorem C12_tail_variants : forall url : str,
  valid_utf8 url -> url <> [] ->
  (forall v, In v (RedundantTailVariants url) <-> tail_variant url v)
  /\ StronglySorted (fun x y : str => length x < length y) (RedundantTailVariants url)
  /\ (exists init, RedundantTailVariants url = init ++ [url]).
Proof.
  exact (fun url Hv Hn => conj (fun v => tail_variants_iff url v Hv Hn)
           (conj (tail_variants_sorted url) (tail_variants_last url Hv Hn))).
Qed.
Print Assumptions C12_tail_variants.

Theorem C12_empty_url : forall entries,
  Permutation entries replacements -> UrlVariants entries [] = [].
Proof. exact (fun entries H => url_variants_order entries [] H). Qed.
Print Assumptions C12_empty_url.

(** Non-vacuity: a URL that has a redundant tail with all its parts. *)
Example C12_example :
  valid_utf8 (b "https://a.b/c//?&&#") /\
  RedundantTailVariants (b "https://a.b/c//?&&#") =
  map b ["https://a.b/c"; "https://a.b/c/"; "https://a.b/c//"; "https://a.b/c//?";
         "https://a.b/c//?&"; "https://a.b/c//?&&"; "https://a.b/c//?&&#"]%string.
Proof. split; [apply valid_utf8_ascii; repeat constructor | vm_compute; reflexivity]. Qed.

(** "Consider URLs ending with /?&# as equivalent" (url.go:34) does not hold as
    equivalence: being a variant is not symmetric. *)
Theorem C12_symmetry_refuted :
  exists u v, In v (RedundantTailVariants u) /\ ~ In u (RedundantTailVariants v).
Proof.
  exists (b "http://a/"), (b "http://a"). vm_compute.
  split; [left; reflexivity | intros [H|[]]; discriminate].
Qed.
Print Assumptions C12_symmetry_refuted.

(** C13.  Variants are those of the URL and of the URL with the other one of
    http/https; the list (not only the set) is the same for every iteration
    order of the Go map. *)
Theorem C13_scheme_variants : forall entries url v,
  Permutation entries replacements -> valid_utf8 url -> url <> [] ->
  (In v (UrlVariants entries url) <->
   tail_variant url v \/ exists url', other_scheme url url' /\ tail_variant url' v).
Proof. exact url_variants_iff. Qed.
Print Assumptions C13_scheme_variants.

Theorem C13_map_order_irrelevant : forall e1 e2 url,
  Permutation e1 replacements -> Permutation e2 replacements ->
  UrlVariants e1 url = UrlVariants e2 url.
Proof.
  exact (fun e1 e2 url H1 H2 =>
    eq_trans (url_variants_order e1 url H1) (eq_sym (url_variants_order e2 url H2))).
Qed.
Print Assumptions C13_map_order_irrelevant.

Example C13_example :
  Permutation (rev replacements) replacements /\
  UrlVariants (rev replacements) (b "http://a/") =
  map b ["http://a"; "http://a/"; "https://a"; "https://a/"]%string /\
  UrlVariants replacements (b "https://a") = map b ["https://a"; "http://a"]%string /\
  UrlVariants replacements (b "mid:x#") = map b ["mid:x"; "mid:x#"]%string.
Proof. split; [apply perm_swap | vm_compute; auto]. Qed.

(** C14.  Every byte outside of well formed UTF-8 is replaced with U+FFFD,
    so every variant is valid, and an invalid URL is not its own variant. *)
Theorem C14_sanitized : forall url,
  exists url', sanitized url url' /\ valid_utf8 url' /\
    RedundantTailVariants url = RedundantTailVariants url'.
Proof.
  exact (fun url => ex_intro _ (string_of (runes_of url))
    (conj (sanitized_runes url) (conj (string_of_valid _) (variants_sanitize url)))).
Qed.
Print Assumptions C14_sanitized.

Theorem C14_variants_valid : forall entries url v,
  Permutation entries replacements -> In v (UrlVariants entries url) -> valid_utf8 v.
Proof. exact url_variants_all_valid. Qed.
Print Assumptions C14_variants_valid.

Theorem C14_invalid_lost : forall entries url,
  Permutation entries replacements -> ~ valid_utf8 url -> ~ In url (UrlVariants entries url).
Proof. exact (fun e url H Hn Hin => Hn (url_variants_all_valid e url url H Hin)). Qed.
Print Assumptions C14_invalid_lost.

Example C14_example : let url := b "http://a/" ++ [ascii_of_N 255] in
  ~ valid_utf8 url /\
  RedundantTailVariants url = [b "http://a/" ++ strN [239; 191; 189]%N].
Proof.
  split; [|vm_compute; reflexivity].
  intros H. apply string_runes_iff in H. vm_compute in H. discriminate.
Qed.
