(** Properties C33-C38: approximate search (pkg/burl_fuzzy, BurlBackend.Search). *)
From Verif Require Import GoBase Utf8 Fuzzy FuzzySpec FuzzyDist FuzzyMain FuzzyRank.
From Coq Require Import Sorting.Permutation Sorting.Sorted.
Local Open Scope Z_scope.

Definition id_rune : rune -> rune := fun r => r.

(** C33.  The distance is the cost of the cheapest script of insertions, deletions, substitutions
    and transpositions of neighbours that turns the pattern into a part of the word.  (A script
    describes each character once, so a transposed pair is not edited further.) *)
Theorem C33_distance_optimal : forall pattern word, pattern <> [] -> word <> [] ->
  exists d, distance pattern word d /\ EditorDistanceRunes pattern word = Done (Z.min d 32767).
Proof. exact editor_distance. Qed.
Print Assumptions C33_distance_optimal.

Theorem C33_distance_unique : forall pattern word d d', distance pattern word d -> distance pattern word d' -> d = d'.
Proof. exact distance_unique. Qed.
Print Assumptions C33_distance_unique.

(** Empty arguments crash unless there is nothing to index. *)
Theorem C33_panics : forall pattern word, EditorDistanceRunes pattern word = Panic <->
  (pattern = [] /\ word <> []) \/ (word = [] /\ (2 <= length pattern)%nat).
Proof. exact editor_panic. Qed.
Print Assumptions C33_panics.

Example C33_example :
  EditorDistanceRunes (runes_of (b "exmalpe")) (runes_of (b "https://example.com/")) = Done 2 /\
  distance (runes_of (b "exmalpe")) (runes_of (b "https://example.com/")) 2.
Proof.
  assert (E : EditorDistanceRunes (runes_of (b "exmalpe")) (runes_of (b "https://example.com/")) = Done 2) by (vm_compute; reflexivity).
  split; [exact E|].
  destruct (C33_distance_optimal (runes_of (b "exmalpe")) (runes_of (b "https://example.com/"))) as (d & D & E'); [discriminate..|].
  rewrite E in E'. injection E' as E'. replace 2 with d by lia. exact D.
Qed.
Example C33_example_script :
  let s := [Keep 101; Keep 120; Swap 109 97; Swap 108 112; Keep 101]%N in
  finds s (runes_of (b "exmalpe")) (runes_of (b "https://example.com/")) /\ script_cost s = 2.
Proof.
  split; [|reflexivity]. split; [reflexivity|]. exists (runes_of (b "https://")), (runes_of (b ".com/")). reflexivity.
Qed.

(** C34.  Search returns the best [limit] (10 by default) of accepted links, the best first. *)
Theorem C34_best_first : forall u query links limit tolerance,
  Forall (fun l => l <> []) links ->
  (match limit with Some l => 1 <= l < 100 | None => True end) ->
  (match tolerance with Some t => 0 <= t | None => True end) ->
  let k := Z.to_nat (match limit with Some l => l | None => 10 end) in
  let tol := match tolerance with Some t => t | None => 5 end in
  exists acc r, accepted u (Fields query) tol links acc /\ best_of k acc r /\
    Search u query links limit tolerance = Done (Some (map Word r)).
Proof. exact search_best. Qed.
Print Assumptions C34_best_first.

(** Without upper case and non-ASCII letters these are the best of links having the sum of distances
    to words of the query within the tolerance. *)
Theorem C34_best_plain : forall u query links limit tolerance,
  plain query -> Z.of_nat (length query) <= 32767 -> Forall (fun l => l <> [] /\ plain l) links ->
  (match limit with Some l => 1 <= l < 100 | None => True end) ->
  (match tolerance with Some t => 0 <= t | None => True end) ->
  let k := Z.to_nat (match limit with Some l => l | None => 10 end) in
  let tol := match tolerance with Some t => t | None => 5 end in
  exists acc r, close (Fields query) tol links acc /\ best_of k acc r /\
    Search u query links limit tolerance = Done (Some (map Word r)).
Proof. exact search_close. Qed.
Print Assumptions C34_best_plain.

Theorem C34_best_unique : forall k l r r', best_of k l r -> best_of k l r' -> r = r'.
Proof. exact best_unique. Qed.
Print Assumptions C34_best_unique.

Theorem C34_query_words : forall query, exists chars words,
  characters query chars /\ words_of (fun c => white (fst c)) chars words /\
  Fields query = map (fun w => concat (map snd w)) words.
Proof. exact fields_words. Qed.
Print Assumptions C34_query_words.

Theorem C34_bad_arguments : forall u query links limit tolerance,
  (match limit with Some l => l <= 0 \/ 100 <= l | None => False end) \/
  (match tolerance with Some t => t < 0 | None => False end) ->
  Search u query links limit tolerance = Done None.
Proof. exact search_errors. Qed.
Print Assumptions C34_bad_arguments.

Definition ex_links := map b ["https://orgmode.org/list/"; "https://orgmode.org/"; "https://emacs.org/"; "mailto:x@y";
  "https://orgmdoe.org/"; "http://ormode.org/"]%string.
Example C34_example :
  Search id_rune (b "orgmode  org") ex_links (Some 3) (Some 2) =
    Done (Some (map b ["https://orgmode.org/"; "https://orgmode.org/list/"; "http://ormode.org/"]%string)) /\
  Fields (b "orgmode  org") = [b "orgmode"; b "org"] /\
  Forall (fun l => l <> [] /\ plain l) ex_links /\ plain (b "orgmode  org").
Proof.
  split; [vm_compute; reflexivity|]. split; [vm_compute; reflexivity|].
  assert (P : forall s, forallb (fun a => (N_of_ascii a <? 128)%N && negb ((65 <=? N_of_ascii a)%N && (N_of_ascii a <=? 90)%N)) s = true -> plain s).
  { intros s H. rewrite forallb_forall in H. apply Forall_forall. intros a Ha. specialize (H a Ha).
    apply andb_prop in H. destruct H as [H1 H2]. apply N.ltb_lt in H1. split; [exact H1|]. intros [A B].
    apply N.leb_le in A. apply N.leb_le in B. rewrite A, B in H2. discriminate. }
  split; [|apply P; reflexivity].
  repeat (constructor; [split; [discriminate|apply P; reflexivity]|]). constructor.
Qed.

(** C35.  An accepted link has the sum of distances within the tolerance and this sum is its weight.
    Distance of a word of the query is 0 for a word that literally occurs in the link. *)
Theorem C35_within_tolerance : forall u words link tolerance, link <> [] -> Forall (fun q => q <> []) words -> 0 <= tolerance ->
  exists ok d, QueryDistance u (MakeSubqueryLimit words tolerance) link tolerance = Done (ok, d) /\
    (ok = true -> d <= tolerance /\
      exists ds, Forall2 (word_distance u link) words ds /\ d = fold_right Z.add 0 ds).
Proof. exact accepted_within. Qed.
Print Assumptions C35_within_tolerance.

Theorem C35_plain_text : forall u words link tolerance, plain link -> link <> [] -> 0 <= tolerance ->
  Forall (fun q => q <> [] /\ plain q /\ Z.of_nat (length q) <= 32767) words ->
  exists total ok d, distances (bytesN link) (map bytesN words) total /\
    QueryDistance u (MakeSubqueryLimit words tolerance) link tolerance = Done (ok, d) /\
    (ok = true <-> total <= tolerance) /\ (ok = true -> d = total).
Proof. exact plain_accept. Qed.
Print Assumptions C35_plain_text.

Example C35_example :
  QueryDistance id_rune (MakeSubqueryLimit [b "orgmdoe"; b "lits"] 2) (b "https://orgmode.org/list/") 2 = Done (true, 2) /\
  QueryDistance id_rune (MakeSubqueryLimit [b "orgmdoe"; b "lits"] 1) (b "https://orgmode.org/list/") 1 = Done (false, 26).
Proof. split; vm_compute; reflexivity. Qed.

(** C36.  For ASCII text the check of lengths rejects no link that is within the tolerance. *)
Theorem C36_prune_safe : forall u q w limit d, is_ascii q -> is_ascii w -> q <> [] -> w <> [] -> 0 < limit -> d <= 32767 ->
  distance (runes_of (ToLower u q)) (runes_of (ToLower u w)) d -> d <= limit ->
  GetSubqueryDistance u q w limit = Done d.
Proof. exact prune_safe. Qed.
Print Assumptions C36_prune_safe.

Example C36_example : GetSubqueryDistance id_rune (b "abcdef") (b "ABcde") 1 = Done 1.
Proof. vm_compute. reflexivity. Qed.

(** Lengths are in bytes, so it is not safe for other text. *)
Theorem C36_prune_unsafe_refuted : exists u q w limit d, q <> [] /\ w <> [] /\ 0 < limit /\
  distance (runes_of (ToLower u q)) (runes_of (ToLower u w)) d /\ d <= limit /\
  QueryDistance u (MakeSubqueryLimit [q] limit) w limit = Done (false, 4).
Proof. exact prune_unsafe. Qed.
Print Assumptions C36_prune_unsafe_refuted.

(** C37.  With zero tolerance only literal occurrence of the word is accepted. *)
Theorem C37_zero_tolerance : forall u q w, q <> [] -> w <> [] ->
  (QueryDistance u (MakeSubqueryLimit [q] 0) w 0 = Done (true, 0) <-> substring q w).
Proof. exact zero_exact. Qed.
Print Assumptions C37_zero_tolerance.

(** With positive tolerance letter case is ignored. *)
Theorem C37_case_ignored : forall u q w limit, is_ascii q -> is_ascii w -> 0 < limit ->
  GetSubqueryDistance u q w limit = GetSubqueryDistance u (ToLower u q) (ToLower u w) limit.
Proof. exact case_ignored. Qed.
Print Assumptions C37_case_ignored.

(** Rejected with tolerance 0, but the distance is 0 with tolerance 1. *)
Theorem C37_monotone_refuted : exists u q w,
  Search u q [w] None (Some 0) = Done (Some []) /\ Search u q [w] None (Some 1) = Done (Some [w]) /\
  QueryDistance u (MakeSubqueryLimit (Fields q) 1) w 1 = Done (true, 0).
Proof. exists id_rune, (b "ABC"), (b "abc"). vm_compute. repeat split. Qed.
Print Assumptions C37_monotone_refuted.

(** Order of words matters. *)
Theorem C37_order_refuted : exists u x y w, Search u (x ++ b " " ++ y) [w] None (Some 1) = Done (Some []) /\
  Search u (y ++ b " " ++ x) [w] None (Some 1) = Done (Some [w]).
Proof. exists id_rune, (b "x"), (b "ABC"), (b "abc y"). vm_compute. split; reflexivity. Qed.
Print Assumptions C37_order_refuted.

(** C38.  Limits of words, derived from their lengths, have no effect. *)
Theorem C38_limits_unused : forall u q1 q2 word limit, map sq_query q1 = map sq_query q2 ->
  QueryDistance u q1 word limit = QueryDistance u q2 word limit.
Proof. exact limits_unused. Qed.
Print Assumptions C38_limits_unused.

(** A two letter word has limit 1, but it is accepted when both letters are missing. *)
Theorem C38_word_limit_refuted : exists u q w, map sq_limit (MakeSubqueryLimit [q] 5) = [1] /\
  QueryDistance u (MakeSubqueryLimit [q] 5) w 5 = Done (true, 2).
Proof. exists id_rune, (b "qq"), (b "http://a.b/"). vm_compute. split; reflexivity. Qed.
Print Assumptions C38_word_limit_refuted.
