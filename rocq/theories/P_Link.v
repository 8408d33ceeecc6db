(** Properties C15-C22 and C58: answers to urlMentions. *)
From Verif Require Import GoBase LinkTypes LinkTree LinkSpec LinkProofs LinkMain LinkHeap LinkHeapSpec LinkHeapProofs LinkAny.
Local Open Scope Z_scope.

(** Notes used in examples: two files, the second one with a heading. *)
Definition ex_link (u : str) (n : nat) : link := mkLink u (b "text") n.
Definition ex_u1 := b "https://a.org/".
Definition ex_u2 := b "https://b.org/".
Definition ex_heap : heap :=
  [OLeaf [ex_link ex_u1 1; ex_link ex_u2 2; ex_link ex_u1 3];
   OLeaf [ex_link ex_u2 1];
   OLeaf [ex_link ex_u1 5; ex_link ex_u1 6];
   OInner (PHeading (Some (mkHeading 4 (b "Head")))) [2%nat];
   OInner (PFile (b "1.org")) [0%nat];
   OInner (PFile (b "2.org")) [1%nat; 3%nat];
   OInner PFileGroup [4%nat; 5%nat]].
Definition ex_tree : node :=
  Inner PFileGroup
    [Inner (PFile (b "1.org")) [Leaf [ex_link ex_u1 1; ex_link ex_u2 2; ex_link ex_u1 3]];
     Inner (PFile (b "2.org")) [Leaf [ex_link ex_u2 1];
       Inner (PHeading (Some (mkHeading 4 (b "Head")))) [Leaf [ex_link ex_u1 5; ex_link ex_u1 6]]]].
Definition ex_f (l : link) : bool := str_eqb (URL l) ex_u1.

Example ex_rep : rep_node ex_heap 6 ex_tree.
Proof. repeat (econstructor; try reflexivity). Qed.

Definition ex_answer : cnode :=
  CInner 4 2 PFileGroup
    [CInner 2 1 (PFile (b "1.org")) [CLeaf 2 1 [ex_link ex_u1 1]];
     CInner 2 1 (PFile (b "2.org"))
       [CInner 2 1 (PHeading (Some (mkHeading 4 (b "Head")))) [CLeaf 2 1 [ex_link ex_u1 5]]]].
Example ex_answer_ok : exists h, answer ex_f ex_heap 6 4 h ex_answer.
Proof. eapply answer_intro; [exact ex_rep|]. vm_compute. reflexivity. Qed.

(** C15.  Whatever the limit is, a total at each node of the answer is the number of matching links below
    the corresponding node of notes, and there are no subtrees without matches. *)
Theorem C15_totals_exact : forall f h0 a p ts limit h c,
  rep_node h0 a (Inner p ts) -> answer f h0 a limit h c ->
  pruned (fun t c => ccount c = nmatches f t /\
     match c with CInner _ _ _ ch => Forall (fun c => 0 < ccount c) ch | CLeaf _ _ _ => True end) (Inner p ts) c.
Proof. exact totals. Qed.
Print Assumptions C15_totals_exact.

Example C15_example : nmatches ex_f ex_tree = 4 /\ exists h, answer ex_f ex_heap 6 4 h ex_answer.
Proof. split; [reflexivity|exact ex_answer_ok]. Qed.

(** C16.  At most [limit] links are in the answer, at least one if there is anything to show. *)
Theorem C16_at_most_limit : forall f h0 a p ts limit h c,
  rep_node h0 a (Inner p ts) -> 0 <= limit -> nmatches f (Inner p ts) * limit <= maxint ->
  answer f h0 a limit h c ->
  nlinks c <= limit /\ (1 <= limit -> 0 < nmatches f (Inner p ts) -> 1 <= nlinks c).
Proof. exact at_most. Qed.
Print Assumptions C16_at_most_limit.

Example C16_example : exists h c, answer ex_f ex_heap 6 1 h c /\ nmatches ex_f ex_tree * 1 <= maxint /\ nlinks c = 1.
Proof.
  edestruct (answer_intro ex_f ex_heap 6 PFileGroup) with (limit := 1) as (h & H); [exact ex_rep|vm_compute; reflexivity|].
  do 2 eexists. split; [exact H|]. split; [vm_compute; discriminate|reflexivity].
Qed.

(** C17.  Nothing but duplicates is lost if the limit is not exceeded. *)
Theorem C17_nothing_lost : forall f h0 a p ts limit h c,
  rep_node h0 a (Inner p ts) -> 1 <= limit -> nmatches f (Inner p ts) <= limit ->
  nmatches f (Inner p ts) * limit <= maxint ->
  answer f h0 a limit h c -> complete f (Inner p ts) c.
Proof. exact nothing_lost. Qed.
Print Assumptions C17_nothing_lost.

Example C17_example : nmatches ex_f ex_tree <= 4 /\ complete ex_f ex_tree ex_answer.
Proof.
  split; [vm_compute; discriminate|]. destruct ex_answer_ok as (h & H).
  refine (nothing_lost _ _ _ _ _ 4 _ _ ex_rep _ _ _ H); vm_compute; discriminate.
Qed.

(** C18.  How slots are divided among subtrees that have given numbers of matches. *)
Theorem C18_fair_share : forall counts target,
  counts <> [] -> Forall (fun c => 1 <= c) counts -> 1 <= target ->
  fold_right Z.add 0 counts * target <= maxint ->
  exists slots, limit_children counts target = Done slots /\ fair_share counts target slots.
Proof. exact fair. Qed.
Print Assumptions C18_fair_share.

Example C18_example :
  limit_children [1; 10; 2; 2; 7] 3 = Done [None; Some 1; Some 1; None; Some 1] /\
  limit_children [1; 10; 2; 2; 7] 14 = Done [Some 1; Some 7; Some 1; Some 1; Some 4].
Proof. vm_compute. split; reflexivity. Qed.

(** C19.  The answer is made from notes by deletion of links and subtrees only; links in the
    answer match the query and are not repeated inside the body of a heading. *)
Theorem C19_pruned_copy : forall f h0 a p ts limit h c,
  rep_node h0 a (Inner p ts) -> answer f h0 a limit h c ->
  pruned (fun t c => True) (Inner p ts) c /\ Forall (fun l => f l = true) (call_links c) /\
  pruned (fun t c => match c with CLeaf _ _ ls => NoDup (map URL ls) | CInner _ _ _ _ => True end) (Inner p ts) c.
Proof. exact pruned_copy. Qed.
Print Assumptions C19_pruned_copy.

Example C19_example : exists h, answer ex_f ex_heap 6 4 h ex_answer /\ call_links ex_answer = [ex_link ex_u1 1; ex_link ex_u1 5].
Proof. destruct ex_answer_ok as (h & H). exists h. split; [exact H|reflexivity]. Qed.

(** C20.  Every "filtered" value is the number of links in the answer below the node. *)
Theorem C20_filtered_truthful : forall f h0 a p ts limit h c,
  rep_node h0 a (Inner p ts) -> answer f h0 a limit h c ->
  pruned (fun t c => ctarget c = nlinks c /\ ctarget c <= ccount c) (Inner p ts) c.
Proof. exact filtered. Qed.
Print Assumptions C20_filtered_truthful.

Example C20_example : ctarget ex_answer = 2 /\ nlinks ex_answer = 2 /\ exists h, answer ex_f ex_heap 6 4 h ex_answer.
Proof. split; [reflexivity|split; [reflexivity|exact ex_answer_ok]]. Qed.

(** C21.  Any request is either answered or crashes the program. *)
Theorem C21_answer_or_crash : forall f h0 a p ts limit, rep_node h0 a (Inner p ts) ->
  (exists h c, answer f h0 a limit h c) \/ crash f h0 a limit.
Proof. exact answer_or_crash. Qed.
Print Assumptions C21_answer_or_crash.

Theorem C21_no_crash : forall f h0 a p ts limit, rep_node h0 a (Inner p ts) ->
  0 <= limit -> nmatches f (Inner p ts) * limit <= maxint ->
  ~ crash f h0 a limit /\ exists h c, answer f h0 a limit h c.
Proof. exact no_crash. Qed.
Print Assumptions C21_no_crash.

Theorem C21_no_match : forall f h0 a p ts limit, rep_node h0 a (Inner p ts) ->
  nmatches f (Inner p ts) = 0 -> exists h, answer f h0 a limit h (CInner 0 0 p []).
Proof. exact no_match. Qed.
Print Assumptions C21_no_match.

Theorem C21_negative_crash : forall f h0 a p ts limit, rep_node h0 a (Inner p ts) ->
  limit < 0 -> 0 < nmatches f (Inner p ts) -> crash f h0 a limit.
Proof. exact crash_negative. Qed.
Print Assumptions C21_negative_crash.

(** Overflow: some positive limits cause a crash too, so "no crash for non-negative limits" is false. *)
Theorem C21_no_crash_refuted : exists f h0 a p ts limit, rep_node h0 a (Inner p ts) /\
  0 <= limit <= maxint /\ crash f h0 a limit.
Proof. exact overflow_crash. Qed.
Print Assumptions C21_no_crash_refuted.

Example C21_example : crash ex_f ex_heap 6 (-1) /\ ~ crash ex_f ex_heap 6 2305843009213693951.
Proof.
  split.
  - refine (crash_negative _ _ _ _ _ _ ex_rep _ _); vm_compute; reflexivity.
  - refine (proj1 (no_crash _ _ _ _ _ _ ex_rep _ _)); vm_compute; discriminate.
Qed.

(** C22.  Enumeration of links. *)
Theorem C22_document_order : forall cb h a t, rep_node h a t ->
  exists called fuel0, (forall fuel, (fuel0 <= fuel)%nat -> ForEachLink cb fuel h a = MDone called) /\
  ((Forall (fun l => cb l = true) (all_links t) /\ called = all_links t) \/
   (exists pre l post, all_links t = pre ++ l :: post /\ Forall (fun l => cb l = true) pre /\ cb l = false /\
      called = pre ++ [l])).
Proof. exact foreach_prefix. Qed.
Print Assumptions C22_document_order.

Example C22_example :
  option_map (map LineNo) (match ForEachLink (fun l => negb (Nat.eqb (LineNo l) 5)) 20 ex_heap 6 with MDone x => Some x | _ => None end)
  = Some [1; 2; 3; 1; 5]%nat /\ map LineNo (all_links ex_tree) = [1; 2; 3; 1; 5; 6]%nat.
Proof. vm_compute. split; reflexivity. Qed.

(** C58.  A sequence of answered requests changes no object that existed before them (in particular the
    tree of notes) and each answer is the same as if its request were the first one. *)
Theorem C58_requests_independent : forall a p ts h0 rs h, rep_node h0 a (Inner p ts) -> requests a h0 rs h ->
  (forall x, (x < length h0)%nat -> nth_error h x = nth_error h0 x) /\ rep_node h a (Inner p ts) /\
  Forall (fun '(f, limit, c) => exists h', answer f h0 a limit h' c) rs.
Proof. exact requests_ok. Qed.
Print Assumptions C58_requests_independent.

Theorem C58_answer_unique : forall f h0 a limit h c h' c',
  answer f h0 a limit h c -> answer f h0 a limit h' c' -> h = h' /\ c = c'.
Proof. exact answer_unique. Qed.
Print Assumptions C58_answer_unique.

(** The answer is made of new objects only. *)
Theorem C58_answer_is_new : forall f h0 a p ts limit h c, rep_node h0 a (Inner p ts) -> answer f h0 a limit h c ->
  exists r F, rep_c h r c F /\ NoDup F /\ forall x, In x F -> (length h0 <= x)%nat.
Proof. exact answer_new. Qed.
Print Assumptions C58_answer_is_new.

Example C58_example : exists h c, requests 6 ex_heap [(ex_f, 4, ex_answer); (fun _ => true, 3, c); (ex_f, 4, ex_answer)] h.
Proof.
  assert (A : forall f limit c h, rep_node h 6 ex_tree -> limited f ex_tree limit = Some (Done c) ->
     exists h1, answer f h 6 limit h1 c /\ rep_node h1 6 ex_tree).
  { intros f limit c h HR E. destruct (answer_intro _ _ _ _ _ _ _ HR E) as (h1 & H). exists h1. split; [exact H|].
    destruct (answer_limited _ _ _ _ _ _ _ _ HR H) as (_ & G & _). eapply rep_node_mono; [exact G|exact HR]. }
  destruct (A ex_f 4 ex_answer ex_heap ex_rep eq_refl) as (h1 & A1 & R1).
  assert (E : exists c, limited (fun _ => true) ex_tree 3 = Some (Done c)) by (vm_compute; eauto).
  destruct E as (c & E). destruct (A (fun _ => true) 3 c h1 R1 E) as (h2 & A2 & R2).
  destruct (A ex_f 4 ex_answer h2 R2 eq_refl) as (h3 & A3 & R3).
  do 2 eexists. econstructor; [exact A1|]. econstructor; [exact A2|]. econstructor; [exact A3|]. constructor.
Qed.
