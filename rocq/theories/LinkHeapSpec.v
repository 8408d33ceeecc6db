(** Representation of trees in the heap. *)
From Verif Require Import GoBase LinkTypes LinkSpec LinkHeap.
Local Open Scope Z_scope.

(** The object at an address is a tree of notes. *)
Inductive rep_node (h : heap) : nat -> node -> Prop :=
| rep_leaf a ls : nth_error h a = Some (OLeaf ls) -> rep_node h a (Leaf ls)
| rep_inner a p ch ts : nth_error h a = Some (OInner p ch) -> Forall2 (rep_node h) ch ts ->
    rep_node h a (Inner p ts).

(** The object at an address is a tree with counters; [F]: addresses it is made of. *)
Inductive rep_c (h : heap) : nat -> cnode -> list nat -> Prop :=
| repc_leaf a k t nd ls : nth_error h a = Some (OCnt k t nd) -> nth_error h nd = Some (OLeaf ls) ->
    rep_c h a (CLeaf k t ls) [a; nd]
| repc_inner a k t nd p ch cs F : nth_error h a = Some (OCnt k t nd) ->
    nth_error h nd = Some (OInner p ch) -> rep_cs h ch cs F ->
    rep_c h a (CInner k t p cs) (a :: nd :: F)
with rep_cs (h : heap) : list nat -> list cnode -> list nat -> Prop :=
| repcs_nil : rep_cs h [] [] []
| repcs_cons a c F ch cs G : rep_c h a c F -> rep_cs h ch cs G ->
    rep_cs h (a :: ch) (c :: cs) (F ++ G).

(** Number of nodes *)
Fixpoint size (t : node) : nat :=
  match t with
  | Leaf _ => 1
  | Inner _ ch => S (fold_right (fun c n => (size c + n)%nat) 0%nat ch)
  end.

(** The tree with counters [c] in the heap [h] is the answer to a query for links [f] with
    the limit in the tree of notes stored at [a] in [h0]: computation stops (for any larger
    amount of fuel the result is the same) and returns a pointer to [c]. *)
Definition answer (f : link -> bool) (h0 : heap) (a : nat) (limit : Z) (h : heap) (c : cnode) : Prop :=
  exists r F fuel0, rep_c h r c F /\
    forall fuel, (fuel0 <= fuel)%nat -> count_and_limit f fuel h0 a limit = MDone (h, r).

(** The program is terminated by a panic. *)
Definition crash (f : link -> bool) (h0 : heap) (a : nat) (limit : Z) : Prop :=
  exists fuel0, forall fuel, (fuel0 <= fuel)%nat -> count_and_limit f fuel h0 a limit = MPanic.

(** A sequence of requests in the same heap *)
Inductive requests (a : nat) : heap -> list ((link -> bool) * Z * cnode) -> heap -> Prop :=
| req_nil h : requests a h [] h
| req_cons h f limit c h1 rs h2 : answer f h a limit h1 c -> requests a h1 rs h2 ->
    requests a h ((f, limit, c) :: rs) h2.
