(** Specification of replies with link trees, independent of the algorithms. *)
From Verif Require Import GoBase LinkTypes.
Local Open Scope Z_scope.

(** Largest value of int on amd64 *)
Definition maxint : Z := 9223372036854775807.

(** All links of a tree in document order. *)
Fixpoint all_links (t : node) : list link :=
  match t with
  | Leaf ls => ls
  | Inner _ ch => flat_map all_links ch
  end.
Fixpoint call_links (c : cnode) : list link :=
  match c with
  | CLeaf _ _ ls => ls
  | CInner _ _ _ ch => flat_map call_links ch
  end.

(** Number of links that are actually in an answer *)
Definition nlinks (c : cnode) : Z := Z.of_nat (length (call_links c)).

Definition matches (f : link -> bool) (t : node) : list link := filter f (all_links t).
Definition nmatches (f : link -> bool) (t : node) : Z := Z.of_nat (length (matches f t)).

(** [x] is obtained from [y] by deletion of some elements. *)
Inductive sublist {A} : list A -> list A -> Prop :=
| sub_nil : sublist [] []
| sub_skip a x y : sublist x y -> sublist x (a :: y)
| sub_keep a x y : sublist x y -> sublist (a :: x) (a :: y).

(** Generalisation: elements that are kept are related by [R]. *)
Inductive sublist2 {A B} (R : A -> B -> Prop) : list A -> list B -> Prop :=
| sub2_nil : sublist2 R [] []
| sub2_skip a x y : sublist2 R x y -> sublist2 R (a :: x) y
| sub2_keep a b x y : R a b -> sublist2 R x y -> sublist2 R (a :: x) (b :: y).

(** A reply is a pruned copy of a tree: nodes correspond to each other, properties are the same,
    links and children are deleted but neither added nor reordered.  [P] holds for every
    pair of corresponding nodes. *)
Inductive pruned (P : node -> cnode -> Prop) : node -> cnode -> Prop :=
| pruned_leaf ls k t ls' :
    sublist ls' ls -> P (Leaf ls) (CLeaf k t ls') -> pruned P (Leaf ls) (CLeaf k t ls')
| pruned_inner p ch k t ch' :
    sublist2 (pruned P) ch ch' -> P (Inner p ch) (CInner k t p ch') ->
    pruned P (Inner p ch) (CInner k t p ch').

(** A copy in which every subtree with a match and, up to repetitions of a URL in the same
    body, every match is present. *)
Inductive complete (f : link -> bool) : node -> cnode -> Prop :=
| complete_leaf ls k t ls' :
    sublist ls' (filter f ls) -> NoDup (map URL ls') ->
    (forall l, In l ls -> f l = true -> In (URL l) (map URL ls')) ->
    complete f (Leaf ls) (CLeaf k t ls')
| complete_inner p ch k t ch' :
    complete_list f ch ch' -> complete f (Inner p ch) (CInner k t p ch')
with complete_list (f : link -> bool) : list node -> list cnode -> Prop :=
| cl_nil : complete_list f [] []
| cl_skip t ts cs : matches f t = [] -> complete_list f ts cs -> complete_list f (t :: ts) cs
| cl_keep t ts c cs : matches f t <> [] -> complete f t c -> complete_list f ts cs ->
    complete_list f (t :: ts) (c :: cs).

(** Division of [target] slots among children with given counts. *)
Definition better (counts : list Z) (i j : nat) : Prop :=
  nth j counts 0 < nth i counts 0 \/ (nth j counts 0 = nth i counts 0 /\ (i < j)%nat).

Definition slot_sum (slots : list (option Z)) : Z :=
  fold_right (fun s acc => match s with Some v => v | None => 0 end + acc) 0 slots.
Definition kept (slots : list (option Z)) : nat :=
  length (filter (fun s => match s with Some _ => true | None => false end) slots).

Definition fair_share (counts : list Z) (target : Z) (slots : list (option Z)) : Prop :=
  length slots = length counts /\
  Z.of_nat (kept slots) = Z.min target (Z.of_nat (length counts)) /\
  slot_sum slots = target /\
  (forall i v, nth_error slots i = Some (Some v) -> 1 <= v) /\
  (forall i j v, nth_error slots i = Some (Some v) -> nth_error slots j = Some None -> better counts i j).
