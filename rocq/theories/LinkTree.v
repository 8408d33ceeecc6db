(** Model of counting and limiting of links: link_tree.go and node_count.go of pkg/burl_links.

    Here trees are values and traversals are recursive functions.  LinkHeap.v models the same
    code with pointers, mutation and explicit queues, and proves that it computes
    the same trees. *)
From Verif Require Import GoBase LinkTypes.
Local Open Scope Z_scope.

(** node_count.go:139-145: a child is attached if its count is positive. *)
Definition attach (tip : option cnode) (acc : list cnode) : list cnode :=
  match tip with
  | None => acc
  | Some c => if 0 <? ccount c then c :: acc else acc
  end.

(** node_count.go:126-168 CountDescendants; link_tree.go:81-92 and 178-181 Clone.
    [f]: Filter, link_source.go:23. *)
Fixpoint count_rec (f : link -> bool) (t : node) : option cnode :=
  match t with
  | Leaf ls =>
      match filter f ls with
      | [] => None                                                   (* 88-90 *)
      | ls' => Some (CLeaf (Z.of_nat (length ls')) 0 ls')            (* node_count.go:154-157 *)
      end
  | Inner p ch =>
      let cs := fold_right attach [] (map (count_rec f) ch) in
      Some (CInner (fold_right (fun c s => ccount c + s) 0 cs) 0 p cs)
  end.

(** link_tree.go:116-125: loop of TreeLeafNode.LimitChildrenCount; [n] links are in
    the result so far.  [seen]: keys of the map. *)
Fixpoint leaf_loop (n : Z) (seen : list str) (ls : list link) (target : Z) : list link :=
  match ls with
  | [] => []
  | l :: ls' =>
      if existsb (str_eqb (URL l)) seen then leaf_loop n seen ls' target
      else l :: (if target <=? n + 1 then []
                 else leaf_loop (n + 1) (URL l :: seen) ls' target)
  end.

(** link_tree.go:106-128 TreeLeafNode.LimitChildrenCount *)
Definition leaf_limit (ls : list link) (target : Z) : outcome (list link) :=
  match ls with
  | [] => Done []                                                            (* 107-110 *)
  | _ =>
      let len := Z.of_nat (length ls) in
      let target := if len <? target then len else target in                 (* 111-113 *)
      if target <? 0 then Panic                                              (* 114: make with negative capacity *)
      else Done (leaf_loop 0 [] ls target)
  end.

(** sort.SliceStable(sorted, treeNodeGreater), link_tree.go:210-217: decreasing counts,
    items with equal counts are kept in order.  An item is (Index, Count). *)
Fixpoint insert (x : nat * Z) (l : list (nat * Z)) : list (nat * Z) :=
  match l with
  | [] => [x]
  | y :: l' => if snd y <=? snd x then x :: l else y :: insert x l'
  end.
Definition stable_sort (l : list (nat * Z)) : list (nat * Z) := fold_right insert [] l.

(** link_tree.go:223-231: leading items with positive count *)
Fixpoint take_positive (l : list (nat * Z)) : list (nat * Z) :=
  match l with
  | [] => []
  | x :: l' => if 0 <? snd x then x :: take_positive l' else []
  end.

(** link_tree.go:233-245, items from the last (smallest) to the first one.
    Result: slots (TargetCount) per index.  [wrap64]: int arithmetics on amd64. *)
Fixpoint share (l : list (nat * Z)) (sum target : Z) : outcome (list (nat * Z)) :=
  match l with
  | [] => Done []
  | (i, count) :: l' =>
      if sum =? 0 then Panic                                                   (* division by zero *)
      else
        let itemCount := Z.quot (wrap64 (count * target)) sum in               (* 237 *)
        let itemCount := if itemCount =? 0 then 1 else itemCount in            (* 238-240 *)
        obind (share l' (wrap64 (sum - count)) (wrap64 (target - itemCount)))  (* 241-242 *)
              (fun r => Done ((i, itemCount) :: r))                            (* 243-244 *)
  end.

Fixpoint lookup (i : nat) (l : list (nat * Z)) : option Z :=
  match l with
  | [] => None
  | (j, v) :: l' => if Nat.eqb i j then Some v else lookup i l'
  end.

(** link_tree.go:203-254 TreeChildrenNode.LimitChildrenCount for non-empty list of
    children with given counts: slots of kept children, None for dropped ones. *)
Definition limit_children (counts : list Z) (target : Z) : outcome (list (option Z)) :=
  let sorted := stable_sort (combine (seq 0 (length counts)) counts) in       (* 209-217 *)
  obind
    (if target <? Z.of_nat (length sorted)                                    (* 220-222 *)
     then if target <? 0 then Panic else Done (firstn (Z.to_nat target) sorted)
     else Done sorted)
    (fun sorted =>
       let sorted := take_positive sorted in                                  (* 223-231 *)
       let sum := fold_right (fun x s => snd x + s) 0 sorted in
       obind (share (rev sorted) sum target)
         (fun slots => Done (map (fun i => lookup i slots) (seq 0 (length counts))))).

(** node_count.go:170-190 FilterChildrenCount: [target] is TargetCount of the node before
    the visit; afterwards it is the number of links below. *)
Fixpoint filter_count (c : cnode) (target : Z) : outcome cnode :=
  match c with
  | CLeaf k _ ls =>
      obind (leaf_limit ls target)
            (fun ls' => Done (CLeaf k (Z.of_nat (length ls')) ls'))
  | CInner k _ p ch =>
      match ch with
      | [] => Done (CInner k 0 p [])                                          (* 204-207 *)
      | _ =>
          obind (limit_children (map ccount ch) target)
            (fun slots =>
               obind
                 ((fix go (l : list cnode) (s : list (option Z)) : outcome (list cnode) :=
                     match l, s with
                     | c :: l', Some t :: s' =>
                         obind (filter_count c t)
                               (fun c' => obind (go l' s') (fun r => Done (c' :: r)))
                     | _ :: l', None :: s' => go l' s'
                     | _, _ => Done []
                     end) ch slots)
                 (fun ch' => Done (CInner k (fold_right (fun c s => ctarget c + s) 0 ch') p ch')))
      end
  end.
