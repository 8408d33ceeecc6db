(** Model of CountDescendants and FilterChildrenCount (node_count.go), and of the methods
    they call (link_tree.go), with pointers, mutation and the explicit queue.

    The heap is a list of objects, an address is an index.  Slices are values: [Clone]
    always makes a new backing array (link_tree.go:82, 179) and slices that are
    replaced by a shorter copy (126, 252) are new arrays too, so they are never shared.
    Links are immutable and are not allocated separately; LimitCountAttrs is always
    used through its only LimitCountNode and it is stored inside the latter. *)
From Verif Require Import GoBase LinkTypes LinkTree.
Local Open Scope Z_scope.

Inductive obj :=
| OLeaf (links : list link)                     (* TreeLeafNode *)
| OInner (p : props) (children : list nat)      (* TreeChildrenNode *)
| OCnt (count target : Z) (nd : nat).           (* LimitCountNode *)

Definition heap := list obj.

Fixpoint upd {A} (l : list A) (i : nat) (x : A) : list A :=
  match l, i with
  | [], _ => []
  | _ :: l', O => x :: l'
  | y :: l', S i' => y :: upd l' i' x
  end.

(** Result of a run; [MOut]: out of fuel (proved not to happen). *)
Inductive mres (A : Type) := MDone (a : A) | MPanic | MOut.
Arguments MDone {A} a.
Arguments MPanic {A}.
Arguments MOut {A}.

(** DepthFirstQueue, node_count.go:90-124, as a list with its tip first.
    Pop marks an item visited first time (Post) and leaves it in the queue. *)
Definition queue := list (nat * bool).

(** node_count.go:162-164: children are pushed from last to first *)
Definition push_reversed (ch : list nat) (q : queue) : queue := map (fun a => (a, false)) ch ++ q.
(** node_count.go:184-186: children are pushed from first to last *)
Definition push_direct (ch : list nat) (q : queue) : queue := rev (map (fun a => (a, false)) ch) ++ q.

(** node_count.go:126-168 CountDescendants: main loop.  [stack]: attrNodeStack, top first. *)
Fixpoint count_run (f : link -> bool) (fuel : nat) (h : heap) (q : queue) (stack : list (option nat))
  : mres (heap * option nat) :=
  match fuel with
  | O => MOut
  | S fuel =>
      match q with
      | [] => match last (map Some stack) None with               (* 132, 167 *)
              | Some r => MDone (h, r)
              | None => MPanic
              end
      | (a, true) :: q' =>                                          (* 135-149 *)
          match stack with
          | [] => MPanic
          | [tip] => MDone (h, tip)                                 (* 148 break *)
          | tip :: ((parent :: _) as stack') =>
              match tip with
              | None => count_run f fuel h q' stack'
              | Some tipa =>
                  match nth_error h tipa with
                  | Some (OCnt count _ _) =>
                      if 0 <? count then
                        match parent with
                        | None => MPanic                            (* nil dereference *)
                        | Some pa =>
                            match nth_error h pa with
                            | Some (OCnt pc pt nd) =>
                                let h1 := upd h pa (OCnt (pc + count) pt nd) in          (* 143 *)
                                match nth_error h1 nd with
                                | Some (OInner p ch) =>
                                    count_run f fuel (upd h1 nd (OInner p (ch ++ [tipa]))) q' stack'   (* 144 *)
                                | _ => MPanic                       (* 48: failed type assertion *)
                                end
                            | _ => MPanic
                            end
                        end
                      else count_run f fuel h q' stack'
                  | _ => MPanic
                  end
              end
          end
      | (a, false) :: q' =>                                         (* 150-165 *)
          match nth_error h a with
          | Some (OLeaf ls) =>
              match filter f ls with
              | [] => count_run f fuel h ((a, true) :: q') (None :: stack)
              | ls' =>
                  let nd := length h in
                  count_run f fuel (h ++ [OLeaf ls'; OCnt (Z.of_nat (length ls')) 0 nd])
                    ((a, true) :: q') (Some (S nd) :: stack)
              end
          | Some (OInner p ch) =>
              let nd := length h in
              count_run f fuel (h ++ [OInner p []; OCnt 0 0 nd])
                (push_reversed ch ((a, true) :: q')) (Some (S nd) :: stack)
          | _ => MPanic                                             (* 152: no Clone method *)
          end
      end
  end.

Definition CountDescendants (f : link -> bool) (fuel : nat) (h : heap) (root : nat) : mres (heap * option nat) :=
  count_run f fuel h [(root, false)] [].

(** Counts of children, link_tree.go:213-216; None: failed type assertion *)
Fixpoint child_counts (h : heap) (ch : list nat) : option (list Z) :=
  match ch with
  | [] => Some []
  | a :: ch' =>
      match nth_error h a, child_counts h ch' with
      | Some (OCnt k _ _), Some ks => Some (k :: ks)
      | _, _ => None
      end
  end.

Definition set_target (h : heap) (a : nat) (v : Z) : heap :=
  match nth_error h a with
  | Some (OCnt k _ nd) => upd h a (OCnt k v nd)
  | _ => h
  end.

(** link_tree.go:243 and 246-252 *)
Fixpoint set_targets (h : heap) (ch : list nat) (slots : list (option Z)) : heap :=
  match ch, slots with
  | a :: ch', Some v :: s' => set_targets (set_target h a v) ch' s'
  | _ :: ch', None :: s' => set_targets h ch' s'
  | _, _ => h
  end.
Fixpoint keep_children {A} (ch : list A) (slots : list (option Z)) : list A :=
  match ch, slots with
  | a :: ch', Some _ :: s' => a :: keep_children ch' s'
  | _ :: ch', None :: s' => keep_children ch' s'
  | _, _ => []
  end.

(** Sum of TargetCount of children, node_count.go:178-180 *)
Fixpoint child_targets (h : heap) (ch : list nat) : option Z :=
  match ch with
  | [] => Some 0
  | a :: ch' =>
      match nth_error h a, child_targets h ch' with
      | Some (OCnt _ t _), Some s => Some (t + s)
      | _, _ => None
      end
  end.

(** node_count.go:170-190 FilterChildrenCount: main loop *)
Fixpoint filter_run (fuel : nat) (h : heap) (q : queue) : mres heap :=
  match fuel with
  | O => MOut
  | S fuel =>
      match q with
      | [] => MDone h
      | (a, true) :: q' =>                                                   (* 176-180 *)
          match nth_error h a with
          | Some (OCnt k _ nd) =>
              match nth_error h nd with
              | Some (OLeaf ls) => filter_run fuel (upd h a (OCnt k (Z.of_nat (length ls)) nd)) q'
              | Some (OInner p ch) =>
                  match child_targets h ch with
                  | Some s => filter_run fuel (upd h a (OCnt k s nd)) q'
                  | None => MPanic
                  end
              | _ => MPanic
              end
          | _ => MPanic
          end
      | (a, false) :: q' =>                                                  (* 181-187 *)
          match nth_error h a with
          | Some (OCnt _ t nd) =>
              match nth_error h nd with
              | Some (OLeaf ls) =>
                  match leaf_limit ls t with
                  | Panic => MPanic
                  | Done ls' => filter_run fuel (upd h nd (OLeaf ls')) ((a, true) :: q')
                  end
              | Some (OInner p ch) =>
                  match ch with
                  | [] => filter_run fuel h ((a, true) :: q')
                  | _ =>
                      match child_counts h ch with
                      | None => MPanic
                      | Some counts =>
                          match limit_children counts t with
                          | Panic => MPanic
                          | Done slots =>
                              let ch' := keep_children ch slots in
                              filter_run fuel (upd (set_targets h ch slots) nd (OInner p ch'))
                                (push_direct ch' ((a, true) :: q'))
                          end
                      end
                  end
              | _ => MPanic
              end
          | _ => MPanic
          end
      end
  end.

Definition FilterChildrenCount (fuel : nat) (h : heap) (tree : nat) (target : Z) : mres heap :=
  match nth_error h tree with
  | Some (OCnt _ _ _) => filter_run fuel (set_target h tree target) [(tree, false)]   (* 171-172 *)
  | _ => MPanic
  end.

(** burl_backend.go:192-193: both steps as used by UrlMentions.  The result of the first one is
    dereferenced, so nil (impossible for a group of files) is a crash. *)
Definition count_and_limit (f : link -> bool) (fuel : nat) (h : heap) (root : nat) (limit : Z)
  : mres (heap * nat) :=
  match CountDescendants f fuel h root with
  | MDone (h1, Some r) =>
      match FilterChildrenCount fuel h1 r limit with
      | MDone h2 => MDone (h2, r)
      | MPanic => MPanic
      | MOut => MOut
      end
  | MDone (_, None) => MPanic
  | MPanic => MPanic
  | MOut => MOut
  end.

(** ForEachLink, link_tree.go:256-277: links on which the callback [cb] is called,
    in order; the loop stops after a call that returns false. *)
Fixpoint call_until (cb : link -> bool) (ls : list link) : list link * bool :=
  match ls with
  | [] => ([], true)
  | l :: ls' => if cb l then let '(r, c) := call_until cb ls' in (l :: r, c) else ([l], false)
  end.
Fixpoint foreach_run (cb : link -> bool) (fuel : nat) (h : heap) (q : queue) : mres (list link) :=
  match fuel with
  | O => MOut
  | S fuel =>
      match q with
      | [] => MDone []
      | (_, true) :: q' => foreach_run cb fuel h q'                           (* 261-262 *)
      | (a, false) :: q' =>
          match nth_error h a with
          | Some (OLeaf ls) =>                                                (* 264-270 *)
              let '(called, continue) := call_until cb ls in
              if continue then
                match foreach_run cb fuel h ((a, true) :: q') with
                | MDone r => MDone (called ++ r)
                | x => x
                end
              else MDone called
          | Some (OInner _ ch) => foreach_run cb fuel h (push_reversed ch ((a, true) :: q'))   (* 271-274 *)
          | Some (OCnt _ _ nd) =>
              match nth_error h nd with
              | Some (OInner _ ch) => foreach_run cb fuel h (push_reversed ch ((a, true) :: q'))
              | Some (OLeaf _) => foreach_run cb fuel h ((a, true) :: q')
              | _ => MPanic
              end
          | _ => MPanic
          end
      end
  end.
Definition ForEachLink (cb : link -> bool) (fuel : nat) (h : heap) (tree : nat) : mres (list link) :=
  foreach_run cb fuel h [(tree, false)].
