(** Serialisation of replies: pkg/burl_links/node_count.go, link_tree.go, pkg/burl_rpc/burl_rpc.go.
    Results of json.Marshal are values of [json] (Json.v) instead of texts; encoding/json calls MarshalJSON of
    nested values and puts their (compact) texts into its own output. *)
From Verif Require Import GoBase GoSlice LinkTypes Json Backend.

(** link_tree.go:51-65 Link.MarshalJSON: fields of the embedded structure, then the type *)
Definition link_json (l : link) : json :=
  JObj ([(b "url", JStr (URL l))]
        ++ (match Description l with [] => [] | d => [(b "descr", JStr d)] end)      (* omitempty *)
        ++ [(b "lineNo", JInt (Z.of_nat (LineNo l))); (b "_type", JStr (b "Link"))]).

(** Keys of Go maps are sorted by json.Marshal; later assignment replaces a value. *)
Fixpoint str_ltb (x y : str) : bool :=
  match x, y with
  | _, [] => false
  | [], _ :: _ => true
  | c :: x', d :: y' => (N_of_ascii c <? N_of_ascii d)%N || ((N_of_ascii c =? N_of_ascii d)%N && str_ltb x' y')
  end.
Fixpoint set_key {A} (k : str) (v : A) (m : list (str * A)) : list (str * A) :=
  match m with
  | [] => [(k, v)]
  | (k', v') :: m' =>
      if str_eqb k k' then (k, v) :: m'
      else if str_ltb k k' then (k, v) :: m
      else (k', v') :: set_key k v m'
  end.

(** Values in the queue of reflectFlatten: *LimitCountNode, *LimitCountAttrs, *TreeLeafNode, *TreeChildrenNode, TreeNodeProps.
    [A]: children nodes *)
Inductive treeNode (A : Type) := TLeaf (links : list link) | TChildren (p : props) (children : list A).
Arguments TLeaf {A}. Arguments TChildren {A}.
Inductive item (A : Type) := ICount (count target : Z) (t : treeNode A) | IAttrs (count target : Z) | INode (t : treeNode A) | IProps (p : props).
Arguments ICount {A}. Arguments IAttrs {A}. Arguments INode {A}. Arguments IProps {A}.
Inductive field (A : Type) := FStr (s : str) | FInt (n : Z) | FLinks (l : list link) | FChildren (l : list A).
Arguments FStr {A}. Arguments FInt {A}. Arguments FLinks {A}. Arguments FChildren {A}.

(** node_count.go:56-73, an iteration: the value [p] is a pointer to a structure, its type name, values of its fields with the
    tag "burl" (to be added to the queue) and other fields (name, value).  A nil interface and a nil pointer: panic in line 60 or 61. *)
Definition visit {A} (p : item A) : outcome (option str * list (item A) * list (str * field A)) :=
  match p with
  | ICount k t n => Done (None, [IAttrs k t; INode n], [])                                              (* 28-31 *)
  | IAttrs k t => Done (None, [], [(b "total", FInt k); (b "filtered", FInt t)])                        (* 23-26 *)
  | INode (TLeaf ls) => Done (Some (b "Body"), [], [(b "links", FLinks ls)])                            (* link_tree.go:69-79 *)
  | INode (TChildren q ch) => Done (None, [IProps q], [(b "children", FChildren ch)])                   (* link_tree.go:149-152 *)
  | IProps (PFile path) => Done (Some (b "File"), [], [(b "path", FStr path)])                          (* link_tree.go:130-138 *)
  | IProps PFileGroup => Done (Some (b "FileGroup"), [], [])                                            (* link_tree.go:140-146 *)
  | IProps (PHeading (Some h)) =>
      Done (Some (b "Heading"), [], [(b "lineNo", FInt (Z.of_nat (hLineNo h))); (b "rawText", FStr (hRawText h))])   (* extract_org.go:101-110 *)
  | IProps (PHeading None) => Panic
  | IProps PNil => Panic
  end.
(** node_count.go:51-75 reflectFlatten.  [queue]: from the last to the first.  None: [fuel] is not enough. *)
Fixpoint flatten_loop {A} (fuel : nat) (queue : list (item A)) (m : list (str * field A)) : option (outcome (list (str * field A))) :=
  match fuel, queue with
  | _, [] => Some (Done m)
  | 0, _ => None
  | S fuel', p :: queue' =>
      match visit p with
      | Panic => Some Panic
      | Done (ty, more, fields) =>
          let m := match ty with Some ty => set_key (b "_type") (FStr ty) m | None => m end in
          flatten_loop fuel' (rev more ++ queue') (fold_left (fun m f => set_key (fst f) (snd f) m) fields m)
      end
  end.
Definition reflectFlatten {A} (p : item A) : option (outcome (list (str * field A))) := flatten_loop 4 [p] [].

Fixpoint oall {A} (l : list (outcome A)) : outcome (list A) :=
  match l with
  | [] => Done []
  | x :: l' => let! v := x in let! r := oall l' in Done (v :: r)
  end.
(** json.Marshal of the map.  Children here are results of their MarshalJSON. *)
Definition field_json (v : field (outcome json)) : outcome json :=
  match v with
  | FStr s => Done (JStr s)
  | FInt n => Done (JInt n)
  | FLinks l => Done (JArr (map link_json l))
  | FChildren l => let! r := oall l in Done (JArr r)
  end.
Definition map_json (m : list (str * field (outcome json))) : outcome json :=
  let! l := oall (map (fun '(k, v) => let! j := field_json v in Done (k, j)) m) in Done (JObj l).
Definition flat_json (count target : Z) (t : treeNode (outcome json)) : outcome json :=
  match reflectFlatten (ICount count target t) with
  | Some (Done m) => map_json m
  | _ => Panic
  end.
(** node_count.go:77-88 LimitCountNode.MarshalJSON *)
Fixpoint MarshalJSON (c : cnode) : outcome json :=
  match c with
  | CLeaf k t ls => flat_json k t (TLeaf ls)
  | CInner k t p ch =>
      match p, map MarshalJSON ch with
      | PFileGroup, [child] => child
      | _, children => flat_json k t (TChildren p children)
      end
  end.

(** Results of methods: structures in burl_rpc.go.  [PError] has no result, see net/rpc. *)
Definition result_json (r : reply) : outcome json :=
  match r with
  | PError _ => Done JNull
  | PHello f v caps =>                                                                       (* burl_rpc.go:54-59, burl_backend.go:136-144 *)
      Done (JObj [(b "format", JStr f); (b "version", JStr v);
                  (b "capabilities", match caps with [] => JNull | _ => JArr (map JStr caps) end);   (* nil slice *)
                  (b "options", JObj [(b "clipboardForBody", JBool false)])])
  | PCapture p s => Done (JObj [(b "preview", JBool p); (b "status", JStr s)])               (* 75-78 *)
  | PMentions c => MarshalJSON c
  | PVisit => Done (JBool true)
  | PSearch urls => Done (JArr (map (fun u => JObj [(b "url", JStr u)]) urls))               (* 24-27, empty title *)
  | PLinkSet urls => Done (JObj [(b "urls", JArr (map JStr urls))])                          (* 86-88, burl_backend.go:257 *)
  end.
