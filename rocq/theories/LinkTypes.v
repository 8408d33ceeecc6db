(** Data types of pkg/burl_links: links and trees of links. *)
From Verif Require Import GoBase.

(** link_tree.go:51-55 Link *)
Record link := mkLink { URL : str; Description : str; LineNo : nat }.

(** extract_org.go:101-104 Heading *)
Record heading := mkHeading { hLineNo : nat; hRawText : str }.

(** link_tree.go:38-40 TreeNodeProps: nil interface, *FileProps (130), *FileGroupProps (140),
    *Heading (which may be a nil pointer inside of a non-nil interface, extract_org.go:159). *)
Inductive props := PNil | PFile (path : str) | PFileGroup | PHeading (h : option heading).

(** link_tree.go:69-71 TreeLeafNode and 149-152 TreeChildrenNode *)
Inductive node :=
| Leaf (links : list link)
| Inner (p : props) (children : list node).

(** node_count.go:23-31 LimitCountNode with its LimitCountAttrs (Count "total",
    TargetCount "filtered") around a TreeLeafNode or a TreeChildrenNode. *)
Inductive cnode :=
| CLeaf (count target : Z) (links : list link)
| CInner (count target : Z) (p : props) (children : list cnode).

Definition ccount (c : cnode) : Z := match c with CLeaf k _ _ => k | CInner k _ _ _ => k end.
Definition ctarget (c : cnode) : Z := match c with CLeaf _ t _ => t | CInner _ t _ _ => t end.

(** Induction principles for nested lists. *)
Lemma node_ind' (P : node -> Prop)
  (HL : forall ls, P (Leaf ls))
  (HI : forall p ch, Forall P ch -> P (Inner p ch)) : forall t, P t.
Proof.
  fix IH 1. intros [ls|p ch]; [apply HL|]. apply HI.
  induction ch as [|c ch IHch]; constructor; auto.
Qed.

Lemma cnode_ind' (P : cnode -> Prop)
  (HL : forall k t ls, P (CLeaf k t ls))
  (HI : forall k t p ch, Forall P ch -> P (CInner k t p ch)) : forall c, P c.
Proof.
  fix IH 1. intros [k t ls|k t p ch]; [apply HL|]. apply HI.
  induction ch as [|c ch IHch]; constructor; auto.
Qed.
