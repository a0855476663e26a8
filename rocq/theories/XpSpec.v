(** * Specification of the XPath axes (XPath 1.0, section 2.2)

    In terms of the parent relation, the node kinds and document order
    ([above], [before] of DomSpec). *)
From Coq Require Import NArith ZArith String List Bool Lia Arith Sorted.
From Verif Require Import PyStr PyErr DomModel DomSpec XpModel.
Import ListNotations.
Local Open Scope nat_scope.

Definition attribute (s : store) (x : nat) : Prop := kind_of s x = Some KAttr.

(** Whether the axis [a] of the node [n] contains [x]. *)
Definition on_axis (s : store) (a : axis) (n x : nat) : Prop :=
  match a with
  | Self => x = n
  | Parent => parent_of s n = Some x
  | Ancestor => above (parent_of s) x n
  | AncestorOrSelf => x = n \/ above (parent_of s) x n
  | Child => parent_of s x = Some n /\ ~ attribute s x
  | Attribute => parent_of s x = Some n /\ attribute s x
  | Descendant => above (parent_of s) n x /\ ~ attribute s x
  | DescendantOrSelf => x = n \/ (above (parent_of s) n x /\ ~ attribute s x)
  | Following => before s n x /\ ~ above (parent_of s) n x /\ ~ attribute s x
  | Preceding => before s x n /\ ~ above (parent_of s) x n /\ ~ attribute s x
  | FollowingSibling => (exists p, parent_of s n = Some p /\ parent_of s x = Some p) /\ before s n x /\ ~ attribute s n /\ ~ attribute s x
  | PrecedingSibling => (exists p, parent_of s n = Some p /\ parent_of s x = Some p) /\ before s x n /\ ~ attribute s n /\ ~ attribute s x
  end.
(** A reverse axis contains only the context node and nodes before it. *)
Definition is_reverse (a : axis) : bool :=
  match a with Ancestor | AncestorOrSelf | Parent | Preceding | PrecedingSibling => true | _ => false end.
(** In document order, or in reverse document order; strictly, hence each node once. *)
Definition in_axis_order (s : store) (a : axis) (l : list nat) : Prop :=
  if is_reverse a then StronglySorted (fun x y => before s y x) l else StronglySorted (before s) l.
