(** * Specification of string values and of the conversions of paths (XPath 1.0,
    sections 4 and 5) *)
From Coq Require Import NArith ZArith QArith String List Bool Lia Arith Sorted.
From Verif Require Import PyStr PyErr DomModel DomSpec XpModel XpSpec XpPath XpPathSpec.
Import ListNotations.
Local Open Scope nat_scope.

(** Section 5: the string value of an element or a root node is the concatenation
    of its text node descendants in document order; that of any other node is its
    own data. *)
Definition string_value (s : store) (n : nat) (v : str) : Prop :=
  match kind_of s n with
  | None => False
  | Some KElement | Some KEntity =>
    exists l, (forall x, In x l <-> above (parent_of s) n x /\ kind_of s x = Some KText) /\ StronglySorted (before s) l /\ v = flat_map (data_of s) l
  | Some _ => v = data_of s n
  end.

(** Section 4.2: the node of the set [P] that is first in document order. *)
Definition first_in_document_order (s : store) (P : nat -> Prop) (x : nat) : Prop :=
  P x /\ forall y, P y -> y = x \/ document_order s x y.
(** [r] is [f] of the first node of the set, or [d] if the set is empty. *)
Definition of_first_node {A} (s : store) (P : nat -> Prop) (f : nat -> A -> Prop) (d r : A) : Prop :=
  (exists x, first_in_document_order s P x /\ f x r) \/ ((forall x, ~ P x) /\ r = d).

(** Paths whose steps yield nodes in document order: one step along any axis, or
    steps to self, children and attributes with, at the end, possibly one to
    descendants. *)
Definition narrow (st : lstep) : Prop := match ls_axis st with Self | Child | Attribute => True | _ => False end.
Definition downward (st : lstep) : Prop := match ls_axis st with Self | Child | Attribute | Descendant | DescendantOrSelf => True | _ => False end.
Definition in_order (sts : list lstep) : Prop :=
  match sts with
  | [] | [_] => True
  | _ => exists front last, sts = front ++ [last] /\ Forall narrow front /\ downward last
  end.

(** The number of members of a set. *)
Definition cardinality (P : nat -> Prop) (n : nat) : Prop := exists l, NoDup l /\ (forall x, In x l <-> P x) /\ length l = n.

(** Section 4.1: the names of a node. *)
Definition has_name (s : store) (n : nat) : Prop := kind_of s n = Some KElement \/ kind_of s n = Some KAttr.
(** [qname]: the qualified name of an element or attribute. *)
Definition name_is (s : store) (nm : names) (qname : nat -> str) (n : nat) (v : str) : Prop :=
  (has_name s n /\ v = qname n) \/ (kind_of s n = Some KPI /\ v = nm_local nm n) \/ (~ has_name s n /\ kind_of s n <> Some KPI /\ v = []).
Definition local_name_is (s : store) (nm : names) (n : nat) (v : str) : Prop :=
  ((has_name s n \/ kind_of s n = Some KPI) /\ v = nm_local nm n) \/ (~ has_name s n /\ kind_of s n <> Some KPI /\ v = []).
Definition namespace_uri_is (s : store) (nm : names) (n : nat) (v : str) : Prop :=
  (has_name s n /\ exists u, nm_ns nm n = Some u /\ v = u) \/ ((~ has_name s n \/ nm_ns nm n = None) /\ v = []).
