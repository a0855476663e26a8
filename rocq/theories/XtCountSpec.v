(** * Specification of C61: XSLT 1.0, 7.7, in terms of the axes of XpSpec *)
From Coq Require Import NArith ZArith String List Bool Lia Arith Sorted.
From Verif Require Import PyStr PyErr DomModel DomSpec XpModel XpSpec.
Import ListNotations.
Local Open Scope nat_scope.

Section Spec.
Variables (s : store) (count : nat -> Prop) (from : nat -> Prop).

(** [x] is the node or an ancestor of it below the nearest ancestor that matches from. *)
Definition searched (n x : nat) : Prop :=
  on_axis s AncestorOrSelf n x /\ (forall y, on_axis s Ancestor n y -> from y -> on_axis s Ancestor x y).
(** One plus the number of preceding siblings that match count. *)
Definition sibling_number (x : nat) (v : N) : Prop :=
  exists l, NoDup l /\ (forall y, In y l <-> on_axis s PrecedingSibling x y /\ count y) /\ v = (1 + N.of_nat (List.length l))%N.
(** level="single": the nearest node searched that matches count. *)
Definition nearest (n x : nat) : Prop :=
  searched n x /\ count x /\ (forall y, searched n y -> count y -> on_axis s AncestorOrSelf x y).
Definition single_list (n : nat) (values : list N) : Prop :=
  (exists x v, nearest n x /\ sibling_number x v /\ values = [v]) \/ ((forall x, searched n x -> ~ count x) /\ values = []).
(** level="multiple": all nodes searched that match count, in document order. *)
Definition multiple_list (n : nat) (values : list N) : Prop :=
  exists l, StronglySorted (before s) l /\ (forall x, In x l <-> searched n x /\ count x) /\ Forall2 sibling_number l values.
(** level="any": the nodes of the preceding and ancestor-or-self axes that match count and
    come after the last node before the current one that matches from. *)
Definition back (n x : nat) : Prop := on_axis s AncestorOrSelf n x \/ on_axis s Preceding n x.
Definition any_number (n : nat) (v : N) : Prop :=
  exists l, NoDup l /\ (forall x, In x l <-> back n x /\ count x /\ (forall y, back n y -> y <> n -> from y -> before s y x)) /\ v = N.of_nat (List.length l).
End Spec.
