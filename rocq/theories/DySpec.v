(** * Nodes reached by an expression *)
From Coq Require Import NArith ZArith List.
Import ListNotations.

(** x is reached from the nodes of S in one step or more *)
Inductive reach (f : N -> list N) (S : list N) : N -> Prop :=
| reach_one : forall y x, In y S -> In x (f y) -> reach f S x
| reach_more : forall y x, reach f S y -> In x (f y) -> reach f S x.
(** Document order, each node once *)
Inductive ordered : list N -> Prop :=
| ordered_nil : ordered []
| ordered_cons : forall x l, Forall (fun y => (x < y)%N) l -> ordered l -> ordered (x :: l).
(** The sum over the nodes of what the expression gives for them *)
Fixpoint total (value : N -> Z) (l : list N) : Z := match l with [] => 0%Z | x :: l' => (value x + total value l')%Z end.
