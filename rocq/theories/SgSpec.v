(** * What it means to iterate *)
From Coq Require Import NArith String List.
From Verif Require Import PyStr PyErr SgModel.
Import ListNotations.
Open Scope N_scope.

(** [takes r vs r']: asking for the next value once for each of [vs] gives these, and leaves [r']. *)
Inductive takes : reader -> list N -> reader -> Prop :=
| takes_none : forall r, takes r [] r
| takes_one : forall r v r' vs r'', next r = (r', Ok (Some v)) -> takes r' vs r'' -> takes r (v :: vs) r''.
(** [iterates r vs r']: iteration gives [vs], and then stops for good. *)
Definition iterates (r : reader) (vs : list N) (r' : reader) : Prop :=
  exists q, takes r vs q /\ next q = (r', Ok None) /\ next r' = (r', Ok None).
(** The values of a group of calls, and of a list of groups. *)
Definition values (g : list call) : list N := flat_map c_yields g.
Definition all_values (gs : list (list call)) : list N := flat_map values gs.
(** The calls of a list of groups. *)
Definition names (gs : list (list call)) : list N := flat_map (map c_name) gs.
Definition single (g : list call) : Prop := (length (values g) <= 1)%nat.
