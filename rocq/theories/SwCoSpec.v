(** * Specification: the structure with what is sent in the place of the cursor *)
From Coq Require Import NArith String List Bool.
From Verif Require Import PyStr SwModel SwCoModel.
Import ListNotations.

Fixpoint filled (vs : list obj) (c : cobj) : obj :=
  match c with
  | CItem o => o
  | CElem ns q atts content => OE ns q atts (map (filled vs) content)
  | CCursor ns q atts => OE ns q atts vs
  | CRoot content => ORoot (map (filled vs) content)
  end.
(** The number of cursors. *)
Fixpoint cursors (c : cobj) : nat :=
  match c with
  | CItem _ => 0
  | CElem _ _ _ content | CRoot content => list_sum (map cursors content)
  | CCursor _ _ _ => 1
  end.
