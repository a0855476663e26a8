(** * Lengths of durations *)
From Coq Require Import ZArith List.
From Verif Require Import DuModel.
Import ListNotations.
Local Open Scope Z_scope.

Definition signed (neg : bool) (n : Z) : Z := if neg then - n else n.
(** A duration has a length in months and a length in seconds. *)
Definition length_months (d : duration) : Z := signed (negative d) (12 * years d + months d).
Definition length_seconds (d : duration) : Z := signed (negative d) (seconds d + 60 * (minutes d + 60 * (hours d + 24 * days d))).
(** Written with the largest units *)
Definition normal (d : duration) : Prop :=
  0 <= years d /\ 0 <= months d < 12 /\ 0 <= days d /\ 0 <= hours d < 24 /\ 0 <= minutes d < 60 /\ 0 <= seconds d < 60.
Definition sum (l : list Z) : Z := fold_right Z.add 0 l.
(** Times of day *)
Definition clock (t : Z * Z * Z) : Prop := let '(h, m, s) := t in 0 <= h < 24 /\ 0 <= m < 60 /\ 0 <= s < 60.
Definition second_of_day (t : Z * Z * Z) : Z := let '(h, m, s) := t in s + 60 * (m + 60 * h).
