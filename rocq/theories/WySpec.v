(** * Weeks of the year, ISO 8601 *)
From Coq Require Import ZArith List.
From Verif Require Import DtModel DtSpec.
Local Open Scope Z_scope.

(** [thursday_of weekday d t]: t is the Thursday of the week, from Monday to Sunday, in which d is; weekday counts from Sunday, which is 0. *)
Definition thursday_of (weekday : date -> Z) (d t : date) : Prop :=
  weekday t = 4 /\ exists k : nat, (after k d t /\ (k <= 3)%nat) \/ (after k t d /\ (k <= 3)%nat).
(** [week_number weekday d w]: week 1 of a year has the first Thursday; so the Thursday of week w is the w-th of its year: w - 1 weeks after
    a date from 1 to 7 January. *)
Definition week_number (weekday : date -> Z) (d : date) (w : Z) : Prop :=
  exists y m day k n, thursday_of weekday d (y, m, day) /\ 1 <= k <= 7 /\ after (7 * n) (y, 1, k) (y, m, day) /\ w = Z.of_nat n + 1.
