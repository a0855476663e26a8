(** * The Gregorian calendar *)
From Coq Require Import ZArith List.
From Verif Require Import DtModel.
Import ListNotations.
Local Open Scope Z_scope.

(** Every fourth year is a leap year, but of the centuries only every fourth. *)
Definition leap (y : Z) : Prop := (4 | y) /\ (~ (100 | y) \/ (400 | y)).
(** [month_length y m n]: month m of year y has n days. *)
Inductive month_length (y : Z) : Z -> Z -> Prop :=
| long : forall m, In m [1; 3; 5; 7; 8; 10; 12] -> month_length y m 31
| short : forall m, In m [4; 6; 9; 11] -> month_length y m 30
| february : ~ leap y -> month_length y 2 28
| february_leap : leap y -> month_length y 2 29.
(** The dates that exist *)
Definition exists_date (d : date) : Prop := let '(y, m, day) := d in exists n, month_length y m n /\ 1 <= day <= n.
(** The day after *)
Inductive next : date -> date -> Prop :=
| next_day : forall y m d n, month_length y m n -> d < n -> next (y, m, d) (y, m, d + 1)
| next_month : forall y m n, month_length y m n -> m < 12 -> next (y, m, n) (y, m + 1, 1)
| next_year : forall y, next (y, 12, 31) (y + 1, 1, 1).
(** [after n d e]: e is n days after d. *)
Inductive after : nat -> date -> date -> Prop :=
| after_0 : forall d, after 0 d d
| after_S : forall n d e f, after n d e -> next e f -> after (S n) d f.
