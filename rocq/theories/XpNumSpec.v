(** * What IEEE 754 says about rounding and comparing doubles

    The vocabulary of the statements about numbers. *)
From Coq Require Import NArith ZArith QArith Qabs List Bool.
From Verif Require Import XpNum.
Local Open Scope Q_scope.

(** From 2^1024 - 2^970 on, half a step beyond the largest double, a result
    overflows to infinity. *)
Definition too_large : Q := two_to 1024 - two_to 970.
(** [r] is the double nearest to [q]; the one with an even significand if there
    are two. *)
Definition nearest (q r : Q) : Prop :=
  representable r /\
  (forall s, representable s -> Qabs (q - r) <= Qabs (q - s)) /\
  (forall s, representable s -> Qabs (q - s) == Qabs (q - r) ->
     s == r \/ exists m e, r == inject_Z m * two_to e /\ Z.even m = true /\ (s == inject_Z (m + 1) * two_to e \/ s == inject_Z (m - 1) * two_to e)).
(** IEEE 754-1985, 4.1: rounding [q] gives [n]. *)
Definition rounds_to (q : Q) (n : num) : Prop :=
  match n with
  | NNaN => False
  | NPosInf => too_large <= q
  | NNegInf => q <= - too_large
  | NNegZero => q <= 0 /\ nearest q 0
  | NFin r => Qabs q < too_large /\ nearest q r
  end.

(** Equality of numbers, without the sign of zero. *)
Definition same_number (a b : num) : Prop :=
  match a, b with
  | NNaN, NNaN | NPosInf, NPosInf | NNegInf, NNegInf => True
  | _, _ => match finite a, finite b with Some p, Some q => p == q | _, _ => False end
  end.
(** The order of numbers; NaN is not comparable, not even with itself. *)
Definition num_eq (a b : num) : Prop := a <> NNaN /\ same_number a b.
Definition num_lt (a b : num) : Prop :=
  match a, b with
  | NNaN, _ | _, NNaN | NPosInf, _ | _, NNegInf => False
  | NNegInf, _ | _, NPosInf => True
  | _, _ => match finite a, finite b with Some p, Some q => p < q | _, _ => False end
  end.
Definition num_le (a b : num) : Prop := num_lt a b \/ num_eq a b.
