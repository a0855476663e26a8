(** * What XPath 1.0 says about string() of a number (section 4.2) *)
From Coq Require Import NArith ZArith QArith Qabs String List Bool.
From Verif Require Import PyStr XpNum XpNumSpec XpFuncs XpFuncSpec.
Import ListNotations.
Local Open Scope Q_scope.

(** [v] is the decimal form of [q]: a minus sign if it is negative; at least one
    digit, without leading zeros; and, if it is not an integer, a point and digits,
    the last of which is not zero. *)
Definition decimal_form (v : str) (q : Q) : Prop :=
  exists negative ip fp,
    v = figure negative ip (match fp with [] => false | _ => true end) fp /\
    Forall digit ip /\ Forall digit fp /\ ip <> [] /\ (forall r, ip = 48%N :: r -> r = []) /\ (forall f, fp <> f ++ [48%N]) /\
    (let u := inject_Z (decimal (ip ++ fp)) / inject_Z (10 ^ Z.of_nat (List.length fp)) in q == if negative then - u else u) /\
    (negative = true <-> q < 0).
(** string(n) is [v]: the number can be recovered from it. *)
Definition number_string (n : num) (v : str) : Prop :=
  match n with
  | NNaN => v = lit "NaN"
  | NPosInf => v = lit "Infinity"
  | NNegInf => v = lit "-Infinity"
  | NNegZero => v = lit "0"
  | NFin q => exists r, decimal_form v r /\ rounds_to r (NFin q)
  end.
Definition integral (q : Q) : Prop := exists z, q == inject_Z z.
(** A decimal fraction with at most 12 digits. *)
Definition short_decimal (r : Q) : Prop := exists d k : Z, (Z.abs d < 10 ^ 12)%Z /\ (0 <= k)%Z /\ r == inject_Z d / inject_Z (10 ^ k).
