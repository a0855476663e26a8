(** * IEEE 754 double precision numbers as rationals

    Not code of /repo: the arithmetic of the C type double, which Python floats
    and XPath numbers share.  A finite number is its value, a rational; which
    rationals are doubles is [representable].  [rnd] rounds a rational to the nearest
    double, ties to even (IEEE 754-1985, section 4). *)
From Coq Require Import NArith ZArith QArith Qround Qabs List Bool Lia.
Local Open Scope Q_scope.

Inductive num := NNaN | NPosInf | NNegInf | NNegZero | NFin (q : Q).

(** The value of a finite number. *)
Definition finite (n : num) : option Q := match n with NNegZero => Some 0 | NFin q => Some q | _ => None end.

Definition two_to (e : Z) : Q := Qpower (2 # 1) e.
Definition representable (q : Q) : Prop := exists m e : Z, q == inject_Z m * two_to e /\ (Z.abs m < 2 ^ 53)%Z /\ (-1074 <= e <= 971)%Z.
(** A number that a double can be. *)
Definition is_double (n : num) : Prop := match n with NFin q => representable q | _ => True end.

(** The nearest integer to [q], the even one if there are two. *)
Definition half_even (q : Q) : Z :=
  let f := Qfloor q in
  match Qcompare (q - inject_Z f) (1 # 2) with
  | Lt => f
  | Gt => (f + 1)%Z
  | Eq => if Z.even f then f else (f + 1)%Z
  end.
(** The largest [k] with [2^k <= q], for [q > 0]. *)
Definition log2_floor (q : Q) : Z :=
  let k := (Z.log2 (Qnum q) - Z.log2 (Zpos (Qden q)))%Z in
  if Qle_bool (two_to k) q then k else (k - 1)%Z.
Definition rnd (q : Q) : num :=
  if Qeq_bool q 0 then NFin 0
  else
    let a := Qabs q in
    let e := Z.max (log2_floor a - 52) (-1074) in
    let m := half_even (a / two_to e) in
    let r := inject_Z m * two_to e in
    let negative := negb (Qle_bool 0 q) in
    if (m =? 0)%Z then if negative then NNegZero else NFin 0
    else if Qle_bool (two_to 1024) r then if negative then NNegInf else NPosInf
    else NFin (if negative then - r else r).

(** ** Comparison: the C operators on doubles *)
Definition num_compare (a b : num) : option comparison :=
  match a, b with
  | NNaN, _ | _, NNaN => None
  | NPosInf, NPosInf | NNegInf, NNegInf => Some Eq
  | NPosInf, _ | _, NNegInf => Some Gt
  | NNegInf, _ | _, NPosInf => Some Lt
  | NNegZero, NNegZero => Some Eq
  | NNegZero, NFin q => Some (Qcompare 0 q)
  | NFin p, NNegZero => Some (Qcompare p 0)
  | NFin p, NFin q => Some (Qcompare p q)
  end.
Definition num_eqb (a b : num) : bool := match num_compare a b with Some Eq => true | _ => false end.
Definition num_ltb (a b : num) : bool := match num_compare a b with Some Lt => true | _ => false end.
Definition num_leb (a b : num) : bool := match num_compare a b with Some Lt | Some Eq => true | _ => false end.

(** ** Arithmetic *)
Definition num_opp (a : num) : num :=
  match a with
  | NNaN => NNaN | NPosInf => NNegInf | NNegInf => NPosInf | NNegZero => NFin 0
  | NFin q => if Qeq_bool q 0 then NNegZero else NFin (- q)
  end.
Definition num_add (a b : num) : num :=
  match a, b with
  | NNaN, _ | _, NNaN => NNaN
  | NPosInf, NNegInf | NNegInf, NPosInf => NNaN
  | NPosInf, _ | _, NPosInf => NPosInf
  | NNegInf, _ | _, NNegInf => NNegInf
  | NNegZero, x | x, NNegZero => x
  | NFin p, NFin q => rnd (p + q)
  end.
(** Whether the sign bit is set. *)
Definition signed (a : num) : bool := match a with NNegInf | NNegZero => true | NFin q => negb (Qle_bool 0 q) | _ => false end.
Definition is_zero (a : num) : bool := match a with NNegZero => true | NFin q => Qeq_bool q 0 | _ => false end.
Definition signed_zero (negative : bool) : num := if negative then NNegZero else NFin 0.
Definition signed_inf (negative : bool) : num := if negative then NNegInf else NPosInf.
Definition num_div (a b : num) : num :=
  let s := xorb (signed a) (signed b) in
  match a, b with
  | NNaN, _ | _, NNaN => NNaN
  | (NPosInf | NNegInf), (NPosInf | NNegInf) => NNaN
  | (NPosInf | NNegInf), _ => signed_inf s
  | _, (NPosInf | NNegInf) => signed_zero s
  | _, _ =>
    match finite a, finite b with
    | Some p, Some q =>
      if Qeq_bool q 0 then if Qeq_bool p 0 then NNaN else signed_inf s
      else if Qeq_bool p 0 then signed_zero s
      else rnd (p / q)
    | _, _ => NNaN
    end
  end.
Definition num_mul (a b : num) : num :=
  let s := xorb (signed a) (signed b) in
  match a, b with
  | NNaN, _ | _, NNaN => NNaN
  | (NPosInf | NNegInf), x | x, (NPosInf | NNegInf) => if is_zero x then NNaN else signed_inf s
  | _, _ =>
    match finite a, finite b with
    | Some p, Some q => if Qeq_bool (p * q) 0 then signed_zero s else rnd (p * q)
    | _, _ => NNaN
    end
  end.
Definition num_sub (a b : num) : num := num_add a (num_opp b).
(** Truncation to an integer. *)
Definition Qtrunc (q : Q) : Z := Z.quot (Qnum q) (Zpos (Qden q)).
(** The C function fmod, which is exact (C99 7.12.10.1 and F.9.7.1). *)
Definition num_fmod (a b : num) : num :=
  match a, b with
  | NNaN, _ | _, NNaN => NNaN
  | (NPosInf | NNegInf), _ => NNaN
  | _, (NPosInf | NNegInf) => a
  | _, _ =>
    match finite a, finite b with
    | Some p, Some q =>
      if Qeq_bool q 0 then NNaN
      else let r := p - inject_Z (Qtrunc (p / q)) * q in if Qeq_bool r 0 then signed_zero (signed a) else NFin r
    | _, _ => NNaN
    end
  end.
(** The C functions floor and ceil. *)
Definition num_floor (a : num) : num := match a with NFin q => NFin (inject_Z (Qfloor q)) | x => x end.
Definition num_ceil (a : num) : num :=
  match a with
  | NFin q => if (Qceiling q =? 0)%Z && negb (Qle_bool 0 q) then NNegZero else NFin (inject_Z (Qceiling q))
  | x => x
  end.
Definition num_of_Z (z : Z) : num := rnd (inject_Z z).

