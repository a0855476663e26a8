(** * string() of a number *)
From Coq Require Import NArith ZArith QArith Qround Qabs String List Bool Lia.
From Verif Require Import PyStr PyErr SerModel XpNum XpFuncs.
Import ListNotations.
Local Open Scope Z_scope.

(** ** The C library's "%.12g"

    Not code of /repo: C99 7.19.6.1.  The value is rounded to 12 significant digits
    (exactly, ties to even); then trailing zeros and a point without digits are
    removed. *)
Definition ten_to (e : Z) : Q := Qpower (10 # 1) e.
Fixpoint zlog10_loop (fuel : nat) (z : Z) : Z :=
  match fuel with O => 0 | S f => if z <? 10 then 0 else 1 + zlog10_loop f (z / 10) end.
Definition zlog10 (z : Z) : Z := zlog10_loop (S (Z.to_nat (Z.log2 z))) z.
(** The largest [k] with [10^k <= a], for [a > 0]. *)
Definition log10_floor (a : Q) : Z :=
  if Qle_bool 1 a then zlog10 (Qfloor a) else - (zlog10 (Qceiling (/ a) - 1) + 1).
Fixpoint fixed_digits (n : nat) (z : Z) (acc : str) : str :=
  match n with O => acc | S m => fixed_digits m (z / 10) (Z.to_N (48 + z mod 10) :: acc) end.
Definition strip_zeros (s : str) : str := rev (skip (fun c => (c =? 48)%N) (rev s)).
Definition with_fraction (ip fp : str) : str := match strip_zeros fp with [] => ip | f => ip ++ 46%N :: f end.
(** The 12 digits and the exponent of the first one. *)
Definition round12 (a : Q) : Z * Z :=
  let x := log10_floor a in
  let d := half_even (a * ten_to (11 - x)) in
  if d =? 10 ^ 12 then (10 ^ 11, x + 1) else (d, x).
Definition layout12 (d x : Z) : str :=
  let digits := fixed_digits 12 d [] in
  if (-4 <=? x) && (x <? 12) then
    if 0 <=? x then with_fraction (firstn (Z.to_nat (x + 1)) digits) (skipn (Z.to_nat (x + 1)) digits)
    else with_fraction [48%N] (repeat 48%N (Z.to_nat (- x - 1)) ++ digits)
  else
    with_fraction (firstn 1 digits) (skipn 1 digits) ++ [101%N] ++ (if x <? 0 then [45%N] else [43%N]) ++
    (if Z.abs x <? 10 then [48%N] else []) ++ dec_str (Z.to_N (Z.abs x)).
Definition print_g12 (q : Q) : str :=
  let '(d, x) := round12 (Qabs q) in (if Qle_bool 0 q then [] else [45%N]) ++ layout12 d x.

(** ** Numbers as objects *)
(** A number object is one of the constants Number_NaN, Number_PosInf and
    Number_NegInf, or another object. *)
Record number_object := { constant : bool; num_of : num }.
Definition OverflowError := OtherError 6.
(** PyLong_FromDouble and unicode() of an integer. *)
Definition print_int (z : Z) : str := (if z <? 0 then [45%N] else []) ++ dec_str (Z.to_N (Z.abs z)).
(** String_New of a number, datatypes.c:180-209 and 229-234.  The test for the three
    constants is by identity.  [nan] is what the C library prints for a NaN. *)
Definition string_of_number (nan : str) (n : number_object) : result str :=
  match num_of n with
  | NNaN => if constant n then Ok (lit "NaN") else Ok nan
  | NPosInf => if constant n then Ok (lit "Infinity") else Err OverflowError
  | NNegInf => if constant n then Ok (lit "-Infinity") else Err OverflowError
  | NNegZero => Ok (print_int 0)
  | NFin q => if Qeq_bool (inject_Z (Qfloor q)) q then Ok (print_int (Qfloor q)) else Ok (print_g12 q)
  end.
(** The results of the operators, datatypes.c:728-818: [_Number_New] makes a new
    object (or one of the constants 0 and 1); only the handlers of a division by zero
    return the constants NaN and infinity. *)
Definition new_object (n : num) : number_object := {| constant := false; num_of := n |}.
Definition object_sub (a b : number_object) : number_object := new_object (number_sub (num_of a) (num_of b)).
Definition object_mul (a b : number_object) : number_object := new_object (number_mul (num_of a) (num_of b)).
Definition object_div (a b : number_object) : number_object :=
  if is_zero (num_of b) then {| constant := true; num_of := handle_fpe (num_of a) |} else new_object (number_div (num_of a) (num_of b)).
