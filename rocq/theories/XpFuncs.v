(** * XPath values, comparisons and the core function library

    Models /repo/lib/xpath/src/datatypes.c (conversions, arithmetic and
    comparison of XPath objects), /repo/lib/xpath/functions/strings.py,
    /repo/lib/xpath/functions/numbers.py and the comparison and arithmetic
    expressions of /repo/lib/xpath/expressions.

    A node-set is the list of the string-values of its nodes, in the order of
    the list it is in Python: nothing modelled here looks at more of a node.
    Simplifications: memory errors are left out; Python is 2.7, built with
    32-bit characters. *)
From Coq Require Import NArith ZArith QArith Qround Qabs String List Bool Lia.
From Verif Require Import PyStr PyErr XpNum.
Import ListNotations.
Local Open Scope N_scope.

Inductive value := VBool (b : bool) | VNum (n : num) | VStr (s : str) | VSet (l : list str).

(** ** Conversions *)

(** /repo/lib/xpath/src/datatypes.c:258-274 _Number_New: both zeros become the
    positive one.  (The shared objects for 0 and 1 are not modelled.) *)
Definition number_new (d : num) : num := if is_zero d then NFin 0 else d.

(** datatypes.c:283 and 291: the four characters skipped. *)
Definition c_space (c : N) : bool := (c =? 32) || (c =? 9) || (c =? 13) || (c =? 10).
(** datatypes.c:285 and 288. *)
Definition c_digit (c : N) : bool := (48 <=? c) && (c <=? 57).
Definition skip (p : N -> bool) (s : str) : str := snd (span p s).

(** Python 2.7's float() of a string without exponent, "inf" or "nan": white space
    is stripped, then an optional sign, digits, a point and digits are read up to
    the end, and there must be a digit.  Not code of /repo. *)
Definition py_space (c : N) : bool := ((9 <=? c) && (c <=? 13)) || (c =? 32).
Definition digits_value (s : str) : Z := fold_left (fun a c => (10 * a + (Z.of_N c - 48))%Z) s 0%Z.
Definition py_strip (s : str) : str := rev (skip py_space (rev (skip py_space s))).
Definition py_parse (s : str) : result num :=
  let (negative, s) := match s with 45 :: r => (true, r) | 43 :: r => (false, r) | _ => (false, s) end in
  let (ip, s) := span c_digit s in
  let (fp, s) := match s with 46 :: r => span c_digit r | _ => ([], s) end in
  match s, ip ++ fp with
  | [], _ :: _ =>
    let v := (inject_Z (digits_value (ip ++ fp)) / inject_Z (10 ^ Z.of_nat (List.length fp)))%Q in
    Ok (rnd (if negative then - v else v)%Q)
  | _, _ => Err ValueError
  end.
Definition py_float (s : str) : result num := py_parse (py_strip s).

(** datatypes.c:276-304 FROM_STRING: the buffer ends at its first NUL. *)
Definition from_string (s : str) : result num :=
  let p := skip c_space s in
  let p := match p with 45 :: r => r | _ => p end in
  let p := skip c_digit p in
  let p := match p with 46 :: r => skip c_digit r | _ => p end in
  let p := skip c_space p in
  let at_end := match p with [] => true | c :: _ => c =? 0 end in
  if negb at_end || Nat.eqb (List.length p) (List.length s) then Ok NNaN
  else do d <- py_float s ; Ok (number_new d).

(** datatypes.c:306-376 Number_New, for XPath objects; 330-335 is never reached:
    a boolean is an int (318-321). *)
Definition to_number (v : value) : result num :=
  match v with
  | VNum n => Ok n
  | VBool b => Ok (number_new (num_of_Z (if b then 1 else 0)))
  | VStr s => from_string s
  | VSet [] => Ok NNaN
  | VSet (s :: _) => from_string s
  end.

(** datatypes.c:378-404 Boolean_New. *)
Definition to_boolean (v : value) : bool :=
  match v with
  | VBool b => b
  | VNum n => negb (is_zero n) && match n with NNaN => false | _ => true end
  | VStr s => match s with [] => false | _ => true end
  | VSet l => match l with [] => false | _ => true end
  end.

(** ** Comparison *)
Inductive cmp := EQ | NE | LT | LE | GT | GE.
(** The order of the operator codes of Python's object.h: LT LE EQ NE GT GE.  An
    operator is relational if it is below EQ or above NE. *)
Definition relational (op : cmp) : bool := match op with EQ | NE => false | _ => true end.
(** The reflected operator Python tries when the left operand answers
    NotImplemented. *)
Definition swapped (op : cmp) : cmp := match op with EQ => EQ | NE => NE | LT => GT | LE => GE | GT => LT | GE => LE end.
(** float's tp_richcompare: the operators of C on doubles. *)
Definition float_compare (op : cmp) (a b : num) : bool :=
  match op with
  | EQ => num_eqb a b | NE => negb (num_eqb a b)
  | LT => num_ltb a b | LE => num_leb a b | GT => num_ltb b a | GE => num_leb b a
  end.

(** datatypes.c:448-539 object_richcompare, for objects that are not node-sets: the
    coercions, then the comparison of the base type (int, float, unicode). *)
Definition object_richcompare (v w : value) (op : cmp) : result bool :=
  let numbers := do a <- to_number v ; do b <- to_number w ; Ok (float_compare op a b) in
  match op with
  | EQ | NE =>
    let is_eq (b : bool) := Ok (match op with EQ => b | _ => negb b end) in
    match v, w with
    | VBool a, _ => is_eq (Bool.eqb a (to_boolean w))
    | _, VBool b => is_eq (Bool.eqb (to_boolean v) b)
    | VNum _, _ | _, VNum _ => numbers
    | VStr a, VStr b => is_eq (str_eqb a b)
    | _, _ => Err TypeError
    end
  | _ => numbers
  end.

(** The loop "for each: compare, return the first result that is not False". *)
Fixpoint any {A} (f : A -> result bool) (l : list A) : result bool :=
  match l with
  | [] => Ok false
  | x :: r => do b <- f x ; if b then Ok true else any f r
  end.

(** datatypes.c:1470-1502, the loops for a relational operator and two node-sets:
    index [i] is used for the right operand too.  The tuple of converted numbers is
    left out (conversion is a function); reading beyond it is [Garbage]. *)
Definition Garbage := OtherError 1.
Fixpoint relational_sets (op : cmp) (w : list str) (i : nat) (v : list str) : result bool :=
  match v with
  | [] => Ok false
  | s :: r =>
    do a <- from_string s ;
    do found <- any (fun _ =>
        match nth_error w i with
        | None => Err Garbage
        | Some t => do b <- from_string t ; object_richcompare (VNum a) (VNum b) op
        end) w ;
    if found : bool then Ok true else relational_sets op w (S i) r
  end.

(** datatypes.c:1391-1560 nodeset_richcompare. *)
Definition nodeset_richcompare (v : list str) (w : value) (op : cmp) : result bool :=
  match w with
  | VSet r =>
    match v, r with
    | [], _ | _, [] => Ok false
    | _, _ =>
      match op with
      | EQ => Ok (existsb (fun a => existsb (str_eqb a) r) v)
      | NE => any (fun a => any (fun b => object_richcompare (VStr a) (VStr b) NE) r) v
      | _ => relational_sets op r 0 v
      end
    end
  | VBool _ => object_richcompare (VBool (match v with [] => false | _ => true end)) w op
  | VNum n =>
    any (fun s => do a <- from_string s ; object_richcompare (VNum a) (VNum n) op) v
  | VStr t =>
    if relational op then
      match v with
      | [] => Ok false
      | _ =>
        do n <- from_string t ;
        any (fun s => do a <- from_string s ; object_richcompare (VNum a) (VNum n) op) v
      end
    else any (fun s => object_richcompare (VStr s) w op) v
  end.

(** /repo/lib/xpath/expressions/booleans.py:71-77 and Python's COMPARE_OP: the left
    operand's method (datatypes.c:448-455, 998-1004, 1391), then the right's with the
    operator reflected. *)
Definition compare (op : cmp) (v w : value) : result bool :=
  match v, w with
  | VSet l, _ => nodeset_richcompare l w op
  | _, VSet r => nodeset_richcompare r v (swapped op)
  | _, _ => object_richcompare v w op
  end.

(** ** Arithmetic: expressions/numbers.py:21-27, 34-38, 79-82 *)

(** datatypes.c:757-766, 768-777, 779-788. *)
Definition number_add (a b : num) : num := number_new (num_add a b).
Definition number_sub (a b : num) : num := number_new (num_sub a b).
Definition number_mul (a b : num) : num := number_new (num_mul a b).
(** datatypes.c:728-755 handle_fpe. *)
Definition handle_fpe (v : num) : num :=
  if num_ltb v (NFin 0) then NNegInf else if num_ltb (NFin 0) v then NPosInf else NNaN.
(** datatypes.c:790-801 number_classic_div; float division raises
    ZeroDivisionError for a zero divisor. *)
Definition number_div (v w : num) : num := if is_zero w then handle_fpe v else number_new (num_div v w).
(** Python 2.7's float_rem, for a divisor that is not zero. *)
Definition py_rem (v w : num) : num :=
  let m := num_fmod v w in
  if negb (is_zero m) && negb (Bool.eqb (num_ltb w (NFin 0)) (num_ltb m (NFin 0))) then num_add m w else m.
(** datatypes.c:803-818 number_rem. *)
Definition number_rem (v w : num) : num := if is_zero w then NNaN else number_new (py_rem v w).
(** datatypes.c:867-880 number_neg. *)
Definition number_neg (v : num) : num :=
  match v with NNegZero => NFin 0 | _ => if is_zero v then NNegZero else number_new (num_opp v) end.

(** ** functions/numbers.py *)

(** datatypes.c:1013-1019 isnormal. *)
Definition isnormal (a : num) : bool := match finite a with Some _ => negb (is_zero a) | None => false end.
(** functions/numbers.py:22-26 number(object). *)
Definition number_function (v : value) : result num := to_number v.
(** functions/numbers.py:36-39 sum(): Python's sum starts at 0. *)
Fixpoint numbers_of (l : list str) : result (list num) :=
  match l with [] => Ok [] | s :: r => do n <- from_string s ; do m <- numbers_of r ; Ok (n :: m) end.
Definition sum_function (l : list str) : result num :=
  do m <- numbers_of l ; Ok (fold_left number_add m (NFin 0)).
(** functions/numbers.py:49-55. *)
Definition floor_function (a : num) : num := if isnormal a then number_new (num_floor a) else a.
(** functions/numbers.py:65-71. *)
Definition ceiling_function (a : num) : num := if isnormal a then number_new (num_ceil a) else a.
(** functions/numbers.py:81-92. *)
Definition round_function (a : num) : num :=
  if isnormal a then
    number_new (if num_eqb (number_rem a (NFin 1)) (NFin (1 # 2)) then num_ceil a else num_floor a)
  else a.

(** ** functions/strings.py *)

(** outer.find(inner) *)
Fixpoint find (outer inner : str) : option nat :=
  if prefixb inner outer then Some 0%nat
  else match outer with [] => None | _ :: r => option_map S (find r inner) end.
(** functions/strings.py:40-42. *)
Definition concat_function (args : list str) : str := List.concat args.
(** functions/strings.py:52-58. *)
Definition starts_with_function (outer inner : str) : bool :=
  match inner with [] => true | _ => str_eqb (firstn (List.length inner) outer) inner end.
(** functions/strings.py:68-72. *)
Definition contains_function (outer inner : str) : bool := match find outer inner with Some _ => true | None => false end.
(** functions/strings.py:82-89. *)
Definition substring_before_function (outer inner : str) : str :=
  match find outer inner with None => [] | Some i => firstn i outer end.
(** functions/strings.py:99-108. *)
Definition substring_after_function (outer inner : str) : str :=
  match inner with
  | [] => []
  | _ => match find outer inner with None => [] | Some i => skipn (i + List.length inner) outer end
  end.

(** Python 2.7's round(): half away from zero.  On a double the result is exact. *)
Definition py_round (q : Q) : Z := if Qle_bool 0 q then Qfloor (q + (1 # 2))%Q else Z.opp (Qfloor (- q + (1 # 2))%Q).
(** s[i:j] for 0 <= i <= j. *)
Definition slice (s : str) (i j : Z) : str := firstn (Z.to_nat (j - i)) (skipn (Z.to_nat i) s).
(** functions/strings.py:119-159; [None] is the missing third argument. *)
Definition substring_function (s : str) (start : num) (length : option num) : str :=
  match finite start with
  | None => []
  | Some q =>
    let start := py_round q in
    let startidx := (if start <? 1 then 0 else start - 1)%Z in
    match length with
    | None => skipn (Z.to_nat startidx) s
    | Some length =>
      match finite length with
      | None => if num_ltb (NFin 0) length then skipn (Z.to_nat startidx) s else []
      | Some l =>
        let length := py_round l in
        let endidx := (start + length - 1)%Z in
        if (endidx <? startidx)%Z then [] else slice s startidx endidx
      end
    end
  end.
(** functions/strings.py:170-176. *)
Definition string_length_function (s : str) : num := number_new (num_of_Z (Z.of_nat (List.length s))).

(** The characters unicode.split() of Python 2.7 splits at. *)
Definition unicode_space (c : N) : bool :=
  ((9 <=? c) && (c <=? 13)) || ((28 <=? c) && (c <=? 32)) || (c =? 133) || (c =? 160) || (c =? 5760) || (c =? 6158)
  || ((8192 <=? c) && (c <=? 8202)) || (c =? 8232) || (c =? 8233) || (c =? 8239) || (c =? 8287) || (c =? 12288).
(** s.split() *)
Fixpoint py_split (word : str) (s : str) : list str :=
  let emit := match word with [] => [] | _ => [rev word] end in
  match s with
  | [] => emit
  | c :: r => if unicode_space c then emit ++ py_split [] r else py_split (c :: word) r
  end.
(** functions/strings.py:187-193. *)
Definition normalize_space_function (s : str) : str := join [32] (py_split [] s).

(** functions/strings.py:203-218: the map, then the replacement. *)
Fixpoint trans_lookup (m : list (N * str)) (c : N) : option str :=
  match m with [] => None | (k, v) :: r => if k =? c then Some v else trans_lookup r c end.
Fixpoint trans_map (m : list (N * str)) (fromchars tochars : str) : list (N * str) :=
  match fromchars with
  | [] => m
  | src :: r =>
    let (dst, t) := match tochars with [] => ([], []) | d :: t => ([d], t) end in
    trans_map (match trans_lookup m src with Some _ => m | None => (src, dst) :: m end) r t
  end.
Definition translate_function (source fromchars tochars : str) : str :=
  let m := trans_map [] fromchars tochars in
  flat_map (fun ch => match trans_lookup m ch with Some d => d | None => [ch] end) source.
