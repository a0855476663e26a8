(** * What XPath 1.0 says about comparisons and the core functions

    The vocabulary of C33, C34 and C35, from sections 3.4, 3.5, 3.7, 4.2 and 4.4 of
    the recommendation.  It shares with the model only the types of values, numbers
    and operators. *)
From Coq Require Import NArith ZArith QArith Qround Qabs String List Bool Lia.
From Verif Require Import PyStr PyErr XpNum XpNumSpec XpFuncs.
Import ListNotations.
Local Open Scope N_scope.

(** ** Numbers written as strings: 3.7 Number and 4.4 number() *)
Definition space (c : N) : Prop := In c [32; 9; 13; 10].
Definition digit (c : N) : Prop := 48 <= c <= 57.
(** The value of a row of digits. *)
Fixpoint decimal (s : str) : Z :=
  match s with [] => 0%Z | c :: r => ((Z.of_N c - 48) * 10 ^ Z.of_nat (List.length r) + decimal r)%Z end.
(** An optional minus sign, digits, and possibly a point and more digits. *)
Definition figure (negative : bool) (ip : str) (point : bool) (fp : str) : str :=
  (if negative then [45] else []) ++ ip ++ (if point then 46 :: fp else []).
Definition figure_ok (ip : str) (point : bool) (fp : str) : Prop := Forall digit ip /\ Forall digit fp /\ (point = false -> fp = []).
(** [s] is an optional minus sign and a Number, in optional white space; its value
    is [q]. *)
Definition numeral (s : str) (q : Q) : Prop :=
  exists before negative ip point fp after,
    s = before ++ figure negative ip point fp ++ after /\ Forall space before /\ Forall space after /\ figure_ok ip point fp /\ ip ++ fp <> [] /\
    (let v := inject_Z (decimal (ip ++ fp)) / inject_Z (10 ^ Z.of_nat (List.length fp)) in q == if negative then - v else v)%Q.
(** number(s) is [n]: the double nearest to the value, or NaN. *)
Definition string_number (s : str) (n : num) : Prop :=
  (exists q, numeral s q /\ rounds_to q n) \/ ((forall q, ~ numeral s q) /\ n = NNaN).
(** Strings for which the conversion raises ValueError (not part of XPath): a figure
    without digits, possibly in white space, but not the empty string; or a figure,
    with or without digits, followed by a NUL character. *)
Definition unconvertible (s : str) : Prop :=
  exists before negative ip point fp after rest,
    s = (before ++ figure negative ip point fp ++ after) ++ rest /\ Forall space before /\ Forall space after /\ figure_ok ip point fp /\
    before ++ figure negative ip point fp ++ after <> [] /\
    ((rest = [] /\ ip ++ fp = []) \/ exists r, rest = 0 :: r).
(** number(v) is [n]; the first node of a node-set is the first in document order. *)
Definition value_number (v : value) (n : num) : Prop :=
  match v with
  | VNum m => n = m
  | VBool b => same_number n (NFin (if b then 1 else 0))
  | VStr s => string_number s n
  | VSet [] => n = NNaN
  | VSet (s :: _) => string_number s n
  end.
(** boolean(v) *)
Definition truth (v : value) : Prop :=
  match v with
  | VBool b => b = true
  | VNum n => n <> NNaN /\ ~ same_number n (NFin 0)
  | VStr s => s <> []
  | VSet l => l <> []
  end.

(** ** Comparison: 3.4 *)
Definition numbers_compare (op : cmp) (a b : num) : Prop :=
  match op with
  | EQ => num_eq a b | NE => ~ num_eq a b
  | LT => num_lt a b | LE => num_le a b | GT => num_lt b a | GE => num_le b a
  end.
Definition is_relational (op : cmp) : Prop := op <> EQ /\ op <> NE.
(** The values compared as numbers. *)
Definition as_numbers (op : cmp) (v w : value) : Prop := exists a b, value_number v a /\ value_number w b /\ numbers_compare op a b.
(** Two strings. *)
Definition strings_compare (op : cmp) (s t : str) : Prop :=
  match op with EQ => s = t | NE => s <> t | _ => as_numbers op (VStr s) (VStr t) end.
(** Two booleans, as truth values. *)
Definition booleans_compare (op : cmp) (v w : value) : Prop :=
  match op with
  | EQ => truth v <-> truth w
  | NE => ~ (truth v <-> truth w)
  | _ => exists a b : bool, (a = true <-> truth v) /\ (b = true <-> truth w) /\ as_numbers op (VBool a) (VBool b)
  end.
Definition comparison_holds (op : cmp) (v w : value) : Prop :=
  match v, w with
  (* two node-sets: a node in each, compared by their string-values *)
  | VSet l, VSet r => exists s t, In s l /\ In t r /\ strings_compare op s t
  (* a node-set and a number: a node, its string-value as a number *)
  | VSet l, VNum _ => exists s, In s l /\ as_numbers op (VStr s) w
  | VNum _, VSet r => exists t, In t r /\ as_numbers op v (VStr t)
  (* a node-set and a string: a node, its string-value *)
  | VSet l, VStr t => exists s, In s l /\ strings_compare op s t
  | VStr s, VSet r => exists t, In t r /\ strings_compare op s t
  (* a node-set and a boolean: the node-set as a boolean *)
  | VSet _, VBool _ | VBool _, VSet _ => booleans_compare op v w
  (* no node-set: = and != compare booleans if there is one, else numbers if there is one, else strings *)
  | _, _ =>
    match op with
    | EQ | NE =>
      match v, w with
      | VBool _, _ | _, VBool _ => booleans_compare op v w
      | VNum _, _ | _, VNum _ => as_numbers op v w
      | VStr s, VStr t => strings_compare op s t
      | _, _ => False
      end
    (* the others compare numbers *)
    | _ => as_numbers op v w
    end
  end.

(** ** Strings: 4.2 *)
(** [inner] occurs in [outer] after [before], and not earlier. *)
Definition first_occurrence (outer inner before after : str) : Prop :=
  outer = before ++ inner ++ after /\ forall b a, outer = b ++ inner ++ a -> (List.length before <= List.length b)%nat.
Definition occurs (outer inner : str) : Prop := exists b a, outer = b ++ inner ++ a.

(** round(): the integer closest to the number; of two such the one closest to
    positive infinity. *)
Definition rounded (a n : num) : Prop :=
  match finite a with
  | None => n = a
  | Some q => exists z, same_number n (NFin (inject_Z z)) /\ (inject_Z z - (1 # 2) <= q < inject_Z z + (1 # 2))%Q
  end.
(** The characters of [s] from position [p] on that satisfy [P], in order. *)
Inductive select_positions (P : Z -> Prop) : Z -> str -> str -> Prop :=
| sel_nil : forall p, select_positions P p [] []
| sel_keep : forall p c s r, P p -> select_positions P (p + 1) s r -> select_positions P p (c :: s) (c :: r)
| sel_drop : forall p c s r, ~ P p -> select_positions P (p + 1) s r -> select_positions P p (c :: s) r.
(** substring(s, start) and substring(s, start, length): the characters whose
    position is at least the rounded start and less than the sum of the rounded
    start and the rounded length; compared and added as numbers. *)
Definition substring_spec (s : str) (start : num) (length : option num) (result : str) : Prop :=
  forall b, rounded start b ->
  match length with
  | None => select_positions (fun p => num_le b (NFin (inject_Z p))) 1 s result
  | Some length =>
    forall l, rounded length l ->
    select_positions (fun p => num_le b (NFin (inject_Z p)) /\ num_lt (NFin (inject_Z p)) (num_add b l)) 1 s result
  end.

(** normalize-space(): the maximal runs of other characters, separated by single
    spaces. *)
Inductive words : str -> list str -> Prop :=
| words_nil : words [] []
| words_space : forall c s l, space c -> words s l -> words (c :: s) l
| words_last : forall w, w <> [] -> Forall (fun c => ~ space c) w -> words w [w]
| words_word : forall w c s l, w <> [] -> Forall (fun c => ~ space c) w -> space c -> words s l -> words (w ++ c :: s) (w :: l).

(** translate(): what becomes of one character. *)
Definition translated (fromchars tochars : str) (c : N) (out : str) : Prop :=
  (~ In c fromchars /\ out = [c]) \/
  (exists i, nth_error fromchars i = Some c /\ (forall j, (j < i)%nat -> nth_error fromchars j <> Some c) /\
     out = match nth_error tochars i with Some d => [d] | None => [] end).

(** ** Numbers: 3.5 and 4.4 *)
(** floor() and ceiling() of a finite number: the integer next to it. *)
Definition floor_of (q : Q) (z : Z) : Prop := (inject_Z z <= q < inject_Z z + 1)%Q.
Definition ceiling_of (q : Q) (z : Z) : Prop := (inject_Z z - 1 < q <= inject_Z z)%Q.
(** mod: the remainder of a truncating division. *)
Definition remainder (p q r : Q) : Prop :=
  exists n : Z, (p == inject_Z n * q + r /\ Qabs r < Qabs q /\ (0 <= p -> 0 <= r) /\ (p <= 0 -> r <= 0))%Q.

(** *** The operators on numbers: IEEE 754, with the sign of a zero result left open *)
Definition negative (a : num) : Prop := match a with NNegInf | NNegZero => True | NFin q => (q < 0)%Q | _ => False end.
(** An infinity, positive if [same]. *)
Definition infinity (same : Prop) (n : num) : Prop := (same /\ n = NPosInf) \/ (~ same /\ n = NNegInf).
Definition sum_of (a b n : num) : Prop :=
  match a, b with
  | NNaN, _ | _, NNaN => n = NNaN
  | NPosInf, NNegInf | NNegInf, NPosInf => n = NNaN
  | NPosInf, _ | _, NPosInf => n = NPosInf
  | NNegInf, _ | _, NNegInf => n = NNegInf
  | _, _ => match finite a, finite b with Some p, Some q => rounds_to (p + q)%Q n | _, _ => False end
  end.
Definition difference_of (a b n : num) : Prop :=
  match a, b with
  | NNaN, _ | _, NNaN => n = NNaN
  | NPosInf, NPosInf | NNegInf, NNegInf => n = NNaN
  | NPosInf, _ | _, NNegInf => n = NPosInf
  | NNegInf, _ | _, NPosInf => n = NNegInf
  | _, _ => match finite a, finite b with Some p, Some q => rounds_to (p - q)%Q n | _, _ => False end
  end.
Definition product_of (a b n : num) : Prop :=
  match a, b with
  | NNaN, _ | _, NNaN => n = NNaN
  | (NPosInf | NNegInf), _ => (same_number b (NFin 0) -> n = NNaN) /\ (~ same_number b (NFin 0) -> infinity (negative a <-> negative b) n)
  | _, (NPosInf | NNegInf) => (same_number a (NFin 0) -> n = NNaN) /\ (~ same_number a (NFin 0) -> infinity (negative a <-> negative b) n)
  | _, _ => match finite a, finite b with Some p, Some q => rounds_to (p * q)%Q n | _, _ => False end
  end.
Definition quotient_of (a b n : num) : Prop :=
  match a, b with
  | NNaN, _ | _, NNaN => n = NNaN
  | (NPosInf | NNegInf), (NPosInf | NNegInf) => n = NNaN
  | (NPosInf | NNegInf), _ => infinity (negative a <-> negative b) n
  | _, (NPosInf | NNegInf) => same_number n (NFin 0)
  | _, _ =>
    match finite a, finite b with
    | Some p, Some q =>
      (q == 0 -> p == 0 -> n = NNaN)%Q /\
      ((q == 0)%Q -> ~ (p == 0)%Q -> infinity (negative a <-> negative b) n) /\
      (~ (q == 0) -> rounds_to (p / q) n)%Q
    | _, _ => False
    end
  end.
(** mod, as the remainder operator of Java: never rounds. *)
Definition modulo_of (a b n : num) : Prop :=
  match a, b with
  | NNaN, _ | _, NNaN => n = NNaN
  | (NPosInf | NNegInf), _ => n = NNaN
  | _, (NPosInf | NNegInf) => same_number n a
  | _, _ =>
    match finite a, finite b with
    | Some p, Some q => (q == 0 -> n = NNaN)%Q /\ (~ (q == 0) -> exists r, remainder p q r /\ same_number n (NFin r))%Q
    | _, _ => False
    end
  end.
Definition opposite (a b : num) : Prop := (num_lt a (NFin 0) /\ num_lt (NFin 0) b) \/ (num_lt (NFin 0) a /\ num_lt b (NFin 0)).
(** Adding up from the left. *)
Inductive sums : num -> list num -> num -> Prop :=
| sums_nil : forall a, sums a [] a
| sums_cons : forall a b c l n, sum_of a b c -> sums c l n -> sums a (b :: l) n.
