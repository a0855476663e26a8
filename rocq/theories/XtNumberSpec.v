(** * Specification of C60: XSLT 1.0, 7.7.1 *)
From Coq Require Import NArith ZArith QArith String List Bool Lia Arith.
From Verif Require Import PyStr PyErr XpFuncSpec.
Import ListNotations.
Local Open Scope nat_scope.

(** ** The format string: tokens of alphanumeric characters, with what is before, between
       and behind them *)
Fixpoint woven (toks seps : list str) : str :=
  match toks, seps with
  | t :: ts, s :: ss => t ++ s ++ woven ts ss
  | t :: _, [] => t
  | [], _ => []
  end.
Definition all_of (p : N -> Prop) (s : str) : Prop := Forall p s.
Record split_format (alnum : N -> Prop) (format pre : str) (toks seps : list str) (suf : str) : Prop := {
  sf_format : toks <> [] -> format = pre ++ woven toks seps ++ suf;
  sf_none : toks = [] -> pre = format /\ suf = format;
  sf_toks : Forall (fun t => t <> [] /\ all_of alnum t) toks;
  sf_seps : Forall (fun t => t <> [] /\ all_of (fun c => ~ alnum c) t) seps;
  sf_pre : all_of (fun c => ~ alnum c) pre;
  sf_suf : all_of (fun c => ~ alnum c) suf;
  sf_count : List.length seps = pred (List.length toks) }.
(** The token for the number at index i: its own, or the last, or "1". *)
Definition token_for (toks : list str) (i : nat) : str :=
  match nth_error toks i with Some t => t | None => last toks (lit "1") end.
(** The separator behind the number at index i: the one before the token used for the next
    number, or a period. *)
Definition separator_for (seps : list str) (i : nat) : str :=
  match nth_error seps i with Some s => s | None => last seps (lit ".") end.
Fixpoint separated (seps : list str) (i : nat) (texts : list str) : str :=
  match texts with
  | [] => []
  | [t] => t
  | t :: ts => t ++ separator_for seps i ++ separated seps (S i) ts
  end.

(** ** Single numbers *)
(** Decimal digits, with zeros in front up to a width. *)
Definition decimal_text (width : nat) (n : N) (s : str) : Prop :=
  Forall digit s /\ decimal s = Z.of_N n /\ width <= List.length s /\
  (width < List.length s -> forall r, s = 48%N :: r -> r = []).
(** a, b, ..., z, aa, ab, ...: the value of a letter is 1 .. 26. *)
Fixpoint letters_value (first : N) (s : str) (acc : N) : N :=
  match s with [] => acc | c :: r => letters_value first r (26 * acc + (c - first + 1))%N end.
Definition letters_text (first n : N) (s : str) : Prop :=
  Forall (fun c => first <= c < first + 26)%N s /\ letters_value first s 0 = n.
(** Roman numerals up to 3999. *)
Definition roman_digits (one five ten : N) : list str :=
  [[]; [one]; [one; one]; [one; one; one]; [one; five]; [five]; [five; one]; [five; one; one]; [five; one; one; one]; [one; ten]].
Definition roman_text (n : N) : str :=
  let d k := N.to_nat ((n / k) mod 10) in
  repeat 77%N (d 1000%N) ++ nth (d 100%N) (roman_digits 67 68 77) [] ++ nth (d 10%N) (roman_digits 88 76 67) [] ++ nth (d 1%N) (roman_digits 73 86 88) [].
