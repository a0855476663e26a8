(** * What format-number() should return (XSLT 1.0, 12.3; JDK 1.1 DecimalFormat)

    A pattern is a prefix, the digits before the point, perhaps a point and the digits
    behind it, and a suffix; a second one for negative numbers may follow behind a
    separator. *)
From Coq Require Import NArith ZArith QArith Qround List Bool Lia Arith.
From Verif Require Import PyStr XpNum XtDecimal.
Import ListNotations.
Local Open Scope nat_scope.

(** ** Numbers in digits *)
(** The number a row of digits is, the first digit being the highest. *)
Definition value (ds : list N) : N := fold_left (fun a d => a * 10 + d)%N ds 0%N.
Definition digits (ds : list N) : Prop := Forall (fun d => d < 10)%N ds.

(** Integer digits with a separator wherever a multiple of [g] of them follow. *)
Fixpoint grouped (sep : N) (g : nat) (l : str) : str :=
  match l with
  | [] => []
  | c :: r => c :: (if (0 <? List.length r) && negb (g =? 0) && (List.length r mod g =? 0) then [sep] else []) ++ grouped sep g r
  end.

(** [s] shows M / 10^maxFrac with at least [minInt] integer digits and between [minFrac]
    and [maxFrac] fraction digits, no more of either than needed. *)
Definition number_text (sy : symbols) (minInt minFrac maxFrac g : nat) (show : bool) (M : N) (s : str) : Prop :=
  exists is fs,
    digits is /\ digits fs /\
    value is = (M / 10 ^ N.of_nat maxFrac)%N /\
    minInt <= List.length is /\ (minInt < List.length is -> nth 0 is 0%N <> 0%N) /\
    (value fs * 10 ^ N.of_nat (maxFrac - List.length fs))%N = (M mod 10 ^ N.of_nat maxFrac)%N /\
    minFrac <= List.length fs <= maxFrac /\ (minFrac < List.length fs -> last fs 0%N <> 0%N) /\
    s = grouped (grouping sy) g (map (digit_char sy) (match is, fs with [], [] => [0%N] | _, _ => is end))
        ++ (if show || negb (List.length fs =? 0) then [decimalSep sy] else [])
        ++ map (digit_char sy) fs.

(** ** Patterns *)
Definition special (sy : symbols) : list N := [hash sy; zeroDigit sy; grouping sy; decimalSep sy; QUOTE; separator sy; percent sy; perMille sy].
(** The characters with a meaning are all different. *)
Definition good_symbols (sy : symbols) : Prop := NoDup (special sy).
(** A prefix or suffix in which nothing is quoted and nothing needs to be. *)
Definition plain (sy : symbols) (c : N) : Prop := ~ In c [hash sy; zeroDigit sy; grouping sy; decimalSep sy; QUOTE; separator sy].
(** What the number is multiplied by. *)
Definition scale (sy : symbols) (affixes : str) : option Z :=
  match count_occ N.eq_dec affixes (percent sy), count_occ N.eq_dec affixes (perMille sy) with
  | 0, 0 => Some 1%Z
  | 1, 0 => Some 100%Z
  | 0, 1 => Some 1000%Z
  | _, _ => None
  end.
(** The digits before the point: [a] optional ones, then [b] that are always shown, with
    grouping separators among them, the last one before [g] digits. *)
Definition int_part (sy : symbols) (ints : str) (a b g : nat) : Prop :=
  Forall (fun c => In c [hash sy; zeroDigit sy; grouping sy]) ints /\
  filter (fun c => negb (N.eqb c (grouping sy))) ints = repeat (hash sy) a ++ repeat (zeroDigit sy) b /\
  ((g = 0 /\ ~ In (grouping sy) ints) \/
   (0 < g /\ exists x y, ints = x ++ grouping sy :: y /\ ~ In (grouping sy) y /\ List.length y = g)).
(** ... and behind it: [c] that are always shown, then [d] optional ones. *)
Definition frac_part (sy : symbols) (point : bool) (c d : nat) : str :=
  if point then decimalSep sy :: repeat (zeroDigit sy) c ++ repeat (hash sy) d else [].
(** A pattern with a point but without a digit that is always shown gets one: the last
    before the point or, if there is none, the first behind it. *)
Definition min_int (point : bool) (a b c : nat) : nat := if point && (b =? 0) && (c =? 0) && (0 <? a) then 1 else b.
Definition min_frac (point : bool) (a b c d : nat) : nat := if point && (a =? 0) && (b =? 0) && (c =? 0) && (0 <? d) then 1 else c.
Definition show_point (point : bool) (a b c d : nat) : bool := point && ((c + d =? 0) || (a + b =? 0)).

(** ** Rounding *)
(** [M] is a nearest integer. *)
Definition nearest (v : Q) (M : Z) : Prop := (v - inject_Z M <= 1 # 2)%Q /\ (inject_Z M - v <= 1 # 2)%Q.
(** A number that is not negative and no more than the largest double. *)
Definition of_double (v : Q) : Prop := (0 <= v <= inject_Z (2 * 10 ^ 308))%Q.
(** Rounding in two steps: to one digit more than the [k] asked for, ties to even, then to
    [k] digits, ties up. *)
Definition printed (v : Q) (k : nat) : N := Z.to_N (half_even (v * inject_Z (10 ^ Z.of_nat (S k)))).
Definition rounded (v : Q) (k : nat) : N := ((printed v k + 5) / 10)%N.
(** The last step is not a step up to a power of ten: 9.6 is not rounded to 10. *)
Definition no_carry_out (v : Q) (k : nat) : Prop := (5 <= printed v k mod 10 -> forall j, printed v k / 10 + 1 <> 10 ^ j)%N.

