(** * Model of the text of durations

    /repo/lib/xslt/exslt/datetime.py, _Duration.  Seconds are integers: texts with a fraction of a second are not modelled. *)
From Coq Require Import ZArith NArith String List Bool.
From Verif Require Import PyStr PyErr DuModel.
Import ListNotations.
Local Open Scope Z_scope.

(** '%d' of a number that is not negative *)
Fixpoint dec (k : nat) (n : Z) : str := match k with O => [] | S k => (if n <? 10 then [] else dec k (n / 10)) ++ [Z.to_N (48 + n mod 10)] end.
Definition decimal (n : Z) : str := dec (S (Z.to_nat n)) n.
(** if self.years: parts.append('%dY' % self.years), and so for the others, datetime.py:890-903 *)
Definition part (n : Z) (c : N) : str := if n =? 0 then [] else decimal n ++ [c].
(** __str__, datetime.py:883-904 *)
Definition to_str (d : duration) : str :=
  let have_time := negb ((hours d =? 0) && (minutes d =? 0) && (seconds d =? 0)) in
  if (years d =? 0) && (months d =? 0) && (days d =? 0) && negb have_time then lit "PT0S"
  else (if negative d then lit "-P" else lit "P") ++ part (years d) 89 ++ part (months d) 77 ++ part (days d) 68 ++
       (if have_time then lit "T" else []) ++ part (hours d) 72 ++ part (minutes d) 77 ++ part (seconds d) 83.
Definition is_digit (c : N) : bool := ((48 <=? c) && (c <=? 57))%N.
(** [0-9]+ takes all digits: the letter after it is none *)
Fixpoint span (s : str) : str * str := match s with c :: s' => if is_digit c then let (a, r) := span s' in (c :: a, r) else ([], s) | [] => ([], []) end.
(** (?:(?P<name>[0-9]+)c)? at the beginning of s: the group and the rest *)
Definition field (c : N) (s : str) : option str * str :=
  match span s with
  | (c0 :: a, c1 :: r) => if (c1 =? c)%N then (Some (c0 :: a), r) else (None, s)
  | _ => (None, s)
  end.
(** int() of digits *)
Definition value (s : str) : Z := fold_left (fun z c => 10 * z + (Z.of_N c - 48)) s 0.
(** years and int(years) or 0, datetime.py:862-867 *)
Definition num (o : option str) : Z := match o with Some s => value s | None => 0 end.
(** $ is the end or a newline at the end *)
Definition at_end (s : str) : bool := match s with [] => true | [c] => (c =? 10)%N | _ => false end.
Definition given (o : option str) : bool := match o with Some _ => true | None => false end.
(** parse, datetime.py:834-857 *)
Definition parse (s : str) : result duration :=
  let (neg, s) := match s with c :: s' => if (c =? 45)%N then (true, s') else (false, s) | [] => (false, s) end in
  match s with
  | c :: s =>
      if negb (c =? 80)%N then Err ValueError else
      let (y, s) := field 89 s in let (mo, s) := field 77 s in let (d, s) := field 68 s in
      match s with
      | c :: s' =>
          if (c =? 84)%N then
            let (h, s') := field 72 s' in let (mi, s') := field 77 s' in let (se, s') := field 83 s' in
            if at_end s' && (given h || given mi || given se) then Ok (new_duration neg (num y) (num mo) (num d) (num h) (num mi) (num se)) else Err ValueError
          else if at_end s then Ok (new_duration neg (num y) (num mo) (num d) 0 0 0) else Err ValueError
      | [] => Ok (new_duration neg (num y) (num mo) (num d) 0 0 0)
      end
  | [] => Err ValueError
  end.
