(** * Model of format-number(): lib/xslt/functions/src/decimal_format.c and
      format_number_function (lib/xslt/functions/__init__.py)

    A read or write outside an array, the use of the difference with a null pointer, and a
    formatted infinity are the error [Garbage].  The C library prints a number with "%.*f"
    as the nearest decimal of that many digits, ties to even. *)
From Coq Require Import NArith ZArith QArith Qround String List Bool Lia Arith.
From Verif Require Import PyStr PyErr SerModel XpNum.
Import ListNotations.
Local Open Scope nat_scope.

Definition Garbage : exn := OtherError 1.
Definition OutOfFuel : exn := OtherError 3.
(** The SyntaxErrors of decimal_format, 697-711. *)
Definition TooManySeparators : exn := OtherError 31.
Definition TooManyPercents : exn := OtherError 32.
Definition UnexpectedZero : exn := OtherError 33.
Definition MultipleDecimals : exn := OtherError 34.
Definition Malformed : exn := OtherError 35.
Definition MissingInteger : exn := OtherError 36.

(** DecimalFormatSymbols, decimal_format.c:75-84, with the two texts decimal_format holds. *)
Record symbols := {
  zeroDigit : N; grouping : N; decimalSep : N; percent : N; perMille : N; hash : N; separator : N; minus : N;
  infinity : str; not_a_number : str }.
(** 660-674. *)
Definition default_symbols : symbols :=
  {| zeroDigit := 48; grouping := 44; decimalSep := 46; percent := 37; perMille := 8240; hash := 35; separator := 59; minus := 45;
     infinity := lit "Infinity"; not_a_number := lit "NaN" |}.
Definition QUOTE : N := 39.

(** ** parse_pattern, 220-469 *)
Inductive phase := Prefix | Pattern | Suffix.
(** The local variables, 231-262.  The pattern is rewritten in place while it is read
    (the affixes without their quotes, 277, 305, 334), so it is part of the state.  A
    counter that starts at -1 and a pointer that starts as NULL start as None. *)
Record pst := {
  p_buf : str; p_pos : nat; p_phase : phase; p_quote : bool;
  p_dec : option nat; p_mult : Z; p_left : nat; p_zero : nat; p_right : nat; p_group : option nat;
  p_prefixEnd : option nat; p_affix : nat; p_suffix : nat; p_suffixEnd : nat;
  p_start : nat; p_neg : bool }.

Fixpoint write (l : str) (i : nat) (c : N) : str :=
  match l, i with
  | [], _ => []
  | _ :: l', O => c :: l'
  | x :: l', S i' => x :: write l' i' c
  end.
Definition slice (l : str) (start size : nat) : str := firstn size (skipn start l).

(** "*affix++ = ch" and the step of the loop by [n] characters. *)
Definition put (st : pst) (ch : N) (n : nat) : pst :=
  {| p_buf := write (p_buf st) (p_affix st) ch; p_pos := p_pos st + n; p_phase := p_phase st; p_quote := p_quote st;
     p_dec := p_dec st; p_mult := p_mult st; p_left := p_left st; p_zero := p_zero st; p_right := p_right st; p_group := p_group st;
     p_prefixEnd := p_prefixEnd st; p_affix := S (p_affix st); p_suffix := p_suffix st; p_suffixEnd := p_suffixEnd st;
     p_start := p_start st; p_neg := p_neg st |}.
Definition set_quote (st : pst) (b : bool) : pst :=
  {| p_buf := p_buf st; p_pos := S (p_pos st); p_phase := p_phase st; p_quote := b;
     p_dec := p_dec st; p_mult := p_mult st; p_left := p_left st; p_zero := p_zero st; p_right := p_right st; p_group := p_group st;
     p_prefixEnd := p_prefixEnd st; p_affix := p_affix st; p_suffix := p_suffix st; p_suffixEnd := p_suffixEnd st;
     p_start := p_start st; p_neg := p_neg st |}.
Definition set_mult (st : pst) (m : Z) : pst :=
  {| p_buf := p_buf st; p_pos := p_pos st; p_phase := p_phase st; p_quote := p_quote st;
     p_dec := p_dec st; p_mult := m; p_left := p_left st; p_zero := p_zero st; p_right := p_right st; p_group := p_group st;
     p_prefixEnd := p_prefixEnd st; p_affix := p_affix st; p_suffix := p_suffix st; p_suffixEnd := p_suffixEnd st;
     p_start := p_start st; p_neg := p_neg st |}.
(** The start of the digits, 292-297: the character is read again. *)
Definition to_pattern (st : pst) : pst :=
  {| p_buf := p_buf st; p_pos := p_pos st; p_phase := Pattern; p_quote := p_quote st;
     p_dec := p_dec st; p_mult := p_mult st; p_left := p_left st; p_zero := p_zero st; p_right := p_right st; p_group := p_group st;
     p_prefixEnd := Some (p_affix st); p_affix := p_affix st; p_suffix := p_suffix st; p_suffixEnd := p_suffixEnd st;
     p_start := p_start st; p_neg := p_neg st |}.
(** The start of the suffix, 368-372 and 388-392. *)
Definition to_suffix (st : pst) : pst :=
  {| p_buf := p_buf st; p_pos := p_pos st; p_phase := Suffix; p_quote := p_quote st;
     p_dec := p_dec st; p_mult := p_mult st; p_left := p_left st; p_zero := p_zero st; p_right := p_right st; p_group := p_group st;
     p_prefixEnd := p_prefixEnd st; p_affix := p_pos st; p_suffix := p_pos st; p_suffixEnd := p_suffixEnd st;
     p_start := p_start st; p_neg := p_neg st |}.
(** The separator of the two sub-patterns, 316-320. *)
Definition to_negative (st : pst) (end_ : nat) : pst :=
  {| p_buf := p_buf st; p_pos := end_; p_phase := p_phase st; p_quote := p_quote st;
     p_dec := p_dec st; p_mult := p_mult st; p_left := p_left st; p_zero := p_zero st; p_right := p_right st; p_group := p_group st;
     p_prefixEnd := p_prefixEnd st; p_affix := p_affix st; p_suffix := p_suffix st; p_suffixEnd := p_affix st;
     p_start := S (p_pos st); p_neg := true |}.
(** The counters after a character of the number, 347-366. *)
Definition set_counts (st : pst) (dec : option nat) (lft zero rgt : nat) (group : option nat) : pst :=
  {| p_buf := p_buf st; p_pos := S (p_pos st); p_phase := p_phase st; p_quote := p_quote st;
     p_dec := dec; p_mult := p_mult st; p_left := lft; p_zero := zero; p_right := rgt; p_group := group;
     p_prefixEnd := p_prefixEnd st; p_affix := p_affix st; p_suffix := p_suffix st; p_suffixEnd := p_suffixEnd st;
     p_start := p_start st; p_neg := p_neg st |}.

Section Parse.
Variable sy : symbols.

Definition number_char (ch : N) : bool := N.eqb ch (hash sy) || N.eqb ch (zeroDigit sy) || N.eqb ch (grouping sy) || N.eqb ch (decimalSep sy).
(** 352-353, 358-359. *)
Definition next_group (st : pst) : option nat :=
  match p_group st, p_dec st with Some g, None => Some (S g) | g, _ => g end.
Definition second_quote (st : pst) (end_ : nat) : bool :=
  (S (p_pos st) <? end_) && N.eqb (nth (S (p_pos st)) (p_buf st) 0%N) QUOTE.
(** One round of the loop, 264-397. *)
Definition affix_step (positive : bool) (end_ : nat) (st : pst) (ch : N) : result pst :=
  if p_quote st then
    if N.eqb ch QUOTE then if second_quote st end_ then Ok (put st ch 2) else Ok (set_quote st false)
    else Ok (put st ch 1)
  else if number_char ch then Ok (to_pattern st)
  else if N.eqb ch QUOTE then if second_quote st end_ then Ok (put st ch 2) else Ok (set_quote st true)
  else if N.eqb ch (separator sy) then
    match p_phase st, positive with Suffix, true => Ok (to_negative st end_) | _, _ => Err TooManySeparators end
  else if N.eqb ch (percent sy) then
    if Z.eqb (p_mult st) 1 then Ok (put (set_mult st 100) ch 1) else Err TooManyPercents
  else if N.eqb ch (perMille sy) then
    if Z.eqb (p_mult st) 1 then Ok (put (set_mult st 1000) ch 1) else Err TooManyPercents
  else Ok (put st ch 1).
Definition pattern_step (positive : bool) (st : pst) (ch : N) : result pst :=
  if positive then
    if N.eqb ch (hash sy) then
      if 0 <? p_zero st then Ok (set_counts st (p_dec st) (p_left st) (p_zero st) (S (p_right st)) (next_group st))
      else Ok (set_counts st (p_dec st) (S (p_left st)) (p_zero st) (p_right st) (next_group st))
    else if N.eqb ch (zeroDigit sy) then
      if 0 <? p_right st then Err UnexpectedZero
      else Ok (set_counts st (p_dec st) (p_left st) (S (p_zero st)) (p_right st) (next_group st))
    else if N.eqb ch (grouping sy) then Ok (set_counts st (p_dec st) (p_left st) (p_zero st) (p_right st) (Some 0))
    else if N.eqb ch (decimalSep sy) then
      match p_dec st with
      | Some _ => Err MultipleDecimals
      | None => Ok (set_counts st (Some (p_left st + p_zero st + p_right st)) (p_left st) (p_zero st) (p_right st) (p_group st))
      end
    else Ok (to_suffix st)
  (* 375-394.  The comparison 378 is of a character with itself: phaseOneStart was set in
     this sub-pattern, so phaseOneStart + phaseOneLength is the position. *)
  else if number_char ch then Ok (set_counts st (p_dec st) (p_left st) (p_zero st) (p_right st) (p_group st))
  else Ok (to_suffix st).
Definition sub_step (positive : bool) (end_ : nat) (st : pst) : result pst :=
  let ch := nth (p_pos st) (p_buf st) 0%N in
  match p_phase st with Pattern => pattern_step positive st ch | _ => affix_step positive end_ st ch end.
Fixpoint sub_loop (fuel : nat) (positive : bool) (end_ : nat) (st : pst) : result pst :=
  if end_ <=? p_pos st then Ok st
  else match fuel with O => Err OutOfFuel | S f => do st' <- sub_step positive end_ st ; sub_loop f positive end_ st' end.
(** 231-262. *)
Definition sub_start (buf : str) (start : nat) : pst :=
  let end_ := List.length buf in
  {| p_buf := buf; p_pos := start; p_phase := Prefix; p_quote := false; p_dec := None; p_mult := 1; p_left := 0; p_zero := 0;
     p_right := 0; p_group := None; p_prefixEnd := None; p_affix := start; p_suffix := end_; p_suffixEnd := end_;
     p_start := start; p_neg := false |}.
(** 410-424: no '0' in the pattern, and the check of the digits. *)
Definition settle (st : pst) : nat * nat * nat :=
  match p_zero st, p_left st, p_dec st with
  | 0, S _, Some d => let n := if d =? 0 then 1 else d in (n - 1, 1, p_left st - n)
  | z, l, _ => (l, z, p_right st)
  end.
Definition bad_digits (st : pst) (lft zero rgt : nat) : bool :=
  match p_dec st with None => 0 <? rgt | Some d => (d <? lft) || (lft + zero <? d) end
  || match p_group st with Some 0 => true | _ => false end || p_quote st.
Definition parse_sub (positive : bool) (buf : str) (start : nat) : result (pst * (nat * nat * nat)) :=
  let end_ := List.length buf in
  do st <- sub_loop (2 * end_ + 2) positive end_ (sub_start buf start) ;
  let '(lft, zero, rgt) := settle st in
  if bad_digits st lft zero rgt then Err Malformed else Ok (st, (lft, zero, rgt)).

(** PatternParts, 55-59, as start and size in the pattern. *)
Definition part := option (nat * nat).
Record info := {
  i_prefix : part; i_suffix : part; i_nprefix : part; i_nsuffix : part;
  i_minInt : nat; i_minFrac : nat; i_maxFrac : nat; i_group : nat; i_show : bool; i_mult : Z }.
(** 429-436 and 455-462. *)
Definition prefix_part (start : nat) (st : pst) : result part :=
  match p_prefixEnd st with None => Err Garbage | Some e => Ok (if start =? e then None else Some (start, e - start)) end.
Definition suffix_part (st : pst) : part :=
  if p_suffix st =? p_suffixEnd st then None else Some (p_suffix st, p_suffixEnd st - p_suffix st).
(** The loop 230-466 runs once or twice; the pattern as it was left is returned too. *)
Definition parse_pattern (pattern : str) : result (info * str) :=
  do (st, (lft, zero, rgt)) <- parse_sub true pattern 0 ;
  do pre <- prefix_part 0 st ;
  let suf := suffix_part st in
  let total := lft + zero + rgt in
  do (npre, nsuf, buf) <-
    (if p_neg st then
       do (st2, _) <- parse_sub false (p_buf st) (p_start st) ;
       do npre <- prefix_part (p_start st) st2 ;
       Ok (npre, suffix_part st2, p_buf st2)
     else Ok (None, None, p_buf st)) ;
  Ok ({| i_prefix := pre; i_suffix := suf; i_nprefix := npre; i_nsuffix := nsuf;
         i_minInt := match p_dec st with Some d => d | None => total end - lft;
         i_minFrac := match p_dec st with Some d => lft + zero - d | None => 0 end;
         i_maxFrac := match p_dec st with Some d => total - d | None => 0 end;
         i_group := match p_group st with Some g => g | None => 0 end;
         i_show := match p_dec st with Some d => (d =? 0) || (d =? total) | None => false end;
         i_mult := p_mult st |}, buf).

(** ** parse_number, 471-533 *)
Definition FRACTION_DIGITS : nat := 340.
Definition INTEGER_DIGITS : nat := 309.
Definition pad (k : nat) (s : str) : str := repeat 48%N (k - List.length s) ++ s.
(** "%.*f" with [k] digits of a number that is not negative. *)
Definition printf_f (k : nat) (v : Q) : str :=
  let m := Z.to_N (half_even (v * inject_Z (10 ^ Z.of_nat k))) in
  let t := (10 ^ N.of_nat k)%N in
  dec_str (m / t)%N ++ 46%N :: pad k (dec_str (m mod t)%N).
(** The loop 486-499: the digits without the zeros in front, decimalAt, zerosSkipped. *)
Fixpoint scan (s : str) (ds : list N) (at_ : Z) (nz : bool) (zs : nat) : list N * Z * nat :=
  match s with
  | [] => (ds, at_, zs)
  | c :: s' =>
    if N.eqb c 46 then scan s' ds (Z.of_nat (List.length ds)) nz 0
    else
      let nz' := nz || negb (N.eqb c 48) in
      scan s' (if nz' then ds ++ [(c - 48)%N] else ds) at_ nz' (if nz then zs else S zs)
  end.
(** The loop 505-520 on the digits from the last to the first: a digit before the first is
    not in the array. *)
Fixpoint carry (l : list N) : result (list N) :=
  match l with
  | [] => Err Garbage
  | d :: r => if N.eqb d 9 then rmap (cons 0%N) (carry r) else Ok ((d + 1)%N :: r)
  end.
(** 505-524, where the last digit is dropped. *)
Definition round_last (l : list N) : result (list N) :=
  match l with
  | [] => Err Garbage
  | d :: r => if (5 <=? d)%N then carry r else Ok r
  end.
(** 527-532. *)
Fixpoint strip (l : list N) (at_ : Z) : result (list N) :=
  if (Z.of_nat (List.length l) - 1 >? at_)%Z then
    match l with
    | [] => Err Garbage
    | d :: r => if N.eqb d 0 then strip r at_ else Ok l
    end
  else Ok l.
Definition parse_number (v : Q) (maxFrac : nat) : result (list N * Z) :=
  let s := printf_f (S maxFrac) v in
  if FRACTION_DIGITS <=? List.length s then Err Garbage
  else
    let '(ds, at0, zs) := scan s [] (-1)%Z false 0 in
    let at_ := match zs with O => at0 | S z => (at0 - Z.of_nat z)%Z end in
    do r <- round_last (rev ds) ;
    do r' <- strip r at_ ;
    Ok (rev r', at_).

(** ** format_number, 535-620 *)
Definition digit_char (d : N) : N := (d + zeroDigit sy)%N.
(** The loop 562-576 and the digits that are left. *)
Fixpoint int_loop (group n : nat) (at_ : Z) (ds : list N) : str * list N :=
  match n with
  | O => ([], ds)
  | S i =>
    let (c, ds') := if (Z.of_nat i <? at_)%Z then match ds with d :: r => (digit_char d, r) | [] => (zeroDigit sy, []) end else (zeroDigit sy, ds) in
    let (s, ds'') := int_loop group i at_ ds' in
    (c :: (if (0 <? i) && negb (group =? 0) && (i mod group =? 0) then [grouping sy] else []) ++ s, ds'')
  end.
(** The loop 595-617. *)
Fixpoint frac_loop (minFrac n i : nat) (at_ : Z) (ds : list N) : str :=
  match n with
  | O => []
  | S n' =>
    if (minFrac <=? i) && match ds with [] => true | _ => false end then []
    else if (-1 - Z.of_nat i >? at_ - 1)%Z then zeroDigit sy :: frac_loop minFrac n' (S i) at_ ds
    else match ds with
         | d :: r => digit_char d :: frac_loop minFrac n' (S i) at_ r
         | [] => zeroDigit sy :: frac_loop minFrac n' (S i) at_ []
         end
  end.
Definition format_number (v : Q) (i : info) : result str :=
  do (ds, at_) <- parse_number v (i_maxFrac i) ;
  let count := if ((0 <? at_) && (Z.of_nat (i_minInt i) <? at_))%Z then Z.to_nat at_ else i_minInt i in
  do (count, ds) <-
    (if INTEGER_DIGITS <? count then
       if (at_ <? Z.of_nat INTEGER_DIGITS)%Z then Err Garbage
       else Ok (INTEGER_DIGITS, skipn (Z.to_nat at_ - INTEGER_DIGITS) ds)
     else Ok (count, ds)) ;
  let (ints, ds) := int_loop (i_group i) count at_ ds in
  let present := (0 <? i_minFrac i) || match ds with [] => false | _ => true end in
  let ints := match ints with [] => if present then [] else [zeroDigit sy] | _ => ints end in
  let s := ints ++ (if i_show i || present then [decimalSep sy] else []) ++ frac_loop (i_minFrac i) (i_maxFrac i) 0 at_ ds in
  if 2 * FRACTION_DIGITS <? List.length s then Err Garbage else Ok s.

(** ** decimal_format, 634-790 *)
Definition part_text (buf : str) (p : part) : str := match p with None => [] | Some (start, size) => slice buf start size end.
(** 722-745: without a sub-pattern for negative numbers the pattern is copied behind a minus
    sign.  The prefix keeps the size 1, the suffix the size 0. *)
Definition negative_parts (i : info) (buf : str) : str * str :=
  match i_nprefix i, i_nsuffix i with
  | None, None =>
    let copy := minus sy :: buf in
    (slice copy (match i_prefix i with Some (start, _) => S start | None => 0 end) 1, [])
  | p, s => (part_text buf p, part_text buf s)
  end.
(** The result, and the pattern as it was left.  Negative zero is not negative: 720 compares
    a truth value with zero. *)
Definition decimal_format (number : num) (pattern : str) : result (str * str) :=
  match number with
  | NNaN => Ok (not_a_number sy, pattern)
  | _ =>
    match pattern with
    | [] => Err MissingInteger
    | _ =>
      do (i, buf) <- parse_pattern pattern ;
      let negative := num_ltb number (NFin 0) in
      let number := if negative then num_opp number else number in
      let (pre, suf) := if negative then negative_parts i buf else (part_text buf (i_prefix i), part_text buf (i_suffix i)) in
      do text <-
        match number with
        | NPosInf => Ok (infinity sy)
        | _ =>
          match (if Z.eqb (i_mult i) 1 then number else num_mul number (num_of_Z (i_mult i))) with
          | NFin v => format_number v i
          | NNegZero => format_number 0 i
          | _ => Err Garbage
          end
        end ;
      Ok (pre ++ text ++ suf, buf)
    end
  end.
End Parse.

(** ** format_number_function.evaluate_as_string, functions/__init__.py:119-134.  [formats]
    is decimal_formats of the transform (transform_element.py:296-321), by name; without a
    third argument no format is passed (131-132).  An unknown name is a NameError:
    XsltRuntimeError is not defined in this module. *)
Definition format_number_function {name : Type} (formats : name -> option symbols) (number : num) (pattern : str) (arg2 : option name) : result (str * str) :=
  match arg2 with
  | None => decimal_format default_symbols number pattern
  | Some n => match formats n with None => Err NameError | Some sy => decimal_format sy number pattern end
  end.
