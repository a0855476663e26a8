(** * Model of the formatting of numbers by xsl:number: lib/xslt/numbers/__init__.py,
      lib/xslt/numbers/en.py and number_element.instantiate (lib/xslt/tree/number_element.py)

    Only the English formatter exists.  The class of a character in the regular expression,
    isalnum, is a parameter; so is datatypes.string of a number.  Numbers are not
    negative. *)
From Coq Require Import NArith ZArith QArith Qround String List Bool Lia Arith.
From Verif Require Import PyStr PyErr SerModel XpNum.
Import ListNotations.
Local Open Scope nat_scope.

Section Format.
Variable isalnum : N -> bool.

(** ** The format string *)
(** \w with (?u), numbers/__init__.py:76. *)
Definition word (c : N) : bool := isalnum c || N.eqb c 95.
Definition nonword (c : N) : bool := negb (word c).
(** One match of the regular expression (other characters, a word, other characters; each as
    long as possible) at the start, and what follows it.  If the first group runs to the
    end no shorter choice helps. *)
Definition match_part (l : str) : option (str * str * str * str) :=
  let (prefix, r) := span nonword l in
  let (token, r') := span word r in
  match token with
  | [] => None
  | _ => let (suffix, rest) := span nonword r' in Some (prefix, token, suffix, rest)
  end.
(** findall, 81. *)
Fixpoint findall (fuel : nat) (l : str) : list (str * str * str) :=
  match fuel with
  | O => []
  | S fuel' => match match_part l with None => [] | Some (x, rest) => x :: findall fuel' rest end
  end.
Record formatter := { prefix : str; toks : list str; seps : list str; suffix : str }.
(** The loop 95-98. *)
Fixpoint collect (parts : list (str * str * str)) (sep : str) (toks seps : list str) : list str * list str * str :=
  match parts with
  | [] => (toks, seps, sep)
  | (_, token, suffix) :: l => collect l suffix (toks ++ [token]) (seps ++ [sep])
  end.
(** __init__, 78-100. *)
Definition new_formatter (format : str) : formatter :=
  let format := match format with [] => lit "1" | _ => format end in
  match findall (List.length format) format with
  | [] => {| prefix := format; toks := [lit "1"]; seps := [lit "."]; suffix := format |}
  | [(p, token, s)] => {| prefix := p; toks := [token]; seps := [lit "."]; suffix := s |}
  | (p, token, s) :: l => let '(ts, ss, s') := collect l s [token] [] in {| prefix := p; toks := ts; seps := ss; suffix := s' |}
  end.

(** ** One number *)
(** The table of Roman digits, en.py:15-27. *)
Definition roman_row (one five ten : str) : list str :=
  [[]; one; one ++ one; one ++ one ++ one; one ++ five; five; five ++ one; five ++ one ++ one; five ++ one ++ one ++ one; one ++ ten].
Definition roman_rows (i v x l c d m : N) : list (N * list str) :=
  flat_map (fun p : N * str => let '(multiplier, combining) := p in
    map (fun q : N * N * N * N => let '(base, one, five, ten) := q in
           ((base * multiplier)%N, roman_row (one :: combining) (five :: combining) (ten :: combining)))
      [(1, i, v, x); (10, x, l, c); (100, c, d, m)]%N)
    [(1%N, []); (1000%N, [773%N])].
Definition roman_upper : list (N * list str) := roman_rows 73 86 88 76 67 68 77.
Definition roman_lower : list (N * list str) := roman_rows 105 118 120 108 99 100 109.
Definition roman_max : N := 1000000.
(** en.py:43-49. *)
Fixpoint roman_loop (table : list (N * list str)) (number : N) : result str :=
  match table with
  | [] => Ok []
  | (bound, digits) :: l =>
      if (bound <? number)%N
      then match nth_error digits (N.to_nat (number / bound)) with
           | None => Err IndexError
           | Some d => rmap (app d) (roman_loop l (number mod bound))
           end
      else roman_loop l number
  end.
(** _alpha_sequence, en.py:30-37, for an alphabet of 26 letters that starts with [first];
    [number - 1] is -1 for 0, which gives the last letter. *)
Definition letter (first : N) (ordinal : N) : N := (first + ordinal)%N.
Fixpoint alpha_loop (fuel : nat) (first number : N) : str :=
  match fuel with
  | O => []
  | S fuel' =>
      if (26 <? number)%N
      then letter first ((number - 1) mod 26) :: alpha_loop fuel' first ((number - 1) / 26)
      else [letter first (if (number =? 0)%N then 25 else number - 1)]
  end.
Definition alpha_sequence (number first : N) : str := alpha_loop (S (N.to_nat number)) first number.
(** '%0*d'. *)
Definition padded (width : nat) (number : N) : str := repeat 48%N (width - List.length (dec_str number)) ++ dec_str number.
(** _format, en.py:39-73; [alphabetic] is letter_value == 'alphabetic', [grouped] whether
    separator and grouping are both true.  None is no number. *)
Definition is_token (t : str) (c : N) : bool := str_eqb t [c].
Definition format_number (number : option N) (token : str) (alphabetic grouped : bool) : result str :=
  if (is_token token 73 || is_token token 105) && negb alphabetic
  then match number with
       | None => Err TypeError
       | Some n => if ((0 <? n) && (n <? roman_max))%N then roman_loop (if is_token token 105 then roman_lower else roman_upper) n else Ok (dec_str n)
       end
  else if is_token token 65 || is_token token 97
  then match number with None => Err TypeError | Some n => Ok (alpha_sequence n (if is_token token 97 then 97 else 65)) end
  else match number with
       | None => Err TypeError
       | Some n => if grouped then Err NameError else Ok (padded (List.length token) n)
       end.

(** ** One or many *)
(** format, numbers/__init__.py:105-108. *)
Definition format_one (f : formatter) (number : option N) (alphabetic grouped : bool) : result str :=
  do r <- format_number number (hd [] (toks f)) alphabetic grouped ; Ok (prefix f ++ r ++ suffix f).
(** _repeat_last, 15-20: the next item and what is left. *)
Definition next_item (l : list str) : str * list str := match l with [] => ([], []) | [x] => (x, [x]) | x :: l' => (x, l') end.
(** formatmany, 110-119: the items of [result] after the first. *)
Fixpoint items (numbers : list N) (ts ss : list str) (alphabetic grouped : bool) : result (list str) :=
  match numbers with
  | [] => Ok []
  | n :: numbers' =>
      let (tok, ts') := next_item ts in
      let (sep, ss') := next_item ss in
      do r <- format_number (Some n) tok alphabetic grouped ;
      do l <- items numbers' ts' ss' alphabetic grouped ;
      Ok (r :: sep :: l)
  end.
Definition format_many (f : formatter) (numbers : list N) (alphabetic grouped : bool) : result str :=
  do l <- items numbers (toks f) (seps f) alphabetic grouped ;
  Ok (List.concat (removelast (prefix f :: l) ++ [suffix f])).

(** ** xsl:number with value, number_element.py:84-94; [show] is datatypes.string. *)
Definition format_value (show : num -> str) (f : formatter) (value : num) (alphabetic grouped : bool) : result str :=
  match value with
  | NFin q => if Qle_bool (1 # 2) q then format_one f (Some (Z.to_N (Qfloor (q + (1 # 2))))) alphabetic grouped else Ok (show value)
  | _ => Ok (show value)
  end.
End Format.
