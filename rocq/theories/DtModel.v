(** * Model of the calendar of the EXSLT date functions

    /repo/lib/xslt/exslt/datetime.py.  Integers are exact, and / of two integers rounds down, as in Python 2. *)
From Coq Require Import ZArith List Bool.
From Verif Require Import PyStr PyErr.
Import ListNotations.
Local Open Scope Z_scope.

(** calendar.isleap *)
Definition isleap (year : Z) : bool := (year mod 4 =? 0) && (negb (year mod 100 =? 0) || (year mod 400 =? 0)).
(** _daysInMonth, datetime.py:918-925 *)
Definition days_in_month (year month : Z) : Z :=
  nth (Z.to_nat month) [0; 31; 28; 31; 30; 31; 30; 31; 31; 30; 31; 30; 31] 0 + (if (month =? 2) && isleap year then 1 else 0).
(** _dayInYear, datetime.py:928-935 *)
Definition day_in_year (year month day : Z) : Z :=
  nth (Z.to_nat month) [0; 0; 31; 59; 90; 120; 151; 181; 212; 243; 273; 304; 334] 0 + (if (2 <? month) && isleap year then 1 else 0) + day.
(** _julianDay, datetime.py:938-944 *)
Definition julian_day (year month day : Z) : Z :=
  let date := day_in_year year month day in let year := year - 1 in year * 365 + (year / 4) - (year / 100) + (year / 400) + date.
(** _dayOfWeek, datetime.py:947-951 *)
Definition day_of_week (year month day : Z) : Z := julian_day year month day mod 7.
Definition date := (Z * Z * Z)%type.
(** The end of the loop: carry, result.month = divmod(result.month + carry - 1, 12) and the two lines after it, datetime.py:592-594 *)
Definition turn (year month carry : Z) : Z * Z := (year + (month + carry - 1) / 12, (month + carry - 1) mod 12 + 1).
(** The loop of add_function, datetime.py:578-594, with at most n rounds *)
Fixpoint carry_days (n : nat) (year month day : Z) : option date :=
  match n with
  | O => None
  | S n => if days_in_month year month <? day then
             let (y, m) := turn year month 1 in carry_days n y m (day - days_in_month year month)
           else if day <? 1 then
             let max_day := if month =? 1 then days_in_month (year - 1) 12 else days_in_month year (month - 1) in
             let (y, m) := turn year month (-1) in carry_days n y m (day + max_day)
           else Some (year, month, day)
  end.
(** add_function on a date without time and a duration of years, months and days (negative ones for a negative duration), datetime.py:530-594.
    The day that is cut at the end of the month is overwritten. *)
Definition add_date (n : nat) (d : date) (years months days : Z) : option date :=
  let '(year, month, day) := d in
  let months := months + month in
  let month := (months - 1) mod 12 + 1 in let year := year + years + (months - 1) / 12 in
  let max_day := days_in_month year month in
  let cut := if max_day <? day then max_day else day in
  let cut := if day <? 1 then 1 else day in
  carry_days n year month (cut + days).
(** A call of _coerce(obj, datatypes), datetime.py:907-915: two arguments.  What it does with two of them is a parameter. *)
Definition call_coerce {A} (coerce : A -> A -> result date) (args : list A) : result date :=
  match args with [obj; types] => coerce obj types | _ => Err TypeError end.
(** day_in_week_function, datetime.py:232-245: _coerce is called with the context as well, and the handler is for ValueError (None stands
    for not-a-number).  The name _day_of_week after it is not defined either. *)
Definition day_in_week_function {A} (coerce : A -> A -> result date) (context d types : A) : result (option Z) :=
  match call_coerce coerce [context; d; types] with
  | Err ValueError => Ok None
  | Err e => Err e
  | Ok _ => Err NameError
  end.
(** The arithmetic of week_in_month_function, datetime.py:495-499.  (The line before it reads the variable it assigns, so this is not reached.) *)
Definition week_in_month (year month day : Z) : Z :=
  let dow := (day_of_week year month day + 6) mod 7 + 1 in
  let week_offset := day - dow in
  week_offset / 7 + (if week_offset mod 7 =? 0 then 1 else 2).
