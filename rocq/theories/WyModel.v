(** * Model of the arithmetic of date:week-in-year

    /repo/lib/xslt/exslt/datetime.py, week_in_year_function.  Names of the calendar functions that the module does not define
    (_day_of_week, _day_in_year, _is_leap) are read as _dayOfWeek, _dayInYear and calendar.isleap: the function as it is raises before it. *)
From Coq Require Import ZArith Bool.
From Verif Require Import DtModel.
Local Open Scope Z_scope.

(** week_in_year_function, datetime.py:160-182.  A truth value is a number. *)
Definition number (b : bool) : Z := if b then 1 else 0.
Definition week_in_year (year month day : Z) : Z :=
  let day_of_week_0101 := (day_of_week year 1 1 + 6) mod 7 in
  let day_number := day_in_year year month day in
  let dow := (day_number + day_of_week_0101 - 1) mod 7 in
  if (3 <? day_of_week_0101) && (day_number <=? 7 - day_of_week_0101) then
    52 + number (day_of_week_0101 =? 4 + number (isleap (year - 1)))
  else if 365 + number (isleap year) - day_number <? 3 - dow then 1
  else let week := (day_number + (6 - dow) + day_of_week_0101) / 7 in
       if 3 <? day_of_week_0101 then week - 1 else week.
