(** * Model of the ISO 8601 module, /repo/lib/lib/iso8601.py

    The C library is the environment: gmtime and mktime follow the proleptic
    Gregorian calendar, and local standard time is a fixed distance west of UTC
    ([west], Python's time.timezone), so that mktime with the flag for standard
    time is the UTC value plus [west].  The limits of time_t are not modelled.
    Seconds are compared exactly, not as floating point numbers. *)
From Coq Require Import NArith ZArith QArith String List Bool Lia Arith.
From Verif Require Import PyStr PyErr.
Import ListNotations.
Open Scope Z_scope.

(** ** The calendar of the C library *)
Definition leap (y : Z) : bool := (y mod 4 =? 0) && (negb (y mod 100 =? 0) || (y mod 400 =? 0)).
(** Days before the month, in the year. *)
Definition before_month (lp : bool) (m : Z) : Z :=
  (match m with 1 => 0 | 2 => 31 | 3 => 59 | 4 => 90 | 5 => 120 | 6 => 151 | 7 => 181 | 8 => 212 | 9 => 243 | 10 => 273 | 11 => 304 | _ => 334 end) +
  (if lp && (2 <? m) then 1 else 0).
(** Days from the epoch to the first of January. *)
Definition year_start (y : Z) : Z := 365 * (y - 1) + (y - 1) / 4 - (y - 1) / 100 + (y - 1) / 400 - 719162.
Definition day_number (y m d : Z) : Z := year_start y + before_month (leap y) m + d - 1.
(** mktime in UTC: months out of range are carried into the year, other fields
    are added up. *)
Definition timegm (y m d h mi s : Z) : Z :=
  86400 * day_number (y + (m - 1) / 12) ((m - 1) mod 12 + 1) d + 3600 * h + 60 * mi + s.
(** gmtime: year, month, day from the day number. *)
Definition civil (n : Z) : Z * Z * Z :=
  let z := n + 719468 in
  let era := z / 146097 in
  let doe := z mod 146097 in
  let yoe := (doe - doe / 1460 + doe / 36524 - doe / 146096) / 365 in
  let doy := doe - (365 * yoe + yoe / 4 - yoe / 100) in
  let mp := (5 * doy + 2) / 153 in
  let d := doy - (153 * mp + 2) / 5 + 1 in
  let m := if mp <? 10 then mp + 3 else mp - 9 in
  ((yoe + era * 400) + (if m <=? 2 then 1 else 0), m, d).
(** tm_yday + 1 *)
Definition yday (t : Z) : Z := let n := t / 86400 in let '(y, _, _) := civil n in n - year_start y + 1.

(** Python's time.mktime, before Python 3: a year below 1900 is taken for one
    with two digits, or refused. *)
Definition mktime_year (y : Z) : result Z :=
  if y <? 1900 then
    if (69 <=? y) && (y <=? 99) then Ok (y + 1900)
    else if (0 <=? y) && (y <=? 68) then Ok (y + 2000)
    else Err ValueError
  else Ok y.
Section Local.
  Variable west : Z.
  Definition mktime (y m d h mi s : Z) : result Z := do y' <- mktime_year y ; Ok (timegm y' m d h mi s + west).

  (** ** The regular expressions, 101-112

      The engine tries the alternatives in order, and what follows the date is
      optional, so that the first date that matches is the one taken. *)
  Fixpoint digits (n : nat) (s : str) : option (str * str) :=
    match n with
    | O => Some ([], s)
    | S n' =>
      match s with
      | c :: s' => if is_digit c then match digits n' s' with Some (a, r) => Some (c :: a, r) | None => None end else None
      | [] => None
      end
    end.
  Definition strip (p s : str) : option str := if prefixb p s then Some (skipn (length p) s) else None.
  (** What follows the year: ordinal day, or month and maybe day. *)
  Inductive datepart := Julian (j : str) | Month (m : str) (d : option str) | YearOnly.
  Definition rx_rest (sep s : str) : option (datepart * str) :=
    match digits 3 s with
    | Some (j, r) => Some (Julian j, r)
    | None =>
      match digits 2 s with
      | Some (m, r) =>
        match strip sep r with
        | Some r1 => match digits 2 r1 with Some (d, r2) => Some (Month m (Some d), r2) | None => Some (Month m None, r) end
        | None => Some (Month m None, r)
        end
      | None => None
      end
    end.
  (** __date_re, 101-104 *)
  Definition rx_date (s : str) : option (str * datepart * str) :=
    match digits 4 s with
    | None => None
    | Some (y, r) =>
      match (match strip (lit "-") r with Some r1 => rx_rest (lit "-") r1 | None => None end) with
      | Some (p, r2) => Some (y, p, r2)
      | None => match rx_rest [] r with Some (p, r2) => Some (y, p, r2) | None => Some (y, YearOnly, r) end
      end
    end.
  (** __tzd_re, 105: the minutes are not optional. *)
  Inductive tzd := Zulu | Offset (plus : bool) (h m : str).
  Definition rx_tzd (s : str) : option (tzd * str) :=
    match s with
    | c :: r =>
      if ((c =? 43) || (c =? 45))%N then
        match digits 2 r with
        | Some (h, r1) =>
          match digits 2 (match strip (lit ":") r1 with Some r2 => r2 | None => r1 end) with
          | Some (m, r3) => Some (Offset (c =? 43)%N h m, r3)
          | None => None
          end
        | None => None
        end
      else if (c =? 90)%N then Some (Zulu, r) else None
    | [] => None
    end.
  (** \d\d(?:[.,]\d+)? : the digits, and the mark and the digits after it. *)
  Definition rx_seconds (s : str) : option (str * option (N * str) * str) :=
    match digits 2 s with
    | None => None
    | Some (d, r) =>
      match r with
      | c :: r1 =>
        if ((c =? 46) || (c =? 44))%N then
          match span is_digit r1 with
          | ([], _) => Some (d, None, r)
          | (f, r2) => Some (d, Some (c, f), r2)
          end
        else Some (d, None, r)
      | [] => Some (d, None, r)
      end
    end.
  Record timepart := { t_h : str; t_m : str; t_s : option (str * option (N * str)); t_z : tzd }.
  (** __time_re, 107-109, with the mark that was found after the hours.  Giving
      back the fraction, or some of its digits, or the seconds does not help the
      zone to match, unless the seconds do not match at all. *)
  Definition rx_time_sep (h sep s : str) : option (timepart * str) :=
    match digits 2 s with
    | None => None
    | Some (m, r) =>
      match (match strip sep r with Some r1 => rx_seconds r1 | None => None end) with
      | Some (d, f, r2) =>
        match rx_tzd r2 with
        | Some (z, r3) => Some ({| t_h := h; t_m := m; t_s := Some (d, f); t_z := z |}, r3)
        | None => match rx_tzd r with Some (z, r3) => Some ({| t_h := h; t_m := m; t_s := None; t_z := z |}, r3) | None => None end
        end
      | None => match rx_tzd r with Some (z, r3) => Some ({| t_h := h; t_m := m; t_s := None; t_z := z |}, r3) | None => None end
      end
    end.
  Definition rx_time (s : str) : option (timepart * str) :=
    match digits 2 s with
    | None => None
    | Some (h, r) =>
      match (match strip (lit ":") r with Some r1 => rx_time_sep h (lit ":") r1 | None => None end) with
      | Some x => Some x
      | None => rx_time_sep h [] r
      end
    end.
  (** __datetime_re, 111 *)
  Definition rx_datetime (s : str) : option (str * datepart * option timepart * str) :=
    match rx_date s with
    | None => None
    | Some (y, p, r) =>
      match strip (lit "T") r with
      | Some r1 => match rx_time r1 with Some (t, r2) => Some (y, p, Some t, r2) | None => Some (y, p, None, r) end
      | None => Some (y, p, None, r)
      end
    end.

  (** int of a string of digits *)
  Definition to_int (s : str) : Z := fold_left (fun a c => 10 * a + (Z.of_N c - 48)) s 0.

  (** ** Taking the values, 117-205 *)

  (** The error that stands for a loop that does not end. *)
  Definition endless : exn := OtherError 172.
  (** The loop of __find_julian, 190-205; time.gmtime(t)[-2] is the day in the year. *)
  Fixpoint find_loop (fuel : nat) (year julian month day : Z) : result (Z * Z * Z) :=
    match fuel with
    | O => Err endless
    | S fuel' =>
      do t <- mktime year month day 0 0 0 ;
      let jday := yday t in
      let diff := Z.abs (jday - julian) in
      if julian <? jday then
        if diff <? day then find_loop fuel' year julian month (day - diff)
        else find_loop fuel' year julian (month - 1) 31
      else if jday <? julian then
        if day + diff <? 28 then find_loop fuel' year julian month (day + diff)
        else find_loop fuel' year julian (month + 1) day
      else Ok (year, month, day)
    end.
  (** __find_julian, 186-189 *)
  Definition find_julian (fuel : nat) (year julian : Z) : result (Z * Z * Z) :=
    find_loop fuel year julian (julian / 30 + 1) (julian mod 30 + 1).
  (** __extract_date, 117-138 *)
  Definition extract_date (fuel : nat) (y : str) (p : datepart) : result (Z * Z * Z) :=
    let year := to_int y in
    match p with
    | Julian j => find_julian fuel year (to_int j)
    | YearOnly => Ok (year, 1, 1)
    | Month m d =>
      let month := to_int m in
      if (1 <=? month) && (month <=? 12) then
        match d with
        | Some d' => let day := to_int d' in if (1 <=? day) && (day <=? 31) then Ok (year, month, day) else Err ValueError
        | None => Ok (year, month, 1)
        end
      else Err ValueError
    end.
  (** __extract_time, 141-162; float() does not accept a comma. *)
  Definition extract_time (t : option timepart) : result (Z * Z * Z) :=
    match t with
    | None => Ok (0, 0, 0)
    | Some t =>
      let hours := to_int (t_h t) in
      if (0 <=? hours) && (hours <=? 23) then
        let minutes := to_int (t_m t) in
        if (0 <=? minutes) && (minutes <=? 59) then
          match t_s t with
          | None => Ok (hours, minutes, 0)
          | Some (d, f) =>
            let seconds := to_int d in
            match f with
            | Some (44%N, _) => Err ValueError
            | Some (_, f') =>
              if (seconds <? 60) || (seconds =? 60) && forallb (N.eqb 48) f' then Ok (hours, minutes, seconds) else Err ValueError
            | None => if seconds <=? 60 then Ok (hours, minutes, seconds) else Err ValueError
            end
          end
        else Err ValueError
      else Err ValueError
    end.
  (** __extract_tzd, 165-183 *)
  Definition extract_tzd (z : tzd) : Z :=
    match z with
    | Zulu => 0
    | Offset plus h m => let offset := (to_int h * 60 + to_int m) * 60 in if plus then - offset else offset
    end.
  (** parse, 33-40 *)
  Definition parse (fuel : nat) (s : str) : result Z :=
    match rx_datetime s with
    | Some (y, p, t, []) =>
      do dt <- extract_date fuel y p ;
      do tm <- extract_time t ;
      let '(yy, mm, dd) := dt in
      let '(h, mi, sec) := tm in
      do v <- mktime yy mm dd h mi sec ;
      Ok (v + match t with Some t => extract_tzd (t_z t) | None => 0 end - west)
    | _ => Err ValueError
    end.
  (** parse_timezone, 43-51 *)
  Definition parse_timezone (s : str) : result Z :=
    match rx_tzd s with
    | Some (z, []) => Ok (extract_tzd z)
    | _ => Err ValueError
    end.
End Local.

(** ** Writing, 54-94 *)

(** '%0wd': the sign counts for the width; [pad]: the character that fills. *)
Fixpoint udec (fuel : nat) (n : Z) : str :=
  match fuel with
  | O => []
  | S f => if n <? 10 then [Z.to_N (48 + n)] else udec f (n / 10) ++ [Z.to_N (48 + n mod 10)]
  end.
Definition decimal (n : Z) : str := udec (S (Z.to_nat n)) n.
Definition zpad (w : nat) (n : Z) : str :=
  if n <? 0 then 45%N :: (let d := decimal (- n) in repeat 48%N (w - 1 - length d) ++ d)
  else let d := decimal n in repeat 48%N (w - length d) ++ d.
(** '%4d' *)
Definition spad4 (n : Z) : str :=
  let d := (if n <? 0 then 45%N :: decimal (- n) else decimal n) in repeat 32%N (4 - length d) ++ d.
(** int of a number: towards zero. *)
Definition q_int (t : Q) : Z := Z.quot (Qnum t) (Zpos (Qden t)).
(** int(round(psecs * 100)): halves away from zero; the product is exact here. *)
Definition q_round100 (p : Q) : Z :=
  let a := 100 * Qnum p in let b := Zpos (Qden p) in
  if a <? 0 then - ((2 * - a + b) / (2 * b)) else (2 * a + b) / (2 * b).
(** tostring, 54-89, with the zone in seconds west of UTC. *)
Definition tostring (t : Q) (timezone : Z) : str :=
  let tzspecifier :=
    if timezone =? 0 then lit "Z"
    else
      (if timezone <? 0 then lit "+" else lit "-") ++
      zpad 2 (Z.abs timezone / 3600) ++ lit ":" ++ zpad 2 (Z.abs timezone mod 3600 / 60) in
  let psecs := (t - inject_Z (q_int t))%Q in
  let u := q_int t - (if timezone =? 0 then 0 else Z.abs timezone) in
  let '(year, month, day) := civil (u / 86400) in
  let s := u mod 86400 in
  let hours := s / 3600 in
  let minutes := s mod 3600 / 60 in
  let seconds := s mod 60 in
  let nopsecs := Qnum psecs =? 0 in
  spad4 year ++ lit "-" ++ zpad 2 month ++ lit "-" ++ zpad 2 day ++ lit "T" ++ zpad 2 hours ++ lit ":" ++ zpad 2 minutes ++
  (if (seconds =? 0) && nopsecs then []
   else lit ":" ++ zpad 2 seconds ++ (if nopsecs then [] else lit "." ++ zpad 2 (q_round100 psecs))) ++
  tzspecifier.
(** tostring with a zone given as a string, 63-64. *)
Definition tostring_zone (t : Q) (zone : str) : result str := do z <- parse_timezone zone ; Ok (tostring t z).
