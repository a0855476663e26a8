(** * Model of durations in the EXSLT date functions

    /repo/lib/xslt/exslt/datetime.py.  Seconds are integers. *)
From Coq Require Import ZArith List Bool.
From Verif Require Import PyStr PyErr DtModel.
Import ListNotations.
Local Open Scope Z_scope.

Record duration := { negative : bool; years : Z; months : Z; days : Z; hours : Z; minutes : Z; seconds : Z }.
(** _Duration.__init__, datetime.py:859-876.  Missing values are 0. *)
Definition new_duration (neg : bool) (y mo d h mi s : Z) : duration :=
  let minutes_ := s / 60 in let s := s mod 60 in
  let hours_ := (mi + minutes_) / 60 in let mi := (mi + minutes_) mod 60 in
  let days_ := (h + hours_) / 24 in let h := (h + hours_) mod 24 in
  let years_ := mo / 12 in let mo := mo mod 12 in
  {| negative := neg; years := y + years_; months := mo; days := d + days_; hours := h; minutes := mi; seconds := s |}.
(** The loop of _addDurations, datetime.py:1009-1019 *)
Fixpoint add_loop (ds : list duration) (mo s : Z) : Z * Z :=
  match ds with
  | [] => (mo, s)
  | d :: ds =>
      let other_months := years d * 12 + months d in
      let other_seconds := days d * 86400 + hours d * 3600 + minutes d * 60 + seconds d in
      if negative d then add_loop ds (mo - other_months) (s - other_seconds) else add_loop ds (mo + other_months) (s + other_seconds)
  end.
(** _addDurations, datetime.py:1002-1025 *)
Definition add_durations (ds : list duration) : result duration :=
  match ds with
  | [] => Err ValueError
  | _ => let (mo, s) := add_loop ds 0 0 in
         if ((mo <? 0) && (0 <? s)) || ((0 <? mo) && (s <? 0)) then Err ValueError
         else Ok (new_duration ((mo <? 0) || (s <? 0)) 0 (Z.abs mo) 0 0 0 (Z.abs s))
  end.
(** _datetime, datetime.py:721-803: a year, or a month, or a date, or a date and a time of day.  The time zone is what utcoffset returns. *)
Record datetime := { year : Z; month : option Z; day : option Z; time : option (Z * Z * Z); timezone : option Z }.
Definition has {A} (o : option A) : bool := match o with Some _ => true | None => false end.
(** _difference, datetime.py:954-999 *)
Definition difference (start end_ : datetime) : result duration :=
  if negb (Bool.eqb (has (timezone start)) (has (timezone end_))) then Err TypeError
  else
    let years := year end_ - year start in
    let neg := year end_ <? year start in
    match month start, month end_ with
    | Some sm, Some em =>
        match day start, day end_ with
        | Some sd, Some ed =>
            let start_days := julian_day (year start) sm sd in
            let end_days := julian_day (year end_) em ed in
            let days := end_days - start_days in
            let neg := end_days <? start_days in
            match time start, time end_ with
            | Some (sh, smi, ss), Some (eh, emi, es) =>
                let start_secs := sh * 3600 + smi * 60 + ss in
                let end_secs := eh * 3600 + emi * 60 + es in
                let seconds := Z.abs (end_secs - start_secs + days * 86400) in
                let seconds := match timezone start, timezone end_ with Some so, Some eo => seconds + (eo - so) * 60 | _, _ => seconds end in
                let minutes := seconds / 60 in let seconds := seconds mod 60 in
                let hours := minutes / 60 in let minutes := minutes mod 60 in
                let days := hours / 24 in let hours := hours mod 24 in
                Ok (new_duration (neg || (end_secs <? start_secs)) 0 0 days hours minutes seconds)
            | _, _ => Ok (new_duration neg 0 0 (Z.abs days) 0 0 0)
            end
        | _, _ =>
            let months := Z.abs (em - sm + years * 12) in
            Ok (new_duration (neg || (em <? sm)) (months / 12) (months mod 12) 0 0 0 0)
        end
    | _, _ => Ok (new_duration neg (Z.abs years) 0 0 0 0 0)
    end.
