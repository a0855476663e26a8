(** * Dates, instants and their texts *)
From Coq Require Import NArith ZArith QArith String List Bool Lia Arith.
From Verif Require Import PyStr.
Import ListNotations.
Open Scope Z_scope.

(** ** The Gregorian calendar *)
Definition leap_year (y : Z) : bool :=
  if y mod 400 =? 0 then true else if y mod 100 =? 0 then false else y mod 4 =? 0.
Definition month_length (y m : Z) : Z :=
  if m =? 2 then (if leap_year y then 29 else 28)
  else if (m =? 4) || (m =? 6) || (m =? 9) || (m =? 11) then 30 else 31.
Definition date := (Z * Z * Z)%type.
Definition valid_date (d : date) : Prop := let '(y, m, d) := d in 1 <= m <= 12 /\ 1 <= d <= month_length y m.
Definition next_day (d : date) : date :=
  let '(y, m, d) := d in
  if d <? month_length y m then (y, m, d + 1)
  else if m <? 12 then (y, m + 1, 1)
  else (y + 1, 1, 1).
(** Days counted from 1970-01-01. *)
Inductive day_is : date -> Z -> Prop :=
| day_epoch : day_is (1970, 1, 1) 0
| day_after : forall d n, day_is d n -> day_is (next_day d) (n + 1)
| day_before : forall d n, valid_date d -> day_is (next_day d) n -> day_is d (n - 1).
(** Seconds since the epoch of a time of day, [east] seconds ahead of UTC. *)
Definition instant (d : date) (h mi s east v : Z) : Prop :=
  exists n, day_is d n /\ v = 86400 * n + 3600 * h + 60 * mi + s - east.

(** ** Texts *)
Definition dig (n : Z) : N := Z.to_N (48 + n).
Definition two (n : Z) : str := [dig (n / 10); dig (n mod 10)].
Definition three (n : Z) : str := dig (n / 100) :: two (n mod 100).
Definition four (n : Z) : str := two (n / 100) ++ two (n mod 100).

Inductive dspec := DDay (y m d : Z) | DOrd (y j : Z).
Inductive date_text : str -> dspec -> Prop :=
| dt_full : forall y m d, 0 <= y <= 9999 -> 0 <= m <= 99 -> 0 <= d <= 99 ->
    date_text (four y ++ lit "-" ++ two m ++ lit "-" ++ two d) (DDay y m d)
| dt_month : forall y m sep, 0 <= y <= 9999 -> 0 <= m <= 99 -> sep = lit "-" \/ sep = [] ->
    date_text (four y ++ sep ++ two m) (DDay y m 1)
| dt_year : forall y, 0 <= y <= 9999 -> date_text (four y) (DDay y 1 1)
| dt_ordinal : forall y j sep, 0 <= y <= 9999 -> 0 <= j <= 999 -> sep = lit "-" \/ sep = [] ->
    date_text (four y ++ sep ++ three j) (DOrd y j).

(** Seconds east of UTC. *)
Inductive zone_text : str -> Z -> Prop :=
| zt_z : zone_text (lit "Z") 0
| zt_offset : forall (plus : bool) h m sep, 0 <= h <= 99 -> 0 <= m <= 99 -> sep = lit ":" \/ sep = [] ->
    zone_text ((if plus then lit "+" else lit "-") ++ two h ++ sep ++ two m)
      ((if plus then 1 else -1) * (3600 * h + 60 * m)).
(** Hours, minutes, whole seconds, mark and digits of the fraction, zone. *)
Record tspec := { s_h : Z; s_m : Z; s_s : Z; s_frac : option (N * str); s_east : Z }.
Inductive time_text : str -> tspec -> Prop :=
| tt_none : time_text [] {| s_h := 0; s_m := 0; s_s := 0; s_frac := None; s_east := 0 |}
| tt_minutes : forall h m sep z e, 0 <= h <= 99 -> 0 <= m <= 99 -> sep = lit ":" \/ sep = [] -> zone_text z e ->
    time_text (lit "T" ++ two h ++ sep ++ two m ++ z) {| s_h := h; s_m := m; s_s := 0; s_frac := None; s_east := e |}
| tt_seconds : forall h m s sep z e, 0 <= h <= 99 -> 0 <= m <= 99 -> 0 <= s <= 99 -> sep = lit ":" \/ sep = [] -> zone_text z e ->
    time_text (lit "T" ++ two h ++ sep ++ two m ++ sep ++ two s ++ z) {| s_h := h; s_m := m; s_s := s; s_frac := None; s_east := e |}
| tt_fraction : forall h m s sep c f z e, 0 <= h <= 99 -> 0 <= m <= 99 -> 0 <= s <= 99 -> sep = lit ":" \/ sep = [] -> zone_text z e ->
    c = 46%N \/ c = 44%N -> f <> [] -> Forall (fun x => 48 <= x <= 57)%N f ->
    time_text (lit "T" ++ two h ++ sep ++ two m ++ sep ++ two s ++ c :: f ++ z) {| s_h := h; s_m := m; s_s := s; s_frac := Some (c, f); s_east := e |}.

(** What may be taken for a date: months 1 to 12, days 1 to 31. *)
Definition date_in_range (d : dspec) : Prop :=
  match d with DDay _ m d => 1 <= m <= 12 /\ 1 <= d <= 31 | DOrd _ _ => True end.
(** Hours to 23, minutes to 59, seconds to 60; no comma. *)
Definition time_in_range (t : tspec) : Prop :=
  s_h t <= 23 /\ s_m t <= 59 /\ s_s t <= 60 /\
  match s_frac t with
  | None => True
  | Some (c, f) => c = 46%N /\ (s_s t = 60 -> Forall (fun x => x = 48%N) f)
  end.
