(** * C112 to C114: dates and times in ISO 8601 *)
From Coq Require Import NArith ZArith QArith String List Bool Lia Arith.
From Verif Require Import PyStr PyErr IsModel IsSpec IsCal IsProofs.
Import ListNotations.
Open Scope Z_scope.

(** ** Numbers written in decimal *)
Lemma zpad_two : forall n, 0 <= n <= 99 -> zpad 2 n = two n.
Proof.
  intros n H. assert (A : forallb (fun k => str_eqb (zpad 2 k) (two k)) (map Z.of_nat (seq 0 100)) = true) by (vm_compute; reflexivity).
  rewrite forallb_forall in A. apply str_eqb_eq, A. apply in_map_iff. exists (Z.to_nat n). split; [lia|apply in_seq; lia].
Qed.
Lemma spad_four : forall n, 1000 <= n <= 9999 -> spad4 n = four n.
Proof.
  intros n H. assert (D : decimal n = four n).
  { unfold decimal. assert (exists f, S (Z.to_nat n) = S (S (S (S f)))) as [f ->] by (exists (Z.to_nat n - 3)%nat; lia). cbn [udec].
    destruct (Z.ltb_spec n 10); [lia|]. destruct (Z.ltb_spec (n / 10) 10); [dm|]. destruct (Z.ltb_spec (n / 10 / 10) 10); [dm|].
    destruct (Z.ltb_spec (n / 10 / 10 / 10) 10); [|dm]. unfold four, two, dig. cbn [app].
    replace (n / 10 / 10 / 10) with (n / 100 / 10) by dm. replace ((n / 10 / 10) mod 10) with ((n / 100) mod 10) by dm.
    replace ((n / 10) mod 10) with (n mod 100 / 10) by dm. replace (n mod 10) with ((n mod 100) mod 10) by dm. reflexivity. }
  unfold spad4. destruct (Z.ltb_spec n 0); [lia|]. now rewrite D.
Qed.
(** 1900-01-01 and 10000-01-01 in seconds. *)
Definition lowest : Z := -2208988800.
Definition beyond : Z := 253402300800.
Lemma year_bounds : forall n d, lowest <= 86400 * n < beyond -> d = civil n -> 1900 <= fst (fst d) <= 9999.
Proof.
  intros n d H ->. destruct (civil_inv n) as [V E]. destruct (civil n) as [[y m] k]. cbn [fst num] in *. pose proof (in_year _ _ _ V) as Y. rewrite E in Y. unfold lowest, beyond in H.
  change (-2208988800) with (86400 * -25567) in H. change 253402300800 with (86400 * 2932897) in H.
  assert (A : year_start 1900 = -25567) by reflexivity. assert (B : year_start 10000 = 2932897) by reflexivity.
  destruct (Z.lt_ge_cases y 1900) as [L|L]; [apply year_mono in L; lia|]. destruct (Z.lt_ge_cases y 10000) as [K|K]; [lia|].
  assert (year_start 10000 <= year_start y).
  { destruct (Z.eq_dec y 10000) as [-> |N]; [lia|]. assert (10000 < y) as F by lia. apply year_mono in F. unfold ylen in F. destruct (leap 10000); lia. }
  lia.
Qed.
Lemma int_part : forall t k, (t == inject_Z k)%Q -> q_int t = k /\ Qnum (t - inject_Z (q_int t)) = 0.
Proof.
  intros [a b] k H. unfold Qeq, inject_Z in H. cbn [Qnum Qden] in H. assert (q_int (a # b) = k) by (unfold q_int; cbn [Qnum Qden]; symmetry; apply Z.quot_unique_exact; lia).
  split; [assumption|]. rewrite H0. unfold Qminus, Qplus, Qopp, inject_Z. cbn [Qnum Qden]. lia.
Qed.

Section Text.
  (** What is written for the instant [k], [off] seconds being taken away for the clock, and the zone written for [zone]. *)
  Definition clock (y m d h mi : Z) : str := four y ++ lit "-" ++ two m ++ lit "-" ++ two d ++ lit "T" ++ two h ++ lit ":" ++ two mi.
  Definition written (tz : Z) : str :=
    if tz =? 0 then lit "Z" else (if tz <? 0 then lit "+" else lit "-") ++ zpad 2 (Z.abs tz / 3600) ++ lit ":" ++ zpad 2 (Z.abs tz mod 3600 / 60).
  Lemma written_zone : forall tz, Z.abs tz < 360000 -> tz mod 60 = 0 -> zone_text (written tz) (- tz).
  Proof.
    intros tz H M. unfold written. destruct (Z.eqb_spec tz 0) as [-> |N]; [apply zt_z|].
    rewrite !zpad_two by (split; [apply Z.div_pos|]; dm).
    replace (- tz) with ((if tz <? 0 then 1 else -1) * (3600 * (Z.abs tz / 3600) + 60 * (Z.abs tz mod 3600 / 60))).
    - apply (zt_offset (tz <? 0) (Z.abs tz / 3600) (Z.abs tz mod 3600 / 60) (lit ":")); try dm. auto.
    - destruct (Z.ltb_spec tz 0); dm.
  Qed.
  Lemma tostring_text : forall t tz, lowest <= q_int t - Z.abs tz < beyond ->
    exists y m d h mi s, valid_date (y, m, d) /\ 1900 <= y <= 9999 /\ 0 <= h <= 23 /\ 0 <= mi <= 59 /\ 0 <= s <= 59 /\
      instant (y, m, d) h mi s 0 (q_int t - Z.abs tz) /\
      tostring t tz = clock y m d h mi ++
        (if (s =? 0) && (Qnum (t - inject_Z (q_int t)) =? 0) then [] else lit ":" ++ two s ++ (if Qnum (t - inject_Z (q_int t)) =? 0 then [] else lit "." ++ zpad 2 (q_round100 (t - inject_Z (q_int t))))) ++ written tz.
  Proof.
    intros t tz H. unfold tostring. fold (written tz). replace (if tz =? 0 then 0 else Z.abs tz) with (Z.abs tz) by (destruct (Z.eqb_spec tz 0) as [-> |]; reflexivity).
    set (u := q_int t - Z.abs tz) in *. assert (E : u = 86400 * (u / 86400) + u mod 86400) by dm. assert (R : 0 <= u mod 86400 < 86400) by (apply Z.mod_pos_bound; lia).
    destruct (civil_inv (u / 86400)) as [V N]. pose proof (year_bounds (u / 86400) _ ltac:(unfold lowest, beyond in *; dm) eq_refl) as Y.
    destruct (civil (u / 86400)) as [[y m] d]. cbn [fst] in Y. set (w := u mod 86400) in *.
    exists y, m, d, (w / 3600), (w mod 3600 / 60), (w mod 60). destruct V as [Vm Vd] eqn:EV. pose proof (month_len_pos y m).
    repeat split; try lia; try dm.
    - apply instant_num; [split; assumption|]. rewrite N. clearbody w. clear - E R. dm.
    - rewrite spad_four, (zpad_two m), (zpad_two d), (zpad_two (w / 3600)), (zpad_two (w mod 3600 / 60)), (zpad_two (w mod 60)) by (try lia; dm).
      unfold clock. rewrite <- !app_assoc. reflexivity.
  Qed.
End Text.
Lemma instant_shift : forall d h mi s e v x, instant d h mi s e v -> instant d h mi s (e + x) (v - x).
Proof. intros d h mi s e v x (n & D & ->). exists n. split; [assumption|lia]. Qed.
Lemma clock_date : forall y m d, 1900 <= y <= 9999 -> valid_date (y, m, d) -> date_text (four y ++ lit "-" ++ two m ++ lit "-" ++ two d) (DDay y m d).
Proof. intros y m d Hy [Hm Hd]. pose proof (month_len_pos y m). apply dt_full; lia. Qed.
Lemma parse_day : forall west fuel ds ts y m d t, date_text ds (DDay y m d) -> time_text ts t -> 1900 <= y -> 1 <= m <= 12 -> 1 <= d <= 31 -> time_in_range t ->
  parse west fuel (ds ++ ts) = Ok (86400 * day_number y m d + 3600 * s_h t + 60 * s_m t + s_s t - s_east t).
Proof.
  intros west fuel ds ts y m d t Td Tt Hy Hm Hd Ht. rewrite (parse_gen _ _ _ _ _ _ Td Tt). unfold gen, gen_date.
  replace ((1 <=? m) && (m <=? 12) && (1 <=? d) && (d <=? 31)) with true by (symmetry; rewrite !andb_true_iff, !Z.leb_le; lia). cbn [bind].
  apply time_ok_iff in Ht. rewrite Ht, mktime_ok by assumption. cbn [bind]. rewrite timegm_day by assumption. f_equal. lia.
Qed.

(** ** C112: writing *)

(** West of UTC, or in UTC, the text shows the date and the clock of the zone,
    and names the zone. *)
Theorem C112_text_partial : forall t k tz,
  (t == inject_Z k)%Q -> 0 <= tz < 360000 -> tz mod 60 = 0 -> -2208988800 <= k - tz < 253402300800 ->
  exists y m d h mi s zone,
    valid_date (y, m, d) /\ 1900 <= y <= 9999 /\ 0 <= h <= 23 /\ 0 <= mi <= 59 /\ 0 <= s <= 59 /\
    instant (y, m, d) h mi s (- tz) k /\ zone_text zone (- tz) /\
    tostring t tz = four y ++ lit "-" ++ two m ++ lit "-" ++ two d ++ lit "T" ++ two h ++ lit ":" ++ two mi ++ (if s =? 0 then [] else lit ":" ++ two s) ++ zone.
Proof.
  intros t k tz E Hz Hm Hb. destruct (int_part t k E) as [I P]. assert (A : Z.abs tz = tz) by lia.
  destruct (tostring_text t tz) as (y & m & d & h & mi & s & V & Y & H & M & S & T & W); [rewrite I, A; exact Hb|].
  exists y, m, d, h, mi, s, (written tz). do 5 (split; [assumption|]). split; [|split].
  - rewrite I, A in T. apply (instant_shift _ _ _ _ _ _ (- tz)) in T. now replace (k - tz - - tz) with k in T by lia.
  - apply written_zone; [lia|assumption].
  - rewrite W, P. cbn [Z.eqb]. rewrite andb_true_r. unfold clock. rewrite <- !app_assoc. destruct (s =? 0); [reflexivity|]. now rewrite app_nil_r.
Qed.
Print Assumptions C112_text_partial.

(** Hundredths of seconds. *)
Theorem C112_hundredths_partial : forall t k f tz,
  (t == inject_Z k + (f # 100))%Q -> 0 <= k -> 0 < f < 100 -> 0 <= tz < 360000 -> tz mod 60 = 0 -> -2208988800 <= k - tz < 253402300800 ->
  exists y m d h mi s zone,
    valid_date (y, m, d) /\ 1900 <= y <= 9999 /\ 0 <= h <= 23 /\ 0 <= mi <= 59 /\ 0 <= s <= 59 /\
    instant (y, m, d) h mi s (- tz) k /\ zone_text zone (- tz) /\
    tostring t tz = four y ++ lit "-" ++ two m ++ lit "-" ++ two d ++ lit "T" ++ two h ++ lit ":" ++ two mi ++ lit ":" ++ two s ++ lit "." ++ two f ++ zone.
Proof.
  intros t k f tz E Hk Hf Hz Hm Hb.
  assert (I : q_int t = k /\ Qnum (t - inject_Z (q_int t)) <> 0 /\ q_round100 (t - inject_Z (q_int t)) = f).
  { destruct t as [a b]. unfold Qeq, Qplus, inject_Z in E. cbn [Qnum Qden] in E. set (bb := Z.pos b) in *. assert (0 < bb) by (subst bb; lia).
    assert (Ea : 100 * a = (100 * k + f) * bb) by (clearbody bb; lia).
    assert (Q : q_int (a # b) = k).
    { unfold q_int. cbn [Qnum Qden]. fold bb. symmetry. apply Z.quot_unique with (a - k * bb); [clearbody bb; nia|clearbody bb; nia|lia]. }
    split; [assumption|]. rewrite Q. unfold q_round100, Qminus, Qplus, Qopp, inject_Z. cbn [Qnum Qden]. rewrite Pos.mul_1_r. fold bb. set (num := a * 1 + - k * bb).
    assert (En : 100 * num = f * bb) by (subst num; lia). split; [intro Z0; rewrite Z0 in En; clearbody bb; nia|].
    destruct (Z.ltb_spec (100 * num) 0); [clearbody bb num; nia|]. rewrite En. replace (2 * (f * bb) + bb) with (bb + f * (2 * bb)) by ring.
    rewrite Z.div_add, Z.div_small by lia. lia. }
  destruct I as (I & P & R). assert (A : Z.abs tz = tz) by lia.
  destruct (tostring_text t tz) as (y & m & d & h & mi & s & V & Y & H & M & S & T & W); [rewrite I, A; exact Hb|].
  exists y, m, d, h, mi, s, (written tz). do 5 (split; [assumption|]). split; [|split].
  - rewrite I, A in T. apply (instant_shift _ _ _ _ _ _ (- tz)) in T. now replace (k - tz - - tz) with k in T by lia.
  - apply written_zone; [lia|assumption].
  - rewrite W. apply Z.eqb_neq in P. rewrite P, andb_false_r, R. unfold clock. rewrite <- !app_assoc. rewrite zpad_two by lia. reflexivity.
Qed.
Print Assumptions C112_hundredths_partial.

Lemma round_any : forall west fuel t k tz, (t == inject_Z k)%Q -> Z.abs tz < 360000 -> tz mod 60 = 0 -> lowest <= k - Z.abs tz < beyond ->
  parse west fuel (tostring t tz) = Ok (k - Z.abs tz + tz).
Proof.
  intros west fuel t k tz E Hz Hm Hb. destruct (int_part t k E) as [I P].
  destruct (tostring_text t tz) as (y & m & d & h & mi & s & V & Y & H & M & S & T & W); [rewrite I; exact Hb|].
  rewrite I in T. apply instant_num in T; [|assumption]. cbn [num] in T. rewrite W, P. cbn [Z.eqb]. rewrite andb_true_r.
  pose proof (written_zone tz Hz Hm) as Z. pose proof (month_len_pos y m) as L. destruct V as [Vm Vd].
  set (ts := lit "T" ++ two h ++ lit ":" ++ two mi ++ (if s =? 0 then [] else lit ":" ++ two s) ++ written tz).
  assert (Tt : exists f, time_text ts {| s_h := h; s_m := mi; s_s := s; s_frac := f; s_east := - tz |} /\ f = None).
  { exists None. split; [|reflexivity]. subst ts. destruct (Z.eqb_spec s 0) as [-> |N].
    - cbn [app]. apply (tt_minutes h mi (lit ":")); auto; lia.
    - rewrite <- app_assoc. apply (tt_seconds h mi s (lit ":")); auto; lia. }
  destruct Tt as (f & Tt & ->).
  replace (clock y m d h mi ++ (if s =? 0 then [] else lit ":" ++ two s ++ []) ++ written tz) with ((four y ++ lit "-" ++ two m ++ lit "-" ++ two d) ++ ts)
    by (subst ts; unfold clock; rewrite <- !app_assoc, app_nil_r; reflexivity).
  rewrite (parse_day west fuel _ ts y m d _ (dt_full y m d ltac:(lia) ltac:(lia) ltac:(lia)) Tt); try lia.
  - cbn [s_h s_m s_s s_east]. f_equal. lia.
  - repeat split; cbn [s_h s_m s_s s_frac]; lia.
Qed.
(** What is written is read as the same instant, wherever it is read. *)
Theorem C112_round_trip_partial : forall west fuel t k tz,
  (t == inject_Z k)%Q -> 0 <= tz < 360000 -> tz mod 60 = 0 -> -2208988800 <= k - tz < 253402300800 ->
  parse west fuel (tostring t tz) = Ok k.
Proof.
  intros west fuel t k tz E Hz Hm Hb. assert (A : Z.abs tz = tz) by lia. rewrite (round_any west fuel t k tz E) by (unfold lowest, beyond; (assumption || lia)). f_equal. lia.
Qed.
Print Assumptions C112_round_trip_partial.
Example C112_case :
  tostring (1081572248 # 1) 28800 = lit "2004-04-09T20:44:08-08:00" /\ tostring (0 # 1) 28800 = lit "1969-12-31T16:00-08:00" /\
  tostring (108157224819 # 100) 0 = lit "2004-04-10T04:44:08.19Z" /\
  parse (-3600) 0 (lit "2004-04-09T20:44:08-08:00") = Ok 1081572248.
Proof. vm_compute. auto. Qed.

(** East of UTC the clock is moved the wrong way: every instant comes back
    earlier, by twice the distance. *)
Theorem C112_east_refuted :
  (forall west fuel t k tz, (t == inject_Z k)%Q -> - 360000 < tz < 0 -> tz mod 60 = 0 -> -2208988800 <= k + tz < 253402300800 ->
     parse west fuel (tostring t tz) = Ok (k + 2 * tz)) /\
  tostring (0 # 1) (-3600) = lit "1969-12-31T23:00+01:00" /\
  tostring_zone (0 # 1) (lit "+01:00") = Ok (lit "1969-12-31T23:00+01:00").
Proof.
  split; [|vm_compute; auto]. intros west fuel t k tz E Hz Hm Hb. assert (A : Z.abs tz = - tz) by lia.
  rewrite (round_any west fuel t k tz E) by (unfold lowest, beyond; (assumption || lia)). f_equal. lia.
Qed.
Print Assumptions C112_east_refuted.
(** Fractions are not read back; some are written as 100 hundredths, and those of
    times before the epoch with a sign, which no reader takes. *)
Theorem C112_fraction_refuted :
  tostring (1 # 2) 0 = lit "1970-01-01T00:00:00.50Z" /\ parse 0 0 (lit "1970-01-01T00:00:00.50Z") = Ok 0 /\
  tostring (999 # 1000) 0 = lit "1970-01-01T00:00:00.100Z" /\
  tostring (-1 # 2) 0 = lit "1970-01-01T00:00:00.-50Z" /\ parse 0 0 (lit "1970-01-01T00:00:00.-50Z") = Err ValueError.
Proof. vm_compute. auto. Qed.
Print Assumptions C112_fraction_refuted.

(** ** C113: the instant that a text means *)

(** A valid date from 1900 on, with or without a time: the whole second that is meant. *)
Theorem C113_instant_partial : forall west fuel ds ts y m d t,
  date_text ds (DDay y m d) -> time_text ts t -> valid_date (y, m, d) -> 1900 <= y -> time_in_range t ->
  exists v, parse west fuel (ds ++ ts) = Ok v /\ instant (y, m, d) (s_h t) (s_m t) (s_s t) (s_east t) v.
Proof.
  intros west fuel ds ts y m d t Td Tt V Hy Ht. pose proof V as [Vm Vd]. pose proof (month_len_pos y m). eexists. split.
  - apply parse_day; eauto. lia.
  - now apply instant_num.
Qed.
Print Assumptions C113_instant_partial.
(** Ordinal dates, when local time is not ahead of UTC: the first 359 days of the year. *)
Theorem C113_ordinal_partial : forall west fuel ds ts y j t,
  date_text ds (DOrd y j) -> time_text ts t -> 1 <= j <= 359 -> 1900 <= y -> time_in_range t -> 0 <= west < 86400 -> (40 <= fuel)%nat ->
  exists v, parse west fuel (ds ++ ts) = Ok v /\ instant (y, 1, 1) (s_h t) (s_m t) (s_s t) (s_east t) (v - 86400 * (j - 1)).
Proof.
  intros west fuel ds ts y j t Td Tt Hj Hy Ht Hw Hf. destruct (julian_ok west y j fuel Hw Hy Hj Hf) as (m & d & E & S & M).
  rewrite (parse_gen _ _ _ _ _ _ Td Tt). unfold gen, gen_date. rewrite E. cbn [bind]. apply time_ok_iff in Ht. rewrite Ht, mktime_ok by assumption. cbn [bind].
  eexists. split; [reflexivity|]. apply instant_num; [split; [lia|cbn; lia]|]. rewrite timegm_day by assumption. cbn [num]. unfold day_number in *.
  assert (before_month (leap y) 1 = 0) by (destruct (leap y); reflexivity). lia.
Qed.
Print Assumptions C113_ordinal_partial.
Example C113_case :
  date_text (lit "2004-04-09") (DDay 2004 4 9) /\
  time_text (lit "T21:39:00-08:00") {| s_h := 21; s_m := 39; s_s := 0; s_frac := None; s_east := -28800 |} /\
  valid_date (2004, 4, 9) /\ parse 3600 0 (lit "2004-04-09T21:39:00-08:00") = Ok 1081575540 /\
  date_text (lit "2004100") (DOrd 2004 100) /\ parse 0 40 (lit "2004100T0000Z") = Ok 1081468800.
Proof.
  split; [apply (dt_full 2004 4 9); lia|]. split; [apply (tt_seconds 21 39 0 (lit ":") (lit "-08:00") (-28800)); try lia; auto; apply (zt_offset false 8 0 (lit ":")); auto; lia|].
  split; [cbn; lia|]. split; [vm_compute; reflexivity|]. split; [apply (dt_ordinal 2004 100 []); auto; lia|vm_compute; reflexivity].
Qed.
(** Days 360 to 362 are found in a later year; days 363 to 366 are never found. *)
Theorem C113_ordinal_refuted :
  date_text (lit "2004-360") (DOrd 2004 360) /\
  parse 0 100 (lit "2004-360") = parse 0 0 (lit "2005-12-26") /\
  parse 0 100 (lit "2004-362") = parse 0 0 (lit "2008-12-27") /\
  (forall west fuel ds ts y j t, date_text ds (DOrd y j) -> time_text ts t -> 363 <= j <= 366 -> 1900 <= y -> 0 <= west < 86400 ->
     parse west fuel (ds ++ ts) = Err endless).
Proof.
  split; [apply (dt_ordinal 2004 360 (lit "-")); auto; lia|]. split; [vm_compute; reflexivity|]. split; [vm_compute; reflexivity|].
  intros west fuel ds ts y j t Td Tt Hj Hy Hw. rewrite (parse_gen _ _ _ _ _ _ Td Tt). unfold gen, gen_date. now rewrite julian_endless.
Qed.
Print Assumptions C113_ordinal_refuted.
(** Where local time is ahead of UTC an ordinal date is read as the next day. *)
Theorem C113_local_refuted : parse (-3600) 100 (lit "2004-100") = parse 0 0 (lit "2004-04-10") /\ parse 0 100 (lit "2004-100") = parse 0 0 (lit "2004-04-09").
Proof. vm_compute. auto. Qed.
Print Assumptions C113_local_refuted.
(** Years before 1900 are refused or moved. *)
Theorem C113_years_refuted :
  parse 0 0 (lit "1899-12-31") = Err ValueError /\ parse 0 0 (lit "0004-04-09") = parse 0 0 (lit "2004-04-09") /\ parse 0 0 (lit "0069") = parse 0 0 (lit "1969").
Proof. vm_compute. auto. Qed.
Print Assumptions C113_years_refuted.

(** ** C114: what is accepted *)
Lemma not_rx : forall west fuel s, (forall y p q, rx_datetime s <> Some (y, p, q, [])) -> parse west fuel s = Err ValueError.
Proof.
  intros west fuel s H. unfold parse. destruct (rx_datetime s) as [[[[y p] q] [|c r]]|] eqn:E; try reflexivity. exfalso. exact (H _ _ _ eq_refl).
Qed.
Lemma parse_cases : forall west fuel s, parse west fuel s = Err ValueError \/
  exists ds ts d t, s = ds ++ ts /\ date_text ds d /\ time_text ts t /\ parse west fuel s = gen west fuel d t.
Proof.
  intros west fuel s. destruct (rx_datetime s) as [[[[y p] q] [|c r]]|] eqn:E.
  - right. apply rx_inv in E as (ds & ts & -> & Td & Tt). exists ds, ts, (dspec_of y p), (tspec_of q). repeat split; auto. now apply parse_gen.
  - left. apply not_rx. intros. congruence.
  - left. apply not_rx. intros. congruence.
Qed.
(** Nothing else is accepted. *)
Theorem C114_accepted : forall west fuel s v, parse west fuel s = Ok v ->
  exists ds ts d t, s = ds ++ ts /\ date_text ds d /\ time_text ts t /\ date_in_range d /\ time_in_range t.
Proof.
  intros west fuel s v H. destruct (parse_cases west fuel s) as [E|(ds & ts & d & t & -> & Td & Tt & E)]; [congruence|].
  exists ds, ts, d, t. do 3 (split; [auto|]). rewrite H in E. unfold gen in E. destruct (gen_date west fuel d) as [dt|e] eqn:D; [|discriminate E]. cbn [bind] in E.
  destruct (time_ok t) eqn:T; [|discriminate E]. apply time_ok_iff in T. split; [|assumption]. destruct d as [y m d|y j]; [|exact Logic.I]. cbn [gen_date] in D.
  destruct ((1 <=? m) && (m <=? 12) && (1 <=? d) && (d <=? 31)) eqn:C; [|discriminate D]. rewrite !andb_true_iff, !Z.leb_le in C. cbn [date_in_range]. lia.
Qed.
Print Assumptions C114_accepted.
Lemma loop_errors : forall west fuel y j m d e, find_loop west fuel y j m d = Err e -> e = ValueError \/ e = endless.
Proof.
  intros west fuel. induction fuel as [|fuel IH]; intros y j m d e H; cbn [find_loop] in H; [injection H as <-; auto|].
  unfold mktime, mktime_year in H. destruct (y <? 1900).
  - destruct ((69 <=? y) && (y <=? 99)); [|destruct ((0 <=? y) && (y <=? 68)); [|injection H as <-; auto]]; cbn [bind] in H; cbv zeta in H;
      repeat match type of H with (if ?b then _ else _) = _ => destruct b end; try discriminate H; eauto.
  - cbn [bind] in H. cbv zeta in H. repeat match type of H with (if ?b then _ else _) = _ => destruct b end; try discriminate H; eauto.
Qed.
(** Every other string raises ValueError, unless the search for an ordinal date does not end. *)
Theorem C114_refused : forall west fuel s,
  (forall ds ts d t, s = ds ++ ts -> date_text ds d -> time_text ts t -> ~ (date_in_range d /\ time_in_range t)) ->
  parse west fuel s = Err ValueError \/ (exists ds ts y j t, s = ds ++ ts /\ date_text ds (DOrd y j) /\ time_text ts t /\ parse west fuel s = Err endless).
Proof.
  intros west fuel s H. destruct (parse_cases west fuel s) as [E|(ds & ts & d & t & -> & Td & Tt & E)]; [auto|].
  destruct d as [y m d|y j].
  2: { rewrite E. specialize (H _ _ _ _ eq_refl Td Tt). unfold gen in *. cbn [gen_date] in *. destruct (find_julian west fuel y j) as [dt|e] eqn:J; cbn [bind] in *.
       - destruct (time_ok t) eqn:T; [|auto]. exfalso. apply H. split; [exact Logic.I|now apply time_ok_iff].
       - apply loop_errors in J as [-> | ->]; [auto|]. right. exists ds, ts, y, j, t. auto. }
  left. rewrite E. unfold gen. cbn [gen_date]. specialize (H _ _ _ _ eq_refl Td Tt). cbn [date_in_range] in H.
  destruct ((1 <=? m) && (m <=? 12) && (1 <=? d) && (d <=? 31)) eqn:C; [|reflexivity]. rewrite !andb_true_iff, !Z.leb_le in C. cbn [bind].
  destruct (time_ok t) eqn:T; [|reflexivity]. apply time_ok_iff in T. exfalso. apply H. split; [lia|assumption].
Qed.
Print Assumptions C114_refused.
(** Everything of the form is accepted from 1900 on, days 29 to 31 running over
    into the next month. *)
Theorem C114_day_of_month : forall west fuel ds ts y m d t,
  date_text ds (DDay y m d) -> time_text ts t -> 1900 <= y -> date_in_range (DDay y m d) -> time_in_range t ->
  exists v, parse west fuel (ds ++ ts) = Ok v /\ instant (y, m, 1) (s_h t) (s_m t) (s_s t) (s_east t) (v - 86400 * (d - 1)).
Proof.
  intros west fuel ds ts y m d t Td Tt Hy [Hm Hd] Ht. eexists. split; [apply parse_day; eauto|]. pose proof (month_len_pos y m).
  apply instant_num; [split; lia|]. cbn [num]. unfold day_number. lia.
Qed.
Print Assumptions C114_day_of_month.
Theorem C114_february_refuted : parse 0 0 (lit "2005-02-30") = parse 0 0 (lit "2005-03-02") /\ ~ valid_date (2005, 2, 30).
Proof. split; [vm_compute; reflexivity|]. intros [_ H]. cbn in H. lia. Qed.
Print Assumptions C114_february_refuted.
(** Zones. *)
Theorem C114_zones : forall s v, parse_timezone s = Ok v <-> zone_text s (- v).
Proof.
  intros s v. split.
  - unfold parse_timezone. intro H. destruct (rx_tzd s) as [[z [|c r]]|] eqn:E; try discriminate H. apply (f_equal (fun r => match r with Ok x => x | Err _ => 0 end)) in H. cbn in H. subst v.
    apply rx_tzd_inv in E as (zt & -> & T). now rewrite app_nil_r.
  - intro T. destruct (rx_tzd_ok s (- v) [] T) as (z & R & E). rewrite app_nil_r in R. unfold parse_timezone. rewrite R. unfold east_of in E. f_equal. lia.
Qed.
Print Assumptions C114_zones.
Theorem C114_zones_errors : forall s e, parse_timezone s = Err e -> e = ValueError.
Proof.
  intros s e H. unfold parse_timezone in H. destruct (rx_tzd s) as [[z [|c r]]|]; try discriminate H; now injection H as <-.
Qed.
Print Assumptions C114_zones_errors.
Example C114_case :
  parse 0 0 (lit "20040409T21:39:00-08:00") = Err ValueError /\ parse 0 0 (lit "2004-04-09T21:39:00") = Err ValueError /\
  parse 0 0 (lit "2004-04-09T21:39:60.0Z") = Ok 1081546800 /\ parse 0 0 (lit "2004-04-09T21:39:00,5Z") = Err ValueError /\
  parse_timezone (lit "-0830") = Ok 30600 /\ parse_timezone (lit "-08") = Err ValueError.
Proof. vm_compute. auto 10. Qed.
