(** * Property C128: the calendar of the date functions *)
From Coq Require Import ZArith List Bool Lia.
From Verif Require Import PyStr PyErr DtModel DtSpec.
Import ListNotations.
Local Open Scope Z_scope.

Lemma isleap_leap : forall y, isleap y = true <-> leap y.
Proof.
  intro y. unfold isleap, leap. rewrite andb_true_iff, orb_true_iff, negb_true_iff, !Z.eqb_eq, Z.eqb_neq.
  rewrite !Z.mod_divide by lia. reflexivity.
Qed.
Lemma months_12 : forall m, 1 <= m <= 12 -> m = 1 \/ m = 2 \/ m = 3 \/ m = 4 \/ m = 5 \/ m = 6 \/ m = 7 \/ m = 8 \/ m = 9 \/ m = 10 \/ m = 11 \/ m = 12.
Proof. intros m H. lia. Qed.
Ltac each_month H := destruct H as [H|[H|[H|[H|[H|[H|[H|[H|[H|[H|[H|H]]]]]]]]]]].
Definition b2z (b : bool) : Z := if b then 1 else 0.
Ltac ev t := let v := eval vm_compute in t in change t with v in *.
Ltac calc := repeat match goal with
  | |- context [nth ?a ?l ?x] => ev (nth a l x) | H : context [nth ?a ?l ?x] |- _ => ev (nth a l x)
  | |- context [Z.ltb 2 ?b] => ev (Z.ltb 2 b) | H : context [Z.ltb 2 ?b] |- _ => ev (Z.ltb 2 b)
  | |- context [Z.eqb ?b 2] => ev (Z.eqb b 2) | H : context [Z.eqb ?b 2] |- _ => ev (Z.eqb b 2) end; cbn [andb b2z] in *; cbv iota in *.
Lemma length_days : forall y m n, month_length y m n <-> (1 <= m <= 12 /\ n = days_in_month y m).
Proof.
  intros y m n. split.
  - intro H. destruct H as [m H|m H|H|H]; cbn [In] in H.
    + repeat (destruct H as [H|H]; [subst m; split; [lia|reflexivity]|]). contradiction H.
    + repeat (destruct H as [H|H]; [subst m; split; [lia|reflexivity]|]). contradiction H.
    + split; [lia|]. unfold days_in_month. destruct (isleap y) eqn:E; [apply isleap_leap in E; contradiction (H E)|reflexivity].
    + split; [lia|]. unfold days_in_month. apply isleap_leap in H. rewrite H. reflexivity.
  - intros [H E]. subst n. apply months_12 in H. each_month H; subst m;
      try (apply long; cbn [In]; tauto); try (apply short; cbn [In]; tauto).
    unfold days_in_month. destruct (isleap y) eqn:E; cbn.
    + apply february_leap. apply isleap_leap. exact E.
    + apply february. intro L. apply isleap_leap in L. congruence.
Qed.
Lemma div_4 : forall y, y / 4 = (y - 1) / 4 + b2z (y mod 4 =? 0).
Proof. intro y. destruct (Z.eqb_spec (y mod 4) 0) as [E|E]; cbn [b2z]; Z.to_euclidean_division_equations; lia. Qed.
Lemma div_100 : forall y, y / 100 = (y - 1) / 100 + b2z (y mod 100 =? 0).
Proof. intro y. destruct (Z.eqb_spec (y mod 100) 0) as [E|E]; cbn [b2z]; Z.to_euclidean_division_equations; lia. Qed.
Lemma div_400 : forall y, y / 400 = (y - 1) / 400 + b2z (y mod 400 =? 0).
Proof. intro y. destruct (Z.eqb_spec (y mod 400) 0) as [E|E]; cbn [b2z]; Z.to_euclidean_division_equations; lia. Qed.
Lemma year_step : forall y, y / 4 - y / 100 + y / 400 = (y - 1) / 4 - (y - 1) / 100 + (y - 1) / 400 + b2z (isleap y).
Proof.
  intro y. rewrite (div_4 y), (div_100 y), (div_400 y). unfold isleap.
  assert (A : y mod 100 = 0 -> y mod 4 = 0) by (intro H; apply Z.mod_divide in H; [|lia]; destruct H as [k H]; apply Z.mod_divide; [lia|]; exists (25 * k); lia).
  assert (B : y mod 400 = 0 -> y mod 100 = 0) by (intro H; apply Z.mod_divide in H; [|lia]; destruct H as [k H]; apply Z.mod_divide; [lia|]; exists (4 * k); lia).
  destruct (Z.eqb_spec (y mod 4) 0) as [E4|E4], (Z.eqb_spec (y mod 100) 0) as [E1|E1], (Z.eqb_spec (y mod 400) 0) as [E0|E0];
    cbn [andb orb negb b2z]; try lia; exfalso; tauto.
Qed.
Definition base (y : Z) : Z := (y - 1) * 365 + (y - 1) / 4 - (y - 1) / 100 + (y - 1) / 400.
Lemma julian_base : forall y m d, julian_day y m d = base y + day_in_year y m d.
Proof. reflexivity. Qed.
Lemma base_step : forall y, base (y + 1) = base y + 365 + b2z (isleap y).
Proof. intro y. unfold base. replace (y + 1 - 1) with y by lia. pose proof (year_step y). lia. Qed.
Lemma month_step : forall y m d, 1 <= m <= 11 -> day_in_year y (m + 1) d = day_in_year y m d + days_in_month y m.
Proof.
  intros y m d H. assert (H1 : 1 <= m <= 12) by lia. apply months_12 in H1. unfold day_in_year, days_in_month.
  each_month H1; subst m; try lia; destruct (isleap y); calc; lia.
Qed.
Lemma december : forall y d, day_in_year y 12 d = 334 + b2z (isleap y) + d.
Proof. intros y d. unfold day_in_year. destruct (isleap y); calc; lia. Qed.
Lemma january : forall y d, day_in_year y 1 d = d.
Proof. intros y d. unfold day_in_year. calc. lia. Qed.
Lemma day_linear : forall y m d k, day_in_year y m (d + k) = day_in_year y m d + k.
Proof. intros. unfold day_in_year. lia. Qed.
Lemma julian_linear : forall y m d k, julian_day y m (d + k) = julian_day y m d + k.
Proof. intros. rewrite !julian_base, day_linear. lia. Qed.
Definition jul (d : date) : Z := let '(y, m, d) := d in julian_day y m d.
Lemma next_jul : forall d e, next d e -> jul e = jul d + 1.
Proof.
  intros d e H. destruct H as [y m d n L B|y m n L B|y]; cbn [jul].
  - apply julian_linear.
  - apply length_days in L. destruct L as [L E]. subst n. rewrite !julian_base, month_step by lia.
    replace 1 with (0 + 1) at 1 by lia. pose proof (day_linear y m 0 (days_in_month y m)). pose proof (day_linear y m 0 1).
    replace (0 + days_in_month y m) with (days_in_month y m) in * by lia. lia.
  - rewrite !julian_base, december, january, base_step. lia.
Qed.
(** C128: the day number goes up by one each day, and counts from 1 January 1. *)
Theorem C128_number : julian_day 1 1 1 = 1 /\
  forall y m d y' m' d', next (y, m, d) (y', m', d') -> julian_day y' m' d' = julian_day y m d + 1.
Proof. split; [reflexivity|]. intros y m d y' m' d' H. exact (next_jul _ _ H). Qed.
Print Assumptions C128_number.
(** C128: the weekday goes up by one each day; 1 January 2000 was a Saturday. *)
Theorem C128_weekday : day_of_week 2000 1 1 = 6 /\
  forall y m d y' m' d', next (y, m, d) (y', m', d') -> day_of_week y' m' d' = (day_of_week y m d + 1) mod 7.
Proof.
  split; [reflexivity|]. intros y m d y' m' d' H. unfold day_of_week. apply next_jul in H. cbn [jul] in H. rewrite H.
  rewrite Zplus_mod_idemp_l. reflexivity.
Qed.
Print Assumptions C128_weekday.
(** C128: the day in the year is 1 on 1 January and goes up by one each day of the year. *)
Theorem C128_in_year : (forall y, day_in_year y 1 1 = 1) /\
  forall y m d m' d', next (y, m, d) (y, m', d') -> day_in_year y m' d' = day_in_year y m d + 1.
Proof.
  split; [intro y; reflexivity|]. intros y m d m' d' H. apply next_jul in H. cbn [jul] in H. rewrite !julian_base in H. lia.
Qed.
Print Assumptions C128_in_year.
(** C128: the first day of a month is in week 1, and each Monday after it begins a new week. *)
Theorem C128_week_in_month : (forall y m, week_in_month y m 1 = 1) /\
  forall y m d d', next (y, m, d) (y, m, d') -> week_in_month y m d' = week_in_month y m d + (if day_of_week y m d' =? 1 then 1 else 0).
Proof.
  assert (W : forall y m d, exists q r, julian_day y m d + 6 = 7 * q + r /\ 0 <= r < 7 /\ (day_of_week y m d + 6) mod 7 + 1 = r + 1 /\ day_of_week y m d = (r + 1) mod 7).
  { intros y m d. exists ((julian_day y m d + 6) / 7), ((julian_day y m d + 6) mod 7). split; [apply Z.div_mod; lia|]. split; [apply Z.mod_pos_bound; lia|].
    unfold day_of_week. rewrite !Zplus_mod_idemp_l. split; [reflexivity|]. replace (julian_day y m d + 6 + 1) with (julian_day y m d + 1 * 7) by lia. rewrite Z.mod_add by lia. reflexivity. }
  split.
  - intros y m. unfold week_in_month. destruct (W y m 1) as (q & r & _ & R & E & _). rewrite E.
    assert (R' : r = 0 \/ r = 1 \/ r = 2 \/ r = 3 \/ r = 4 \/ r = 5 \/ r = 6) by lia. destruct R' as [R'|[R'|[R'|[R'|[R'|[R'|R']]]]]]; subst r; reflexivity.
  - intros y m d d' H. assert (D : d' = d + 1).
    { pose proof (next_jul _ _ H) as J. cbn [jul] in J. rewrite !julian_base in J. pose proof (day_linear y m 0 d). pose proof (day_linear y m 0 d').
      replace (0 + d) with d in * by lia. replace (0 + d') with d' in * by lia. lia. }
    subst d'. unfold week_in_month. destruct (W y m d) as (q & r & Q & R & E & F), (W y m (d + 1)) as (q' & r' & Q' & R' & E' & F').
    rewrite E, E', F'. rewrite julian_linear in Q'. assert (C : (r < 6 /\ r' = r + 1) \/ (r = 6 /\ r' = 0)) by lia.
    destruct C as [[C1 C2]|[C1 C2]]; subst r'.
    + replace (d + 1 - (r + 1 + 1)) with (d - (r + 1)) by lia. destruct (Z.eqb_spec ((r + 1 + 1) mod 7) 1) as [X|X]; [|lia].
      exfalso. assert (R7 : r = 0 \/ r = 1 \/ r = 2 \/ r = 3 \/ r = 4 \/ r = 5) by lia. destruct R7 as [Y|[Y|[Y|[Y|[Y|Y]]]]]; subst r; vm_compute in X; discriminate X.
    + subst r. change ((0 + 1) mod 7 =? 1) with true. cbv iota. replace (d + 1 - (0 + 1)) with (d - (6 + 1) + 1 * 7) by lia.
      rewrite Z.div_add, Z.mod_add by lia. destruct ((d - (6 + 1)) mod 7 =? 0); lia.
Qed.
Print Assumptions C128_week_in_month.
(** *** Dates are determined by their numbers *)
Lemma days_range : forall y m, 1 <= m <= 12 -> 28 <= days_in_month y m <= 31.
Proof. intros y m H. apply months_12 in H. unfold days_in_month. each_month H; subst m; destruct (isleap y); calc; lia. Qed.
Definition ok (d : date) : Prop := let '(y, m, d) := d in 1 <= m <= 12 /\ 1 <= d <= days_in_month y m.
Lemma ok_exists : forall d, ok d <-> exists_date d.
Proof.
  intros [[y m] d]. cbn [ok exists_date]. split.
  - intros [H1 H2]. exists (days_in_month y m). split; [apply length_days; split; [exact H1|reflexivity]|exact H2].
  - intros (n & L & B). apply length_days in L. destruct L as [L E]. subst n. split; assumption.
Qed.
Lemma in_year : forall y m d, ok (y, m, d) -> 1 <= day_in_year y m d <= 365 + b2z (isleap y).
Proof.
  intros y m d [H1 H2]. apply months_12 in H1. unfold day_in_year, days_in_month in *. each_month H1; subst m; destruct (isleap y); calc; lia.
Qed.
Lemma base_mono : forall y z, y < z -> base y + 365 + b2z (isleap y) <= base z.
Proof.
  intros y z H. rewrite <- base_step. assert (K : forall k, 0 <= k -> base (y + 1) <= base (y + 1 + k)).
  { intros k Hk. pattern k. apply natlike_ind; [rewrite Z.add_0_r; lia| |exact Hk]. intros x Hx IH. replace (y + 1 + Z.succ x) with (y + 1 + x + 1) by lia.
    rewrite (base_step (y + 1 + x)). destruct (isleap (y + 1 + x)); cbn [b2z]; lia. }
  specialize (K (z - y - 1)). replace (y + 1 + (z - y - 1)) with z in K by lia. apply K. lia.
Qed.
Lemma month_lt : forall y m m' d d', ok (y, m, d) -> ok (y, m', d') -> m < m' -> day_in_year y m d < day_in_year y m' d'.
Proof.
  intros y m m' d d' [H1 H2] [H3 H4] L.
  assert (K : forall k, 0 <= k -> m + 1 + k <= 12 -> day_in_year y (m + 1) 0 <= day_in_year y (m + 1 + k) 0).
  { intros k Hk. pattern k. apply natlike_ind; [rewrite Z.add_0_r; lia| |exact Hk]. intros x Hx IH B. replace (m + 1 + Z.succ x) with (m + 1 + x + 1) by lia.
    rewrite (month_step y (m + 1 + x)) by lia. pose proof (days_range y (m + 1 + x)). lia. }
  specialize (K (m' - m - 1)). replace (m + 1 + (m' - m - 1)) with m' in K by lia. rewrite month_step in K by lia.
  pose proof (day_linear y m 0 d). pose proof (day_linear y m' 0 d'). replace (0 + d) with d in * by lia. replace (0 + d') with d' in * by lia. lia.
Qed.
Lemma jul_inj : forall d e, ok d -> ok e -> jul d = jul e -> d = e.
Proof.
  intros [[y m] d] [[y' m'] d'] H1 H2 E. cbn [jul] in E. rewrite !julian_base in E. pose proof (in_year _ _ _ H1). pose proof (in_year _ _ _ H2).
  assert (Y : y = y'). { destruct (Z.lt_trichotomy y y') as [L|[L|L]]; [apply base_mono in L; lia|exact L|apply base_mono in L; lia]. }
  subst y'. assert (M : m = m'). { destruct (Z.lt_trichotomy m m') as [L|[L|L]]; [pose proof (month_lt _ _ _ _ _ H1 H2 L); lia|exact L|pose proof (month_lt _ _ _ _ _ H2 H1 L); lia]. }
  subst m'. pose proof (day_linear y m 0 d). pose proof (day_linear y m 0 d'). replace (0 + d) with d in * by lia. replace (0 + d') with d' in * by lia.
  assert (d = d') by lia. subst d'. reflexivity.
Qed.
Lemma next_ex : forall d, ok d -> exists e, next d e /\ ok e.
Proof.
  intros [[y m] d] [H1 H2]. assert (L : month_length y m (days_in_month y m)) by (apply length_days; split; [exact H1|reflexivity]).
  destruct (Z.eq_dec d (days_in_month y m)) as [E|E].
  - subst d. destruct (Z.eq_dec m 12) as [E|E].
    + subst m. exists (y + 1, 1, 1). split; [exact (next_year y)|]. cbn [ok]. pose proof (days_range (y + 1) 1). lia.
    + exists (y, m + 1, 1). split; [apply next_month; [exact L|lia]|]. cbn [ok]. pose proof (days_range y (m + 1)). lia.
  - exists (y, m, d + 1). split; [apply next_day with (n := days_in_month y m); [exact L|lia]|]. cbn [ok]. lia.
Qed.
Lemma after_ex : forall n d, ok d -> exists e, after n d e /\ ok e /\ jul e = jul d + Z.of_nat n.
Proof.
  intro n. induction n as [|n IH]; intros d H.
  - exists d. split; [apply after_0|]. split; [exact H|lia].
  - destruct (IH d H) as (e & A & K & J). destruct (next_ex e K) as (f & N & K2). exists f. split; [exact (after_S _ _ _ _ A N)|]. split; [exact K2|].
    apply next_jul in N. lia.
Qed.
Lemma jul_after : forall n d e, ok d -> ok e -> jul e = jul d + Z.of_nat n -> after n d e.
Proof.
  intros n d e H K J. destruct (after_ex n d H) as (f & A & K2 & J2). replace e with f; [exact A|]. apply jul_inj; [exact K2|exact K|lia].
Qed.
(** *** The loop *)
Lemma turn_next : forall y m, 1 <= m <= 12 -> turn y m 1 = if m =? 12 then (y + 1, 1) else (y, m + 1).
Proof. intros y m H. apply months_12 in H. unfold turn. each_month H; subst m; cbn [Z.eqb Pos.eqb]; f_equal; try reflexivity; repeat match goal with |- context [(?a / 12)] => ev (a / 12) end; lia. Qed.
Lemma turn_prev : forall y m, 1 <= m <= 12 -> turn y m (-1) = if m =? 1 then (y - 1, 12) else (y, m - 1).
Proof. intros y m H. apply months_12 in H. unfold turn. each_month H; subst m; cbn [Z.eqb Pos.eqb]; f_equal; try reflexivity; repeat match goal with |- context [(?a / 12)] => ev (a / 12) end; lia. Qed.
Lemma step_jul : forall y m d, 1 <= m <= 12 -> let (y', m') := (if m =? 12 then (y + 1, 1) else (y, m + 1)) in
  1 <= m' <= 12 /\ julian_day y' m' (d - days_in_month y m) = julian_day y m d.
Proof.
  intros y m d H. destruct (m =? 12) eqn:E.
  - apply Z.eqb_eq in E. subst m. split; [lia|]. rewrite !julian_base, december, january, base_step. change (days_in_month y 12) with 31. lia.
  - apply Z.eqb_neq in E. split; [lia|]. rewrite !julian_base, month_step by lia.
    pose proof (day_linear y m d (- days_in_month y m)). replace (d + - days_in_month y m) with (d - days_in_month y m) in * by lia. lia.
Qed.
Lemma back_jul : forall y m d, 1 <= m <= 12 -> let (y', m') := (if m =? 1 then (y - 1, 12) else (y, m - 1)) in
  1 <= m' <= 12 /\ (if m =? 1 then days_in_month (y - 1) 12 else days_in_month y (m - 1)) = days_in_month y' m' /\
  julian_day y' m' (d + days_in_month y' m') = julian_day y m d.
Proof.
  intros y m d H. destruct (m =? 1) eqn:E.
  - apply Z.eqb_eq in E. subst m. split; [lia|]. split; [reflexivity|]. pose proof (step_jul (y - 1) 12 (d + days_in_month (y - 1) 12)) as S. cbn [Z.eqb] in S.
    change (12 =? 12) with true in S. cbv iota in S. destruct S as [_ S]; [lia|]. rewrite <- S. f_equal; lia.
  - apply Z.eqb_neq in E. split; [lia|]. split; [reflexivity|]. pose proof (step_jul y (m - 1) (d + days_in_month y (m - 1))) as S.
    destruct (m - 1 =? 12) eqn:E2; [apply Z.eqb_eq in E2; lia|]. destruct S as [_ S]; [lia|]. rewrite <- S. f_equal; lia.
Qed.
Lemma carry_ok : forall n y m d, 1 <= m <= 12 -> (1 <= d <= days_in_month y m /\ (1 <= n)%nat) \/ Z.abs d + 1 < Z.of_nat n ->
  exists e, carry_days n y m d = Some e /\ ok e /\ jul e = julian_day y m d.
Proof.
  intro n. induction n as [|n IH]; intros y m d H F; [lia|]. cbn [carry_days]. pose proof (days_range y m H) as R.
  destruct (Z.ltb_spec (days_in_month y m) d) as [L|L].
  - rewrite (turn_next y m H). pose proof (step_jul y m d H) as S. destruct (if m =? 12 then (y + 1, 1) else (y, m + 1)) as [y' m']. destruct S as [S1 S2].
    rewrite <- S2. apply IH; [exact S1|]. right. lia.
  - destruct (Z.ltb_spec d 1) as [L2|L2].
    + rewrite (turn_prev y m H). pose proof (back_jul y m d H) as S. destruct (if m =? 1 then (y - 1, 12) else (y, m - 1)) as [y' m']. destruct S as (S1 & S2 & S3).
      rewrite S2, <- S3. pose proof (days_range y' m' S1). apply IH; [exact S1|]. destruct (Z_le_gt_dec 1 (d + days_in_month y' m')) as [G|G]; [left; lia|right; lia].
    + exists (y, m, d). split; [reflexivity|]. split; [cbn [ok]; lia|reflexivity].
Qed.
(** C128: days are added as on the calendar, however many. *)
Lemma add_days : forall y m d k n, exists_date (y, m, d) -> Z.abs (d + k) + 1 < Z.of_nat n ->
  exists e, add_date n (y, m, d) 0 0 k = Some e /\ ok e /\ jul e = julian_day y m d + k.
Proof.
  intros y m d k n H F. apply ok_exists in H. cbn [ok] in H. destruct H as [H1 H2]. unfold add_date.
  rewrite Z.add_0_l. rewrite (Z.mod_small (m - 1) 12), (Z.div_small (m - 1) 12) by lia.
  replace (m - 1 + 1) with m by lia. replace (y + 0 + 0) with y by lia. destruct (Z.ltb_spec d 1) as [L|L]; [lia|].
  destruct (carry_ok n y m (d + k) H1 (or_intror F)) as (e & E1 & E2 & E3). exists e. split; [exact E1|]. split; [exact E2|]. rewrite E3. apply julian_linear.
Qed.
Theorem C128_add_partial : forall y m d k n, exists_date (y, m, d) -> Z.abs (d + Z.of_nat k) + 1 < Z.of_nat n ->
  exists e, add_date n (y, m, d) 0 0 (Z.of_nat k) = Some e /\ exists_date e /\ after k (y, m, d) e.
Proof.
  intros y m d k n H F. destruct (add_days y m d (Z.of_nat k) n H F) as (e & E1 & E2 & E3). exists e. split; [exact E1|]. split; [apply ok_exists; exact E2|].
  apply jul_after; [apply ok_exists; exact H|exact E2|exact E3].
Qed.
Print Assumptions C128_add_partial.
Theorem C128_subtract_partial : forall y m d k n, exists_date (y, m, d) -> Z.abs (d - Z.of_nat k) + 1 < Z.of_nat n ->
  exists e, add_date n (y, m, d) 0 0 (- Z.of_nat k) = Some e /\ exists_date e /\ after k e (y, m, d).
Proof.
  intros y m d k n H F. destruct (add_days y m d (- Z.of_nat k) n H) as (e & E1 & E2 & E3); [lia|]. exists e. split; [exact E1|]. split; [apply ok_exists; exact E2|].
  apply jul_after; [exact E2|apply ok_exists; exact H|cbn [jul]; lia].
Qed.
Print Assumptions C128_subtract_partial.
(** C128: years and months are added if the month that is reached has the day. *)
Theorem C128_months_partial : forall y m d years months y' m' n, exists_date (y, m, d) -> exists_date (y', m', d) ->
  12 * y' + m' = 12 * y + m + 12 * years + months -> (1 <= n)%nat -> add_date n (y, m, d) years months 0 = Some (y', m', d).
Proof.
  intros y m d years months y' m' n H K E F. apply ok_exists in H, K. cbn [ok] in H, K. unfold add_date.
  assert (Q : (months + m - 1) mod 12 + 1 = m' /\ y + years + (months + m - 1) / 12 = y').
  { pose proof (Z.div_mod (months + m - 1) 12). pose proof (Z.mod_pos_bound (months + m - 1) 12). lia. }
  destruct Q as [Q1 Q2]. rewrite Q1, Q2. destruct (Z.ltb_spec d 1) as [L|L]; [lia|]. rewrite Z.add_0_r. destruct n as [|n]; [lia|]. cbn [carry_days].
  destruct (Z.ltb_spec (days_in_month y' m') d) as [L2|L2]; [lia|]. destruct (Z.ltb_spec d 1) as [L3|L3]; [lia|]. reflexivity.
Qed.
Print Assumptions C128_months_partial.
(** C128 is false for months: a month after 31 January 2001 is not the last day of February but 3 March. *)
Theorem C128_month_refuted : forall n, (2 <= n)%nat -> add_date n (2001, 1, 31) 0 1 0 = Some (2001, 3, 3).
Proof. intros n H. destruct n as [|[|n]]; [lia|lia|]. reflexivity. Qed.
Print Assumptions C128_month_refuted.
(** C128 is false of date:day-in-week itself: it raises for every argument. *)
Theorem C128_function_refuted : forall A (coerce : A -> A -> result date) context d types, day_in_week_function coerce context d types = Err TypeError.
Proof. reflexivity. Qed.
Print Assumptions C128_function_refuted.
Example C128_case : exists_date (2000, 2, 28) /\ next (2000, 2, 28) (2000, 2, 28 + 1) /\ next (2000, 2, 29) (2000, 2 + 1, 1) /\
  add_date 1 (2000, 2, 29) (-1) 13 0 = Some (2000, 3, 29) /\ add_date 900 (1999, 12, 31) 0 0 366 = Some (2000, 12, 31) /\ add_date 900 (2000, 3, 1) 0 0 (-366) = Some (1999, 3, 1) /\
  julian_day 2000 3 1 = 730180 /\ day_of_week 2026 11 16 = 1 /\ week_in_month 2026 11 16 = 4.
Proof.
  assert (L : month_length 2000 2 29). { apply february_leap. split; [exists 500; reflexivity|]. right. exists 5. reflexivity. }
  split; [exists 29; split; [exact L|lia]|]. split; [apply next_day with (n := 29); [exact L|lia]|]. split; [apply next_month; [exact L|lia]|].
  repeat split; vm_compute; reflexivity.
Qed.
