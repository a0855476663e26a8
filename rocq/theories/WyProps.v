(** * Property C130: the week of the year *)
From Coq Require Import ZArith List Bool Lia.
From Verif Require Import DtModel DtSpec DtProps WyModel WySpec.
Local Open Scope Z_scope.

Definition weekday (d : date) : Z := let '(y, m, d) := d in day_of_week y m d.
Lemma later : forall k d e, after k d e -> jul e = jul d + Z.of_nat k.
Proof. intros k d e H. induction H as [d|n d e f A IH N]; [lia|]. apply next_jul in N. lia. Qed.
Lemma before_ex : forall n d, ok d -> exists e, after n e d /\ ok e.
Proof.
  intros n [[y m] d] H. destruct (C128_subtract_partial y m d n (Z.to_nat (Z.abs (d - Z.of_nat n) + 2))) as (e & _ & E & A).
  - apply ok_exists. exact H.
  - lia.
  - exists e. split; [exact A|apply ok_exists; exact E].
Qed.
Lemma first_day : forall y, (day_of_week y 1 1 + 6) mod 7 = base y mod 7.
Proof.
  intro y. unfold day_of_week. rewrite Zplus_mod_idemp_l, julian_base, january. replace (base y + 1 + 6) with (base y + 1 * 7) by lia. apply Z.mod_add. lia.
Qed.
Lemma mod7 : forall a b, 0 <= b < 7 -> (exists k, a = 7 * k + b) -> a mod 7 = b.
Proof. intros a b B [k E]. symmetry. apply (Z.mod_unique_pos a 7 k b); lia. Qed.
Lemma div7 : forall a b k, 0 <= b < 7 -> a = 7 * k + b -> a / 7 = k.
Proof. intros a b k B E. symmetry. apply (Z.div_unique_pos a 7 k b); lia. Qed.
(** The Thursday of a date, by number *)
Lemma thursday_ex : forall d, ok d -> exists t, ok t /\ thursday_of weekday d t /\ jul t = jul d + 3 - (jul d - 1) mod 7.
Proof.
  intros d H. pose proof (Z.mod_pos_bound (jul d - 1) 7 ltac:(lia)) as B. pose proof (Z.div_mod (jul d - 1) 7 ltac:(lia)) as D. set (r := (jul d - 1) mod 7) in *.
  assert (T : exists t k, ok t /\ ((after k d t /\ (k <= 3)%nat) \/ (after k t d /\ (k <= 3)%nat)) /\ jul t = jul d + 3 - r).
  { destruct (Z_le_gt_dec r 3) as [L|L].
    - destruct (after_ex (Z.to_nat (3 - r)) d H) as (t & A & O & J). exists t, (Z.to_nat (3 - r)). split; [exact O|]. split; [left; split; [exact A|lia]|rewrite J; lia].
    - destruct (before_ex (Z.to_nat (r - 3)) d H) as (t & A & O). exists t, (Z.to_nat (r - 3)). split; [exact O|]. split; [right; split; [exact A|lia]|].
      apply later in A. lia. }
  destruct T as (t & k & O & A & J). exists t. split; [exact O|]. split; [|exact J]. split; [|exists k; exact A].
  destruct t as [[y m] dd]. cbn [weekday jul] in *. unfold day_of_week. apply mod7; [lia|]. exists ((jul d - 1) / 7). lia.
Qed.
(** The number of a Thursday in its year *)
Lemma thursday_week : forall d y m day, ok (y, m, day) -> thursday_of weekday d (y, m, day) -> week_number weekday d ((day_in_year y m day - 1) / 7 + 1).
Proof.
  intros d y m day O T. pose proof (in_year y m day O) as B. set (N := day_in_year y m day) in *.
  pose proof (Z.div_mod (N - 1) 7 ltac:(lia)) as D. pose proof (Z.mod_pos_bound (N - 1) 7 ltac:(lia)) as M.
  exists y, m, day, ((N - 1) mod 7 + 1), (Z.to_nat ((N - 1) / 7)). split; [exact T|]. split; [lia|]. split; [|lia].
  apply jul_after; [|exact O|].
  - cbn [ok]. change (days_in_month y 1) with 31. lia.
  - cbn [jul]. rewrite !julian_base, january. fold N. lia.
Qed.
(** C130: date:week-in-year is the week number, except after a leap year for the days before the first Monday if 1 January is a Friday. *)
Theorem C130_week_partial : forall y m d, exists_date (y, m, d) -> ~ (weekday (y, 1, 1) = 5 /\ leap (y - 1) /\ day_in_year y m d <= 3) ->
  week_number weekday (y, m, d) (week_in_year y m d).
Proof.
  intros y m d H X. apply ok_exists in H. destruct (thursday_ex _ H) as ([[ty tm] td] & O & T & J).
  pose proof (thursday_week _ _ _ _ O T) as W. replace (week_in_year y m d) with ((day_in_year ty tm td - 1) / 7 + 1); [exact W|]. clear W T.
  cbn [jul] in J. rewrite !julian_base in J. pose proof (in_year _ _ _ H) as B. pose proof (in_year _ _ _ O) as B'.
  unfold week_in_year. rewrite first_day. set (N := day_in_year y m d) in *. set (N' := day_in_year ty tm td) in *.
  pose proof (Z.div_mod (base y) 7 ltac:(lia)) as D. pose proof (Z.mod_pos_bound (base y) 7 ltac:(lia)) as M. 
  assert (X' : base y mod 7 = 4 -> isleap (y - 1) = true -> N <= 3 -> False).
  { intros X1 X2 X3. apply X. split; [|split; [apply isleap_leap; exact X2|exact X3]]. cbn [weekday]. unfold day_of_week. rewrite julian_base, january.
    apply mod7; [lia|]. exists (base y / 7). lia. }
  clear X. set (w := base y mod 7) in *. set (q := base y / 7) in *.
  assert (R : (base y + N - 1) mod 7 = (N + w - 1) mod 7).
  { rewrite D. replace (7 * q + w + N - 1) with (N + w - 1 + q * 7) by lia. apply Z.mod_add. lia. }
  rewrite R in J. pose proof (Z.div_mod (N + w - 1) 7 ltac:(lia)) as D2. pose proof (Z.mod_pos_bound (N + w - 1) 7 ltac:(lia)) as M2.
  set (r := (N + w - 1) mod 7) in *. set (k := (N + w - 1) / 7) in *. clear R.
  change WyModel.number with b2z. set (L := b2z (isleap y)) in *. assert (HL : 0 <= L <= 1) by (subst L; destruct (isleap y); cbn [b2z]; lia).
  destruct (Z.lt_trichotomy ty y) as [Y|[Y|Y]].
  - (* the year before *)
    assert (E : ty = y - 1).
    { destruct (Z.eq_dec ty (y - 1)) as [E|E]; [exact E|exfalso]. pose proof (base_mono ty (y - 1) ltac:(lia)). pose proof (base_step (y - 1)) as S.
      replace (y - 1 + 1) with y in S by lia. destruct (isleap (y - 1)); cbn [b2z] in S; lia. }
    subst ty. pose proof (base_step (y - 1)) as S. replace (y - 1 + 1) with y in S by lia.
    assert (K : k = 0) by lia. assert (W3 : 3 < w) by lia.
    destruct (Z.ltb_spec 3 w); [|lia]. destruct (Z.leb_spec N (7 - w)); [|lia]. cbn [andb].
    destruct (isleap (y - 1)) eqn:EL; cbn [b2z] in *.
    + destruct (Z.eqb_spec w (4 + 1)) as [G|G]; cbn [b2z].
      * rewrite (div7 (N' - 1) 0 52); lia.
      * destruct (Z.eq_dec w 4) as [G4|G4]; [exfalso; apply (X' G4 eq_refl); lia|]. rewrite (div7 (N' - 1) (N' - 1 - 357) 51); lia.
    + destruct (Z.eqb_spec w (4 + 0)) as [G|G]; cbn [b2z].
      * rewrite (div7 (N' - 1) 0 52); lia.
      * rewrite (div7 (N' - 1) (N' - 1 - 357) 51); lia.
  - (* this year *)
    subst ty. assert (EN : N' = 7 * k + 4 - w) by lia.
    destruct (Z.ltb_spec 3 w) as [G|G]; cbn [andb].
    + destruct (Z.leb_spec N (7 - w)); [lia|]. destruct (Z.ltb_spec (365 + L - N) (3 - r)); [lia|].
      rewrite (div7 (N + (6 - r) + w) 0 (k + 1)) by lia. rewrite (div7 (N' - 1) (10 - w) (k - 1)) by lia. lia.
    + destruct (Z.ltb_spec (365 + L - N) (3 - r)); [lia|]. rewrite (div7 (N + (6 - r) + w) 0 (k + 1)) by lia. rewrite (div7 (N' - 1) (3 - w) k) by lia. lia.
  - (* the year after *)
    assert (E : ty = y + 1).
    { destruct (Z.eq_dec ty (y + 1)) as [E|E]; [exact E|exfalso]. pose proof (base_mono (y + 1) ty ltac:(lia)). pose proof (base_step y) as S.
      fold L in S. destruct (isleap (y + 1)); cbn [b2z] in *; lia. }
    subst ty. pose proof (base_step y) as S. fold L in S.
    destruct (Z.leb_spec N (7 - w)) as [G|G]; [lia|]. rewrite andb_false_r.
    destruct (Z.ltb_spec (365 + L - N) (3 - r)); [|lia]. rewrite (div7 (N' - 1) (N' - 1) 0); lia.
Qed.
Print Assumptions C130_week_partial.
(** C130 is false of the code: after every leap year, if 1 January is a Friday, the first three days are in week 53 but the result is 52. *)
Theorem C130_week_refuted : forall y d, weekday (y, 1, 1) = 5 -> leap (y - 1) -> 1 <= d <= 3 ->
  week_in_year y 1 d = 52 /\ week_number weekday (y, 1, d) 53.
Proof.
  intros y d H L B. apply isleap_leap in L. assert (W : base y mod 7 = 4).
  { cbn [weekday] in H. unfold day_of_week in H. rewrite julian_base, january in H. pose proof (Z.div_mod (base y + 1) 7 ltac:(lia)) as D. apply mod7; [lia|]. exists ((base y + 1) / 7). lia. }
  split.
  - unfold week_in_year. rewrite first_day, W, january, L. change (3 <? 4) with true. destruct (Z.leb_spec d (7 - 4)); [reflexivity|lia].
  - assert (O : ok (y, 1, d)) by (cbn [ok]; change (days_in_month y 1) with 31; lia).
    assert (O' : ok (y - 1, 12, 31)) by (cbn [ok]; change (days_in_month (y - 1) 12) with 31; lia).
    pose proof (base_step (y - 1)) as S. replace (y - 1 + 1) with y in S by lia. rewrite L in S. cbn [b2z] in S.
    assert (T : thursday_of weekday (y, 1, d) (y - 1, 12, 31)).
    { split.
      - cbn [weekday]. unfold day_of_week. rewrite julian_base, december, L. cbn [b2z]. pose proof (Z.div_mod (base y) 7 ltac:(lia)) as D. apply mod7; [lia|]. exists (base y / 7). lia.
      - exists (Z.to_nat d). right. split; [|lia]. apply jul_after; [exact O'|exact O|]. cbn [jul]. rewrite !julian_base, december, january, L. cbn [b2z]. lia. }
    pose proof (thursday_week _ _ _ _ O' T) as R. rewrite december, L in R. cbn [b2z] in R. exact R.
Qed.
Print Assumptions C130_week_refuted.
(** *** Cases *)
Example C130_case : exists_date (2026, 11, 16) /\ week_in_year 2026 11 16 = 47 /\ week_in_year 2024 12 30 = 1 /\ week_in_year 2010 1 3 = 53 /\ weekday (2010, 1, 1) = 5 /\ ~ leap 2009.
Proof.
  split; [exists 30; split; [apply short; cbn; tauto|lia]|]. repeat (split; [vm_compute; reflexivity|]). intro H. apply isleap_leap in H. vm_compute in H. discriminate H.
Qed.
Example C130_2021 : weekday (2021, 1, 1) = 5 /\ leap (2021 - 1) /\ week_in_year 2021 1 1 = 52.
Proof. split; [vm_compute; reflexivity|]. split; [apply isleap_leap; reflexivity|]. vm_compute. reflexivity. Qed.
