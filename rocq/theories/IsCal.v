(** * The calendar: day numbers and dates are in one-to-one correspondence *)
From Coq Require Import NArith ZArith String List Bool Lia Arith.
From Verif Require Import PyStr PyErr IsModel IsSpec.
Import ListNotations.
Open Scope Z_scope.

Lemma leap_ok : forall y, leap y = leap_year y.
Proof.
  intro y. unfold leap, leap_year.
  destruct (Z.eqb_spec (y mod 4) 0), (Z.eqb_spec (y mod 100) 0), (Z.eqb_spec (y mod 400) 0); cbn [andb orb negb]; try reflexivity;
    exfalso; Z.to_euclidean_division_equations; lia.
Qed.
Definition ylen (y : Z) : Z := if leap y then 366 else 365.
Lemma year_next : forall y, year_start (y + 1) = year_start y + ylen y.
Proof.
  intro y. unfold year_start, ylen, leap. replace (y + 1 - 1) with y by lia.
  assert (A : y / 4 = (y - 1) / 4 + (if y mod 4 =? 0 then 1 else 0)) by (destruct (Z.eqb_spec (y mod 4) 0); Z.to_euclidean_division_equations; lia).
  assert (B : y / 100 = (y - 1) / 100 + (if y mod 100 =? 0 then 1 else 0)) by (destruct (Z.eqb_spec (y mod 100) 0); Z.to_euclidean_division_equations; lia).
  assert (C : y / 400 = (y - 1) / 400 + (if y mod 400 =? 0 then 1 else 0)) by (destruct (Z.eqb_spec (y mod 400) 0); Z.to_euclidean_division_equations; lia).
  rewrite A, B, C.
  assert (D : y mod 400 = 0 -> y mod 100 = 0) by (Z.to_euclidean_division_equations; lia).
  assert (E : y mod 100 = 0 -> y mod 4 = 0) by (Z.to_euclidean_division_equations; lia).
  clear A B C. destruct (Z.eqb_spec (y mod 4) 0), (Z.eqb_spec (y mod 100) 0), (Z.eqb_spec (y mod 400) 0); cbn [andb orb negb]; try lia;
    exfalso; try (apply D in e; congruence); try (apply E in e; congruence); auto.
Qed.
Lemma year_mono : forall y z, y < z -> year_start y + ylen y <= year_start z.
Proof.
  intros y z H. assert (exists k, 0 <= k /\ z = y + 1 + k) as (k & Hk & ->) by (exists (z - y - 1); lia). clear H.
  revert y. pattern k. apply natlike_ind; [| |assumption].
  - intro y. rewrite Z.add_0_r, year_next. lia.
  - intros x Hx IH y. replace (y + 1 + Z.succ x) with ((y + 1 + x) + 1) by lia. rewrite year_next. specialize (IH y). unfold ylen in *. destruct (leap (y + 1 + x)); lia.
Qed.
Lemma months : forall m, 1 <= m <= 12 -> m = 1 \/ m = 2 \/ m = 3 \/ m = 4 \/ m = 5 \/ m = 6 \/ m = 7 \/ m = 8 \/ m = 9 \/ m = 10 \/ m = 11 \/ m = 12.
Proof. lia. Qed.
Ltac by_month H := apply months in H; repeat (destruct H as [H|H]; [subst|]); [..|subst].
Lemma month_next : forall y m, 1 <= m <= 11 -> before_month (leap y) (m + 1) = before_month (leap y) m + month_length y m.
Proof.
  intros y m H. unfold month_length. rewrite <- leap_ok. assert (1 <= m <= 12) as K by lia. by_month K; try lia; destruct (leap y); reflexivity.
Qed.
Lemma month_last : forall y, before_month (leap y) 12 + month_length y 12 = ylen y.
Proof. intro y. unfold ylen. destruct (leap y); reflexivity. Qed.
Lemma month_mono : forall lp m, 1 <= m <= 12 -> 0 <= before_month lp m.
Proof. intros lp m H. by_month H; destruct lp; vm_compute; discriminate. Qed.
Lemma month_lt : forall y m k, 1 <= m -> m < k -> k <= 12 -> before_month (leap y) m + month_length y m <= before_month (leap y) k.
Proof.
  intros y m k H1 H2 H3. unfold month_length. rewrite <- leap_ok. assert (1 <= m <= 12) as M by lia. assert (1 <= k <= 12) as K by lia.
  by_month M; by_month K; try lia; destruct (leap y); vm_compute; discriminate.
Qed.
Lemma month_len_pos : forall y m, 28 <= month_length y m <= 31.
Proof. intros y m. unfold month_length. destruct (m =? 2); [destruct (leap_year y); lia|]. destruct ((m =? 4) || (m =? 6) || (m =? 9) || (m =? 11)); lia. Qed.
Definition num (d : date) : Z := let '(y, m, d) := d in day_number y m d.
Lemma num_next : forall d, valid_date d -> num (next_day d) = num d + 1 /\ valid_date (next_day d).
Proof.
  intros [[y m] d] [Hm Hd]. unfold next_day. destruct (Z.ltb_spec d (month_length y m)).
  - unfold num, day_number, valid_date. lia.
  - assert (d = month_length y m) by lia. subst. destruct (Z.ltb_spec m 12).
    + unfold num, day_number, valid_date. rewrite month_next by lia. pose proof (month_len_pos y (m + 1)). lia.
    + assert (m = 12) by lia. subst. unfold num, day_number, valid_date. rewrite year_next. pose proof (month_last y). pose proof (month_len_pos (y + 1) 1).
      assert (before_month (leap (y + 1)) 1 = 0) by (destruct (leap (y + 1)); reflexivity). lia.
Qed.
(** ** A day number determines the date. *)
Lemma in_year : forall y m d, valid_date (y, m, d) -> year_start y <= day_number y m d < year_start y + ylen y.
Proof.
  intros y m d [Hm Hd]. unfold day_number. pose proof (month_mono (leap y) m Hm). pose proof (month_last y).
  assert (before_month (leap y) m + month_length y m <= ylen y).
  { destruct (Z.eq_dec m 12) as [-> |]; [lia|]. pose proof (month_lt y m 12 ltac:(lia) ltac:(lia) ltac:(lia)). pose proof (month_len_pos y 12). lia. }
  lia.
Qed.
Lemma year_unique : forall y z n, year_start y <= n < year_start y + ylen y -> year_start z <= n < year_start z + ylen z -> y = z.
Proof.
  intros y z n Hy Hz. destruct (Z.lt_trichotomy y z) as [H|[H|H]]; [|assumption|]; apply year_mono in H; lia.
Qed.
Lemma num_inj : forall a b, valid_date a -> valid_date b -> num a = num b -> a = b.
Proof.
  intros [[y m] d] [[z k] e] Ha Hb H. cbn [num] in H. pose proof (in_year _ _ _ Ha) as Ya. pose proof (in_year _ _ _ Hb) as Yb.
  assert (y = z) by (eapply year_unique; [exact Ya|]; lia). subst z. destruct Ha as [Hm Hd], Hb as [Hk He]. unfold day_number in H.
  assert (m = k).
  { destruct (Z.lt_trichotomy m k) as [L|[L|L]]; [|assumption|];
      [pose proof (month_lt y m k ltac:(lia) L ltac:(lia))|pose proof (month_lt y k m ltac:(lia) L ltac:(lia))]; lia. }
  subst. do 2 f_equal. lia.
Qed.
(** ** civil inverts the day number.  Checked for one period of 400 years. *)
Definition valid_dateb (d : date) : bool := let '(y, m, d) := d in (1 <=? m) && (m <=? 12) && (1 <=? d) && (d <=? month_length y m).
Definition civil_ok (doe : Z) : bool := let c := civil (doe - 719468) in valid_dateb c && (num c =? doe - 719468).
Fixpoint all_below (fuel : nat) (n : Z) : bool := match fuel with O => true | S f => civil_ok n && all_below f (n + 1) end.
Fixpoint all_pow (k : nat) (n : Z) : bool := match k with O => civil_ok n | S k' => all_pow k' n && all_pow k' (n + 2 ^ Z.of_nat k') end.
Lemma all_pow_spec : forall k n, all_pow k n = true -> forall i, n <= i < n + 2 ^ Z.of_nat k -> civil_ok i = true.
Proof.
  induction k as [|k IH]; intros n H i Hi.
  - change (2 ^ Z.of_nat 0) with 1 in Hi. assert (i = n) by lia. now subst.
  - cbn [all_pow] in H. apply andb_true_iff in H as [H1 H2]. rewrite Nat2Z.inj_succ, Z.pow_succ_r in Hi by lia.
    destruct (Z.lt_ge_cases i (n + 2 ^ Z.of_nat k)); [apply (IH n H1); lia|apply (IH _ H2); lia].
Qed.
(** 146097 = 2^17 + 15025; the checks overlap the next period. *)
Lemma period_ok : forall i, 0 <= i < 146097 -> civil_ok i = true.
Proof.
  intros i Hi. destruct (Z.lt_ge_cases i 131072).
  - apply (all_pow_spec 17 0); [vm_compute; reflexivity|]. change (2 ^ Z.of_nat 17) with 131072. lia.
  - apply (all_pow_spec 14 131072); [vm_compute; reflexivity|]. change (2 ^ Z.of_nat 14) with 16384. lia.
Qed.
Lemma civil_period : forall n k, civil (n + 146097 * k) = let '(y, m, d) := civil n in (y + 400 * k, m, d).
Proof.
  intros n k. unfold civil. replace (n + 146097 * k + 719468) with (n + 719468 + k * 146097) by lia.
  rewrite Z.div_add, Z_mod_plus_full by lia. cbv zeta. f_equal. f_equal. lia.
Qed.
Lemma leap_period : forall y k, leap (y + 400 * k) = leap y.
Proof.
  intros y k. unfold leap. replace (y + 400 * k) with (y + (100 * k) * 4) at 1 by lia. rewrite Z_mod_plus_full.
  replace (y + 400 * k) with (y + (4 * k) * 100) at 1 by lia. rewrite Z_mod_plus_full.
  replace (y + 400 * k) with (y + k * 400) by lia. now rewrite Z_mod_plus_full.
Qed.
Lemma start_period : forall y k, year_start (y + 400 * k) = year_start y + 146097 * k.
Proof.
  intros y k. unfold year_start.
  replace ((y + 400 * k - 1) / 4) with ((y - 1) / 4 + 100 * k) by (rewrite <- Z.div_add by lia; f_equal; lia).
  replace ((y + 400 * k - 1) / 100) with ((y - 1) / 100 + 4 * k) by (rewrite <- Z.div_add by lia; f_equal; lia).
  replace ((y + 400 * k - 1) / 400) with ((y - 1) / 400 + k) by (rewrite <- Z.div_add by lia; f_equal; lia). lia.
Qed.
Lemma civil_inv : forall n, valid_date (civil n) /\ num (civil n) = n.
Proof.
  intro n. set (k := (n + 719468) / 146097). set (i := (n + 719468) mod 146097).
  assert (Hi : 0 <= i < 146097) by (apply Z.mod_pos_bound; lia).
  assert (Hn : n = (i - 719468) + 146097 * k) by (pose proof (Z.div_mod (n + 719468) 146097 ltac:(lia)); subst i k; lia).
  rewrite Hn. rewrite civil_period. pose proof (period_ok i Hi) as H. unfold civil_ok in H. destruct (civil (i - 719468)) as [[y m] d].
  apply andb_true_iff in H as [H1 H2]. unfold valid_dateb in H1. rewrite !andb_true_iff, !Z.leb_le in H1. apply Z.eqb_eq in H2. cbn [num] in H2.
  assert (L : month_length (y + 400 * k) m = month_length y m) by (unfold month_length; now rewrite <- !leap_ok, leap_period).
  split.
  - unfold valid_date. rewrite L. lia.
  - cbn [num]. unfold day_number in *. rewrite start_period, leap_period. lia.
Qed.
Lemma civil_num : forall d, valid_date d -> civil (num d) = d.
Proof. intros d H. destruct (civil_inv (num d)) as [V E]. now apply num_inj. Qed.

(** ** The count of days *)
Lemma day_is_num : forall d n, day_is d n -> valid_date d /\ num d = n.
Proof.
  induction 1 as [|d n H [V E]|d n V H [V' E]].
  - split; [vm_compute; repeat split; discriminate|reflexivity].
  - destruct (num_next d V) as [N V2]. split; [assumption|lia].
  - split; [assumption|]. destruct (num_next d V) as [N V2]. lia.
Qed.
Lemma num_day_is : forall d, valid_date d -> day_is d (num d).
Proof.
  assert (F : forall n, 0 <= n -> day_is (civil n) n).
  { intros n Hn. pattern n. apply natlike_ind; [| |assumption].
    - change (civil 0) with (1970, 1, 1). constructor.
    - intros x Hx IH. destruct (civil_inv x) as [V E]. destruct (num_next _ V) as [N V2].
      replace (civil (Z.succ x)) with (next_day (civil x)); [now constructor|]. apply num_inj; [assumption|apply civil_inv|].
      destruct (civil_inv (Z.succ x)) as [_ E2]. lia. }
  assert (B : forall n, 0 <= n -> day_is (civil (- n)) (- n)).
  { intros n Hn. pattern n. apply natlike_ind; [| |assumption].
    - change (civil (- 0)) with (1970, 1, 1). constructor.
    - intros x Hx IH. destruct (civil_inv (- Z.succ x)) as [V E]. destruct (num_next _ V) as [N V2].
      replace (- Z.succ x) with (- x - 1) at 2 by lia. apply day_before; [assumption|].
      replace (next_day (civil (- Z.succ x))) with (civil (- x)); [assumption|]. apply num_inj; [apply civil_inv|assumption|].
      destruct (civil_inv (- x)) as [_ E2]. lia. }
  intros d V. rewrite <- (civil_num d V) at 1. destruct (Z.le_gt_cases 0 (num d)); [now apply F|].
  replace (num d) with (- (- num d)) by lia. apply B. lia.
Qed.
Lemma yday_year : forall y n, year_start y <= n < year_start y + ylen y -> forall t, t / 86400 = n -> yday t = n - year_start y + 1.
Proof.
  intros y n H t E. unfold yday. rewrite E. destruct (civil_inv n) as [V N]. destruct (civil n) as [[z m] d]. pose proof (in_year _ _ _ V) as Y. cbn [num] in N. rewrite N in Y.
  now rewrite (year_unique y z n H Y).
Qed.
