(** * Property C129: durations *)
From Coq Require Import ZArith List Bool Lia.
From Verif Require Import PyStr PyErr DtModel DtSpec DtProps DuModel DuSpec.
Import ListNotations.
Local Open Scope Z_scope.

Ltac dm a b := let H := fresh "DM" in let K := fresh "MB" in
  pose proof (Z.div_mod a b ltac:(lia)) as H; pose proof (Z.mod_pos_bound a b ltac:(lia)) as K;
  generalize dependent (a / b); generalize dependent (a mod b); intros.
Lemma new_ok : forall neg y mo d h mi s, 0 <= y -> 0 <= mo -> 0 <= d -> 0 <= h -> 0 <= mi -> 0 <= s ->
  let r := new_duration neg y mo d h mi s in
  normal r /\ negative r = neg /\ 12 * years r + months r = 12 * y + mo /\
  seconds r + 60 * (minutes r + 60 * (hours r + 24 * days r)) = s + 60 * (mi + 60 * (h + 24 * d)).
Proof.
  intros neg y mo d h mi s H1 H2 H3 H4 H5 H6. unfold normal, new_duration. cbn [negative years months days hours minutes seconds]. cbv zeta.
  cbn [negative years months days hours minutes seconds].
  dm s 60. dm mo 12. match goal with |- context [(mi + ?q) / 60] => dm (mi + q) 60 end. match goal with |- context [(h + ?q) / 24] => dm (h + q) 24 end.
  repeat split; lia.
Qed.
(** C129: a duration is written with the largest units and keeps its length. *)
Theorem C129_units : forall neg y mo d h mi s, 0 <= y -> 0 <= mo -> 0 <= d -> 0 <= h -> 0 <= mi -> 0 <= s ->
  let r := new_duration neg y mo d h mi s in
  normal r /\ length_months r = signed neg (12 * y + mo) /\ length_seconds r = signed neg (s + 60 * mi + 3600 * h + 86400 * d).
Proof.
  intros neg y mo d h mi s H1 H2 H3 H4 H5 H6 r. destruct (new_ok neg y mo d h mi s H1 H2 H3 H4 H5 H6) as (A & B & C & D). fold r in A, B, C, D.
  split; [exact A|]. unfold length_months, length_seconds. rewrite B, C, D. split; [reflexivity|]. f_equal. lia.
Qed.
Print Assumptions C129_units.
Lemma loop_sum : forall ds mo s, add_loop ds mo s = (mo + sum (map length_months ds), s + sum (map length_seconds ds)).
Proof.
  intro ds. induction ds as [|d ds IH]; intros mo s; cbn [add_loop map sum fold_right].
  - f_equal; lia.
  - fold (sum (map length_months ds)). fold (sum (map length_seconds ds)). unfold length_months at 1, length_seconds at 1.
    destruct (negative d); cbn [signed]; rewrite IH; f_equal; lia.
Qed.
(** C129: the sum of durations has the sum of their lengths, in months and in seconds. *)
Theorem C129_sum : forall ds d, add_durations ds = Ok d ->
  length_months d = sum (map length_months ds) /\ length_seconds d = sum (map length_seconds ds) /\ normal d.
Proof.
  intros ds d H. unfold add_durations in H. destruct ds as [|d0 ds]; [discriminate H|]. rewrite loop_sum in H. rewrite !Z.add_0_l in H.
  set (M := sum (map length_months (d0 :: ds))) in *. set (S := sum (map length_seconds (d0 :: ds))) in *.
  destruct (((M <? 0) && (0 <? S)) || ((0 <? M) && (S <? 0))) eqn:E; [discriminate H|]. injection H as H. subst d.
  destruct (new_ok ((M <? 0) || (S <? 0)) 0 (Z.abs M) 0 0 0 (Z.abs S)) as (A & B & C & D); try lia.
  unfold length_months, length_seconds. rewrite B, C, D. apply orb_false_iff in E. destruct E as [E1 E2]. rewrite andb_false_iff, !Z.ltb_ge in E1, E2.
  destruct (Z.ltb_spec M 0) as [L|L]; destruct (Z.ltb_spec S 0) as [L2|L2]; cbn [orb signed]; (split; [lia|split; [lia|exact A]]).
Qed.
Print Assumptions C129_sum.
(** C129: there is no sum only if there is nothing to add or the two lengths have different signs. *)
Theorem C129_no_sum : forall ds e, add_durations ds = Err e <-> (e = ValueError /\ (ds = [] \/
  (sum (map length_months ds) < 0 < sum (map length_seconds ds)) \/ (sum (map length_seconds ds) < 0 < sum (map length_months ds)))).
Proof.
  intros ds e. unfold add_durations. destruct ds as [|d0 ds].
  - split; [intro H; injection H as H; subst e; tauto|]. intros [H _]. subst e. reflexivity.
  - rewrite loop_sum, !Z.add_0_l. set (M := sum (map length_months (d0 :: ds))) in *. set (S := sum (map length_seconds (d0 :: ds))) in *.
    destruct (((M <? 0) && (0 <? S)) || ((0 <? M) && (S <? 0))) eqn:E.
    + rewrite orb_true_iff, !andb_true_iff, !Z.ltb_lt in E. split; [intro H; injection H as H; subst e; split; [reflexivity|right; lia]|].
      intros [H _]. subst e. reflexivity.
    + split; [intro H; discriminate H|]. intros [_ [H|H]]; [discriminate H|]. rewrite orb_false_iff, !andb_false_iff, !Z.ltb_ge in E. lia.
Qed.
Print Assumptions C129_no_sum.
(** *** Differences *)
Definition on (d : date) (t : option (Z * Z * Z)) : datetime :=
  let '(y, m, dd) := d in {| year := y; month := Some m; day := Some dd; time := t; timezone := None |}.
Definition in_month (y m : Z) : datetime := {| year := y; month := Some m; day := None; time := None; timezone := None |}.
Lemma after_jul : forall k d e, after k d e -> jul e = jul d + Z.of_nat k.
Proof. intros k d e H. induction H as [d|n d e f A IH N]; [lia|]. apply next_jul in N. lia. Qed.
(** C129: the difference of two dates is the number of days between them. *)
Theorem C129_dates : forall k d e t, after k d e -> exists r r',
  difference (on d None) (on e t) = Ok r /\ length_months r = 0 /\ length_seconds r = 86400 * Z.of_nat k /\
  difference (on e t) (on d None) = Ok r' /\ length_months r' = 0 /\ length_seconds r' = - (86400 * Z.of_nat k) /\ normal r /\ normal r'.
Proof.
  intros k [[y m] d] [[y' m'] d'] t H. apply after_jul in H. cbn [jul] in H. unfold difference, on. cbn [timezone has Bool.eqb negb year month day time].
  set (J := julian_day y m d) in *. set (K := julian_day y' m' d') in *.
  exists (new_duration (K <? J) 0 0 (Z.abs (K - J)) 0 0 0), (new_duration (J <? K) 0 0 (Z.abs (J - K)) 0 0 0).
  destruct (new_ok (K <? J) 0 0 (Z.abs (K - J)) 0 0 0) as (A & B & C & D); try lia.
  destruct (new_ok (J <? K) 0 0 (Z.abs (J - K)) 0 0 0) as (A' & B' & C' & D'); try lia.
  unfold length_months, length_seconds. rewrite B, C, D, B', C', D'.
  split; [reflexivity|]. split; [destruct (K <? J); reflexivity|]. split; [destruct (Z.ltb_spec K J); cbn [signed]; lia|].
  split; [destruct t as [[[? ?] ?]|]; reflexivity|]. split; [destruct (J <? K); reflexivity|]. split; [destruct (Z.ltb_spec J K); cbn [signed]; lia|]. split; assumption.
Qed.
Print Assumptions C129_dates.
Lemma split_seconds : forall neg n, 0 <= n -> let r := new_duration neg 0 0 (n / 60 / 60 / 24) ((n / 60 / 60) mod 24) ((n / 60) mod 60) (n mod 60) in
  normal r /\ length_months r = 0 /\ length_seconds r = signed neg n.
Proof.
  intros neg n H. pose proof (Z.div_mod n 60 ltac:(lia)). pose proof (Z.mod_pos_bound n 60 ltac:(lia)).
  pose proof (Z.div_mod (n / 60) 60 ltac:(lia)). pose proof (Z.mod_pos_bound (n / 60) 60 ltac:(lia)).
  pose proof (Z.div_mod (n / 60 / 60) 24 ltac:(lia)). pose proof (Z.mod_pos_bound (n / 60 / 60) 24 ltac:(lia)).
  destruct (C129_units neg 0 0 (n / 60 / 60 / 24) ((n / 60 / 60) mod 24) ((n / 60) mod 60) (n mod 60)) as (A & B & C); try lia.
  split; [exact A|]. split; [rewrite B; destruct neg; reflexivity|]. rewrite C. f_equal. lia.
Qed.
(** C129: of two dates with times and without time zones, if the later one has the later time or it is the same day. *)
Theorem C129_times_partial : forall k d e t u, after k d e -> clock t -> clock u -> second_of_day t <= second_of_day u \/ k = 0%nat ->
  exists r, difference (on d (Some t)) (on e (Some u)) = Ok r /\ length_months r = 0 /\
    length_seconds r = 86400 * Z.of_nat k + second_of_day u - second_of_day t /\ normal r.
Proof.
  intros k [[y m] d] [[y' m'] d'] [[h mi] s] [[h' mi'] s'] H T U O. apply after_jul in H. cbn [jul] in H. unfold clock in T, U. unfold second_of_day in *.
  unfold difference, on. cbn [timezone has Bool.eqb negb year month day time].
  set (J := julian_day y m d) in *. set (K := julian_day y' m' d') in *. set (n := Z.abs (h' * 3600 + mi' * 60 + s' - (h * 3600 + mi * 60 + s) + (K - J) * 86400)).
  eexists. split; [reflexivity|].
  destruct (split_seconds ((K <? J) || (h' * 3600 + mi' * 60 + s' <? h * 3600 + mi * 60 + s)) n ltac:(lia)) as (A & B & C).
  split; [exact B|]. split; [|exact A]. rewrite C.
  destruct (Z.ltb_spec K J); [lia|]. cbn [orb]. destruct (Z.ltb_spec (h' * 3600 + mi' * 60 + s') (h * 3600 + mi * 60 + s)); cbn [signed]; subst n; lia.
Qed.
Print Assumptions C129_times_partial.
Theorem C129_times_back_partial : forall k d e t u, after (S k) d e -> clock t -> clock u ->
  exists r, difference (on e (Some u)) (on d (Some t)) = Ok r /\ length_months r = 0 /\
    length_seconds r = - (86400 * Z.of_nat (S k) + second_of_day u - second_of_day t) /\ normal r.
Proof.
  intros k [[y m] d] [[y' m'] d'] [[h mi] s] [[h' mi'] s'] H T U. apply after_jul in H. cbn [jul] in H. unfold clock in T, U. unfold second_of_day in *.
  unfold difference, on. cbn [timezone has Bool.eqb negb year month day time].
  set (J := julian_day y m d) in *. set (K := julian_day y' m' d') in *. set (n := Z.abs (h * 3600 + mi * 60 + s - (h' * 3600 + mi' * 60 + s') + (J - K) * 86400)).
  eexists. split; [reflexivity|].
  destruct (split_seconds ((J <? K) || (h * 3600 + mi * 60 + s <? h' * 3600 + mi' * 60 + s')) n ltac:(lia)) as (A & B & C).
  split; [exact B|]. split; [|exact A]. rewrite C. destruct (Z.ltb_spec J K); [|lia]. cbn [orb signed]. subst n. lia.
Qed.
Print Assumptions C129_times_back_partial.
(** C129: of two months, unless the later one has the smaller number. *)
Theorem C129_months_partial : forall y m y' m', 1 <= m <= 12 -> 1 <= m' <= 12 -> y' <= y \/ m <= m' ->
  exists r, difference (in_month y m) (in_month y' m') = Ok r /\ length_months r = 12 * (y' - y) + (m' - m) /\ length_seconds r = 0 /\ normal r.
Proof.
  intros y m y' m' H H' O. unfold difference, in_month. cbn [timezone has Bool.eqb negb year month day time].
  set (n := Z.abs (m' - m + (y' - y) * 12)). eexists. split; [reflexivity|].
  pose proof (Z.div_mod n 12 ltac:(lia)). pose proof (Z.mod_pos_bound n 12 ltac:(lia)).
  destruct (C129_units ((y' <? y) || (m' <? m)) (n / 12) (n mod 12) 0 0 0 0) as (A & B & C); try lia.
  split; [|split; [rewrite C; destruct ((y' <? y) || (m' <? m)); reflexivity|exact A]]. rewrite B.
  replace (12 * (n / 12) + n mod 12) with n by lia. destruct (Z.ltb_spec y' y); cbn [orb signed]; [lia|]. destruct (Z.ltb_spec m' m); cbn [signed]; lia.
Qed.
Print Assumptions C129_months_partial.
(** C129: if one of the two is only a year, the difference is in years. *)
Theorem C129_years : forall start e, timezone start = None -> timezone e = None -> month start = None \/ month e = None ->
  exists r, difference start e = Ok r /\ length_months r = 12 * (year e - year start) /\ length_seconds r = 0 /\ normal r.
Proof.
  intros start e H1 H2 O. exists (new_duration (year e <? year start) (Z.abs (year e - year start)) 0 0 0 0 0).
  destruct (C129_units (year e <? year start) (Z.abs (year e - year start)) 0 0 0 0 0) as (A & B & C); try lia.
  split; [unfold difference; rewrite H1, H2; cbn [has Bool.eqb negb]; destruct (month start), (month e); try reflexivity; destruct O as [O|O]; discriminate O|].
  split; [rewrite B; destruct (Z.ltb_spec (year e) (year start)); cbn [signed]; lia|]. split; [rewrite C; destruct (year e <? year start); reflexivity|exact A].
Qed.
Print Assumptions C129_years.
(** C129 is false of the code: the sign is wrong for every later year with a smaller month, and for every later day with an earlier time. *)
Theorem C129_months_refuted : forall y m y' m', 1 <= m <= 12 -> 1 <= m' <= 12 -> y < y' -> m' < m ->
  exists r, difference (in_month y m) (in_month y' m') = Ok r /\ length_months r = - (12 * (y' - y) + (m' - m)) /\ length_months r < 0.
Proof.
  intros y m y' m' H H' L1 L2. unfold difference, in_month. cbn [timezone has Bool.eqb negb year month day time].
  set (n := Z.abs (m' - m + (y' - y) * 12)). eexists. split; [reflexivity|].
  pose proof (Z.div_mod n 12 ltac:(lia)). pose proof (Z.mod_pos_bound n 12 ltac:(lia)).
  destruct (C129_units ((y' <? y) || (m' <? m)) (n / 12) (n mod 12) 0 0 0 0) as (A & B & C); try lia. rewrite B.
  replace (12 * (n / 12) + n mod 12) with n by lia. destruct (Z.ltb_spec m' m); [|lia]. rewrite orb_true_r. cbn [signed]. lia.
Qed.
Print Assumptions C129_months_refuted.
Theorem C129_times_refuted : forall k d e t u, after (S k) d e -> clock t -> clock u -> second_of_day u < second_of_day t ->
  exists r, difference (on d (Some t)) (on e (Some u)) = Ok r /\
    length_seconds r = - (86400 * Z.of_nat (S k) + second_of_day u - second_of_day t) /\ length_seconds r < 0.
Proof.
  intros k [[y m] d] [[y' m'] d'] [[h mi] s] [[h' mi'] s'] H T U O. apply after_jul in H. cbn [jul] in H. unfold clock in T, U. unfold second_of_day in *.
  unfold difference, on. cbn [timezone has Bool.eqb negb year month day time].
  set (J := julian_day y m d) in *. set (K := julian_day y' m' d') in *. set (n := Z.abs (h' * 3600 + mi' * 60 + s' - (h * 3600 + mi * 60 + s) + (K - J) * 86400)).
  eexists. split; [reflexivity|].
  destruct (split_seconds ((K <? J) || (h' * 3600 + mi' * 60 + s' <? h * 3600 + mi * 60 + s)) n ltac:(lia)) as (A & B & C). rewrite C.
  destruct (Z.ltb_spec (h' * 3600 + mi' * 60 + s') (h * 3600 + mi * 60 + s)); [|lia]. rewrite orb_true_r. cbn [signed]. subst n. lia.
Qed.
Print Assumptions C129_times_refuted.
(** C129 is false with time zones: noon in Greenwich and one o'clock an hour east of it are the same time, but differ by two hours. *)
Theorem C129_zones_refuted : exists r,
  difference {| year := 2001; month := Some 1; day := Some 1; time := Some (12, 0, 0); timezone := Some 0 |}
             {| year := 2001; month := Some 1; day := Some 1; time := Some (13, 0, 0); timezone := Some 60 |} = Ok r /\ length_seconds r = 7200.
Proof. eexists. split; [vm_compute; reflexivity|]. reflexivity. Qed.
Print Assumptions C129_zones_refuted.
Example C129_case :
  add_durations [new_duration false 1 2 3 0 0 0; new_duration true 0 1 0 0 0 1] = Ok (new_duration false 1 1 2 23 59 59) /\
  (exists e, add_durations [new_duration false 0 1 0 0 0 0; new_duration true 0 0 1 0 0 0] = Err e) /\
  after 1 (2000, 12, 31) (2000 + 1, 1, 1) /\ clock (12, 0, 0) /\
  difference (on (2000, 12, 31) (Some (12, 0, 0))) (on (2001, 1, 1) (Some (12, 0, 1))) = Ok (new_duration false 0 0 1 0 0 1).
Proof.
  split; [vm_compute; reflexivity|]. split; [eexists; vm_compute; reflexivity|]. split; [exact (after_S _ _ _ _ (after_0 _) (next_year 2000))|].
  split; [cbn [clock]; lia|]. vm_compute. reflexivity.
Qed.
