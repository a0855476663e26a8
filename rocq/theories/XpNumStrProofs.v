(** * Proofs about string() of a number *)
From Coq Require Import NArith ZArith QArith Qround Qabs Qpower Lqa String List Bool Lia.
From Verif Require Import PyStr PyErr SerModel SerStream XpNum XpNumSpec XpNumLemmas XpFuncs XpFuncSpec XpFuncNum XpFuncCmp XpNumStr XpNumStrSpec.
Import ListNotations.
Local Open Scope Q_scope.

(** ** Powers of ten *)
Lemma ten_nz : ~ (10 # 1) == 0.
Proof. discriminate. Qed.
Lemma ten_pos e : 0 < ten_to e.
Proof. apply Qpower_0_lt. reflexivity. Qed.
Lemma ten_plus a b : ten_to (a + b) == ten_to a * ten_to b.
Proof. apply Qpower_plus, ten_nz. Qed.
Lemma ten_int e : (0 <= e)%Z -> ten_to e == inject_Z (10 ^ e).
Proof. intros H. unfold ten_to. rewrite <- (Zpower_Qpower 10 e H). reflexivity. Qed.
Lemma ten_lt a b : (a < b)%Z -> ten_to a < ten_to b.
Proof.
  intros H. replace b with (a + (b - a))%Z by lia. rewrite ten_plus. assert (1 < ten_to (b - a)).
  { rewrite ten_int by lia. change 1 with (inject_Z 1). apply inj_lt. apply (Z.pow_gt_1 10 (b - a)); lia. }
  pose proof (ten_pos a). nra.
Qed.
Lemma ten_le a b : (a <= b)%Z -> ten_to a <= ten_to b.
Proof. intros H. destruct (Z.eq_dec a b) as [->|N]; [apply Qle_refl|]. apply Qlt_le_weak, ten_lt. lia. Qed.
Lemma ten_lt_inv a b : ten_to a < ten_to b -> (a < b)%Z.
Proof. intros H. destruct (Z_lt_le_dec a b) as [L|L]; [exact L|]. apply ten_le in L. exfalso. lra. Qed.
Lemma ten_opp e : ten_to (- e) * ten_to e == 1.
Proof. rewrite <- ten_plus. replace (- e + e)%Z with 0%Z by lia. reflexivity. Qed.

Lemma zlog10_ok z : (1 <= z)%Z -> (0 <= zlog10 z /\ 10 ^ zlog10 z <= z < 10 ^ (zlog10 z + 1))%Z.
Proof.
  intros H. unfold zlog10. assert (forall f z, 1 <= z -> z < 2 ^ Z.of_nat f -> 0 <= zlog10_loop f z /\ 10 ^ zlog10_loop f z <= z < 10 ^ (zlog10_loop f z + 1))%Z as L.
  { clear. induction f as [|f IH]; intros z H B; [cbn in B; lia|]. cbn [zlog10_loop]. destruct (Z.ltb_spec z 10); [cbn; lia|].
    rewrite Nat2Z.inj_succ, Z.pow_succ_r in B by lia. assert (1 <= z / 10)%Z by (apply Z.div_le_lower_bound; lia).
    assert (z / 10 < 2 ^ Z.of_nat f)%Z by (apply Z.div_lt_upper_bound; lia).
    destruct (IH (z / 10)%Z) as [I1 [I2 I3]]; [assumption|assumption|]. set (k := zlog10_loop f (z / 10)) in *.
    pose proof (Z.div_mod z 10 ltac:(lia)). pose proof (Z.mod_pos_bound z 10 ltac:(lia)).
    replace (10 ^ (1 + k))%Z with (10 * 10 ^ k)%Z by (rewrite Z.pow_add_r by lia; reflexivity).
    replace (10 ^ (1 + k + 1))%Z with (10 * 10 ^ (k + 1))%Z by (rewrite <- Z.pow_succ_r by lia; f_equal; lia).
    split; [lia|]. split; lia. }
  apply L; [exact H|]. rewrite Nat2Z.inj_succ, Z2Nat.id by apply Z.log2_nonneg. apply Z.log2_spec. lia.
Qed.
Lemma log10_floor_ok a : 0 < a -> ten_to (log10_floor a) <= a /\ a < ten_to (log10_floor a + 1).
Proof.
  intros P. unfold log10_floor. destruct (Qle_bool 1 a) eqn:L.
  - apply Qle_bool_iff in L. assert (1 <= Qfloor a)%Z as Fl. { rewrite <- (Qfloor_Z 1). apply Qfloor_resp_le. exact L. }
    destruct (zlog10_ok _ Fl) as [K [A B]]. rewrite !ten_int by lia. pose proof (Qfloor_le a). pose proof (Qlt_floor a). split.
    + eapply Qle_trans; [apply inj_le; exact A|]. assumption.
    + eapply Qlt_le_trans; [exact H0|]. apply inj_le. lia.
  - assert (a < 1) as L1. { apply Qnot_le_lt. intros C. apply Qle_bool_iff in C. congruence. }
    assert (a * / a == 1) as I by (apply Qmult_inv_r; lra). pose proof (Qinv_lt_0_compat a P) as IP. assert (1 < / a) as IA by (generalize dependent (/ a); intros b I IP; clear -P L1 I IP; nra).
    pose proof (Qle_ceiling (/ a)) as C1. pose proof (Qceiling_lt (/ a)) as C2. set (c := Qceiling (/ a)) in *.
    assert (1 <= c - 1)%Z as C3. { assert (inject_Z 1 < inject_Z c) as X by (change (inject_Z 1) with 1; eapply Qlt_le_trans; eauto). rewrite <- Zlt_Qlt in X. lia. }
    destruct (zlog10_ok _ C3) as [K [A B]]. set (j := zlog10 (c - 1)) in *.
    assert (ten_to j < / a) as B1. { rewrite ten_int by lia. eapply Qle_lt_trans; [apply inj_le; exact A|exact C2]. }
    assert (/ a <= ten_to (j + 1)) as B2. { rewrite ten_int by lia. eapply Qle_trans; [exact C1|]. apply inj_le. lia. }
    replace (- (j + 1) + 1)%Z with (- j)%Z by lia. pose proof (ten_opp j) as O1. pose proof (ten_opp (j + 1)) as O2. pose proof (ten_pos j). pose proof (ten_pos (j + 1)). pose proof (ten_pos (- j)). pose proof (ten_pos (- (j + 1))).
    split.
    + setoid_replace (ten_to (- (j + 1))) with (a * (/ a * ten_to (- (j + 1)))) by (rewrite Qmult_assoc, I; ring). assert (/ a * ten_to (- (j + 1)) <= 1) by nra. nra.
    + setoid_replace (ten_to (- j)) with (a * (/ a * ten_to (- j))) by (rewrite Qmult_assoc, I; ring). assert (1 < / a * ten_to (- j)) by nra. nra.
Qed.
Lemma half_even_int_bounds y lo hi : inject_Z lo <= y -> y < inject_Z hi -> (lo <= half_even y <= hi)%Z.
Proof.
  intros A B. destruct (half_even_spec y) as [H1 [H2 _]]. set (m := half_even y) in *. split.
  - assert (inject_Z (lo - 1) < inject_Z m) as X. { rewrite Z.sub_1_r, <- Z.sub_1_r. unfold Z.sub. rewrite inject_Z_plus. cbn -[inject_Z]. change (inject_Z (-1)) with (-1). lra. } rewrite <- Zlt_Qlt in X. lia.
  - assert (inject_Z m < inject_Z (hi + 1)) as X. { rewrite inject_Z_plus. change (inject_Z 1) with 1. lra. } rewrite <- Zlt_Qlt in X. lia.
Qed.
Lemma round12_ok a d x : 0 < a -> round12 a = (d, x) ->
  (10 ^ 11 <= d < 10 ^ 12)%Z /\ inject_Z d * ten_to (x - 11) == inject_Z (half_even (a * ten_to (11 - log10_floor a))) * ten_to (log10_floor a - 11) /\
  ((x = log10_floor a /\ d = half_even (a * ten_to (11 - log10_floor a))) \/ (x = log10_floor a + 1 /\ d = 10 ^ 11 /\ half_even (a * ten_to (11 - log10_floor a)) = 10 ^ 12)%Z).
Proof.
  intros P. unfold round12. destruct (log10_floor_ok a P) as [L1 L2]. set (k := log10_floor a) in *. set (y := a * ten_to (11 - k)).
  pose proof (ten_pos (11 - k)). assert (inject_Z (10 ^ 11) <= y) as Y1.
  { rewrite <- (ten_int 11) by lia. replace 11%Z with (k + (11 - k))%Z at 1 by lia. rewrite ten_plus. unfold y. nra. }
  assert (y < inject_Z (10 ^ 12)) as Y2.
  { rewrite <- (ten_int 12) by lia. replace 12%Z with ((k + 1) + (11 - k))%Z at 1 by lia. rewrite ten_plus. unfold y. nra. }
  pose proof (half_even_int_bounds y _ _ Y1 Y2) as B. destruct (Z.eqb_spec (half_even y) (10 ^ 12)) as [E|N]; intros [= <- <-].
  - split; [lia|]. split; [|right; auto]. rewrite E. replace (k + 1 - 11)%Z with (1 + (k - 11))%Z by lia. rewrite ten_plus. replace (10 ^ 12)%Z with (10 ^ 11 * 10)%Z by reflexivity. rewrite (inject_Z_mult (10 ^ 11) 10), (ten_int 1) by lia.
    change (Z.pow_pos 10 11) with (10 ^ 11)%Z. change (10 ^ 1)%Z with 10%Z. generalize (inject_Z (10 ^ 11)), (inject_Z 10), (ten_to (k - 11)). intros u v w. ring.
  - split; [lia|]. split; [reflexivity|left; auto].
Qed.
Lemma round12_error a d x : 0 < a -> round12 a = (d, x) -> Qabs (inject_Z d * ten_to (x - 11) - a) <= (1 # 2) * ten_to (log10_floor a - 11).
Proof.
  intros P R. destruct (round12_ok a d x P R) as [_ [E _]]. rewrite E. set (k := log10_floor a). set (y := a * ten_to (11 - k)). destruct (half_even_spec y) as [H1 [H2 _]].
  assert (a == y * ten_to (k - 11)) as A. { unfold y. rewrite <- Qmult_assoc, <- ten_plus. replace (11 - k + (k - 11))%Z with 0%Z by lia. change (ten_to 0) with 1. ring. }
  rewrite A at 1. pose proof (ten_pos (k - 11)). apply Qabs_case; intros; nra.
Qed.

(** ** Digits *)
Lemma decimal_app a b : decimal (a ++ b) = (decimal a * 10 ^ Z.of_nat (List.length b) + decimal b)%Z.
Proof.
  induction a as [|c a IH]; cbn [app decimal]; [lia|]. rewrite IH, app_length, Nat2Z.inj_add, Z.pow_add_r by lia. ring.
Qed.
Lemma decimal_bound s : Forall digit s -> (0 <= decimal s < 10 ^ Z.of_nat (List.length s))%Z.
Proof.
  induction 1 as [|c s D H IH]; [cbn; lia|]. cbn [decimal List.length]. rewrite Nat2Z.inj_succ, Z.pow_succ_r by lia. unfold digit in D. nia.
Qed.
Lemma fixed_app : forall n z acc, fixed_digits n z acc = fixed_digits n z [] ++ acc.
Proof.
  induction n as [|n IH]; intros z acc; cbn [fixed_digits]; [reflexivity|]. rewrite IH, (IH _ [_]), <- app_assoc. reflexivity.
Qed.
Lemma fixed_length n z : List.length (fixed_digits n z []) = n.
Proof. revert z. induction n as [|n IH]; intros z; cbn [fixed_digits]; [reflexivity|]. rewrite fixed_app, app_length, IH. cbn. lia. Qed.
Lemma fixed_digit : forall n z, Forall digit (fixed_digits n z []).
Proof.
  induction n as [|n IH]; intros z; cbn [fixed_digits]; [constructor|]. rewrite fixed_app. apply Forall_app. split; [apply IH|]. constructor; [|constructor].
  pose proof (Z.mod_pos_bound z 10 ltac:(lia)). unfold digit. lia.
Qed.
Lemma fixed_decimal : forall n z, (0 <= z)%Z -> decimal (fixed_digits n z []) = (z mod 10 ^ Z.of_nat n)%Z.
Proof.
  induction n as [|n IH]; intros z H; cbn [fixed_digits]; [cbn; now rewrite Z.mod_1_r|]. rewrite fixed_app, decimal_app, IH by (apply Z.div_pos; lia).
  rewrite Nat2Z.inj_succ, Z.pow_succ_r by lia. cbn [decimal List.length]. pose proof (Z.mod_pos_bound z 10 ltac:(lia)). rewrite Z.rem_mul_r by lia. change (Z.of_nat 0) with 0%Z. change (Z.of_nat 1) with 1%Z.
  rewrite Z.pow_0_r, Z.pow_1_r. lia.
Qed.
Lemma no_leading_zero s r : Forall digit s -> (10 ^ (Z.of_nat (List.length s) - 1) <= decimal s)%Z -> s = 48%N :: r -> False.
Proof.
  intros D B ->. cbn [decimal List.length] in B. inversion D; subst. pose proof (decimal_bound r H2). replace (Z.of_nat (S (List.length r)) - 1)%Z with (Z.of_nat (List.length r)) in B by lia. lia.
Qed.
Lemma skip_parts (p : N -> bool) s : exists a, s = a ++ skip p s /\ forallb p a = true /\ match skip p s with [] => True | c :: _ => p c = false end.
Proof.
  unfold skip. destruct (span_parts p s) as [a [b [E [EQ [A B]]]]]. rewrite E. cbn [snd]. exists a. split; [exact EQ|]. split; [exact A|]. destruct b; [exact I|]. now destruct (p n).
Qed.
Lemma strip_ok s : exists k, s = strip_zeros s ++ repeat 48%N k /\ forall f, strip_zeros s <> f ++ [48%N].
Proof.
  unfold strip_zeros. destruct (skip_parts (fun c => (c =? 48)%N) (rev s)) as [a [E [A B]]]. set (b := skip _ (rev s)) in *.
  assert (a = repeat 48%N (List.length a)) as R. { clear -A. induction a as [|c a IH]; [reflexivity|]. cbn in *. apply andb_prop in A. destruct A as [C A]. apply N.eqb_eq in C. subst c. f_equal. auto. }
  exists (List.length a). split.
  - rewrite <- (rev_involutive s), E, rev_app_distr. f_equal. rewrite R at 1. clear. induction (List.length a) as [|n IH]; [reflexivity|]. cbn [repeat rev]. rewrite IH. clear. induction n as [|n IH]; [reflexivity|]. cbn. now rewrite IH.
  - intros f H. apply (f_equal (@rev N)) in H. rewrite rev_involutive, rev_app_distr in H. rewrite H in B. discriminate B.
Qed.
Lemma decimal_zeros k : decimal (repeat 48%N k) = 0%Z.
Proof. induction k as [|k IH]; [reflexivity|]. cbn [repeat decimal]. rewrite IH. lia. Qed.
Lemma inj_pow_pos k : (0 <= k)%Z -> 0 < inject_Z (10 ^ k).
Proof. intros H. rewrite <- ten_int by exact H. apply ten_pos. Qed.

(** A figure without sign: [decimal_form] of a positive number. *)
Lemma with_fraction_form ip fp q : Forall digit ip -> Forall digit fp -> ip <> [] -> (forall r, ip = 48%N :: r -> r = []) ->
  q == inject_Z (decimal (ip ++ fp)) / inject_Z (10 ^ Z.of_nat (List.length fp)) -> forall negative, (negative = true <-> (if negative then - q else q) < 0) ->
  decimal_form ((if negative then [45%N] else []) ++ with_fraction ip fp) (if negative then - q else q).
Proof.
  intros DI DF NE LZ V ng NG. destruct (strip_ok fp) as [k [E S]]. exists ng, ip, (strip_zeros fp). split.
  { unfold figure, with_fraction. f_equal. destruct (strip_zeros fp); [now rewrite app_nil_r|reflexivity]. }
  assert (Forall digit (strip_zeros fp)) as DS by (rewrite E in DF; apply Forall_app in DF; tauto).
  split; [exact DI|]. split; [exact DS|]. split; [exact NE|]. split; [exact LZ|]. split; [exact S|]. split; [|exact NG].
  assert (q == inject_Z (decimal (ip ++ strip_zeros fp)) / inject_Z (10 ^ Z.of_nat (List.length (strip_zeros fp)))) as W.
  { rewrite V. rewrite E at 1 2. rewrite app_assoc, (decimal_app (ip ++ _)), decimal_zeros, app_length, repeat_length, Nat2Z.inj_add, Z.pow_add_r, Z.add_0_r, !inject_Z_mult by lia.
    pose proof (inj_pow_pos (Z.of_nat k) ltac:(lia)). pose proof (inj_pow_pos (Z.of_nat (List.length (strip_zeros fp))) ltac:(lia)). field. split; lra. }
  cbv zeta. destruct ng; rewrite W; reflexivity.
Qed.
Lemma layout_form d x negative : (10 ^ 11 <= d < 10 ^ 12)%Z -> (-4 <= x < 12)%Z -> (negative = true <-> (if negative then - (inject_Z d * ten_to (x - 11)) else inject_Z d * ten_to (x - 11)) < 0) ->
  decimal_form ((if negative then [45%N] else []) ++ layout12 d x) (if negative then - (inject_Z d * ten_to (x - 11)) else inject_Z d * ten_to (x - 11)).
Proof.
  intros D X NG. unfold layout12. replace ((-4 <=? x)%Z && (x <? 12)%Z) with true by (symmetry; apply andb_true_intro; split; [apply Z.leb_le|apply Z.ltb_lt]; lia).
  set (ds := fixed_digits 12 d []). assert (decimal ds = d) as DD. { unfold ds. rewrite fixed_decimal by lia. apply Z.mod_small. change (Z.of_nat 12) with 12%Z. lia. }
  assert (List.length ds = 12%nat) as LD by apply fixed_length. assert (Forall digit ds) as FD by apply fixed_digit.
  assert (forall m, (0 <= m)%Z -> ten_to (- m) == / inject_Z (10 ^ m)) as TI.
  { intros m M. pose proof (ten_opp m) as O. rewrite (ten_int m M) in O. pose proof (inj_pow_pos m M). rewrite <- (Qmult_1_l (/ _)), <- O. field. lra. }
  destruct (Z.leb_spec 0 x) as [P|P].
  - set (k := Z.to_nat (x + 1)). assert (k <= 12)%nat by lia.
    assert (firstn k ds ++ skipn k ds = ds) as SP by apply firstn_skipn.
    apply with_fraction_form; auto.
    + rewrite <- SP in FD. apply Forall_app in FD. tauto.
    + rewrite <- SP in FD. apply Forall_app in FD. tauto.
    + intros E. apply (f_equal (@List.length N)) in E. rewrite firstn_length in E. cbn in E. lia.
    + intros r R. exfalso. apply (no_leading_zero ds (r ++ skipn k ds) FD); [rewrite DD, LD; exact (proj1 D)|]. rewrite <- SP at 1. now rewrite R.
    + rewrite SP, DD, skipn_length, LD. replace (Z.of_nat (12 - k)) with (11 - x)%Z by lia. replace (x - 11)%Z with (- (11 - x))%Z by lia. rewrite TI by lia. reflexivity.
  - set (k := Z.to_nat (- x - 1)). apply with_fraction_form; auto.
    + repeat constructor; discriminate.
    + apply Forall_app. split; [|exact FD]. apply Forall_forall. intros c C. apply repeat_spec in C. subst c. split; discriminate.
    + discriminate.
    + intros r [= <-]. reflexivity.
    + rewrite app_length, repeat_length, LD. change ([48%N] ++ repeat 48%N k ++ ds) with (repeat 48%N (S k) ++ ds). rewrite decimal_app, decimal_zeros, DD, Z.mul_0_l, Z.add_0_l.
      replace (Z.of_nat (k + 12)) with (11 - x)%Z by lia. replace (x - 11)%Z with (- (11 - x))%Z by lia. rewrite TI by lia. reflexivity.
Qed.
Lemma layout_sign q d x : 0 < Qabs q -> round12 (Qabs q) = (d, x) -> (-4 <= x < 12)%Z ->
  exists r, decimal_form (print_g12 q) r /\ r == (if Qle_bool 0 q then inject_Z d * ten_to (x - 11) else - (inject_Z d * ten_to (x - 11))) /\ Qabs r == inject_Z d * ten_to (x - 11).
Proof.
  intros P R X. unfold print_g12. rewrite R. destruct (round12_ok _ d x P R) as [D _]. assert (0 < inject_Z d * ten_to (x - 11)) as PV.
  { pose proof (ten_pos (x - 11)). assert (0 < inject_Z d) by (change 0 with (inject_Z 0); apply inj_lt; lia). nra. }
  set (w := inject_Z d * ten_to (x - 11)) in *. destruct (Qle_bool 0 q).
  - exists w. split; [apply (layout_form d x false D X); split; [discriminate|intros H; exfalso; fold w in H; lra]|]. split; [reflexivity|]. apply Qabs_pos. lra.
  - exists (- w). split; [apply (layout_form d x true D X); split; [intros _; fold w; lra|reflexivity]|]. split; [reflexivity|]. rewrite Qabs_opp. apply Qabs_pos. lra.
Qed.

(** ** Integers *)
Lemma dec_loop_ok : forall f n, (n < 10 ^ N.of_nat f)%N -> (0 < f)%nat -> decimal (dec_loop f n []) = Z.of_N n /\ forall r, dec_loop f n [] = 48%N :: r -> r = [].
Proof.
  induction f as [|f IH]; intros n Hn Hf; [lia|]. cbn [dec_loop]. assert (n mod 10 < 10)%N as M by (apply N.mod_lt; lia). destruct (N.ltb_spec n 10) as [L|L].
  - rewrite N.mod_small by exact L. split; [cbn [decimal List.length]; change (Z.of_nat 0) with 0%Z; rewrite Z.pow_0_r; lia|]. intros r [= _ <-]. reflexivity.
  - pose proof (N.div_mod n 10 ltac:(lia)) as DM. set (d := (n / 10)%N) in *. set (m := (n mod 10)%N) in *.
    assert (d < 10 ^ N.of_nat f)%N as B. { apply N.div_lt_upper_bound; [lia|]. rewrite Nat2N.inj_succ, N.pow_succ_r' in Hn. exact Hn. }
    assert (0 < f)%nat as Hf2 by (destruct f; [cbn in Hn; lia|lia]). destruct (IH d B Hf2) as [E Z0]. rewrite dec_loop_app. split.
    + rewrite decimal_app, E. cbn [decimal List.length]. change (Z.of_nat 0) with 0%Z. change (Z.of_nat 1) with 1%Z. rewrite Z.pow_0_r, Z.pow_1_r. lia.
    + intros r R. exfalso. destruct (dec_loop f d []) as [|c s] eqn:DL; [cbn in E; lia|]. injection R as -> _. rewrite (Z0 s eq_refl) in E. cbn in E. lia.
Qed.
Lemma print_int_form z : decimal_form (print_int z) (inject_Z z).
Proof.
  destruct (dec_loop_ok (S (N.size_nat (Z.to_N (Z.abs z)))) (Z.to_N (Z.abs z)) (size_bound _) ltac:(lia)) as [E Z0]. unfold print_int. exists (z <? 0)%Z, (dec_str (Z.to_N (Z.abs z))), [].
  split; [unfold figure; now rewrite app_nil_r|]. split; [apply dec_str_digits|]. split; [constructor|]. split; [apply dec_str_nonempty|]. split; [exact Z0|]. split; [intros [|? f]; discriminate|].
  assert (decimal (dec_str (Z.to_N (Z.abs z))) = Z.abs z) as D by (unfold dec_str; rewrite E; lia). split.
  - cbv zeta. rewrite app_nil_r, D. cbn [List.length]. change (10 ^ Z.of_nat 0)%Z with 1%Z. destruct (Z.ltb_spec z 0).
    + rewrite Z.abs_neq by lia. rewrite inject_Z_opp. change (inject_Z 1) with 1. field.
    + rewrite Z.abs_eq by lia. change (inject_Z 1) with 1. field.
  - split.
    + intros H. apply Z.ltb_lt in H. change 0 with (inject_Z 0). now apply inj_lt.
    + intros H. apply Z.ltb_lt. apply inj_lt_inv. exact H.
Qed.

(** ** Reading it back *)
Lemma form_numeral v q : decimal_form v q -> numeral v q.
Proof.
  intros [ng [ip [fp [-> [DI [DF [NE [_ [_ [V _]]]]]]]]]]. exists [], ng, ip, (match fp with [] => false | _ => true end), fp, []. rewrite app_nil_r. split; [reflexivity|]. split; [constructor|]. split; [constructor|].
  split; [split; [exact DI|split; [exact DF|destruct fp; [reflexivity|discriminate]]]|]. split; [|exact V]. intros E. apply app_eq_nil in E. tauto.
Qed.
Lemma form_comp v q q' : q == q' -> decimal_form v q -> decimal_form v q'.
Proof.
  intros E [ng [ip [fp [A [B [C [D [F [G [V N]]]]]]]]]]. exists ng, ip, fp. repeat (split; [assumption|]). split; [cbv zeta in *; now rewrite <- E|]. now rewrite <- E.
Qed.
Lemma form_number v q n : decimal_form v q -> rounds_to q n -> exists m, number_function (VStr v) = Ok m /\ same_number m n.
Proof.
  intros Fm R. destruct (numeral_from v q (form_numeral v q Fm)) as [q0 [E H]]. exists (number_new (rnd q0)). split; [exact H|].
  eapply (rounds_unique q0 q); [now symmetry| |exact R]. apply rounds_collapse, rnd_rounds.
Qed.
Lemma rounds_self q : representable q -> rounds_to q (NFin q).
Proof.
  intros R. cbn. split; [now apply representable_small|]. split; [exact R|]. assert (Qabs (q - q) == 0) as Z by (setoid_replace (q - q) with 0 by ring; reflexivity). split.
  - intros s _. rewrite Z. apply Qabs_nonneg.
  - intros s _ E. left. rewrite Z in E. revert E. apply Qabs_case; intros; lra.
Qed.

(** ** Decimals of at most 12 digits *)
Lemma nearest_error r q : (1 # 10000) <= Qabs r -> Qabs r < inject_Z (10 ^ 12) -> nearest r q -> Qabs (r - q) <= Qabs r * two_to (-53).
Proof.
  intros L U [_ [N _]]. set (a := Qabs r) in *. assert (0 < a) as Pa by lra.
  assert (exists s, nearest a s /\ Qabs (a - s) <= a * two_to (-53)) as [s [S E]].
  { set (m := significand a). set (u := two_to (exponent a)). destruct (m_spec a) as [M1 [M2 _]]. pose proof (ax a) as AX. pose proof (Pu a) as PU. fold u in M1, M2, AX, PU. fold m in M1, M2.
    assert (-1074 < exponent a)%Z as EX. { unfold exponent. destruct (log2_floor_spec a Pa) as [_ B]. assert (-100 < log2_floor a + 1)%Z; [|lia]. apply two_lt_inv. eapply Qlt_trans; [|exact B]. eapply Qlt_le_trans; [|exact L]. reflexivity. }
    pose proof (x_lower a Pa EX) as XL. fold u in XL. set (x := a / u) in *.
    assert (Qabs (a - inject_Z m * u) <= a * two_to (-53)) as ER.
    { assert (u <= a * two_to (-52)) as UB. { rewrite AX at 1. assert (two_to 52 * two_to (-52) == 1) as O by (rewrite <- two_plus; reflexivity). pose proof (two_pos (-52)). assert (1 <= x * two_to (-52)) by nra. nra. }
      assert (two_to (-52) == 2 * two_to (-53)) as T by reflexivity. rewrite T in UB. setoid_replace (a - inject_Z m * u) with ((x - inject_Z m) * u) by (rewrite AX at 1; ring). apply Qabs_case; intros; nra. }
    exists (inject_Z m * u). split; [|exact ER]. apply (r_nearest a Pa). change (inject_Z m * u < two_to 1024).
    assert (inject_Z m * u < 2 * inject_Z (10 ^ 12)) as B. { assert (two_to (-53) < 1) by reflexivity. revert ER. apply Qabs_case; intros; nra. }
    eapply Qlt_trans; [exact B|]. reflexivity. }
  destruct S as [RS _]. destruct (qabs_or r) as [[P Q]|[P Q]]; fold a in Q.
  - eapply Qle_trans; [apply (N s RS)|]. eapply Qle_trans; [|exact E]. rewrite Q. apply Qle_refl.
  - eapply Qle_trans; [apply (N (- s) (representable_opp s RS))|]. eapply Qle_trans; [|exact E]. setoid_replace (r - - s) with (- (a - s)) by (rewrite Q; ring). rewrite Qabs_opp. apply Qle_refl.
Qed.
Lemma half_even_near y n : Qabs (y - inject_Z n) < 1 # 2 -> half_even y = n.
Proof.
  intros H. destruct (half_even_spec y) as [H1 [H2 _]]. set (m := half_even y) in *. assert (inject_Z (n - 1) < inject_Z m /\ inject_Z m < inject_Z (n + 1)) as [A B].
  { unfold Z.sub. rewrite !inject_Z_plus. change (inject_Z (- (1))) with (- (1)). change (inject_Z 1) with 1. revert H. apply Qabs_case; intros; lra. }
  apply inj_lt_inv in A, B. lia.
Qed.
Lemma log10_unique a k : ten_to k <= a -> a < ten_to (k + 1) -> log10_floor a = k.
Proof.
  intros A B. pose proof (ten_pos k). destruct (log10_floor_ok a ltac:(lra)) as [C D]. assert (log10_floor a < k + 1)%Z by (apply ten_lt_inv; lra). assert (k < log10_floor a + 1)%Z by (apply ten_lt_inv; lra). lia.
Qed.
(** [n * 10^e] is recovered from a number close to it. *)
Lemma round12_near a n e : (10 ^ 11 <= n < 10 ^ 12)%Z -> Qabs (inject_Z n * ten_to e - a) <= inject_Z n * ten_to e * two_to (-53) -> round12 a = (n, e + 11)%Z.
Proof.
  intros B E. pose proof (ten_pos e) as Pe. set (y := a * ten_to (- e)). assert (a == y * ten_to e) as A. { unfold y. rewrite <- Qmult_assoc, ten_opp. ring. }
  assert (inject_Z (10 ^ 11) <= inject_Z n) as N1 by (apply inj_le; lia). assert (inject_Z n <= inject_Z (10 ^ 12 - 1)) as N2 by (apply inj_le; lia).
  assert (inject_Z n * two_to (-53) < 1 # 1000) as SM. { eapply Qle_lt_trans; [apply Qmult_le_compat_r; [exact N2|apply Qlt_le_weak, two_pos]|]. reflexivity. }
  assert (Qabs (y - inject_Z n) < 1 # 1000) as Y.
  { eapply Qle_lt_trans; [|exact SM]. rewrite A in E. setoid_replace (inject_Z n * ten_to e - y * ten_to e) with (- ((y - inject_Z n) * ten_to e)) in E by ring. rewrite Qabs_opp, Qabs_Qmult, (Qabs_pos (ten_to e)) in E by lra.
    apply (Qmult_le_r _ _ (ten_to e) Pe). lra. }
  assert (forall k, a * ten_to k == y * ten_to (e + k)) as AK by (intros k; rewrite A, <- Qmult_assoc, <- ten_plus; reflexivity).
  assert (y < inject_Z (10 ^ 12)) as YU. { replace (10 ^ 12)%Z with (10 ^ 12 - 1 + 1)%Z by reflexivity. rewrite inject_Z_plus. change (inject_Z 1) with 1. revert Y. apply Qabs_case; intros; lra. }
  unfold round12. destruct (Qlt_le_dec y (inject_Z (10 ^ 11))) as [L|L].
  - assert (n = 10 ^ 11)%Z as ->. { assert (inject_Z n < inject_Z (10 ^ 11 + 1)) as X. { rewrite inject_Z_plus. change (inject_Z 1) with 1. revert Y. apply Qabs_case; intros; lra. } apply inj_lt_inv in X. lia. }
    assert (log10_floor a = e + 10)%Z as ->.
    { apply log10_unique.
      - rewrite ten_plus, A, (ten_int 10) by lia. assert (inject_Z (10 ^ 10) <= y). { assert (inject_Z (10 ^ 10) <= inject_Z (10 ^ 11) - 1) by (vm_compute; discriminate). revert Y. apply Qabs_case; intros; lra. } nra.
      - replace (e + 10 + 1)%Z with (e + 11)%Z by lia. rewrite ten_plus, A, (ten_int 11) by lia. nra. }
    assert (half_even (a * ten_to (11 - (e + 10))) = 10 ^ 12)%Z as ->.
    { apply half_even_near. rewrite AK. replace (e + (11 - (e + 10)))%Z with 1%Z by lia. change (ten_to 1) with (10 # 1). replace (10 ^ 12)%Z with (10 ^ 11 * 10)%Z by reflexivity. rewrite inject_Z_mult. change (inject_Z 10) with (10 # 1).
      revert Y. apply Qabs_case; intros; apply Qabs_case; intros; lra. }
    rewrite Z.eqb_refl. f_equal. lia.
  - assert (log10_floor a = e + 11)%Z as ->.
    { apply log10_unique.
      - rewrite ten_plus, A, (ten_int 11) by lia. nra.
      - replace (e + 11 + 1)%Z with (e + 12)%Z by lia. rewrite ten_plus, A, (ten_int 12) by lia. nra. }
    assert (half_even (a * ten_to (11 - (e + 11))) = n) as ->.
    { apply half_even_near. rewrite AK. replace (e + (11 - (e + 11)))%Z with 0%Z by lia. change (ten_to 0) with 1. rewrite Qmult_1_r. eapply Qlt_trans; [exact Y|reflexivity]. }
    destruct (Z.eqb_spec n (10 ^ 12)); [lia|]. reflexivity.
Qed.
Lemma short_normal d k : (0 < d < 10 ^ 12)%Z -> (0 <= k)%Z -> exists n e, (10 ^ 11 <= n < 10 ^ 12)%Z /\ inject_Z d / inject_Z (10 ^ k) == inject_Z n * ten_to e /\ (e + 11 < 12)%Z.
Proof.
  intros D K. destruct (zlog10_ok d ltac:(lia)) as [J [A B]]. set (j := zlog10 d) in *. assert (j < 12)%Z as J2. { apply (Z.pow_lt_mono_r_iff 10); lia. }
  exists (d * 10 ^ (11 - j))%Z, (- k - (11 - j))%Z. assert (0 < 10 ^ (11 - j))%Z as P by (apply Z.pow_pos_nonneg; lia). split; [|split; [|lia]].
  - replace (10 ^ 11)%Z with (10 ^ j * 10 ^ (11 - j))%Z by (rewrite <- Z.pow_add_r by lia; f_equal; lia). replace (10 ^ 12)%Z with (10 ^ (j + 1) * 10 ^ (11 - j))%Z by (rewrite <- Z.pow_add_r by lia; f_equal; lia). nia.
  - rewrite inject_Z_mult, <- (ten_int (11 - j)), <- (ten_int k) by lia. unfold Z.sub at 2. rewrite ten_plus. pose proof (ten_opp k) as O1. pose proof (ten_opp (11 - j)) as O2. pose proof (ten_pos k).
    setoid_replace (inject_Z d * ten_to (11 - j) * (ten_to (- k) * ten_to (- (11 - j)))) with (inject_Z d * ten_to (- k) * (ten_to (- (11 - j)) * ten_to (11 - j))) by ring. rewrite O2, Qmult_1_r.
    rewrite <- (Qmult_1_r (inject_Z d)), <- O1 at 1. field. lra.
Qed.
Lemma close_sign r q : (1 # 10000) <= Qabs r -> Qabs (r - q) <= Qabs r * two_to (-53) -> Qle_bool 0 q = Qle_bool 0 r /\ Qabs (Qabs r - Qabs q) == Qabs (r - q) /\ 0 < Qabs q.
Proof.
  intros L E. assert (two_to (-53) < 1 # 2) as T by reflexivity. set (t := two_to (-53)) in *. destruct (qabs_or r) as [[P Q]|[P Q]]; rewrite Q in *.
  - assert (0 < q) as PQ. { revert E. apply Qabs_case; intros; nra. } rewrite (Qabs_pos q) by lra. replace (Qle_bool 0 q) with true by (symmetry; apply Qle_bool_iff; lra). replace (Qle_bool 0 r) with true by (symmetry; apply Qle_bool_iff; lra). split; [reflexivity|]. split; [reflexivity|exact PQ].
  - assert (q < 0) as PQ. { revert E. apply Qabs_case; intros; nra. } rewrite (Qabs_neg q) by lra. split.
    + assert (forall z, z < 0 -> Qle_bool 0 z = false) as NB by (intros z Z; destruct (Qle_bool 0 z) eqn:X; [apply Qle_bool_iff in X; exfalso; lra|reflexivity]). rewrite !NB; [reflexivity|lra|lra].
    + split; [|lra]. setoid_replace (- r - - q) with (- (r - q)) by ring. apply Qabs_opp.
Qed.
