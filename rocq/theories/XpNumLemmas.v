(** * Rounding to doubles: [rnd] is IEEE 754 round-to-nearest *)
From Coq Require Import NArith ZArith QArith Qpower Qround Qabs List Bool Lia Lqa.
From Verif Require Import XpNum XpNumSpec.
Local Open Scope Q_scope.

(** ** Powers of two *)
Lemma two_nz : ~ (2 # 1) == 0.
Proof. discriminate. Qed.
Lemma two_pos e : 0 < two_to e.
Proof. apply Qpower_0_lt. reflexivity. Qed.
Lemma two_plus a b : two_to (a + b) == two_to a * two_to b.
Proof. apply Qpower_plus, two_nz. Qed.
Lemma two_int e : (0 <= e)%Z -> two_to e == inject_Z (2 ^ e).
Proof. intros H. unfold two_to. rewrite Zpower_Qpower by assumption. reflexivity. Qed.
Lemma two_le a b : (a <= b)%Z -> two_to a <= two_to b.
Proof. intros H. apply Qpower_le_compat_l; [assumption|]. discriminate. Qed.
Lemma two_lt a b : (a < b)%Z -> two_to a < two_to b.
Proof. intros H. apply Qpower_lt_compat_l; [assumption|]. reflexivity. Qed.
Lemma two_lt_inv a b : two_to a < two_to b -> (a < b)%Z.
Proof. intros H. apply (Qpower_lt_compat_l_inv (2 # 1)); [assumption|reflexivity]. Qed.
Lemma two_le_inv a b : two_to a <= two_to b -> (a <= b)%Z.
Proof. intros H. apply (Qpower_le_compat_l_inv (2 # 1)); [assumption|reflexivity]. Qed.
Lemma two_succ e : two_to (e + 1) == 2 * two_to e.
Proof. rewrite two_plus. change (two_to 1) with (2 # 1). lra. Qed.
Lemma two_eq_inv a b : two_to a == two_to b -> a = b.
Proof. intros H. apply Z.le_antisymm; apply two_le_inv; rewrite H; apply Qle_refl. Qed.

(** ** Integers *)
Lemma inj_plus a b : inject_Z (a + b) == inject_Z a + inject_Z b.
Proof. now rewrite inject_Z_plus. Qed.
Lemma inj_le a b : (a <= b)%Z -> inject_Z a <= inject_Z b.
Proof. intros; now rewrite <- Zle_Qle. Qed.
Lemma inj_lt a b : (a < b)%Z -> inject_Z a < inject_Z b.
Proof. intros; now rewrite <- Zlt_Qlt. Qed.
Lemma inj_le_inv a b : inject_Z a <= inject_Z b -> (a <= b)%Z.
Proof. intros; now rewrite Zle_Qle. Qed.
Lemma inj_lt_inv a b : inject_Z a < inject_Z b -> (a < b)%Z.
Proof. intros; now rewrite Zlt_Qlt. Qed.
Lemma inj_eq_inv a b : inject_Z a == inject_Z b -> a = b.
Proof. intros H. apply Z.le_antisymm; apply inj_le_inv; rewrite H; apply Qle_refl. Qed.

(** ** Rounding to an integer *)
Lemma half_even_spec x : let m := inject_Z (half_even x) in x - m <= 1 # 2 /\ m - x <= 1 # 2 /\ (x - m == 1 # 2 \/ m - x == 1 # 2 -> Z.even (half_even x) = true).
Proof.
  unfold half_even. pose proof (Qfloor_le x) as L. pose proof (Qlt_floor x) as G. rewrite inj_plus in G. change (inject_Z 1) with 1 in G.
  set (f := Qfloor x) in *. destruct (Qcompare_spec (x - inject_Z f) (1 # 2)) as [E|E|E]; cbv zeta.
  - destruct (Z.even f) eqn:V.
    + repeat split; [lra|lra|auto].
    + rewrite inj_plus. change (inject_Z 1) with 1. repeat split; [lra|lra|]. intros _. rewrite Z.add_1_r, Z.even_succ, <- Z.negb_even, V. reflexivity.
  - repeat split; [lra|lra|]. intros [H|H]; lra.
  - rewrite inj_plus. change (inject_Z 1) with 1. repeat split; [lra|lra|]. intros [H|H]; lra.
Qed.
Lemma qabs_or x : (0 <= x /\ Qabs x == x) \/ (x <= 0 /\ Qabs x == - x).
Proof. destruct (Qlt_le_dec x 0) as [H|H]; [right|left]; (split; [lra|]); [apply Qabs_neg|apply Qabs_pos]; lra. Qed.
Ltac qabs x := let H := fresh "QA" in destruct (qabs_or x) as [[? H]|[? H]]; rewrite ?H in *; clear H.
Lemma half_even_nearest x n : let m := half_even x in Qabs (x - inject_Z m) <= Qabs (x - inject_Z n) /\
  (Qabs (x - inject_Z n) == Qabs (x - inject_Z m) -> n = m \/ (Z.even m = true /\ (n = m + 1 \/ n = m - 1)%Z)).
Proof.
  cbv zeta. destruct (half_even_spec x) as [A [B C]]. set (m := half_even x) in *.
  destruct (Z.lt_trichotomy n m) as [H|[H|H]]; [| |].
  - assert (inject_Z n <= inject_Z m - 1) as Q. { pose proof (inj_le (n + 1) m ltac:(lia)) as Q. rewrite inj_plus in Q. change (inject_Z 1) with 1 in Q. lra. }
    split; [qabs (x - inject_Z m); qabs (x - inject_Z n); lra|]. intros E. right.
    assert (m <= n + 1)%Z. { apply inj_le_inv. rewrite inj_plus. change (inject_Z 1) with 1. qabs (x - inject_Z m); qabs (x - inject_Z n); lra. }
    assert (n = m - 1)%Z as -> by lia. split; [|lia]. apply C. unfold Z.sub in *. rewrite inj_plus in *. change (inject_Z (Z.opp 1)) with (-(1)) in *. qabs (x - inject_Z m); qabs (x - (inject_Z m + - (1))); lra.
  - subst. split; [apply Qle_refl|auto].
  - assert (inject_Z m + 1 <= inject_Z n) as Q. { pose proof (inj_le (m + 1) n ltac:(lia)) as Q. rewrite inj_plus in Q. change (inject_Z 1) with 1 in Q. lra. }
    split; [qabs (x - inject_Z m); qabs (x - inject_Z n); lra|]. intros E. right.
    assert (n <= m + 1)%Z. { apply inj_le_inv. rewrite inj_plus. change (inject_Z 1) with 1. qabs (x - inject_Z m); qabs (x - inject_Z n); lra. }
    assert (n = m + 1)%Z as -> by lia. split; [|lia]. apply C. rewrite inj_plus in *. change (inject_Z 1) with 1 in *. qabs (x - inject_Z m); qabs (x - (inject_Z m + 1)); lra.
Qed.

(** ** The exponent *)
Lemma log2_bounds z : (0 < z)%Z -> two_to (Z.log2 z) <= inject_Z z /\ inject_Z z < two_to (Z.log2 z + 1).
Proof.
  intros H. pose proof (Z.log2_spec z H) as [A B]. pose proof (Z.log2_nonneg z). rewrite !two_int by lia. split; [apply inj_le|apply inj_lt]; [assumption|]. now rewrite Z.add_1_r.
Qed.
Lemma log2_floor_spec q : 0 < q -> two_to (log2_floor q) <= q /\ q < two_to (log2_floor q + 1).
Proof.
  intros P. unfold log2_floor. destruct q as [n d]. cbn [Qnum Qden]. assert (0 < n)%Z as Pn by (unfold Qlt in P; cbn in P; lia).
  destruct (log2_bounds n Pn) as [A B]. destruct (log2_bounds (Z.pos d) ltac:(lia)) as [C D]. set (a := Z.log2 n) in *. set (b := Z.log2 (Z.pos d)) in *.
  assert (n # d == inject_Z n / inject_Z (Z.pos d)) as E by (rewrite <- Qmake_Qdiv; reflexivity).
  assert (0 < inject_Z (Z.pos d)) as Pd by reflexivity.
  assert (two_to (a - b - 1) <= n # d) as L. { rewrite E. apply Qle_shift_div_l; [assumption|]. apply Qle_trans with (two_to (a - b - 1) * two_to (b + 1)). - apply Qmult_le_l; [apply two_pos|]. apply Qlt_le_weak, D. - rewrite <- two_plus. replace (a - b - 1 + (b + 1))%Z with a by lia. exact A. }
  assert (n # d < two_to (a - b + 1)) as U. { rewrite E. apply Qlt_shift_div_r; [assumption|]. apply Qlt_le_trans with (two_to (a + 1)); [exact B|]. replace (a + 1)%Z with (a - b + 1 + b)%Z by lia. rewrite two_plus. apply Qmult_le_l; [apply two_pos|exact C]. }
  destruct (Qle_bool (two_to (a - b)) (n # d)) eqn:Q.
  - apply Qle_bool_iff in Q. split; assumption.
  - split; [exact L|]. replace (a - b - 1 + 1)%Z with (a - b)%Z by lia. apply Qnot_le_lt. intros H. apply Qle_bool_iff in H. congruence.
Qed.

(** ** The significand *)
Definition exponent (a : Q) : Z := Z.max (log2_floor a - 52) (-1074).
Definition significand (a : Q) : Z := half_even (a / two_to (exponent a)).
Lemma rnd_eq q : rnd q =
  if Qeq_bool q 0 then NFin 0
  else let a := Qabs q in let m := significand a in let r := inject_Z m * two_to (exponent a) in let negative := negb (Qle_bool 0 q) in
    if (m =? 0)%Z then if negative then NNegZero else NFin 0
    else if Qle_bool (two_to 1024) r then if negative then NNegInf else NPosInf
    else NFin (if negative then - r else r).
Proof. reflexivity. Qed.

Section Positive.
Variable a : Q.
Hypothesis Pa : 0 < a.
Let e := exponent a.
Let u := two_to e.
Let x := a / u.
Let m := significand a.
Lemma Pu : 0 < u. Proof. apply two_pos. Qed.
Lemma ax : a == x * u.
Proof. unfold x. field. pose proof Pu as P. intros C. rewrite C in P. discriminate P. Qed.
Lemma e_min : (-1074 <= e)%Z. Proof. unfold e, exponent. lia. Qed.
Lemma x_upper : x < two_to 53.
Proof.
  destruct (log2_floor_spec a Pa) as [_ U]. unfold x. apply Qlt_shift_div_r; [apply Pu|]. eapply Qlt_le_trans; [exact U|]. unfold u. rewrite <- two_plus. apply two_le. unfold e, exponent. lia.
Qed.
Lemma x_lower : (-1074 < e)%Z -> two_to 52 <= x.
Proof.
  intros H. destruct (log2_floor_spec a Pa) as [L _]. unfold x. apply Qle_shift_div_l; [apply Pu|]. unfold u. rewrite <- two_plus. eapply Qle_trans; [|exact L]. apply two_le. unfold e, exponent in *. lia.
Qed.
Lemma x_pos : 0 < x.
Proof. unfold x. apply Qlt_shift_div_l; [apply Pu|]. lra. Qed.
Lemma m_spec : x - inject_Z m <= 1 # 2 /\ inject_Z m - x <= 1 # 2 /\ (x - inject_Z m == 1 # 2 \/ inject_Z m - x == 1 # 2 -> Z.even m = true).
Proof. exact (half_even_spec x). Qed.
Lemma m_upper : (m <= 2 ^ 53)%Z.
Proof.
  destruct m_spec as [_ [B _]]. pose proof x_upper as U. rewrite two_int in U by lia.
  assert (m < 2 ^ 53 + 1)%Z; [|lia]. apply inj_lt_inv. rewrite inj_plus. change (inject_Z 1) with 1. lra.
Qed.
Lemma m_nonneg : (0 <= m)%Z.
Proof. destruct m_spec as [A _]. pose proof x_pos. assert (-1 < m)%Z; [|lia]. apply inj_lt_inv. change (inject_Z (-1)) with (-(1)). lra. Qed.
Lemma m_lower : (-1074 < e)%Z -> (2 ^ 52 <= m)%Z.
Proof.
  intros H. destruct m_spec as [A _]. pose proof (x_lower H) as L. rewrite two_int in L by lia.
  assert (2 ^ 52 - 1 < m)%Z; [|lia]. apply inj_lt_inv. unfold Z.sub. rewrite inj_plus. change (inject_Z (Z.opp 1)) with (-(1)). lra.
Qed.
Let r := inject_Z m * u.
Lemma r_nonneg : 0 <= r.
Proof. apply Qmult_le_0_compat; [apply (inj_le 0), m_nonneg|apply Qlt_le_weak, Pu]. Qed.
Lemma r_representable : r < two_to 1024 -> representable r.
Proof.
  intros H. pose proof m_nonneg. pose proof m_upper. pose proof e_min.
  destruct (Z.eq_dec m (2 ^ 53)) as [E|E].
  - exists (2 ^ 52)%Z, (e + 1)%Z. assert (r == two_to (e + 53)) as R. { unfold r. rewrite E, <- two_int by lia. unfold u. rewrite <- two_plus. now rewrite Z.add_comm. }
    split; [|split; [reflexivity|]].
    + rewrite R, <- (two_int 52) by lia. rewrite <- two_plus. now replace (52 + (e + 1))%Z with (e + 53)%Z by lia.
    + rewrite R in H. apply two_lt_inv in H. lia.
  - exists m, e. split; [reflexivity|]. split; [lia|]. split; [lia|]. destruct (Z.eq_dec e (-1074)) as [E'|E']; [lia|].
    assert (two_to (52 + e) <= r) as L. { unfold r, u. rewrite two_plus, (two_int 52) by lia. apply Qmult_le_compat_r; [|apply Qlt_le_weak, two_pos]. apply inj_le, m_lower. lia. }
    assert (two_to (52 + e) < two_to 1024) as L' by lra. apply two_lt_inv in L'. lia.
Qed.
(** A double is a multiple of [u], or so small that 2^52 [u] is between it and
    [a]. *)
Lemma double_cases s : representable s -> (exists n, s == inject_Z n * u) \/ (s < inject_Z (2 ^ 52) * u /\ inject_Z (2 ^ 52) * u <= a).
Proof.
  intros [m' [e' [E [B R]]]]. destruct (Z_le_gt_dec e e') as [H|H].
  - left. exists (m' * 2 ^ (e' - e))%Z. rewrite E, inject_Z_mult, <- two_int by lia. unfold u. rewrite <- Qmult_assoc, <- two_plus. now replace (e' - e + e)%Z with e' by lia.
  - right. assert (-1074 < e)%Z as He by lia. split.
    + rewrite E. pose proof (two_pos e') as P. apply Qlt_le_trans with (inject_Z (2 ^ 53) * two_to e').
      * apply Qmult_lt_r; [assumption|]. apply inj_lt. lia.
      * rewrite <- !two_int by lia. unfold u. rewrite <- !two_plus. apply two_le. lia.
    + rewrite ax. apply Qmult_le_compat_r; [|apply Qlt_le_weak, Pu]. rewrite <- two_int by lia. now apply x_lower.
Qed.
Lemma scale y z : Qabs (y * u - z * u) == Qabs (y - z) * u.
Proof. rewrite <- (Qabs_pos u) at 3 by (apply Qlt_le_weak, Pu). rewrite <- Qabs_Qmult. apply Qabs_wd. ring. Qed.
Lemma nearest_multiple n : Qabs (a - r) <= Qabs (a - inject_Z n * u) /\
  (Qabs (a - inject_Z n * u) == Qabs (a - r) -> n = m \/ (Z.even m = true /\ (n = m + 1 \/ n = m - 1)%Z)).
Proof.
  assert (forall z, Qabs (a - inject_Z z * u) == Qabs (x - inject_Z z) * u) as Sc. { intros z. rewrite <- scale. apply Qabs_wd. rewrite ax at 1. reflexivity. }
  unfold r. rewrite !Sc. destruct (half_even_nearest x n) as [L T]. fold m in L, T. change (half_even x) with m in L, T. split.
  - apply Qmult_le_compat_r; [exact L|apply Qlt_le_weak, Pu].
  - intros H. apply T. apply Qmult_inj_r in H; [exact H|]. pose proof Pu as P. intros C. rewrite C in P. discriminate P.
Qed.
Lemma r_nearest : r < two_to 1024 -> nearest a r.
Proof.
  intros H. split; [now apply r_representable|]. split.
  - intros s S. destruct (double_cases s S) as [[n E]|[L U]].
    + rewrite E. apply nearest_multiple.
    + destruct (nearest_multiple (2 ^ 52)) as [N _]. eapply Qle_trans; [exact N|]. rewrite !Qabs_pos by lra. lra.
  - intros s S T. destruct (double_cases s S) as [[n E]|[L U]].
    + destruct (nearest_multiple n) as [_ N]. rewrite E in T. apply N in T. destruct T as [->|[V W]]; [left; exact E|right]. exists m, e. split; [reflexivity|]. split; [exact V|]. destruct W as [->| ->]; auto.
    + exfalso. destruct (nearest_multiple (2 ^ 52)) as [N _]. rewrite <- T in N. rewrite !Qabs_pos in N by lra. lra.
Qed.
Lemma r_overflow : two_to 1024 <= r <-> too_large <= a.
Proof.
  unfold too_large. assert (two_to 1024 == inject_Z (2 ^ 53) * two_to 971) as E1 by (rewrite <- two_int, <- two_plus by lia; reflexivity).
  assert (two_to 971 == 2 * two_to 970) as E2 by (apply (two_succ 970)). pose proof (two_pos 970) as P970. pose proof Pu as P. pose proof m_upper as MU. pose proof m_spec as [A [B C]].
  destruct (Z_le_gt_dec 972 e) as [H|H]; [|destruct (Z.eq_dec e 971) as [H'|H']].
  - assert (-1074 < e)%Z as He by lia. assert (inject_Z (2 ^ 52) * two_to 972 == two_to 1024) as Q by (rewrite <- two_int, <- two_plus by lia; reflexivity). pose proof (two_le 972 e H) as Le. fold u in Le. split; intros _.
    + rewrite ax. pose proof (x_lower He) as L. rewrite two_int in L by lia. assert (inject_Z (2 ^ 52) * two_to 972 <= x * u); [|lra]. apply Qle_trans with (inject_Z (2 ^ 52) * u); [apply Qmult_le_l; [reflexivity|exact Le]|]. apply Qmult_le_compat_r; [exact L|lra].
    + unfold r. rewrite <- Q. apply Qle_trans with (inject_Z (2 ^ 52) * u); [apply Qmult_le_l; [reflexivity|exact Le]|]. apply Qmult_le_compat_r; [|lra]. apply inj_le, m_lower, He.
  - assert (u == two_to 971) as Eu by (unfold u; rewrite H'; reflexivity). split; intros Q.
    + unfold r in Q. rewrite Eu, E1 in Q. apply Qmult_le_r in Q; [|apply two_pos]. rewrite ax, Eu, E1, E2.
      assert (inject_Z (2 ^ 53) - (1 # 2) <= x) as X by lra. apply Qle_trans with ((inject_Z (2 ^ 53) - (1 # 2)) * (2 * two_to 970)); [lra|]. apply Qmult_le_compat_r; [exact X|lra].
    + unfold r. rewrite Eu, E1. apply Qmult_le_compat_r; [|apply Qlt_le_weak, two_pos]. apply inj_le.
      assert (inject_Z (2 ^ 53) - (1 # 2) <= x) as X. { rewrite ax, Eu, E1, E2 in Q. apply (Qmult_le_r _ _ (2 * two_to 970)); [lra|]. lra. }
      assert (2 ^ 53 - 1 <= m)%Z as M. { apply inj_le_inv. unfold Z.sub. rewrite inj_plus. change (inject_Z (Z.opp 1)) with (-(1)). lra. }
      destruct (Z.eq_dec m (2 ^ 53 - 1)) as [E|E]; [|lia]. exfalso. assert (Z.even m = true) as V; [|rewrite E in V; discriminate V]. apply C. left. assert (inject_Z m == inject_Z (2 ^ 53) - 1) as Em. { rewrite E. unfold Z.sub. rewrite inj_plus. reflexivity. } rewrite Em in *. lra.
  - assert (two_to (e + 53) <= two_to 1023) as L by (apply two_le; lia). assert (two_to 1024 == 2 * two_to 1023) as E3 by (apply (two_succ 1023)). pose proof (two_lt 970 1023 ltac:(lia)). assert (r <= two_to (e + 53)) as R. { unfold r. rewrite Z.add_comm, two_plus, two_int by lia. apply Qmult_le_compat_r; [apply inj_le, MU|apply Qlt_le_weak, Pu]. }
    assert (a < two_to (e + 53)) as U. { rewrite ax. rewrite Z.add_comm, two_plus. apply Qmult_lt_r; [apply Pu|apply x_upper]. } pose proof (two_pos 1023). split; intros; lra.
Qed.
End Positive.

Lemma representable_opp s : representable s -> representable (- s).
Proof. intros [m [e [E [B R]]]]. exists (- m)%Z, e. split; [rewrite E, inject_Z_opp; ring|]. split; [lia|exact R]. Qed.
Lemma representable_comp s t : s == t -> representable s -> representable t.
Proof. intros H [m [e [E X]]]. exists m, e. split; [now rewrite <- H|exact X]. Qed.
Lemma representable_zero : representable 0.
Proof. exists 0%Z, 0%Z. split; [reflexivity|]. split; [reflexivity|lia]. Qed.
Lemma nearest_comp q q' r r' : q == q' -> r == r' -> nearest q r -> nearest q' r'.
Proof.
  intros A B [R [N T]]. split; [eapply representable_comp; eauto|]. split.
  - intros s S. rewrite <- A, <- B. auto.
  - intros s S H. rewrite <- A, <- B in H. destruct (T s S H) as [C|[m [e [C D]]]]; [left; now rewrite <- B|right]. exists m, e. rewrite <- B. auto.
Qed.
Lemma nearest_opp q r : nearest q r -> nearest (- q) (- r).
Proof.
  intros [R [N T]]. split; [now apply representable_opp|].
  assert (forall s, Qabs (- q - s) == Qabs (q - - s)) as F. { intros s. rewrite <- Qabs_opp. apply Qabs_wd. ring. }
  assert (Qabs (- q - - r) == Qabs (q - r)) as G. { rewrite F. apply Qabs_wd. ring. }
  split.
  - intros s S. rewrite (F s), G. apply N, representable_opp, S.
  - intros s S H. rewrite (F s), G in H. destruct (T (- s) (representable_opp s S) H) as [C|[m [e [C [D E]]]]].
    + left. rewrite <- C. ring.
    + right. exists (- m)%Z, e. split; [rewrite C, inject_Z_opp; ring|]. split; [now rewrite Z.even_opp|].
      destruct E as [E|E]; [right|left]; [replace (- m - 1)%Z with (- (m + 1))%Z by lia|replace (- m + 1)%Z with (- (m - 1))%Z by lia]; rewrite inject_Z_opp; rewrite <- (Qopp_opp s); rewrite E; ring.
Qed.
Theorem rnd_rounds q : rounds_to q (rnd q).
Proof.
  rewrite rnd_eq. destruct (Qeq_bool q 0) eqn:Z.
  - apply Qeq_bool_iff in Z. split; [rewrite Z; reflexivity|]. split; [apply representable_zero|]. split.
    + intros s _. rewrite Z. rewrite Qabs_pos by discriminate. apply Qabs_nonneg.
    + intros s _ H. left. rewrite Z in H. rewrite (Qabs_pos (0 - 0)) in H by discriminate. qabs (0 - s); lra.
  - apply Qeq_bool_neq in Z. assert (0 < Qabs q) as Pa by (qabs q; lra). cbv zeta. set (a := Qabs q) in *.
    pose proof (r_overflow a Pa) as O. pose proof (r_nearest a Pa) as N. set (r := inject_Z (significand a) * two_to (exponent a)) in *.
    assert (negb (Qle_bool 0 q) = true /\ q < 0 /\ a == - q \/ negb (Qle_bool 0 q) = false /\ 0 < q /\ a == q) as Sg.
    { destruct (Qle_bool 0 q) eqn:B; [right|left]; (split; [reflexivity|]). - apply Qle_bool_iff in B. split; [lra|]. apply Qabs_pos, B. - assert (~ 0 <= q) by (intros H; apply Qle_bool_iff in H; congruence). split; [lra|]. apply Qabs_neg. lra. }
    destruct (Qlt_le_dec r (two_to 1024)) as [L|L].
    + specialize (N L). assert (a < too_large) as A by (apply Qnot_le_lt; intros H; apply (proj2 O) in H; lra).
      assert (Qle_bool (two_to 1024) r = false) as -> by (destruct (Qle_bool (two_to 1024) r) eqn:B; [apply Qle_bool_iff in B; lra|reflexivity]).
      destruct (significand a =? 0)%Z eqn:M.
      * apply Z.eqb_eq in M. assert (r == 0) as R by (unfold r; rewrite M; ring). destruct Sg as [[-> [B C]]|[-> [B C]]]; cbn [rounds_to].
        -- split; [lra|]. apply (nearest_comp (- a) q (- r) 0); [rewrite C; ring|rewrite R; ring|]. now apply nearest_opp.
        -- split; [exact A|]. apply (nearest_comp a q r 0); assumption.
      * destruct Sg as [[-> [B C]]|[-> [B C]]]; cbn [rounds_to]; (split; [exact A|]).
        -- apply (nearest_comp (- a) q (- r) (- r)); [rewrite C; ring|reflexivity|]. now apply nearest_opp.
        -- apply (nearest_comp a q r r); [assumption|reflexivity|assumption].
    + assert (significand a =? 0 = false)%Z as ->. { apply Z.eqb_neq. intros M. unfold r in L. rewrite M in L. change (inject_Z 0) with 0 in L. pose proof (two_pos 1024). lra. }
      assert (Qle_bool (two_to 1024) r = true) as -> by (apply Qle_bool_iff, L). apply (proj1 O) in L. destruct Sg as [[-> [B C]]|[-> [B C]]]; cbn [rounds_to]; lra.
Qed.

(** ** Rounding determines the number *)
Lemma too_large_pos : 0 < too_large.
Proof. unfold too_large. pose proof (two_lt 970 1024 ltac:(lia)). lra. Qed.
Lemma representable_small s : representable s -> Qabs s < too_large.
Proof.
  intros [m [e [E [B R]]]]. rewrite E, Qabs_Qmult, (Qabs_pos (two_to e)) by (apply Qlt_le_weak, two_pos). change (Qabs (inject_Z m)) with (inject_Z (Z.abs m)).
  apply Qle_lt_trans with (inject_Z (2 ^ 53 - 1) * two_to 971).
  - apply Qle_trans with (inject_Z (Z.abs m) * two_to 971); [apply (Qmult_le_compat_nonneg)|]; [split; [apply (inj_le 0); lia|apply Qle_refl]|split; [apply Qlt_le_weak, two_pos|apply two_le; lia]|].
    apply Qmult_le_compat_r; [apply inj_le; lia|apply Qlt_le_weak, two_pos].
  - unfold too_large. assert (two_to 1024 == inject_Z (2 ^ 53) * two_to 971) as E1 by (rewrite <- two_int, <- two_plus by lia; reflexivity). assert (two_to 971 == 2 * two_to 970) as E2 by (apply (two_succ 970)). pose proof (two_pos 970). rewrite E1, E2. unfold Z.sub. rewrite inj_plus. change (inject_Z (Z.opp 1)) with (-(1)). lra.
Qed.
Lemma nearest_unique q r s : nearest q r -> nearest q s -> r == s.
Proof.
  intros [R [N T]] [R' [N' T']]. assert (Qabs (q - s) == Qabs (q - r)) as E by (apply Qle_antisym; auto). assert (Qabs (q - r) == Qabs (q - s)) as E' by (symmetry; exact E).
  destruct (T s R' E) as [H|[m [e [A [B C]]]]]; [now symmetry|]. destruct (T' r R E') as [H|[m' [e' [A' [B' C']]]]]; [exact H|]. exfalso.
  assert (Qabs (r - s) == two_to e) as D. { rewrite A. destruct C as [C|C]; rewrite C; unfold Z.sub; rewrite inj_plus; [change (inject_Z 1) with 1|change (inject_Z (Z.opp 1)) with (-(1))]; [rewrite Qabs_neg|rewrite Qabs_pos]; pose proof (two_pos e); lra. }
  assert (Qabs (r - s) == two_to e') as D'. { rewrite A'. destruct C' as [C'|C']; rewrite C'; unfold Z.sub; rewrite inj_plus; [change (inject_Z 1) with 1|change (inject_Z (Z.opp 1)) with (-(1))]; [rewrite Qabs_pos|rewrite Qabs_neg]; pose proof (two_pos e'); lra. }
  assert (e = e') by (apply two_eq_inv; now rewrite <- D, D'). subst e'. pose proof (two_pos e) as P. assert (~ two_to e == 0) as NZ by lra.
  destruct C as [C|C]; rewrite A' in C; apply Qmult_inj_r in C; try assumption; apply inj_eq_inv in C; subst m'; [rewrite Z.even_add in B'|rewrite Z.even_sub in B']; rewrite B in B'; discriminate.
Qed.
Theorem rounds_unique q q' a b : q == q' -> rounds_to q a -> rounds_to q' b -> same_number a b.
Proof.
  intros Q A B. pose proof too_large_pos as T.
  assert (forall p, q <= 0 -> nearest q 0 -> rounds_to q' p -> same_number NNegZero p) as Z.
  { intros p L N H. assert (Qabs q < too_large) as K. { destruct N as [_ [N _]]. pose proof (N (two_to 0 * -(1)) ltac:(exists (-1)%Z, 0%Z; split; [reflexivity|split; [reflexivity|lia]])) as N1. change (two_to 0) with 1 in N1. assert (-(1#2) <= q). { qabs (q - 0); qabs (q - 1 * - (1)); lra. } pose proof (representable_small (1#1) ltac:(exists 1%Z, 0%Z; split; [reflexivity|split; [reflexivity|lia]])) as L1. rewrite (Qabs_pos (1#1)) in L1 by discriminate. qabs q; lra. }
    destruct p; cbn in *; [contradiction|exfalso; lra|exfalso; qabs q; lra|reflexivity|].
    destruct H as [_ H]. symmetry. apply (nearest_unique q); [|exact N]. apply (nearest_comp q' q q0 q0); [now symmetry|reflexivity|exact H]. }
  destruct a; try contradiction.
  - destruct b; cbn in *; try contradiction; try exact I; try lra.
    destruct B as [B _]. qabs q'; lra.
  - destruct b; cbn in *; try contradiction; try exact I; try lra.
    + exfalso. destruct B as [B1 B2]. destruct B2 as [_ [N _]]. pose proof (N (- two_to 0) ltac:(exists (-1)%Z, 0%Z; split; [reflexivity|split; [reflexivity|lia]])) as N1. change (two_to 0) with 1 in N1. pose proof (representable_small (1#1) ltac:(exists 1%Z, 0%Z; split; [reflexivity|split; [reflexivity|lia]])) as L1. rewrite (Qabs_pos (1#1)) in L1 by discriminate. qabs (q' - 0); qabs (q' - - (1)); lra.
    + destruct B as [B _]. qabs q'; lra.
  - destruct A as [A1 A2]. apply Z; assumption.
  - destruct A as [A1 A2]. destruct b; cbn in *; try contradiction; try (qabs q; lra).
    + destruct B as [B1 B2]. apply (nearest_unique q); [exact A2|]. apply (nearest_comp q' q 0 0); [now symmetry|reflexivity|exact B2].
    + destruct B as [B1 B2]. apply (nearest_unique q); [exact A2|]. apply (nearest_comp q' q q1 q1); [now symmetry|reflexivity|exact B2].
Qed.
Theorem rnd_representable q : representable q -> same_number (rnd q) (NFin q).
Proof.
  intros R. apply (rounds_unique q q); [reflexivity|apply rnd_rounds|]. split; [now apply representable_small|]. split; [exact R|]. assert (Qabs (q - q) == 0) as Z by (rewrite Qabs_pos; lra). split.
  - intros s _. rewrite Z. apply Qabs_nonneg.
  - intros s _ H. left. rewrite Z in H. qabs (q - s); lra.
Qed.
Lemma representable_int z : (Z.abs z <= 2 ^ 53)%Z -> representable (inject_Z z).
Proof.
  intros H. destruct (Z.eq_dec (Z.abs z) (2 ^ 53)) as [E|E].
  - exists (Z.sgn z * 2 ^ 52)%Z, 1%Z. split; [|split; [|lia]]. + change (two_to 1) with (inject_Z 2). rewrite <- inject_Z_mult. replace (Z.sgn z * 2 ^ 52 * 2)%Z with z; [reflexivity|]. lia. + lia.
  - exists z, 0%Z. split; [change (two_to 0) with 1; ring|]. split; lia.
Qed.
Lemma rnd_int z : (Z.abs z <= 2 ^ 53)%Z -> same_number (num_of_Z z) (NFin (inject_Z z)).
Proof. intros H. apply rnd_representable, representable_int, H. Qed.
Lemma rnd_comp p q : p == q -> same_number (rnd p) (rnd q).
Proof. intros H. apply (rounds_unique p q); [exact H|apply rnd_rounds|apply rnd_rounds]. Qed.
