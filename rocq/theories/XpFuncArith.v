(** * Proofs about the numeric functions and operators *)
From Coq Require Import NArith ZArith QArith Qround Qabs String List Bool Lia Lqa.
From Verif Require Import PyStr PyErr XpNum XpNumSpec XpNumLemmas XpFuncs XpFuncSpec XpFuncNum XpFuncCmp XpFuncStr.
Import ListNotations.
Local Open Scope Q_scope.

Lemma number_new_same n : same_number (number_new n) n.
Proof. unfold number_new. destruct (is_zero n) eqn:E; [|apply same_refl]. destruct n; try discriminate; cbn in *; [reflexivity|]. apply Qeq_bool_iff in E. now symmetry. Qed.
Lemma number_new_fin q n : same_number n (NFin q) -> same_number (number_new n) (NFin q).
Proof. intros H. eapply same_trans; [apply number_new_same|exact H]. Qed.
Lemma floor_z q : floor_of q (Qfloor q).
Proof. split; [apply Qfloor_le|]. pose proof (Qlt_floor q) as H. rewrite inj_plus in H. exact H. Qed.
Lemma ceiling_z q : ceiling_of q (Qceiling q).
Proof. split; [|apply Qle_ceiling]. pose proof (Qceiling_lt q) as H. unfold Z.sub in H. rewrite inj_plus in H. change (inject_Z (Z.opp 1)) with (-(1)) in H. lra. Qed.
Lemma floor_unique q z z' : floor_of q z -> floor_of q z' -> z = z'.
Proof. intros [A B] [C D]. assert (z < z' + 1)%Z by (apply inj_lt_inv; rewrite inj_plus; change (inject_Z 1) with 1; lra). assert (z' < z + 1)%Z by (apply inj_lt_inv; rewrite inj_plus; change (inject_Z 1) with 1; lra). lia. Qed.
Lemma ceiling_unique q z z' : ceiling_of q z -> ceiling_of q z' -> z = z'.
Proof. intros [A B] [C D]. assert (z < z' + 1)%Z by (apply inj_lt_inv; rewrite inj_plus; change (inject_Z 1) with 1; lra). assert (z' < z + 1)%Z by (apply inj_lt_inv; rewrite inj_plus; change (inject_Z 1) with 1; lra). lia. Qed.

Theorem floor_ok a : match finite a with None => floor_function a = a | Some q => exists z, floor_of q z /\ same_number (floor_function a) (NFin (inject_Z z)) end.
Proof.
  unfold floor_function, isnormal. destruct (finite a) as [q|] eqn:F; [|reflexivity]. exists (Qfloor q). split; [apply floor_z|].
  destruct (is_zero a) eqn:Z; cbn [negb].
  - destruct a; try discriminate; cbn in F; injection F as <-; [reflexivity|]. cbn in Z. apply Qeq_bool_iff in Z. cbn. rewrite Z. reflexivity.
  - destruct a; try discriminate. cbn in F. injection F as <-. apply number_new_fin. apply same_refl.
Qed.
Lemma num_ceil_same q : same_number (num_ceil (NFin q)) (NFin (inject_Z (Qceiling q))).
Proof. unfold num_ceil. destruct ((Qceiling q =? 0)%Z && negb (Qle_bool 0 q)) eqn:E; [|apply same_refl]. apply andb_prop in E. destruct E as [E _]. apply Z.eqb_eq in E. rewrite E. reflexivity. Qed.
Theorem ceiling_ok a : match finite a with None => ceiling_function a = a | Some q => exists z, ceiling_of q z /\ same_number (ceiling_function a) (NFin (inject_Z z)) end.
Proof.
  unfold ceiling_function, isnormal. destruct (finite a) as [q|] eqn:F; [|reflexivity]. exists (Qceiling q). split; [apply ceiling_z|].
  destruct (is_zero a) eqn:Z; cbn [negb].
  - destruct a; try discriminate; cbn in F; injection F as <-; [reflexivity|]. cbn in Z. apply Qeq_bool_iff in Z. cbn. rewrite Z. reflexivity.
  - destruct a; try discriminate. cbn in F. injection F as <-. apply number_new_fin, num_ceil_same.
Qed.

(** ** Truncation and remainder *)
Lemma trunc_nonneg x : 0 <= x -> inject_Z (Qtrunc x) <= x /\ x < inject_Z (Qtrunc x) + 1.
Proof.
  intros H. assert (Qtrunc x = Qfloor x) as ->. { unfold Qtrunc, Qfloor. destruct x as [n d]. cbn. unfold Qle in H. cbn in H. apply Z.quot_div_nonneg; lia. } apply floor_z.
Qed.
Lemma trunc_opp x : Qtrunc (- x) = (- Qtrunc x)%Z.
Proof. unfold Qtrunc. cbn. now rewrite Z.quot_opp_l by discriminate. Qed.
Lemma trunc_nonpos x : x <= 0 -> inject_Z (Qtrunc x) - 1 < x /\ x <= inject_Z (Qtrunc x).
Proof. intros H. destruct (trunc_nonneg (- x)) as [A B]; [lra|]. rewrite trunc_opp, inject_Z_opp in A, B. lra. Qed.
Lemma trunc_pos x : 0 <= x -> 0 <= inject_Z (Qtrunc x).
Proof. intros H. destruct (trunc_nonneg x H) as [A B]. assert (-1 < Qtrunc x)%Z; [|apply (inj_le 0); lia]. apply inj_lt_inv. change (inject_Z (-1)) with (-(1)). lra. Qed.
Lemma remainder_trunc p q : ~ q == 0 -> remainder p q (p - inject_Z (Qtrunc (p / q)) * q).
Proof.
  intros NZ. exists (Qtrunc (p / q)). set (t := inject_Z (Qtrunc (p / q))). assert (p == (p / q) * q) as E by (field; exact NZ). set (x := p / q) in *.
  assert (p - t * q == (x - t) * q) as R by (rewrite E at 1; ring).
  split; [ring|]. split; [|split].
  - rewrite R, Qabs_Qmult. assert (Qabs (x - t) < 1) as L. { destruct (Qlt_le_dec x 0) as [N|P]. - destruct (trunc_nonpos x ltac:(lra)) as [A B]. fold t in A, B. qabs (x - t); lra. - destruct (trunc_nonneg x P) as [A B]. fold t in A, B. qabs (x - t); lra. }
    assert (0 < Qabs q) as Q by (qabs q; lra). rewrite <- (Qmult_1_l (Qabs q)) at 2. apply Qmult_lt_r; assumption.
  - intros P. destruct (Qlt_le_dec x 0) as [N|Px].
    + destruct (trunc_nonpos x ltac:(lra)) as [A B]. fold t in A, B. assert (q <= 0) as Q. { apply Qnot_lt_le. intros Q. assert (x * q < 0) by (setoid_replace 0 with (0 * q) by ring; apply Qmult_lt_r; assumption). lra. } rewrite R. setoid_replace ((x - t) * q) with ((t - x) * (- q)) by ring. apply Qmult_le_0_compat; lra.
    + destruct (trunc_nonneg x Px) as [A B]. fold t in A, B. destruct (Qlt_le_dec q 0) as [Q|Q]; [|rewrite R; apply Qmult_le_0_compat; lra].
      assert (x == 0) as X0. { assert (0 <= x * (- q)) by (apply Qmult_le_0_compat; lra). assert (x * q == 0) as Y by lra. apply Qmult_integral in Y. destruct Y; [assumption|contradiction]. }
      assert (t == 0) as T0. { pose proof (trunc_pos x Px) as K. fold t in K. lra. } rewrite R, X0, T0. lra.
  - intros P. destruct (Qlt_le_dec x 0) as [N|Px].
    + destruct (trunc_nonpos x ltac:(lra)) as [A B]. fold t in A, B. assert (0 <= q) as Q. { apply Qnot_lt_le. intros Q. assert (0 < (- x) * (- q)) by (setoid_replace 0 with (0 * - q) by ring; apply Qmult_lt_r; lra). assert ((- x) * (- q) == x * q) by ring. lra. } rewrite R. assert (0 <= (t - x) * q) by (apply Qmult_le_0_compat; lra). assert ((t - x) * q == - ((x - t) * q)) by ring. lra.
    + destruct (trunc_nonneg x Px) as [A B]. fold t in A, B. destruct (Qlt_le_dec q 0) as [Q|Q].
      * rewrite R. assert (0 <= (x - t) * (- q)) by (apply Qmult_le_0_compat; lra). assert ((x - t) * (- q) == - ((x - t) * q)) by ring. lra.
      * assert (x == 0) as X0. { assert (0 <= x * q) by (apply Qmult_le_0_compat; lra). assert (x * q == 0) as Y by lra. apply Qmult_integral in Y. destruct Y; [assumption|contradiction]. }
        assert (t == 0) as T0. { pose proof (trunc_pos x Px) as K. fold t in K. lra. } rewrite R, X0, T0. lra.
Qed.
Lemma remainder_unique p q r r' : remainder p q r -> remainder p q r' -> r == r'.
Proof.
  intros [n [E [L [A B]]]] [n' [E' [L' [A' B']]]].
  assert (inject_Z (n - n') * q == r' - r) as D. { unfold Z.sub. rewrite inj_plus, inject_Z_opp. lra. }
  assert (Qabs (r' - r) < Qabs q) as K. { destruct (Qlt_le_dec p 0) as [P|P]; [specialize (B ltac:(lra)); specialize (B' ltac:(lra))|specialize (A P); specialize (A' P)]; qabs r; qabs r'; qabs (r' - r); lra. }
  destruct (Z.eq_dec n n') as [->|NE]; [rewrite Z.sub_diag in D; change (inject_Z 0) with 0 in D; lra|]. exfalso. rewrite <- D, Qabs_Qmult in K. change (Qabs (inject_Z (n - n'))) with (inject_Z (Z.abs (n - n'))) in K.
  assert (1 <= inject_Z (Z.abs (n - n'))) as O by (apply (inj_le 1); lia). assert (1 * Qabs q <= inject_Z (Z.abs (n - n')) * Qabs q) by (apply Qmult_le_compat_r; [exact O|apply Qabs_nonneg]). lra.
Qed.

Lemma is_zero_spec a : is_zero a = true <-> same_number a (NFin 0).
Proof. destruct a; cbn; try (split; [discriminate|contradiction]); [split; reflexivity|]. apply Qeq_bool_iff. Qed.
Lemma zero_div w : is_zero w = false -> forall q, finite w = Some q -> ~ q == 0.
Proof. intros H q F E. destruct w; try discriminate; cbn in F; injection F as <-; cbn in H; rewrite (proj2 (Qeq_bool_iff _ 0) E) in H; discriminate. Qed.
Lemma ltb_zero_fin r : num_ltb (NFin r) (NFin 0) = true <-> r < 0.
Proof. rewrite num_ltb_spec. reflexivity. Qed.
Lemma signed_zero_same s : same_number (signed_zero s) (NFin 0).
Proof. destruct s; reflexivity. Qed.
(** fmod of finite numbers *)
Lemma fmod_ok a b p q : finite a = Some p -> finite b = Some q -> ~ q == 0 -> exists r, remainder p q r /\ (num_fmod a b = NFin r /\ ~ r == 0 \/ r == 0 /\ is_zero (num_fmod a b) = true).
Proof.
  intros A B NZ. exists (p - inject_Z (Qtrunc (p / q)) * q). split; [now apply remainder_trunc|].
  assert (num_fmod a b = let r := p - inject_Z (Qtrunc (p / q)) * q in if Qeq_bool r 0 then signed_zero (signed a) else NFin r) as ->.
  { assert (Qeq_bool q 0 = false) as Z. { destruct (Qeq_bool q 0) eqn:Z; [|reflexivity]. apply Qeq_bool_iff in Z. contradiction. }
    destruct a, b; try discriminate; cbn in A, B; injection A as <-; injection B as <-; cbn [num_fmod finite]; now rewrite Z. }
  cbv zeta. destruct (Qeq_bool (p - inject_Z (Qtrunc (p / q)) * q) 0) eqn:Z.
  - right. split; [now apply Qeq_bool_iff|]. now destruct (signed a).
  - left. split; [reflexivity|]. now apply Qeq_bool_neq.
Qed.
Lemma is_zero_new n : is_zero n = true -> number_new n = NFin 0.
Proof. unfold number_new. now intros ->. Qed.
Theorem mod_ok a b : ~ opposite a b -> modulo_of a b (number_rem a b).
Proof.
  intros O. unfold number_rem. destruct (is_zero b) eqn:Z.
  - destruct b; try discriminate; destruct a; cbn [modulo_of finite]; try reflexivity; (split; [reflexivity|]; intros H; exfalso; apply H; first [reflexivity|now apply Qeq_bool_iff]).
  - pose proof (zero_div b Z) as NZ.
    assert (forall p q, finite a = Some p -> finite b = Some q -> (q == 0 -> number_new (py_rem a b) = NNaN) /\ (~ q == 0 -> exists r, remainder p q r /\ same_number (number_new (py_rem a b)) (NFin r))) as FF.
    { intros p q A B. specialize (NZ q B). split; [intros H; contradiction|]. intros _. destruct (fmod_ok a b p q A B NZ) as [r [R M]]. exists r. split; [exact R|]. unfold py_rem. destruct M as [[-> RZ]|[RZ ZM]].
      - assert (is_zero (NFin r) = false) as -> by (cbn; destruct (Qeq_bool r 0) eqn:E; [apply Qeq_bool_iff in E; contradiction|reflexivity]). cbn [negb andb].
        assert (Bool.eqb (num_ltb b (NFin 0)) (num_ltb (NFin r) (NFin 0)) = true) as ->; [|apply number_new_same].
        apply Bool.eqb_true_iff, eq_true_iff_eq. rewrite ltb_zero_fin, num_ltb_spec. destruct R as [n [E [L [P1 P2]]]].
        assert (num_lt b (NFin 0) <-> q < 0) as -> by (destruct b; try discriminate; cbn in B; injection B as <-; reflexivity).
        assert (num_lt a (NFin 0) <-> p < 0) as LA by (destruct a; try discriminate; cbn in A; injection A as <-; reflexivity). assert (num_lt (NFin 0) a <-> 0 < p) as GA by (destruct a; try discriminate; cbn in A; injection A as <-; reflexivity).
        assert (num_lt (NFin 0) b <-> 0 < q) as GB by (destruct b; try discriminate; cbn in B; injection B as <-; reflexivity). assert (num_lt b (NFin 0) <-> q < 0) as LB by (destruct b; try discriminate; cbn in B; injection B as <-; reflexivity).
        unfold opposite in O. rewrite LA, GA, GB, LB in O. destruct (Qlt_le_dec p 0) as [Pn|Pn]; [specialize (P2 ltac:(lra))|specialize (P1 Pn)]; split; intros K.
        + apply Qnot_le_lt. intros C. assert (r == 0) by lra. contradiction.
        + apply Qnot_le_lt. intros C. apply O. left. split; [exact Pn|]. destruct (Qlt_le_dec 0 q); [assumption|]. exfalso. apply NZ. lra.
        + exfalso. destruct (Qlt_le_dec 0 p) as [PP|PP]; [apply O; right; split; assumption|]. specialize (P2 PP). apply RZ. lra.
        + exfalso. lra.
      - rewrite ZM. cbn [negb andb]. rewrite (is_zero_new _ ZM). now symmetry. }
    destruct a as [| | | |p], b as [| | | |q]; cbn [modulo_of]; try reflexivity; try (apply FF; reflexivity); try discriminate Z;
      try (unfold py_rem; cbn [num_fmod is_zero negb andb]; apply number_new_same);
      try (unfold py_rem; cbn [num_fmod]; destruct (negb _ && _); reflexivity).
    + unfold py_rem. cbn [num_fmod is_zero]. destruct (Qeq_bool p 0) eqn:E; cbn [negb andb]; [apply number_new_same|]. assert (num_ltb (NFin p) (NFin 0) = false) as ->. { destruct (num_ltb (NFin p) (NFin 0)) eqn:K; [|reflexivity]. exfalso. apply O. left. split; [now apply num_ltb_spec|exact I]. } cbn. apply number_new_same.
    + unfold py_rem. cbn [num_fmod is_zero]. destruct (Qeq_bool p 0) eqn:E; cbn [negb andb]; [apply number_new_same|]. apply Qeq_bool_neq in E. assert (num_ltb (NFin p) (NFin 0) = true) as ->. { apply num_ltb_spec. change (p < 0). apply Qnot_le_lt. intros K. apply O. right. split; [change (0 < p); lra|exact I]. } cbn. apply number_new_same.
Qed.
(** With operands of opposite sign the result is the remainder plus the divisor. *)
Theorem mod_opposite a b p q r : finite a = Some p -> finite b = Some q -> opposite a b -> remainder p q r -> ~ r == 0 -> rounds_to (r + q) (number_rem a b).
Proof.
  intros A B O R RZ. unfold number_rem.
  assert (p < 0 /\ 0 < q \/ 0 < p /\ q < 0) as O'. { destruct a, b; try discriminate; cbn in A, B; injection A as <-; injection B as <-; exact O. }
  assert (~ q == 0) as NZ by lra. assert (is_zero b = false) as ->. { destruct (is_zero b) eqn:Z; [|reflexivity]. apply is_zero_spec in Z. apply (finite_same b q _ B) in Z. contradiction. }
  destruct (fmod_ok a b p q A B NZ) as [r' [R' M]]. pose proof (remainder_unique p q r r' R R') as E. unfold py_rem. destruct M as [[-> RZ']|[RZ' _]]; [|exfalso; apply RZ; lra].
  assert (is_zero (NFin r') = false) as -> by (cbn; destruct (Qeq_bool r' 0) eqn:K; [apply Qeq_bool_iff in K; contradiction|reflexivity]). cbn [negb andb].
  destruct R' as [n [E' [L [P1 P2]]]].
  assert (Bool.eqb (num_ltb b (NFin 0)) (num_ltb (NFin r') (NFin 0)) = false) as ->.
  { apply Bool.eqb_false_iff. intros K0. assert (num_ltb b (NFin 0) = true <-> num_ltb (NFin r') (NFin 0) = true) as K by (rewrite K0; reflexivity). rewrite ltb_zero_fin, num_ltb_spec in K. assert (num_lt b (NFin 0) <-> q < 0) as LB by (destruct b; try discriminate; cbn in B; injection B as <-; reflexivity). rewrite LB in K.
    destruct O' as [[X Y]|[X Y]]; [specialize (P2 ltac:(lra)); assert (q < 0) by (apply K; lra); lra|specialize (P1 ltac:(lra)); assert (r' < 0) by (apply K; lra); lra]. }
  cbn [negb]. apply rounds_collapse. destruct b as [| | | |q']; try discriminate; cbn in B; injection B as B; [exfalso; apply NZ; now rewrite <- B|]. subst q'. cbn [num_add]. pose proof (rnd_rounds (r' + q)) as K.
  destruct (rnd (r' + q)); cbn [rounds_to] in *; [contradiction|lra|lra| |].
  - destruct K as [K1 K2]. split; [lra|]. apply (nearest_comp (r' + q) _ 0 0); [lra|reflexivity|exact K2].
  - destruct K as [K1 K2]. assert (r' + q == r + q) as EE by lra. split; [now rewrite <- EE|]. apply (nearest_comp (r' + q) _ q0 q0); [exact EE|reflexivity|exact K2].
Qed.

(** ** round *)
Lemma frac_representable q : representable q -> representable (q - inject_Z (Qtrunc q)).
Proof.
  intros [m [e [E [B R]]]].
  destruct (Z_le_gt_dec 0 e) as [P|N].
  - assert (q == inject_Z (m * 2 ^ e)) as Q. { rewrite E, inject_Z_mult, two_int by exact P. reflexivity. }
    assert (Qtrunc q = m * 2 ^ e)%Z as T. { destruct (Qlt_le_dec q 0) as [L|L]. - destruct (trunc_nonpos q ltac:(lra)) as [A C].  assert (m * 2 ^ e <= Qtrunc q)%Z by (apply inj_le_inv; lra). assert (Qtrunc q - 1 < m * 2 ^ e)%Z by (apply inj_lt_inv; unfold Z.sub; rewrite inj_plus; change (inject_Z (Z.opp 1)) with (-(1)); lra). lia.
      - destruct (trunc_nonneg q L) as [A C].  assert (Qtrunc q <= m * 2 ^ e)%Z by (apply inj_le_inv; lra). assert (m * 2 ^ e < Qtrunc q + 1)%Z by (apply inj_lt_inv; rewrite inj_plus; change (inject_Z 1) with 1; lra). lia. }
    apply (representable_comp 0); [|apply representable_zero]. rewrite T, Q. ring.
  - assert (0 < 2 ^ (- e))%Z as PP by (apply Z.pow_pos_nonneg; lia). assert (two_to (- e) == inject_Z (2 ^ (- e))) as TE by (apply two_int; lia). assert (two_to e * two_to (- e) == 1) as TT by (rewrite <- two_plus, Z.add_opp_diag_r; reflexivity).
    assert (q - inject_Z (Qtrunc q) == inject_Z (m - Qtrunc q * 2 ^ (- e)) * two_to e) as F. { unfold Z.sub. rewrite inj_plus, inject_Z_opp, inject_Z_mult, <- TE. rewrite E at 1. setoid_replace (inject_Z (Qtrunc q)) with (inject_Z (Qtrunc q) * (two_to e * two_to (- e))) at 1 by (rewrite TT; ring). ring. }
    exists (m - Qtrunc q * 2 ^ (- e))%Z, e. split; [exact F|]. split; [|exact R].
    assert (Z.abs (m - Qtrunc q * 2 ^ (- e)) <= Z.abs m)%Z; [|lia]. pose proof (two_pos e) as PE.
    set (k := (m - Qtrunc q * 2 ^ (- e))%Z) in *. destruct (Qlt_le_dec q 0) as [L|L].
    + assert (inject_Z (Qtrunc q) <= 0) as T0. { pose proof (trunc_pos (- q) ltac:(lra)) as K. rewrite trunc_opp, inject_Z_opp in K. lra. } destruct (trunc_nonpos q ltac:(lra)) as [A C].
      assert (k <= 0)%Z. { apply inj_le_inv. apply (Qmult_le_r _ _ _ PE). rewrite <- F. change (inject_Z 0) with 0. lra. } assert (m <= k)%Z; [|lia]. apply inj_le_inv. apply (Qmult_le_r _ _ _ PE). rewrite <- F, <- E. lra.
    + pose proof (trunc_pos q L) as T0. destruct (trunc_nonneg q L) as [A C].
      assert (0 <= k)%Z. { apply inj_le_inv. apply (Qmult_le_r _ _ _ PE). rewrite <- F. change (inject_Z 0) with 0. lra. } assert (k <= m)%Z; [|lia]. apply inj_le_inv. apply (Qmult_le_r _ _ _ PE). rewrite <- F, <- E. lra.
Qed.
Lemma one_minus_representable f : representable f -> (1 # 2) <= f -> f < 1 -> representable (1 - f).
Proof.
  intros [m [e [E [B R]]]] L U. pose proof (two_pos e) as PE.
  assert (e < 0)%Z as N. { destruct (Z_lt_ge_dec e 0) as [N|N]; [exact N|]. exfalso. rewrite two_int in E by lia. rewrite <- inject_Z_mult in E. assert (0 < m * 2 ^ e)%Z by (apply inj_lt_inv; change (inject_Z 0) with 0; lra). assert (m * 2 ^ e < 1)%Z by (apply inj_lt_inv; change (inject_Z 1) with 1; lra). lia. }
  assert (two_to (- e) == inject_Z (2 ^ (- e))) as TE by (apply two_int; lia). assert (two_to e * two_to (- e) == 1) as TT by (rewrite <- two_plus, Z.add_opp_diag_r; reflexivity).
  assert (1 - f == inject_Z (2 ^ (- e) - m) * two_to e) as F. { unfold Z.sub. rewrite inj_plus, inject_Z_opp, <- TE, E. rewrite <- TT at 1. ring. }
  exists (2 ^ (- e) - m)%Z, e. split; [exact F|]. split; [|exact R].
  assert (0 < 2 ^ (- e) - m)%Z. { apply inj_lt_inv. apply (Qmult_lt_r _ _ _ PE). rewrite <- F. change (inject_Z 0) with 0. lra. } assert (2 ^ (- e) - m <= m)%Z; [|lia]. apply inj_le_inv. apply (Qmult_le_r _ _ _ PE). rewrite <- F, <- E. lra.
Qed.
Lemma opp_representable q : representable (- q) -> representable q.
Proof. intros H. apply (representable_comp (- - q)); [ring|now apply representable_opp]. Qed.

Lemma abs_lt_1 x : -(1) < x -> x < 1 -> Qabs x < Qabs 1.
Proof. intros A B. change (Qabs 1) with 1. qabs x; lra. Qed.
(** The test of round_function against the fractional part. *)
Lemma half_test q z : representable q -> ~ q == 0 -> floor_of q z -> q <= inject_Z z + (1 # 2) -> num_eqb (number_rem (NFin q) (NFin 1)) (NFin (1 # 2)) = true <-> q == inject_Z z + (1 # 2).
Proof.
  intros RQ QZ [F1 F2] H. rewrite num_eqb_spec. unfold num_eq.
  assert (is_zero (NFin 1) = false) as Z1 by reflexivity.
  destruct (Qlt_le_dec q 0) as [N|P].
  - destruct (Qeq_dec q (inject_Z z)) as [Eq|NE].
    + (* an integer *)
      assert (remainder q 1 0) as R0. { exists z. split; [rewrite Eq; ring|]. split; [reflexivity|]. split; intros; lra. }
      destruct (fmod_ok (NFin q) (NFin 1) q 1 eq_refl eq_refl ltac:(lra)) as [r [R M]]. pose proof (remainder_unique _ _ _ _ R0 R) as RE. destruct M as [[_ C]|[_ ZM]]; [exfalso; apply C; lra|].
      unfold number_rem, py_rem. rewrite Z1, ZM. cbn [negb andb]. rewrite (is_zero_new _ ZM). split; [intros [_ K]; cbn in K; discriminate K|intros K; lra].
    + assert (remainder q 1 (q - inject_Z (z + 1))) as R0. { exists (z + 1)%Z. rewrite inj_plus. change (inject_Z 1) with 1. split; [ring|]. split; [apply abs_lt_1; lra|]. split; intros; lra. }
      destruct (fmod_ok (NFin q) (NFin 1) q 1 eq_refl eq_refl ltac:(lra)) as [r [R M]]. pose proof (remainder_unique _ _ _ _ R0 R) as RE. rewrite inj_plus in RE. change (inject_Z 1) with 1 in RE.
      assert (opposite (NFin q) (NFin 1)) as O by (left; split; [exact N|reflexivity]).
      assert (~ r == 0) as RZ by lra.
      pose proof (mod_opposite (NFin q) (NFin 1) q 1 r eq_refl eq_refl O R RZ) as K.
      assert (representable (r + 1)) as RR. { destruct (fmod_ok (NFin q) (NFin 1) q 1 eq_refl eq_refl ltac:(lra)) as [r2 [R2 _]]. pose proof (frac_representable q RQ) as FR. pose proof (remainder_trunc q 1 ltac:(lra)) as RT. pose proof (remainder_unique _ _ _ _ RT R) as RU. assert (q / 1 == q) as Q1 by field.
        assert (Qtrunc (q / 1) = Qtrunc q) as TQ. { unfold Qtrunc. destruct q as [n d]. cbn. rewrite Z.mul_1_r, Pos.mul_1_r. reflexivity. } rewrite TQ in RU.
        assert (representable r) as Rr by (apply (representable_comp (q - inject_Z (Qtrunc q))); [rewrite <- RU; ring|exact FR]).
        apply (representable_comp (1 - (- r))); [ring|]. apply one_minus_representable; [now apply representable_opp|lra|lra]. }
      assert (same_number (number_rem (NFin q) (NFin 1)) (NFin (r + 1))) as SN. { apply (rounds_unique (r + 1) (r + 1)); [reflexivity|exact K|]. split; [now apply representable_small|]. pose proof (rnd_rounds (r + 1)) as Z. pose proof (rnd_representable (r + 1) RR) as Y. apply (nearest_comp (r + 1) (r + 1) (r + 1) (r + 1)); try reflexivity. split; [exact RR|]. assert (Qabs (r + 1 - (r + 1)) == 0) as ZZ by (qabs (r + 1 - (r + 1)); lra). split; [intros; rewrite ZZ; apply Qabs_nonneg|]. intros s Ss L. left. rewrite ZZ in L. qabs (r + 1 - s); lra. }
      split.
      * intros [_ KK]. pose proof (same_trans _ _ _ (same_sym _ _ SN) KK) as W. cbn in W. lra.
      * intros KK. split; [intros C; rewrite C in SN; exact SN|]. eapply same_trans; [exact SN|]. cbn. lra.
  - assert (remainder q 1 (q - inject_Z z)) as R0. { exists z. split; [ring|]. split; [apply abs_lt_1; lra|]. split; intros; lra. }
    destruct (fmod_ok (NFin q) (NFin 1) q 1 eq_refl eq_refl ltac:(lra)) as [r [R M]]. pose proof (remainder_unique _ _ _ _ R0 R) as RE.
    assert (same_number (number_rem (NFin q) (NFin 1)) (NFin r)) as SN.
    { assert (~ opposite (NFin q) (NFin 1)) as O. { intros [[O _]|[_ O]]; unfold num_lt, finite in O; lra. }
      pose proof (mod_ok (NFin q) (NFin 1) O) as K. cbn [modulo_of finite] in K. destruct (proj2 K ltac:(lra)) as [r2 [R2 S2]]. eapply same_trans; [exact S2|]. apply (remainder_unique _ _ _ _ R2 R). }
    split.
    + intros [_ KK]. pose proof (same_trans _ _ _ (same_sym _ _ SN) KK) as W. cbn in W. lra.
    + intros KK. split; [intros C; rewrite C in SN; exact SN|]. eapply same_trans; [exact SN|]. cbn. lra.
Qed.
Theorem round_ok a : is_double a -> (forall q, finite a = Some q -> exists z, inject_Z z <= q <= inject_Z z + (1 # 2)) -> rounded a (round_function a).
Proof.
  intros D H. unfold rounded, round_function, isnormal. destruct (finite a) as [q|] eqn:F; [|reflexivity]. destruct (H q eq_refl) as [z [A B]]. destruct (is_zero a) eqn:Z; cbn [negb].
  - apply is_zero_spec in Z. exists 0%Z. split; [exact Z|]. apply (finite_same a q _ F) in Z. change (inject_Z 0) with 0. lra.
  - destruct a as [| | | |q']; try discriminate. cbn in F. injection F as ->. assert (~ q == 0) as NZ by (apply (zero_div (NFin q) Z q eq_refl)). assert (floor_of q z) as FL by (split; lra).
    pose proof (half_test q z D NZ FL B) as HT. destruct (num_eqb (number_rem (NFin q) (NFin 1)) (NFin (1 # 2))) eqn:T.
    + assert (q == inject_Z z + (1 # 2)) as E by (now apply HT). exists (z + 1)%Z. split.
      * apply number_new_fin. eapply same_trans; [apply num_ceil_same|]. assert (Qceiling q = z + 1)%Z as ->; [|apply same_refl]. apply (ceiling_unique q); [apply ceiling_z|]. unfold ceiling_of. rewrite inj_plus. change (inject_Z 1) with 1. lra.
      * rewrite inj_plus. change (inject_Z 1) with 1. lra.
    + assert (~ q == inject_Z z + (1 # 2)) as E by (intros K; apply HT in K; discriminate). exists z. split.
      * apply number_new_fin. cbn [num_floor]. assert (Qfloor q = z) as ->; [|apply same_refl]. apply (floor_unique q); [apply floor_z|exact FL].
      * split; [lra|]. apply Qnot_le_lt. intros K. apply E. lra.
Qed.
(** Above a half, round() goes down. *)
Theorem round_down q z : (0 <= z)%Z -> inject_Z z + (1 # 2) < q -> q < inject_Z z + 1 -> same_number (round_function (NFin q)) (NFin (inject_Z z)).
Proof.
  intros P A B. apply (inj_le 0) in P. change (inject_Z 0) with 0 in P. unfold round_function, isnormal. cbn [finite is_zero]. assert (Qeq_bool q 0 = false) as ->. { destruct (Qeq_bool q 0) eqn:E; [apply Qeq_bool_iff in E; lra|reflexivity]. } cbn [negb].
  assert (num_eqb (number_rem (NFin q) (NFin 1)) (NFin (1 # 2)) = false) as ->.
  { destruct (num_eqb (number_rem (NFin q) (NFin 1)) (NFin (1 # 2))) eqn:T; [|reflexivity]. exfalso. apply num_eqb_spec in T. destruct T as [_ T].
    assert (remainder q 1 (q - inject_Z z)) as R0. { exists z. split; [ring|]. split; [apply abs_lt_1; lra|]. split; intros; lra. }
    assert (~ opposite (NFin q) (NFin 1)) as O. { intros [[O _]|[_ O]]; unfold num_lt, finite in O; lra. }
    pose proof (mod_ok (NFin q) (NFin 1) O) as K. cbn [modulo_of finite] in K. destruct (proj2 K ltac:(lra)) as [r2 [R2 S2]]. pose proof (remainder_unique _ _ _ _ R2 R0) as RE. pose proof (same_trans _ _ _ (same_sym _ _ S2) T) as W. cbn in W. lra. }
  apply number_new_fin. cbn [num_floor]. assert (Qfloor q = z) as ->; [|apply same_refl]. apply (floor_unique q); [apply floor_z|]. split; lra.
Qed.

(** ** Operators *)
Lemma rounds_fin q : representable q -> rounds_to q (NFin q).
Proof.
  intros R. split; [now apply representable_small|]. split; [exact R|]. assert (Qabs (q - q) == 0) as Z by (rewrite Qabs_pos; lra). split.
  - intros s _. rewrite Z. apply Qabs_nonneg.
  - intros s _ H. left. rewrite Z in H. qabs (q - s); lra.
Qed.
Lemma rounds_comp p q n : p == q -> rounds_to p n -> rounds_to q n.
Proof.
  intros E K. destruct n; cbn [rounds_to] in *; [contradiction|lra|lra| |].
  - destruct K as [K1 K2]. split; [lra|]. apply (nearest_comp p _ 0 0); [lra|reflexivity|exact K2].
  - destruct K as [K1 K2]. split; [now rewrite <- E|]. apply (nearest_comp p _ q0 q0); [exact E|reflexivity|exact K2].
Qed.
Lemma rounds_zero : rounds_to 0 (NFin 0).
Proof. apply rounds_fin, representable_zero. Qed.
Lemma rounds_double q n : rounds_to q n -> is_double n.
Proof. destruct n; cbn; try exact (fun _ => I). intros [_ [R _]]. exact R. Qed.
Lemma new_double n : is_double n -> is_double (number_new n).
Proof. unfold number_new. destruct (is_zero n); [|auto]. intros _. apply representable_zero. Qed.
Theorem add_ok a b : is_double a -> is_double b -> sum_of a b (number_add a b).
Proof.
  intros A B. unfold number_add. destruct a as [| | | |p], b as [| | | |q]; cbn [sum_of num_add finite]; try reflexivity; apply rounds_collapse.
  - split; [lra|]. apply rounds_zero.
  - apply (rounds_comp q); [ring|]. now apply rounds_fin.
  - apply (rounds_comp p); [ring|]. now apply rounds_fin.
  - apply rnd_rounds.
Qed.
Lemma opp_double a : is_double a -> is_double (num_opp a).
Proof. destruct a; cbn; try exact (fun x => x). - intros _. apply representable_zero. - intros R. destruct (Qeq_bool q 0); [exact I|]. now apply representable_opp. Qed.
Theorem sub_ok a b : is_double a -> is_double b -> difference_of a b (number_sub a b).
Proof.
  intros A B. unfold number_sub, num_sub. pose proof (add_ok a (num_opp b) A (opp_double b B)) as K. unfold number_add in K.
  destruct a as [| | | |p], b as [| | | |q]; cbn [difference_of finite]; try reflexivity; try exact K; cbn [num_opp] in *; try (destruct (Qeq_bool q 0) eqn:Z; reflexivity).
  - destruct (Qeq_bool q 0) eqn:Z; [apply Qeq_bool_iff in Z|]; eapply rounds_comp; try exact K; lra.
  - destruct (Qeq_bool q 0) eqn:Z; [apply Qeq_bool_iff in Z|]; eapply rounds_comp; try exact K; lra.
Qed.
Lemma signed_spec a : signed a = true <-> negative a.
Proof. destruct a; cbn; try (split; [discriminate|contradiction]); try (split; auto; reflexivity). rewrite negb_true_iff. split. - intros H. apply Qnot_le_lt. intros K. apply Qle_bool_iff in K. congruence. - intros H. destruct (Qle_bool 0 q) eqn:E; [|reflexivity]. apply Qle_bool_iff in E. lra. Qed.
Lemma signed_inf_ok a b : infinity (negative a <-> negative b) (signed_inf (xorb (signed a) (signed b))).
Proof.
  unfold infinity. rewrite <- !signed_spec. destruct (signed a), (signed b); cbn; [left|right|right|left]; (split; [|reflexivity]); intuition congruence.
Qed.
Lemma new_inf s : number_new (signed_inf s) = signed_inf s.
Proof. destruct s; reflexivity. Qed.
Lemma mul_inf a b x : let n := number_new (if is_zero x then NNaN else signed_inf (xorb (signed a) (signed b))) in
  (same_number x (NFin 0) -> n = NNaN) /\ (~ same_number x (NFin 0) -> infinity (negative a <-> negative b) n).
Proof.
  cbv zeta. rewrite <- is_zero_spec. destruct (is_zero x); split; intros H; try reflexivity; try congruence. rewrite new_inf. apply signed_inf_ok.
Qed.
Theorem mul_ok a b : product_of a b (number_mul a b).
Proof.
  unfold number_mul.
  destruct a as [| | | |p], b as [| | | |q]; cbn [product_of num_mul]; try reflexivity; try apply mul_inf; cbn [finite]; apply rounds_collapse.
  - assert (0 * 0 == 0) as E by ring. rewrite (proj2 (Qeq_bool_iff _ _) E). apply (rounds_comp 0); [symmetry; exact E|]. destruct (xorb _ _); [split; [lra|]|]; apply rounds_zero.
  - assert (0 * q == 0) as E by ring. rewrite (proj2 (Qeq_bool_iff _ _) E). apply (rounds_comp 0); [symmetry; exact E|]. destruct (xorb _ _); [split; [lra|]|]; apply rounds_zero.
  - assert (p * 0 == 0) as E by ring. rewrite (proj2 (Qeq_bool_iff _ _) E). apply (rounds_comp 0); [symmetry; exact E|]. destruct (xorb _ _); [split; [lra|]|]; apply rounds_zero.
  - destruct (Qeq_bool (p * q) 0) eqn:E; [|apply rnd_rounds]. apply Qeq_bool_iff in E. apply (rounds_comp 0); [symmetry; exact E|]. destruct (xorb _ _); [split; [lra|]|]; apply rounds_zero.
Qed.
Theorem div_ok a b : b <> NNegZero -> quotient_of a b (number_div a b).
Proof.
  intros NB. unfold number_div. destruct (is_zero b) eqn:Z.
  - destruct b as [| | | |q]; try discriminate; [congruence|]. cbn in Z. apply Qeq_bool_iff in Z. unfold handle_fpe.
    destruct a as [| | | |p]; cbn [quotient_of finite].
    + reflexivity.
    + left. split; [|reflexivity]. cbn. split; [intros []|intros; lra].
    + right. split; [|reflexivity]. cbn. intros H. assert (q < 0) by (now apply H). lra.
    + split; [reflexivity|]. split; [intros _ H; exfalso; apply H; reflexivity|intros H; contradiction].
    + split; [|split]; [| |intros H; contradiction].
      * intros _ P. destruct (num_ltb (NFin p) (NFin 0)) eqn:L; [apply num_ltb_spec in L; unfold num_lt, finite in L; lra|]. destruct (num_ltb (NFin 0) (NFin p)) eqn:G; [apply num_ltb_spec in G; unfold num_lt, finite in G; lra|reflexivity].
      * intros _ P. unfold infinity, negative. destruct (num_ltb (NFin p) (NFin 0)) eqn:L; [apply num_ltb_spec in L; unfold num_lt, finite in L; right; split; [intros [H _]; specialize (H L); lra|reflexivity]|]. destruct (num_ltb (NFin 0) (NFin p)) eqn:G.
        -- apply num_ltb_spec in G. unfold num_lt, finite in G. left. split; [split; intros; lra|reflexivity].
        -- exfalso. apply P. apply Qle_antisym; apply Qnot_lt_le; intros K; [assert (num_ltb (NFin 0) (NFin p) = true) by (now apply num_ltb_spec)|assert (num_ltb (NFin p) (NFin 0) = true) by (now apply num_ltb_spec)]; congruence.
  - destruct a as [| | | |p], b as [| | | |q]; cbn [quotient_of finite]; try discriminate Z; try reflexivity;
      try (cbn [num_div]; rewrite new_inf; apply signed_inf_ok);
      try (apply number_new_fin; cbn [num_div]; apply signed_zero_same).
    + cbn in Z. apply Qeq_bool_neq in Z. split; [intros H; contradiction|]. split; [intros H; contradiction|]. intros _. apply rounds_collapse. unfold num_div. cbn [finite]. assert (Qeq_bool q 0 = false) as -> by (destruct (Qeq_bool q 0) eqn:E; [apply Qeq_bool_iff in E; contradiction|reflexivity]). assert (Qeq_bool 0 0 = true) as -> by reflexivity. apply (rounds_comp 0); [field; exact Z|]. destruct (xorb _ _); [split; [lra|]|]; apply rounds_zero.
    + cbn in Z. apply Qeq_bool_neq in Z. split; [intros H; contradiction|]. split; [intros H; contradiction|]. intros _. apply rounds_collapse. unfold num_div. cbn [finite]. assert (Qeq_bool q 0 = false) as -> by (destruct (Qeq_bool q 0) eqn:E; [apply Qeq_bool_iff in E; contradiction|reflexivity]). destruct (Qeq_bool p 0) eqn:P; [|apply rnd_rounds]. apply Qeq_bool_iff in P. apply (rounds_comp 0); [rewrite P; field; exact Z|]. destruct (xorb _ _); [split; [lra|]|]; apply rounds_zero.
Qed.
(** unary minus *)
Theorem neg_ok a : match finite a with Some q => same_number (number_neg a) (NFin (- q)) | None => number_neg a = match a with NPosInf => NNegInf | NNegInf => NPosInf | x => x end end.
Proof.
  destruct a as [| | | |q]; try reflexivity. cbn [finite number_neg is_zero]. destruct (Qeq_bool q 0) eqn:Z.
  - apply Qeq_bool_iff in Z. cbn. lra.
  - apply number_new_fin. cbn. rewrite Z. cbn. reflexivity.
Qed.

(** ** sum *)
Lemma py_parse_double s n : py_parse s = Ok n -> is_double n.
Proof.
  unfold py_parse. destruct (match s with 45%N :: r => (true, r) | 43%N :: r => (false, r) | _ => (false, s) end) as [ng t]. destruct (span c_digit t) as [ip u]. destruct (match u with 46%N :: r => span c_digit r | _ => ([], u) end) as [fp v]. destruct v; [|discriminate]. destruct (ip ++ fp); [discriminate|]. intros [= <-]. eapply rounds_double, rnd_rounds.
Qed.
Lemma from_string_double s n : from_string s = Ok n -> is_double n.
Proof.
  unfold from_string. cbv zeta. destruct (_ || _)%bool; [intros [= <-]; exact I|]. destruct (py_float s) as [d|e] eqn:F; [|discriminate]. cbn. intros [= <-]. apply new_double. eapply py_parse_double, F.
Qed.
Lemma add_double a b : is_double a -> is_double b -> is_double (number_add a b).
Proof.
  intros A B. unfold number_add. apply new_double. destruct a, b; cbn [num_add]; try exact I; try assumption. eapply rounds_double, rnd_rounds.
Qed.
Lemma sums_fold ns : forall a, is_double a -> Forall is_double ns -> sums a ns (fold_left number_add ns a).
Proof.
  induction ns as [|n ns IH]; intros a A F; [constructor|]. inversion_clear F as [|? ? N F']. cbn [fold_left]. econstructor; [apply add_ok; assumption|]. apply IH; [now apply add_double|exact F'].
Qed.
Lemma numbers_of_ok l ns : numbers_of l = Ok ns -> Forall2 string_number l ns /\ Forall is_double ns.
Proof.
  revert ns. induction l as [|s l IH]; intros ns; cbn [numbers_of]; [intros [= <-]; split; constructor|]. destruct (from_string s) as [n|e] eqn:F; [|discriminate]. cbn [bind]. destruct (numbers_of l) as [ms|e] eqn:M; [|discriminate]. cbn [bind]. intros [= <-]. destruct (IH ms eq_refl) as [A B]. split; constructor; try assumption; [now apply from_string_ok|eapply from_string_double, F].
Qed.
Lemma numbers_of_err l e : numbers_of l = Err e -> e = ValueError /\ exists s, In s l /\ unconvertible s.
Proof.
  induction l as [|s l IH]; cbn [numbers_of]; [discriminate|]. destruct (from_string s) as [n|e'] eqn:F; cbn [bind].
  - destruct (numbers_of l) as [ms|e'] eqn:M; cbn [bind]; [discriminate|]. intros [= <-]. destruct (IH eq_refl) as [-> [t [I U]]]. split; [reflexivity|]. exists t. split; [now right|exact U].
  - intros [= <-]. destruct (from_string_err _ _ F) as [-> U]. split; [reflexivity|]. exists s. split; [now left|exact U].
Qed.
Theorem sum_ok l n : sum_function l = Ok n -> exists ns, Forall2 string_number l ns /\ sums (NFin 0) ns n.
Proof.
  unfold sum_function. destruct (numbers_of l) as [ns|e] eqn:E; [|discriminate]. cbn [bind]. intros [= <-]. destruct (numbers_of_ok l ns E) as [A B]. exists ns. split; [exact A|]. apply sums_fold; [apply representable_zero|exact B].
Qed.
Theorem sum_err l e : sum_function l = Err e -> e = ValueError /\ exists s, In s l /\ unconvertible s.
Proof. unfold sum_function. destruct (numbers_of l) as [ns|e'] eqn:E; cbn [bind]; [discriminate|]. intros [= <-]. now apply numbers_of_err. Qed.
(** Sums of integers are exact as long as they stay within the integers that are all
    doubles. *)
Lemma sums_exact ns zs : Forall2 (fun n z => same_number n (NFin (inject_Z z))) ns zs -> Forall is_double ns -> forall a za, is_double a -> same_number a (NFin (inject_Z za)) -> (Z.abs za + fold_right (fun z t => Z.abs z + t)%Z 0%Z zs <= 2 ^ 53)%Z ->
  same_number (fold_left number_add ns a) (NFin (inject_Z (fold_left Z.add zs za))).
Proof.
  induction 1 as [|n z ns zs H F IH]; intros D a za DA A B; [exact A|]. inversion_clear D as [|? ? D1 D2]. cbn [fold_left fold_right] in *. assert (0 <= fold_right (fun z t => (Z.abs z + t)%Z) 0%Z zs)%Z as NN by (clear; induction zs; cbn; lia).
  apply IH; [exact D2|now apply add_double| |lia].
  pose proof (add_ok a n DA D1) as K. apply same_finite in A, H. destruct A as [p [A EA]], H as [q [H EH]].
  assert (rounds_to (p + q) (number_add a n)) as R. { destruct a, n; try discriminate; cbn [sum_of finite] in *; injection A as <-; injection H as <-; exact K. }
  apply (rounds_unique (p + q) (inject_Z (za + z))); [rewrite inj_plus; lra|exact R|]. apply rounds_fin, representable_int. lia.
Qed.
Theorem sum_exact l zs : Forall2 (fun s z => numeral s (inject_Z z)) l zs -> (fold_right (fun z t => Z.abs z + t)%Z 0%Z zs <= 2 ^ 53)%Z ->
  exists n, sum_function l = Ok n /\ same_number n (NFin (inject_Z (fold_left Z.add zs 0%Z))).
Proof.
  intros F B. assert (exists ns, numbers_of l = Ok ns /\ Forall2 (fun n z => same_number n (NFin (inject_Z z))) ns zs) as [ns [E G]].
  { revert B. induction F as [|s z l zs H F IH]; intros B; [exists []; split; constructor|]. cbn [fold_right] in B. assert (0 <= fold_right (fun z t => (Z.abs z + t)%Z) 0%Z zs)%Z as NN by (clear; induction zs; cbn; lia). destruct IH as [ns [E G]]; [lia|]. destruct (numeral_from s _ H) as [q0 [Q E0]]. cbn [numbers_of]. rewrite E0, E. cbn [bind]. eexists. split; [reflexivity|]. constructor; [|exact G].
    apply number_new_fin. apply (rounds_unique q0 (inject_Z z)); [exact Q|apply rnd_rounds|]. apply rounds_fin, representable_int. lia. }
  unfold sum_function. rewrite E. cbn [bind]. eexists. split; [reflexivity|]. destruct (numbers_of_ok l ns E) as [_ D]. apply sums_exact; [exact G|exact D|apply representable_zero|reflexivity|cbn; lia].
Qed.
