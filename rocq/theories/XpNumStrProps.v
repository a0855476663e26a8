(** * C47: string() of a number

    An integer is converted without loss.  Other numbers are printed with 12
    significant digits: a number written with at most 12 digits comes back as it was
    written, any number between 1/10000 and 10^12 is printed in decimal with a relative
    error of at most 5 in 10^12.  The full statement of XPath 1.0 (as many digits as
    needed to recover the number; no exponent; NaN, Infinity) is refuted. *)
From Coq Require Import NArith ZArith QArith Qround Qabs Qpower Lqa String List Bool Lia.
From Verif Require Import PyStr PyErr XpNum XpNumSpec XpNumLemmas XpFuncs XpFuncSpec XpFuncNum XpNumStr XpNumStrSpec XpNumStrProofs.
Import ListNotations.
Local Open Scope Q_scope.

Lemma integral_test q : Qeq_bool (inject_Z (Qfloor q)) q = true <-> integral q.
Proof.
  split.
  - intros H. apply Qeq_bool_iff in H. exists (Qfloor q). now symmetry.
  - intros [z E]. apply Qeq_bool_iff. rewrite (Qfloor_comp q (inject_Z z) E), Qfloor_Z. now symmetry.
Qed.
Theorem C47_integer nan c q z : representable q -> q == inject_Z z ->
  exists v, string_of_number nan {| constant := c; num_of := NFin q |} = Ok v /\ decimal_form v (inject_Z z) /\ number_string (NFin q) v /\
    exists n, number_function (VStr v) = Ok n /\ same_number n (NFin q).
Proof.
  intros R E. exists (print_int z). unfold string_of_number. cbn [num_of]. rewrite (proj2 (integral_test q)) by (now exists z). rewrite (Qfloor_comp q (inject_Z z) E), Qfloor_Z. split; [reflexivity|].
  pose proof (print_int_form z) as Fm. split; [exact Fm|]. assert (decimal_form (print_int z) q) as Fq by (eapply form_comp; [symmetry; exact E|exact Fm]). pose proof (rounds_self q R) as RS. split.
  - exists q. split; assumption.
  - now apply (form_number _ q).
Qed.
Print Assumptions C47_integer.
Theorem C47_special nan : 
  (forall v, string_of_number nan {| constant := true; num_of := NNaN |} = Ok v <-> number_string NNaN v) /\
  (forall v, string_of_number nan {| constant := true; num_of := NPosInf |} = Ok v <-> number_string NPosInf v) /\
  (forall v, string_of_number nan {| constant := true; num_of := NNegInf |} = Ok v <-> number_string NNegInf v) /\
  (forall c v, string_of_number nan {| constant := c; num_of := NNegZero |} = Ok v <-> number_string NNegZero v).
Proof.
  assert (forall a v : str, Ok a = Ok v <-> v = a) as X by (intros; split; congruence).
  split; [intros v; apply X|]. split; [intros v; apply X|]. split; [intros v; apply X|]. intros c v. apply X.
Qed.
Print Assumptions C47_special.

Lemma string_fraction nan c q : ~ integral q -> string_of_number nan {| constant := c; num_of := NFin q |} = Ok (print_g12 q).
Proof.
  intros H. unfold string_of_number. cbn [num_of]. destruct (Qeq_bool (inject_Z (Qfloor q)) q) eqn:E; [|reflexivity]. exfalso. now apply H, integral_test.
Qed.
Lemma abs_mult_pos a b : 0 < b -> Qabs (a * b) == Qabs a * b.
Proof. intros P. rewrite Qabs_Qmult, (Qabs_pos b) by lra. reflexivity. Qed.

(** A number written with at most 12 digits is printed as it was written, and number()
    of the string is the number. *)
Theorem C47_short_partial nan c r q : short_decimal r -> 1 # 10000 <= Qabs r -> rounds_to r (NFin q) ->
  exists v, string_of_number nan {| constant := c; num_of := NFin q |} = Ok v /\ decimal_form v r /\ number_string (NFin q) v /\
    exists n, number_function (VStr v) = Ok n /\ same_number n (NFin q).
Proof.
  intros [d [k [D [K E]]]] L R. assert (nearest r q) as N by apply R.
  assert (exists v, string_of_number nan {| constant := c; num_of := NFin q |} = Ok v /\ decimal_form v r) as [v [S Fm]].
  2: { exists v. split; [exact S|]. split; [exact Fm|]. split; [exists r; split; assumption|]. now apply (form_number v r). }
  pose proof (inj_pow_pos k K) as PK. assert (inject_Z d == r * inject_Z (10 ^ k)) as DR by (rewrite E; field; lra).
  assert (Qabs r == inject_Z (Z.abs d) / inject_Z (10 ^ k)) as AR.
  { assert (inject_Z (Z.abs d) == Qabs r * inject_Z (10 ^ k)) as X; [|rewrite X; field; lra]. rewrite <- abs_mult_pos by exact PK. rewrite <- DR. reflexivity. }
  assert (d <> 0%Z) as NZ. { intros ->. cbn in AR. rewrite AR in L. unfold Qdiv in L. rewrite Qmult_0_l in L. now vm_compute in L. }
  destruct (short_normal (Z.abs d) k ltac:(lia) K) as [n [e [B [V EX]]]]. rewrite V in AR.
  assert (Qabs r < inject_Z (10 ^ 12)) as U.
  { rewrite AR. pose proof (ten_pos e). apply Qle_lt_trans with (inject_Z n * 1).
    - assert (ten_to e <= 1) by (change 1 with (ten_to 0); apply ten_le; lia). assert (0 < inject_Z n) by (change 0 with (inject_Z 0); apply inj_lt; lia). nra.
    - rewrite Qmult_1_r. apply inj_lt. lia. }
  pose proof (nearest_error r q L U N) as ER. destruct (close_sign r q L ER) as [SG [AB PQ]].
  destruct (Qeq_bool (inject_Z (Qfloor q)) q) eqn:I.
  - exists (print_int (Qfloor q)). unfold string_of_number. cbn [num_of]. rewrite I. split; [reflexivity|]. apply Qeq_bool_iff in I. eapply form_comp; [|apply print_int_form]. rewrite I.
    set (z := Qfloor q) in *. assert (d = z * 10 ^ k)%Z as DZ.
    { assert (Qabs (inject_Z d - inject_Z (z * 10 ^ k)) < 1) as X.
      { rewrite inject_Z_mult, I, DR. setoid_replace (r * inject_Z (10 ^ k) - q * inject_Z (10 ^ k)) with ((r - q) * inject_Z (10 ^ k)) by ring. rewrite abs_mult_pos by exact PK.
        apply Qle_lt_trans with (inject_Z (Z.abs d) * two_to (-53)).
        - setoid_replace (inject_Z (Z.abs d)) with (Qabs r * inject_Z (10 ^ k)). 2: { rewrite <- abs_mult_pos by exact PK. rewrite <- DR. reflexivity. }
          set (t := two_to (-53)) in *. set (p := inject_Z (10 ^ k)) in *. nra.
        - apply Qle_lt_trans with (inject_Z (10 ^ 12) * two_to (-53)); [|reflexivity]. apply Qmult_le_compat_r; [apply inj_le; lia|apply Qlt_le_weak, two_pos]. }
      unfold Qminus in X. rewrite <- inject_Z_opp, <- inject_Z_plus in X. change (Qabs (inject_Z (d + - (z * 10 ^ k)))) with (inject_Z (Z.abs (d + - (z * 10 ^ k)))) in X. change 1 with (inject_Z 1) in X. apply inj_lt_inv in X. lia. }
    rewrite E, DZ, inject_Z_mult, I. field. lra.
  - exists (print_g12 q). unfold string_of_number. cbn [num_of]. rewrite I. split; [reflexivity|].
    assert (round12 (Qabs q) = (n, e + 11)%Z) as R12. { apply round12_near; [exact B|]. rewrite <- AR, AB. exact ER. }
    assert (-4 <= e + 11 < 12)%Z as X.
    { split; [|exact EX]. assert (-4 < e + 12)%Z; [|lia]. apply ten_lt_inv. change (ten_to (-4)) with (1 # 10000). eapply Qle_lt_trans; [exact L|]. rewrite AR, Z.add_comm, ten_plus, (ten_int 12) by lia. pose proof (ten_pos e).
      assert (inject_Z n < inject_Z (10 ^ 12)) by (apply inj_lt; lia). nra. }
    destruct (layout_sign q n (e + 11) PQ R12 X) as [s [Fm [VS _]]]. eapply form_comp; [|exact Fm]. rewrite VS. replace (e + 11 - 11)%Z with e by lia. rewrite SG.
    destruct (Qle_bool 0 r) eqn:Sr.
    + apply Qle_bool_iff in Sr. rewrite <- AR. apply Qabs_pos. exact Sr.
    + rewrite <- AR, Qabs_neg; [ring|]. apply Qnot_lt_le. intros C. assert (Qle_bool 0 r = true) by (apply Qle_bool_iff; lra). congruence.
Qed.
Print Assumptions C47_short_partial.

(** Any number from 1/10000 up to what is rounded to 10^12 is printed in decimal, with
    12 correct digits. *)
Theorem C47_decimal_partial nan c q : 1 # 10000 <= Qabs q -> Qabs q < (1999999999999 # 2) ->
  exists v r, string_of_number nan {| constant := c; num_of := NFin q |} = Ok v /\ decimal_form v r /\ Qabs (r - q) <= Qabs q * (5 # 1000000000000).
Proof.
  intros L U. assert (0 < Qabs q) as P by lra. destruct (Qeq_bool (inject_Z (Qfloor q)) q) eqn:I.
  - exists (print_int (Qfloor q)), (inject_Z (Qfloor q)). unfold string_of_number. cbn [num_of]. rewrite I. split; [reflexivity|]. split; [apply print_int_form|]. apply Qeq_bool_iff in I. rewrite I.
    setoid_replace (q - q) with 0 by ring. change (Qabs 0) with 0. nra.
  - unfold string_of_number. cbn [num_of]. rewrite I. exists (print_g12 q). destruct (round12 (Qabs q)) as [d x] eqn:R. destruct (log10_floor_ok _ P) as [L1 L2]. pose proof (round12_error _ d x P R) as ER. destruct (round12_ok _ d x P R) as [D [_ O]].
    set (k := log10_floor (Qabs q)) in *. assert (-4 <= k < 12)%Z as KB.
    { split; [assert (-4 < k + 1)%Z; [|lia]; apply ten_lt_inv; change (ten_to (-4)) with (1 # 10000); lra|]. apply ten_lt_inv. eapply Qle_lt_trans; [exact L1|]. eapply Qlt_trans; [exact U|]. reflexivity. }
    assert (-4 <= x < 12)%Z as X.
    { destruct O as [[-> _]|[-> [_ H]]]; [exact KB|]. destruct (Z.eq_dec k 11) as [K|K]; [|lia]. exfalso. rewrite K in H. change (ten_to (11 - 11)) with 1 in H.
      destruct (half_even_spec (Qabs q * 1)) as [H1 [H2 _]]. rewrite H in H1, H2. change (inject_Z (10 ^ 12)) with (1000000000000 # 1) in H1, H2. lra. }
    destruct (layout_sign q d x P R X) as [r [Fm [V _]]]. exists r. split; [reflexivity|]. split; [exact Fm|].
    assert (Qabs (r - q) == Qabs (inject_Z d * ten_to (x - 11) - Qabs q)) as EQ.
    { rewrite V. destruct (Qle_bool 0 q) eqn:Sq.
      - apply Qle_bool_iff in Sq. rewrite (Qabs_pos q) by exact Sq. reflexivity.
      - rewrite (Qabs_neg q). 2: { apply Qnot_lt_le. intros C. assert (Qle_bool 0 q = true) by (apply Qle_bool_iff; lra). congruence. }
        rewrite <- Qabs_opp. apply Qabs_wd. ring. }
    rewrite EQ. eapply Qle_trans; [exact ER|]. unfold Z.sub. rewrite ten_plus. change (ten_to (- (11))) with (1 # 100000000000). lra.
Qed.
Print Assumptions C47_decimal_partial.

(** A division by zero prints as XPath says, by the sign of the dividend. *)
Theorem C47_division_by_zero : forall nan q c c',
  string_of_number nan (object_div {| constant := c; num_of := NFin q |} {| constant := c'; num_of := NFin 0 |}) =
  Ok (match q ?= 0 with Gt => lit "Infinity" | Lt => lit "-Infinity" | Eq => lit "NaN" end).
Proof.
  intros nan q c c'. unfold object_div. cbn [num_of is_zero]. change (Qeq_bool 0 0) with true. unfold string_of_number. cbn [num_of constant].
  unfold handle_fpe, num_ltb. cbn [num_compare]. rewrite <- (Qcompare_antisym q 0). destruct (q ?= 0); reflexivity.
Qed.
Print Assumptions C47_division_by_zero.

(** string(0.1) = '0.1', string(-2.5) = '-2.5', string(1 div 3) = '0.333333333333',
    string(0 - 1000000000000000) = '-1000000000000000'. *)
Definition double (r : Q) : Q := match rnd r with NFin q => q | _ => 0 end.
Definition show (q : Q) : result str := string_of_number (lit "nan") (new_object (NFin (double q))).
Example C47_case :
  show (1 # 10) = Ok (lit "0.1") /\ short_decimal (1 # 10) /\ show (- (5 # 2)) = Ok (lit "-2.5") /\ show (1 # 3) = Ok (lit "0.333333333333") /\
  show (- (1000000000000000 # 1)) = Ok (lit "-1000000000000000") /\ show (1 # 10000) = Ok (lit "0.0001") /\ show (123456789012 # 10) = Ok (lit "12345678901.2") /\
  string_of_number (lit "nan") (object_div (new_object (NFin 1)) (new_object (NFin 0))) = Ok (lit "Infinity").
Proof.
  assert (short_decimal (1 # 10)) as S by (exists 1%Z, 1%Z; split; [reflexivity|]; split; [discriminate|reflexivity]).
  split; [vm_compute; reflexivity|]. split; [exact S|]. repeat split; vm_compute; reflexivity.
Qed.

(** The full statement: string(n) is what XPath 1.0 says for every number object the
    operators make. *)
Definition C47_full : Prop := forall nan c n v, string_of_number nan {| constant := c; num_of := n |} = Ok v -> number_string n v.
(** 0.1 + 0.2: number('0.3') is another number. *)
Theorem C47_precision_refuted : exists a b s v n,
  a = double (1 # 10) /\ b = double (2 # 10) /\ number_add (NFin a) (NFin b) = NFin s /\
  string_of_number (lit "nan") (new_object (NFin s)) = Ok v /\ v = lit "0.3" /\ number_function (VStr v) = Ok n /\ ~ same_number n (NFin s).
Proof.
  exists (double (1 # 10)), (double (2 # 10)), (match number_add (NFin (double (1 # 10))) (NFin (double (2 # 10))) with NFin s => s | _ => 0 end), (lit "0.3"), (match number_function (VStr (lit "0.3")) with Ok n => n | _ => NNaN end).
  split; [reflexivity|]. split; [reflexivity|]. split; [vm_compute; reflexivity|]. split; [vm_compute; reflexivity|]. split; [reflexivity|]. split; [vm_compute; reflexivity|].
  assert (match number_function (VStr (lit "0.3")) with Ok n => n | _ => NNaN end = NFin (match number_function (VStr (lit "0.3")) with Ok (NFin n) => n | _ => 0 end)) as -> by (vm_compute; reflexivity).
  cbn [same_number]. intros H. apply Qeq_bool_iff in H. revert H. vm_compute. discriminate.
Qed.
Print Assumptions C47_precision_refuted.
(** 0.0000001 is printed as 1e-07, which number() does not read back; the number below
    10^12 nearest to it is printed as 1e+12. *)
Theorem C47_exponent_refuted : 
  show (1 # 10000000) = Ok (lit "1e-07") /\ number_function (VStr (lit "1e-07")) = Ok NNaN /\ show (9999999999999 # 10) = Ok (lit "1e+12") /\
  ~ number_string (NFin (double (1 # 10000000))) (lit "1e-07").
Proof.
  split; [vm_compute; reflexivity|]. split; [vm_compute; reflexivity|]. split; [vm_compute; reflexivity|]. 
  intros [r [Fm R]]. destruct (form_number _ _ _ Fm R) as [m [E S]]. assert (number_function (VStr (lit "1e-07")) = Ok NNaN) as X by (vm_compute; reflexivity). rewrite X in E. injection E as <-. exact S.
Qed.
Print Assumptions C47_exponent_refuted.
(** Infinity minus infinity is a NaN that is not the constant; the square of 10^200 is
    an infinity that is not the constant. *)
Theorem C47_computed_refuted : 
  (forall nan, let inf := {| constant := true; num_of := NPosInf |} in num_of (object_sub inf inf) = NNaN /\ string_of_number nan (object_sub inf inf) = Ok nan) /\
  (forall nan, let big := new_object (NFin (double (inject_Z (10 ^ 200)))) in num_of (object_mul big big) = NPosInf /\ string_of_number nan (object_mul big big) = Err OverflowError).
Proof.
  split; intros nan; (split; [vm_compute; reflexivity|]).
  - vm_compute; reflexivity.
  - assert (forall b, b = new_object (NFin (double (inject_Z (10 ^ 200)))) -> object_mul b b = new_object NPosInf) as X by (intros b ->; vm_compute; reflexivity). rewrite (X _ eq_refl). reflexivity.
Qed.
Print Assumptions C47_computed_refuted.
