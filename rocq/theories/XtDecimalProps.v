(** * C62: format-number() shows the number the way the pattern says *)
From Coq Require Import NArith ZArith QArith Qround Qabs String List Bool Lia Arith.
From Verif Require Import PyStr PyErr SerModel XpNum XpNumLemmas XtDecimal XtDecimalSpec XtDecimalProofs XtDecimalParse.
Import ListNotations.
Local Open Scope nat_scope.

(** The absolute value times what a percent or per mille sign stands for. *)
Definition scaled (m : Z) (q v : Q) : Prop := if Z.eqb m 1 then v = q else num_mul (NFin q) (num_of_Z m) = NFin v.

(** The prefix and suffix a negative number gets. *)
Definition negative_affixes (sy : symbols) (pre suf : str) (neg : option (str * str * str)) (P S : str) : Prop :=
  match neg with
  | Some (np, nn, ns) => np ++ ns <> [] /\ P = np /\ S = ns
  | None => pre = [] /\ suf = [] /\ P = [minus sy] /\ S = []
  end.

Section Props.
Variable sy : symbols.
Hypothesis good : good_symbols sy.

Lemma slice_mid (x y z : str) : slice (x ++ y ++ z) (List.length x) (List.length y) = y.
Proof. unfold slice. rewrite skipn_app, skipn_all, Nat.sub_diag. cbn [skipn app]. rewrite firstn_app, firstn_all, Nat.sub_diag. cbn [firstn]. apply app_nil_r. Qed.
Lemma part_mid (x y z : str) : part_text (x ++ y ++ z) (span_of (List.length x) (List.length y)) = y.
Proof. pose proof (slice_mid x y z) as H. destruct y as [|c y]; [reflexivity|]. exact H. Qed.

Section Pattern.
Variables (pre ints : str) (point : bool) (a b c d g : nat) (suf : str) (neg : option (str * str * str)) (m : Z).
Hypotheses (Hpre : Forall (plain sy) pre) (Hsuf : Forall (plain sy) suf) (Hint : int_part sy ints a b g)
  (Hnum : ints ++ frac_part sy point c d <> []) (Hpoint : point = false -> c = 0 /\ d = 0)
  (Hscale : scale sy (pre ++ suf) = Some m) (Hneg : negative_ok sy neg).
Let num := ints ++ frac_part sy point c d.
Let pattern := pre ++ num ++ suf ++ neg_text sy neg.

Lemma parsed_affixes : exists i, parse_pattern sy pattern = Ok (i, pattern) /\
  part_text pattern (i_prefix i) = pre /\ part_text pattern (i_suffix i) = suf /\ i_mult i = m /\
  (i_minInt i = min_int point a b c /\ i_minFrac i = min_frac point a b c d /\ i_maxFrac i = c + d /\ i_group i = g /\ i_show i = show_point point a b c d) /\
  forall P S, negative_affixes sy pre suf neg P S -> negative_parts sy i pattern = (P, S).
Proof.
  pose proof (parse_pattern_spec sy good pre ints point a b c d g suf neg m Hpre Hsuf Hint Hnum Hpoint Hscale Hneg) as H. cbv zeta in H. fold num in H. fold pattern in H.
  eexists; split; [exact H|]. cbn [i_prefix i_suffix i_mult i_minInt i_minFrac i_maxFrac i_group i_show]. split.
  { exact (part_mid [] pre (num ++ suf ++ neg_text sy neg)). }
  split.
  { pose proof (part_mid (pre ++ num) suf (neg_text sy neg)) as E. rewrite app_length, <- !app_assoc in E. exact E. }
  split; [reflexivity|]. split; [repeat split|]. intros P S HS. unfold negative_affixes in HS. unfold negative_parts. cbn [i_nprefix i_nsuffix i_prefix].
  destruct neg as [[[np nn] ns]|].
  - destruct HS as (NE & -> & ->). set (nstart := Datatypes.S (List.length pre + List.length num + List.length suf)).
    assert (part_text pattern (span_of nstart (List.length np)) = np) as E1.
    { pose proof (part_mid (pre ++ num ++ suf ++ [separator sy]) np (nn ++ ns)) as E. rewrite !app_length in E. cbn [List.length] in E. unfold nstart.
      replace (Datatypes.S (List.length pre + List.length num + List.length suf)) with (List.length pre + (List.length num + (List.length suf + 1))) by lia.
      rewrite <- !app_assoc in E. exact E. }
    assert (part_text pattern (span_of (nstart + List.length np + List.length nn) (List.length ns)) = ns) as E2.
    { pose proof (part_mid (pre ++ num ++ suf ++ [separator sy] ++ np ++ nn) ns []) as E. rewrite !app_length in E. cbn [List.length] in E. unfold nstart.
      replace (Datatypes.S (List.length pre + List.length num + List.length suf) + List.length np + List.length nn) with (List.length pre + (List.length num + (List.length suf + (1 + (List.length np + List.length nn))))) by lia.
      rewrite app_nil_r, <- !app_assoc in E. exact E. }
    destruct np as [|x np]; destruct ns as [|y ns]; cbn [span_of List.length] in *; [contradiction NE; reflexivity| | |]; rewrite ?E1, ?E2; try reflexivity; f_equal; assumption.
  - destruct HS as (-> & -> & -> & ->). reflexivity.
Qed.

(** The text is the prefix, the number and the suffix, and the number has the digits the
    pattern asks for. *)
Theorem text_partial number q v P S :
  number = NFin q -> (if Qlt_le_dec q 0 then scaled m (- q) v /\ negative_affixes sy pre suf neg P S else scaled m q v /\ P = pre /\ S = suf) ->
  of_double v -> (0 < rounded v (c + d))%N -> no_carry_out v (c + d) -> c + d <= 25 -> b <= 309 ->
  c + d = 0 \/ 0 < min_frac point a b c d \/ (rounded v (c + d) mod 10 ^ N.of_nat (c + d) <> 0)%N ->
  exists text, decimal_format sy number pattern = Ok (P ++ text ++ S, pattern) /\
    number_text sy (min_int point a b c) (min_frac point a b c d) (c + d) g (show_point point a b c d) (rounded v (c + d)) text.
Proof.
  intros -> HS Dv P0 C K Bb Nz. destruct parsed_affixes as (i & Ep & Epre & Esuf & Em & (I1 & I2 & I3 & I4 & I5) & Eneg).
  assert (min_frac point a b c d <= c + d) as MF. { unfold min_frac. destruct (point && (a =? 0) && (b =? 0) && (c =? 0) && (0 <? d)) eqn:E; [|lia]. rewrite !andb_true_iff in E. destruct E as [_ E]. apply Nat.ltb_lt in E. lia. }
  assert (min_int point a b c <= 309) as MI by (unfold min_int; destruct (point && (b =? 0) && (c =? 0) && (0 <? a)); lia).
  rewrite <- I1 in MI. rewrite <- I3 in P0, C, K, MF, Nz. rewrite <- I2 in MF, Nz.
  destruct (format_number_spec sy v i Dv P0 C (conj MF K) MI Nz) as (text & F & NT). exists text. rewrite I1, I2, I3, I4, I5 in NT. split; [|exact NT].
  unfold decimal_format. destruct pattern as [|ch pat] eqn:Epat.
  { exfalso. unfold pattern in Epat. apply app_eq_nil in Epat. destruct Epat as [_ Epat]. apply app_eq_nil in Epat. exact (Hnum (proj1 Epat)). }
  rewrite Ep. cbn [bind].
  assert (num_ltb (NFin q) (NFin 0) = if Qlt_le_dec q 0 then true else false) as Lt.
  { unfold num_ltb, num_compare. destruct (Qcompare_spec q 0) as [X|X|X]; destruct (Qlt_le_dec q 0) as [L|L]; try reflexivity; exfalso.
    - rewrite X in L. discriminate L.
    - exact (Qlt_not_le _ _ X L).
    - exact (Qlt_not_le _ _ X (Qlt_le_weak _ _ L)). }
  rewrite Lt. destruct (Qlt_le_dec q 0) as [L|L].
  - destruct HS as [Sc Na]. rewrite (Eneg P S Na). assert (num_opp (NFin q) = NFin (- q)) as ->.
    { cbn [num_opp]. destruct (Qeq_bool q 0) eqn:X; [|reflexivity]. apply Qeq_bool_eq in X. rewrite X in L. discriminate L. }
    unfold scaled in Sc. rewrite Em. destruct (Z.eqb m 1); [subst v|rewrite Sc]; rewrite F; reflexivity.
  - destruct HS as (Sc & -> & ->). rewrite Epre, Esuf, Em. unfold scaled in Sc. destruct (Z.eqb m 1); [subst v|rewrite Sc]; rewrite F; reflexivity.
Qed.
Theorem infinity_text : decimal_format sy NPosInf pattern = Ok (pre ++ infinity sy ++ suf, pattern).
Proof.
  destruct parsed_affixes as (i & Ep & Epre & Esuf & Em & _ & _). unfold decimal_format. destruct pattern as [|ch pat] eqn:Epat.
  { exfalso. unfold pattern in Epat. apply app_eq_nil in Epat. destruct Epat as [_ Epat]. apply app_eq_nil in Epat. exact (Hnum (proj1 Epat)). }
  rewrite Ep. cbn [bind num_ltb num_compare]. rewrite Epre, Esuf. reflexivity.
Qed.
End Pattern.
End Props.

(** For a pattern without quotes and a number whose rounding does not step up to a power of
    ten and does not give zero: the text is the prefix, the number and the suffix; the number
    has as many integer and fraction digits as the pattern says and its groups.  The pattern
    is left as it was.  Missing: quotes, zero, a step up to a power of ten, an integer with a
    pattern whose fraction digits are all optional, a negative number with a prefix or suffix
    but without a pattern of its own; all are refuted below. *)
Theorem C62_text_partial sy pre ints point a b c d g suf neg m q v P S :
  good_symbols sy -> Forall (plain sy) pre -> Forall (plain sy) suf -> int_part sy ints a b g ->
  ints ++ frac_part sy point c d <> [] -> (point = false -> c = 0 /\ d = 0) -> scale sy (pre ++ suf) = Some m -> negative_ok sy neg ->
  (if Qlt_le_dec q 0 then scaled m (- q) v /\ negative_affixes sy pre suf neg P S else scaled m q v /\ P = pre /\ S = suf) ->
  of_double v -> (0 < rounded v (c + d))%N -> no_carry_out v (c + d) -> c + d <= 25 -> b <= 309 ->
  c + d = 0 \/ 0 < min_frac point a b c d \/ (rounded v (c + d) mod 10 ^ N.of_nat (c + d) <> 0)%N ->
  let pattern := pre ++ (ints ++ frac_part sy point c d) ++ suf ++ neg_text sy neg in
  exists text, decimal_format sy (NFin q) pattern = Ok (P ++ text ++ S, pattern) /\
    number_text sy (min_int point a b c) (min_frac point a b c d) (c + d) g (show_point point a b c d) (rounded v (c + d)) text.
Proof. intros G H1 H2 H3 H4 H5 H6 H7 H8 H9 H10 H11 H12 H13 H14. cbv zeta. eapply text_partial; try eassumption. reflexivity. Qed.
Print Assumptions C62_text_partial.

(** The number shown is no further than 0.55 of the last digit from the number given, and a
    nearest one if the number given has no more than one digit more. *)
Theorem C62_rounding_partial v k : (0 <= v)%Q ->
  let x := (v * inject_Z (10 ^ Z.of_nat k))%Q in let M := Z.of_N (rounded v k) in
  (x - inject_Z M <= 11 # 20)%Q /\ (inject_Z M - x <= 11 # 20)%Q /\
  (forall n, (v * inject_Z (10 ^ Z.of_nat (Datatypes.S k)) == inject_Z n)%Q -> nearest x M).
Proof.
  intros Hv x M. set (y := (v * inject_Z (10 ^ Z.of_nat (Datatypes.S k)))%Q).
  assert (y == 10 * x)%Q as Exy. { unfold y, x. rewrite Nat2Z.inj_succ, Z.pow_succ_r, inject_Z_mult by lia. change (inject_Z 10) with 10%Q. ring. }
  set (h := half_even y). pose proof (half_even_spec y) as (B1 & B2 & _). fold h in B1, B2. cbv zeta in B1, B2.
  assert (0 <= y)%Q as Hy. { unfold y. apply Qmult_le_0_compat; [exact Hv|]. change 0%Q with (inject_Z 0). rewrite <- Zle_Qle. apply Z.pow_nonneg. lia. }
  assert (0 <= h)%Z as Hh.
  { apply Z.lt_succ_r. unfold Z.succ. rewrite Zlt_Qlt. apply Qlt_le_trans with (y + (1 # 2))%Q; [apply Qlt_le_trans with (1 # 2)%Q; [reflexivity|]; rewrite <- (Qplus_0_l (1 # 2)) at 1; apply Qplus_le_l; exact Hy|].
    rewrite inject_Z_plus. apply Qle_trans with (inject_Z h + (1 # 2) + (1 # 2))%Q; [apply Qplus_le_l|apply Qle_lteq; right; change (inject_Z 1) with 1%Q; ring].
    apply Qplus_le_l with (- inject_Z h)%Q. ring_simplify. apply Qle_trans with (y - inject_Z h)%Q; [apply Qle_lteq; right; ring|exact B1]. }
  assert (M = (h + 5) / 10)%Z as EM.
  { unfold M, rounded, printed. fold y. fold h. rewrite N2Z.inj_div, N2Z.inj_add, Z2N.id by exact Hh. reflexivity. }
  assert (10 * M - 5 <= h <= 10 * M + 4)%Z as R. { pose proof (Z.div_mod (h + 5) 10 ltac:(lia)). pose proof (Z.mod_pos_bound (h + 5) 10 ltac:(lia)). rewrite EM. lia. }
  assert (10 * inject_Z M - 5 <= inject_Z h)%Q as R1. { destruct R as [R _]. rewrite Zle_Qle in R. unfold Z.sub in R. rewrite inject_Z_plus, inject_Z_mult in R. exact R. }
  assert (inject_Z h <= 10 * inject_Z M + 4)%Q as R2. { destruct R as [_ R]. rewrite Zle_Qle in R. rewrite inject_Z_plus, inject_Z_mult in R. exact R. }
  assert (forall p q : Q, (10 * p <= 10 * q)%Q -> (p <= q)%Q) as Div by (intros p r H; apply (Qmult_le_l p r 10); [reflexivity|exact H]).
  split; [|split].
  - apply Div. apply Qle_trans with ((y - inject_Z h) + (inject_Z h - 10 * inject_Z M))%Q; [apply Qle_lteq; right; rewrite Exy; ring|].
    apply Qle_trans with ((1 # 2) + 4)%Q; [|discriminate]. apply Qplus_le_compat; [exact B1|]. apply Qplus_le_l with (10 * inject_Z M)%Q. ring_simplify. apply Qle_trans with (10 * inject_Z M + 4)%Q; [exact R2|apply Qle_refl].
  - apply Div. apply Qle_trans with ((inject_Z h - y) + (10 * inject_Z M - inject_Z h))%Q; [apply Qle_lteq; right; rewrite Exy; ring|].
    apply Qle_trans with ((1 # 2) + 5)%Q; [|discriminate]. apply Qplus_le_compat; [exact B2|]. apply Qplus_le_l with (inject_Z h - 5)%Q. ring_simplify. apply Qle_trans with (10 * inject_Z M - 5)%Q; [apply Qle_lteq; right; ring|exact R1].
  - intros n En. fold y in En. assert (h = n) as Ehn.
    { assert (inject_Z h - inject_Z n <= 1 # 2)%Q as U1 by (rewrite <- En; exact B2). assert (inject_Z n - inject_Z h <= 1 # 2)%Q as U2 by (rewrite <- En; exact B1).
      assert (inject_Z (h - n) < inject_Z 1)%Q as W1. { unfold Z.sub. rewrite inject_Z_plus, inject_Z_opp. apply Qle_lt_trans with (1 # 2)%Q; [exact U1|reflexivity]. }
      assert (inject_Z (n - h) < inject_Z 1)%Q as W2. { unfold Z.sub. rewrite inject_Z_plus, inject_Z_opp. apply Qle_lt_trans with (1 # 2)%Q; [exact U2|reflexivity]. }
      rewrite <- Zlt_Qlt in W1, W2. lia. }
    assert (inject_Z h == 10 * x)%Q as E10 by (rewrite Ehn, <- En; exact Exy). rewrite E10 in R1, R2. unfold nearest. split; apply Div.
    + apply Qplus_le_l with (10 * inject_Z M)%Q. ring_simplify. apply Qle_trans with (10 * inject_Z M + 4)%Q; [exact R2|]. apply Qplus_le_r; discriminate.
    + apply Qplus_le_l with (10 * x - 5)%Q. apply Qle_trans with (10 * inject_Z M - 5)%Q; [apply Qle_lteq; right; ring|]. apply Qle_trans with (10 * x)%Q; [exact R1|apply Qle_lteq; right; ring].
Qed.
Print Assumptions C62_rounding_partial.

(** Infinity stands between the prefix and the suffix; NaN stands alone. *)
Theorem C62_infinity sy pre ints point a b c d g suf neg m :
  good_symbols sy -> Forall (plain sy) pre -> Forall (plain sy) suf -> int_part sy ints a b g ->
  ints ++ frac_part sy point c d <> [] -> (point = false -> c = 0 /\ d = 0) -> scale sy (pre ++ suf) = Some m -> negative_ok sy neg ->
  let pattern := pre ++ (ints ++ frac_part sy point c d) ++ suf ++ neg_text sy neg in
  decimal_format sy NPosInf pattern = Ok (pre ++ infinity sy ++ suf, pattern).
Proof. intros. cbv zeta. eapply infinity_text; eassumption. Qed.
Print Assumptions C62_infinity.
Theorem C62_nan sy pattern : decimal_format sy NNaN pattern = Ok (not_a_number sy, pattern).
Proof. reflexivity. Qed.
Print Assumptions C62_nan.

(** A named format supplies the symbols. *)
Theorem C62_named {name : Type} (formats : name -> option symbols) n sy number pattern : formats n = Some sy ->
  format_number_function formats number pattern (Some n) = decimal_format sy number pattern.
Proof. intros H. unfold format_number_function. rewrite H. reflexivity. Qed.
Print Assumptions C62_named.

(** A case: 1234567.8 with "$#,##0.00 net;(#,##0.00)", of either sign. *)
Example C62_case_pattern :
  lit "$#,##0.00 net;(#,##0.00)" = lit "$" ++ (lit "#,##0" ++ frac_part default_symbols true 2 0) ++ lit " net" ++ neg_text default_symbols (Some (lit "(", lit "#,##0.00", lit ")")) /\
  good_symbols default_symbols /\ Forall (plain default_symbols) (lit "$") /\ Forall (plain default_symbols) (lit " net") /\
  int_part default_symbols (lit "#,##0") 3 1 3 /\ scale default_symbols (lit "$ net") = Some 1%Z /\
  negative_ok default_symbols (Some (lit "(", lit "#,##0.00", lit ")")).
Proof.
  split; [reflexivity|]. split; [unfold good_symbols; repeat (constructor; [vm_compute; intuition discriminate|]); constructor|].
  assert (forall s, forallb (fun c => negb (existsb (N.eqb c) [hash default_symbols; zeroDigit default_symbols; grouping default_symbols; decimalSep default_symbols; QUOTE; separator default_symbols])) s = true -> Forall (plain default_symbols) s) as Pl.
  { intros s H. apply Forall_forall. intros c Hc I. rewrite forallb_forall in H. specialize (H c Hc). apply negb_true_iff in H. rewrite <- not_true_iff_false in H. apply H.
    apply existsb_exists. exists c. split; [exact I|apply N.eqb_refl]. }
  split; [apply Pl; vm_compute; reflexivity|]. split; [apply Pl; vm_compute; reflexivity|]. split.
  { split; [|split; [vm_compute; reflexivity|]].
    - apply Forall_forall. intros c H. vm_compute in H |- *. intuition.
    - right. split; [lia|]. exists (lit "#"), (lit "##0"). split; [reflexivity|]. split; [vm_compute; intuition discriminate|reflexivity]. }
  split; [vm_compute; reflexivity|]. split; [apply Pl; vm_compute; reflexivity|]. split; [apply Pl; vm_compute; reflexivity|]. split; [discriminate|]. split; [vm_compute; reflexivity|vm_compute; discriminate].
Qed.
Example C62_case :
  decimal_format default_symbols (NFin (12345678 # 10)) (lit "$#,##0.00 net;(#,##0.00)") = Ok (lit "$1,234,567.80 net", lit "$#,##0.00 net;(#,##0.00)") /\
  decimal_format default_symbols (NFin (-12345678 # 10)) (lit "$#,##0.00 net;(#,##0.00)") = Ok (lit "(1,234,567.80)", lit "$#,##0.00 net;(#,##0.00)") /\
  rounded (12345678 # 10) 2 = 123456780%N /\ no_carry_out (12345678 # 10) 2 /\
  decimal_format default_symbols (NFin (1 # 8)) (lit "#.##%") = Ok (lit "12.5%", lit "#.##%").
Proof.
  split; [vm_compute; reflexivity|]. split; [vm_compute; reflexivity|]. split; [vm_compute; reflexivity|]. split; [|vm_compute; reflexivity].
  intros H. vm_compute in H. contradiction H. reflexivity.
Qed.

(** Zero cannot be formatted: a digit before the first one is read. *)
Theorem C62_zero_refuted : decimal_format default_symbols (NFin 0) (lit "0") = Err Garbage /\ decimal_format default_symbols (NFin 0) (lit "#,##0.00") = Err Garbage.
Proof. split; vm_compute; reflexivity. Qed.
Print Assumptions C62_zero_refuted.
(** Nor can a number be rounded up to a power of ten: the carry is written in front of the digits. *)
Theorem C62_carry_refuted : decimal_format default_symbols (NFin (19 # 2)) (lit "0") = Err Garbage /\ decimal_format default_symbols (NFin (511 # 512)) (lit "0.00") = Err Garbage.
Proof. split; vm_compute; reflexivity. Qed.
Print Assumptions C62_carry_refuted.
(** A first fraction digit that is zero is shown although it is optional. *)
Theorem C62_optional_refuted : decimal_format default_symbols (NFin 5) (lit "0.##") = Ok (lit "5.0", lit "0.##") /\
  ~ number_text default_symbols 1 0 2 0 false (rounded 5 2) (lit "5.0").
Proof.
  split; [vm_compute; reflexivity|]. intros (is & fs & Di & Df & Vi & Li & Hi & Vf & Lf & Hf & E).
  change (rounded 5 2 mod 10 ^ N.of_nat 2)%N with 0%N in Vf. assert (value fs = 0)%N as V0 by (apply N.eq_mul_0 in Vf; destruct Vf as [Vf|Vf]; [exact Vf|apply N.pow_nonzero in Vf; [contradiction|discriminate]]).
  destruct fs as [|f fs]; [|].
  - cbn [List.length Nat.eqb negb orb app map] in E. rewrite app_nil_r in E.
    assert (forall l, grouped (grouping default_symbols) 0 l = l) as G. { induction l as [|c l IH]; [reflexivity|]. cbn [grouped Nat.eqb negb]. rewrite andb_false_r. cbn [andb app]. f_equal. exact IH. }
    rewrite G in E. assert (In 46%N (map (digit_char default_symbols) (match is with [] => [0%N] | _ => is end))) as X.
    { rewrite <- E. right. left. reflexivity. }
    apply in_map_iff in X. destruct X as (z & Ez & _). change (z + 48 = 46)%N in Ez. lia.
  - assert (last (f :: fs) 0%N <> 0%N) as NZ by (apply Hf; cbn [List.length]; lia). apply NZ.
    assert (exists h, f :: fs = h ++ [last (f :: fs) 0%N]) as [h Eh] by (exists (removelast (f :: fs)); apply app_removelast_last; discriminate).
    rewrite Eh, value_snoc in V0. lia.
Qed.
Print Assumptions C62_optional_refuted.
(** A number just above a tie for one digit more is rounded twice: 1.046875 is shown as 1.1. *)
Theorem C62_twice_refuted : decimal_format default_symbols (NFin (67 # 64)) (lit "0.0") = Ok (lit "1.1", lit "0.0") /\ ~ nearest ((67 # 64) * 10) 11.
Proof. split; [vm_compute; reflexivity|]. intros [_ H]. vm_compute in H. apply H. reflexivity. Qed.
Print Assumptions C62_twice_refuted.
(** A negative number loses its sign if the pattern has a prefix, and the suffix if it has one. *)
Theorem C62_negative_refuted :
  decimal_format default_symbols (NFin (-5 # 1)) (lit "$0") = Ok (lit "$5", lit "$0") /\
  decimal_format default_symbols (NFin (-5 # 1)) (lit "USD 0") = Ok (lit "U5", lit "USD 0") /\
  decimal_format default_symbols (NFin (-1 # 2)) (lit "0%") = Ok (lit "-50", lit "0%").
Proof. repeat split; vm_compute; reflexivity. Qed.
Print Assumptions C62_negative_refuted.
(** Quotes: the pattern, a string of the stylesheet, is changed by the call, so that the same
    call fails the next time; and a suffix keeps what its quotes took up. *)
Theorem C62_quotes_refuted :
  decimal_format default_symbols (NFin 5) (lit "'#'0") = Ok (lit "#5", lit "##'0") /\
  decimal_format default_symbols (NFin 5) (lit "##'0") = Err Malformed /\
  decimal_format default_symbols (NFin 5) (lit "0'a'") = Ok (lit "5aa'", lit "0aa'").
Proof. repeat split; vm_compute; reflexivity. Qed.
Print Assumptions C62_quotes_refuted.
(** Not every pattern without a digit is an error, and a digit in the suffix is not one. *)
Theorem C62_digits_refuted :
  decimal_format default_symbols (NFin 5) (lit "abc") = Err Garbage /\ decimal_format default_symbols (NFin 5) (lit "0;") = Err Garbage /\
  decimal_format default_symbols (NFin 5) (lit "0a0") = Ok (lit "0a05a0", lit "0a0").
Proof. repeat split; vm_compute; reflexivity. Qed.
Print Assumptions C62_digits_refuted.
(** Without a third argument the default format of the stylesheet is not used. *)
Theorem C62_default_refuted {name : Type} (formats formats' : name -> option symbols) number pattern :
  format_number_function formats number pattern None = format_number_function formats' number pattern None.
Proof. reflexivity. Qed.
Print Assumptions C62_default_refuted.
(** An unknown format is a NameError, not the error XSLT asks for. *)
Theorem C62_unknown_refuted {name : Type} (formats : name -> option symbols) n number pattern : formats n = None ->
  format_number_function formats number pattern (Some n) = Err NameError.
Proof. intros H. unfold format_number_function. rewrite H. reflexivity. Qed.
Print Assumptions C62_unknown_refuted.
