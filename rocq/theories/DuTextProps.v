(** * Property C131: the text of a duration *)
From Coq Require Import ZArith NArith String List Bool Lia.
From Verif Require Import PyStr PyErr DuModel DuSpec DuText.
Import ListNotations.
Local Open Scope Z_scope.

Lemma value_snoc : forall s c, value (s ++ [c]) = 10 * value s + (Z.of_N c - 48).
Proof. intros s c. unfold value. rewrite fold_left_app. reflexivity. Qed.
Lemma dec_value : forall k n, 0 <= n < Z.of_nat k -> value (dec k n) = n /\ forallb is_digit (dec k n) = true /\ dec k n <> [].
Proof.
  intro k. induction k as [|k IH]; intros n H; [lia|]. cbn [dec]. pose proof (Z.div_mod n 10 ltac:(lia)). pose proof (Z.mod_pos_bound n 10 ltac:(lia)).
  assert (D : is_digit (Z.to_N (48 + n mod 10)) = true) by (unfold is_digit; apply andb_true_iff; split; apply N.leb_le; lia).
  rewrite value_snoc, forallb_app. cbn [forallb]. rewrite D. rewrite Z2N.id by lia.
  assert (E : value (if n <? 10 then [] else dec k (n / 10)) = n / 10 /\ forallb is_digit (if n <? 10 then [] else dec k (n / 10)) = true).
  { destruct (Z.ltb_spec n 10) as [L|L]; [split; [rewrite Z.div_small by lia; reflexivity|reflexivity]|]. destruct (IH (n / 10)) as (A & B & _); [lia|]. split; assumption. }
  destruct E as [E1 E2]. rewrite E1, E2. split; [lia|]. split; [reflexivity|]. intro X. apply app_eq_nil in X. destruct X as [_ X]. discriminate X.
Qed.
Lemma span_digits : forall a c r, forallb is_digit a = true -> is_digit c = false -> span (a ++ c :: r) = (a, c :: r).
Proof.
  intro a. induction a as [|x a IH]; intros c r H K; cbn [app span forallb] in *; [rewrite K; reflexivity|].
  apply andb_true_iff in H. destruct H as [H1 H2]. rewrite H1, (IH c r H2 K). reflexivity.
Qed.
Definition quiet (c : N) (r : str) : Prop := field c r = (None, r).
Lemma field_part : forall c n r, 0 <= n -> is_digit c = false -> quiet c r -> exists o, field c (part n c ++ r) = (o, r) /\ num o = n /\ given o = negb (n =? 0).
Proof.
  intros c n r H D Q. unfold part. destruct (Z.eqb_spec n 0) as [E|E].
  - subst n. exists None. split; [exact Q|]. split; reflexivity.
  - destruct (dec_value (S (Z.to_nat n)) n) as (A & B & C); [lia|]. exists (Some (decimal n)). split; [|split; [exact A|reflexivity]].
    unfold field. rewrite <- app_assoc. cbn [app]. fold (decimal n) in *. rewrite (span_digits _ c r B D). destruct (decimal n) as [|x l] eqn:X; [contradiction (C eq_refl)|].
    rewrite N.eqb_refl. reflexivity.
Qed.
Lemma quiet_part : forall c c' n r, 0 <= n -> is_digit c' = false -> (c' =? c)%N = false -> quiet c r -> quiet c (part n c' ++ r).
Proof.
  intros c c' n r H D N Q. unfold part. destruct (Z.eqb_spec n 0) as [E|E]; [exact Q|].
  destruct (dec_value (S (Z.to_nat n)) n) as (A & B & C); [lia|]. unfold quiet, field. rewrite <- app_assoc. cbn [app]. fold (decimal n) in *.
  rewrite (span_digits _ c' r B D). destruct (decimal n) as [|x l]; [reflexivity|]. rewrite N. reflexivity.
Qed.
Lemma new_same : forall d, normal d -> new_duration (negative d) (years d) (months d) (days d) (hours d) (minutes d) (seconds d) = d.
Proof.
  intros [neg y mo d h mi s] H. unfold normal in H. cbn [negative years months days hours minutes seconds] in *. unfold new_duration.
  rewrite (Z.div_small s 60), (Z.mod_small s 60) by lia. rewrite Z.add_0_r. rewrite (Z.div_small mi 60), (Z.mod_small mi 60) by lia. rewrite Z.add_0_r.
  rewrite (Z.div_small h 24), (Z.mod_small h 24), (Z.div_small mo 12), (Z.mod_small mo 12) by lia. rewrite !Z.add_0_r. reflexivity.
Qed.
(** C131: the text of a duration is read back as the same duration. *)
Theorem C131_read_back : forall d, normal d -> length_months d <> 0 \/ length_seconds d <> 0 -> parse (to_str d) = Ok d.
Proof.
  intros d H NZ. pose proof (new_same d H) as S. unfold normal in H. unfold to_str.
  set (ht := negb ((hours d =? 0) && (minutes d =? 0) && (seconds d =? 0))).
  destruct ((years d =? 0) && (months d =? 0) && (days d =? 0) && negb ht) eqn:Z0.
  { exfalso. unfold ht in Z0. rewrite negb_involutive, !andb_true_iff, !Z.eqb_eq in Z0. unfold length_months, length_seconds, signed in NZ. destruct (negative d); lia. }
  set (tail := part (hours d) 72 ++ part (minutes d) 77 ++ part (seconds d) 83).
  assert (QT : forall c, is_digit c = false -> quiet c ((if ht then lit "T" else []) ++ tail)).
  { intros c D. destruct ht eqn:HT; [reflexivity|]. unfold ht in HT. apply negb_false_iff in HT. rewrite !andb_true_iff in HT. destruct HT as [[HT1 HT2] HT3].
    unfold tail, part. rewrite HT1, HT2, HT3. reflexivity. }
  set (body := part (years d) 89 ++ part (months d) 77 ++ part (days d) 68 ++ (if ht then lit "T" else []) ++ tail).
  transitivity (match negative d with neg =>
      let (y, s) := field 89 body in let (mo, s) := field 77 s in let (dd, s) := field 68 s in
      match s with
      | c :: s' =>
          if (c =? 84)%N then
            let (h, s') := field 72 s' in let (mi, s') := field 77 s' in let (se, s') := field 83 s' in
            if at_end s' && (given h || given mi || given se) then Ok (new_duration neg (num y) (num mo) (num dd) (num h) (num mi) (num se)) else Err ValueError
          else if at_end s then Ok (new_duration neg (num y) (num mo) (num dd) 0 0 0) else Err ValueError
      | [] => Ok (new_duration neg (num y) (num mo) (num dd) 0 0 0)
      end end).
  { destruct (negative d); reflexivity. }
  cbv beta iota. unfold body.
  destruct (field_part 89 (years d) (part (months d) 77 ++ part (days d) 68 ++ (if ht then lit "T" else []) ++ tail)) as (oy & Y1 & Y2 & _);
    [lia|reflexivity|apply quiet_part; [lia|reflexivity|reflexivity|]; apply quiet_part; [lia|reflexivity|reflexivity|]; apply QT; reflexivity|].
  rewrite Y1. cbv beta iota.
  destruct (field_part 77 (months d) (part (days d) 68 ++ (if ht then lit "T" else []) ++ tail)) as (om & M1 & M2 & _);
    [lia|reflexivity|apply quiet_part; [lia|reflexivity|reflexivity|]; apply QT; reflexivity|].
  rewrite M1. cbv beta iota.
  destruct (field_part 68 (days d) ((if ht then lit "T" else []) ++ tail)) as (od & D1 & D2 & _); [lia|reflexivity|apply QT; reflexivity|].
  rewrite D1. cbv beta iota. rewrite Y2, M2, D2.
  destruct ht eqn:HT.
  - change (lit "T" ++ tail) with (84%N :: tail). cbv iota. change (84 =? 84)%N with true. cbv iota. unfold tail.
    destruct (field_part 72 (hours d) (part (minutes d) 77 ++ part (seconds d) 83)) as (oh & H1 & H2 & H3);
      [lia|reflexivity|apply quiet_part; [lia|reflexivity|reflexivity|]; rewrite <- (app_nil_r (part (seconds d) 83)); apply quiet_part; [lia|reflexivity|reflexivity|reflexivity]|].
    rewrite H1. cbv beta iota.
    destruct (field_part 77 (minutes d) (part (seconds d) 83)) as (oi & I1 & I2 & I3);
      [lia|reflexivity|rewrite <- (app_nil_r (part (seconds d) 83)); apply quiet_part; [lia|reflexivity|reflexivity|reflexivity]|].
    rewrite I1. cbv beta iota.
    destruct (field_part 83 (seconds d) []) as (os & S1 & S2 & S3); [lia|reflexivity|reflexivity|]. rewrite app_nil_r in S1. rewrite S1. cbv beta iota.
    rewrite H2, H3, I2, I3, S2, S3, <- !negb_andb. fold ht. rewrite HT. cbn [at_end andb]. f_equal. exact S.
  - unfold ht in HT. apply negb_false_iff in HT. rewrite !andb_true_iff in HT. destruct HT as [[HT1 HT2] HT3].
    unfold tail, part. rewrite HT1, HT2, HT3. cbn [app]. apply Z.eqb_eq in HT1, HT2, HT3. rewrite HT1, HT2, HT3 in S. f_equal. exact S.
Qed.
Print Assumptions C131_read_back.
(** C131: the text of a duration of no length is read as such. *)
Theorem C131_zero : forall d, normal d -> length_months d = 0 -> length_seconds d = 0 -> to_str d = lit "PT0S" /\ parse (to_str d) = Ok (new_duration false 0 0 0 0 0 0).
Proof.
  intros d H M S. assert (E : to_str d = lit "PT0S").
  { unfold to_str. unfold normal in H. unfold length_months, length_seconds, signed in M, S.
    assert (Z0 : years d = 0 /\ months d = 0 /\ days d = 0 /\ hours d = 0 /\ minutes d = 0 /\ seconds d = 0) by (destruct (negative d); lia).
    destruct Z0 as (E1 & E2 & E3 & E4 & E5 & E6). rewrite E1, E2, E3, E4, E5, E6. reflexivity. }
  rewrite E. split; [reflexivity|]. vm_compute. reflexivity.
Qed.
Print Assumptions C131_zero.
(** C131 is false of what is rejected: a duration must have a part, but the letter P alone is read as one, also with a newline after it. *)
Theorem C131_empty_refuted : parse (lit "P") = Ok (new_duration false 0 0 0 0 0 0) /\ parse (lit "P" ++ [10%N]) = Ok (new_duration false 0 0 0 0 0 0).
Proof. split; vm_compute; reflexivity. Qed.
Print Assumptions C131_empty_refuted.
Example C131_case : let d := new_duration true 1 14 0 25 0 7 in normal d /\ length_months d <> 0 /\ to_str d = lit "-P2Y2M1DT1H7S" /\ parse (lit "-P26MT25H7S") = Ok d /\ parse (lit "P1YT") = Err ValueError.
Proof. split; [vm_compute; intuition discriminate|]. split; [vm_compute; discriminate|]. repeat split; vm_compute; reflexivity. Qed.
