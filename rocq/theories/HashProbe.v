(** * The probe sequence visits every slot *)
From Coq Require Import NArith ZArith Znumtheory Zpow_facts String List Bool Lia Arith.
From Verif Require Import PyStr PyErr HashModel.
Import ListNotations.
Local Open Scope Z_scope.

(** i -> 5 i + 1, repeated. *)
Fixpoint it (n : nat) (x : Z) : Z := match n with O => x | S n' => 5 * it n' x + 1 end.
(** 1 + 5 + ... + 5^(n-1) *)
Fixpoint sum5 (n : nat) : Z := match n with O => 0 | S n' => 5 * sum5 n' + 1 end.
Lemma it_sum n x : it n x - x = sum5 n * (4 * x + 1).
Proof. induction n as [|n IH]; cbn [it sum5]; [lia|]. replace (5 * it n x + 1 - x) with (5 * (it n x - x) + (4 * x + 1)) by ring. rewrite IH. ring. Qed.
Lemma it_add m n x : it (m + n) x = it m (it n x).
Proof. induction m as [|m IH]; cbn [it Nat.add]; [reflexivity|]. now rewrite IH. Qed.
Lemma sum_add m n : sum5 (m + n) = sum5 m + (4 * sum5 m + 1) * sum5 n.
Proof. induction m as [|m IH]; cbn [sum5 Nat.add]; [ring|]. rewrite IH. ring. Qed.
Lemma sum_parity n : exists q, sum5 (2 * n) = 2 * q /\ sum5 (S (2 * n)) = 2 * (5 * q) + 1.
Proof.
  induction n as [|n [q [E1 E2]]]; [exists 0; auto|]. replace (2 * S n)%nat with (S (S (2 * n))) by lia. exists (5 * (5 * q) + 3).
  cbn [sum5] in *. lia.
Qed.
(** If 2^k divides the sum then it divides n. *)
Lemma sum_div k : forall n, (2 ^ Z.of_nat k | sum5 n) -> (2 ^ Z.of_nat k | Z.of_nat n).
Proof.
  induction k as [|k IH]; intros n H; [exists (Z.of_nat n); cbn; lia|].
  rewrite Nat2Z.inj_succ, Z.pow_succ_r in * by lia.
  destruct (Nat.Even_or_Odd n) as [[m ->]|[m ->]].
  - destruct H as [c H]. rewrite Nat.add_0_r in * || idtac. replace (2 * m)%nat with (m + m)%nat in * by lia. rewrite sum_add in H.
    replace (sum5 m + (4 * sum5 m + 1) * sum5 m) with (2 * (sum5 m * (2 * sum5 m + 1))) in H by ring.
    assert (sum5 m * (2 * sum5 m + 1) = c * 2 ^ Z.of_nat k) as E by lia.
    assert (2 ^ Z.of_nat k | sum5 m) as D.
    { apply Gauss with (b := 2 * sum5 m + 1); [exists c; lia|]. apply rel_prime_sym. apply rel_prime_Zpower_r; [lia|].
      apply bezout_rel_prime. exists 1 (- sum5 m). ring. }
    apply IH in D. destruct D as [d D]. exists d. lia.
  - exfalso. destruct (sum_parity m) as [q [_ E]]. replace (2 * m + 1)%nat with (S (2 * m)) in H by lia. rewrite E in H. destruct H as [c H]. lia.
Qed.
(** No value repeats within 2^k steps, modulo 2^k. *)
Lemma it_distinct k x m n : (m < n)%nat -> Z.of_nat n < 2 ^ Z.of_nat k -> it m x mod 2 ^ Z.of_nat k <> it n x mod 2 ^ Z.of_nat k.
Proof.
  intros Hmn Hn E. assert (0 < 2 ^ Z.of_nat k) as P by (apply Z.pow_pos_nonneg; lia).
  set (y := it m x) in *. set (d := (n - m)%nat). assert (it n x = it d y) as EN by (unfold y, d; rewrite <- it_add; f_equal; lia). rewrite EN in E.
  assert (2 ^ Z.of_nat k | it d y - y) as D.
  { apply Z.mod_divide; [lia|]. rewrite Zminus_mod, <- E, Z.sub_diag. apply Z.mod_0_l. lia. }
  rewrite it_sum in D. assert (2 ^ Z.of_nat k | sum5 d) as D2.
  { rewrite Z.mul_comm in D. apply Gauss with (b := 4 * y + 1); [exact D|]. apply rel_prime_sym, rel_prime_Zpower_r; [lia|]. apply bezout_rel_prime. exists 1 (- 2 * y). ring. }
  apply sum_div, Z.divide_pos_le in D2; [|lia]. unfold d in D2. lia.
Qed.

Local Open Scope nat_scope.
(** Hence every residue is met within 2^k steps. *)
Definition slot (k : nat) (x : Z) : nat := Z.to_nat (x mod 2 ^ Z.of_nat k).
Lemma pow_nat k : Z.of_nat (2 ^ k) = (2 ^ Z.of_nat k)%Z.
Proof. induction k as [|k IH]; [reflexivity|]. rewrite Nat.pow_succ_r'. replace (Z.of_nat (S k)) with (Z.succ (Z.of_nat k)) by lia. rewrite Z.pow_succ_r by lia. lia. Qed.
Lemma it_all k x r : r < 2 ^ k -> exists n, n < 2 ^ k /\ slot k (it n x) = r.
Proof.
  intros Hr. set (l := map (fun n => slot k (it n x)) (seq 0 (2 ^ k))).
  assert (0 < 2 ^ Z.of_nat k)%Z as P by (apply Z.pow_pos_nonneg; lia).
  assert (NoDup l) as D.
  { assert (forall m, m <= 2 ^ k -> NoDup (map (fun n => slot k (it n x)) (seq 0 m))) as H; [|apply H; lia].
    induction m as [|m IH]; intros Hm; [constructor|]. rewrite seq_S, map_app. cbn [map Nat.add].
    apply NoDup_rev in IH; [|lia]. rewrite <- (rev_involutive (map _ _ ++ _)). apply NoDup_rev. rewrite rev_app_distr. cbn [rev app]. constructor; [|exact IH].
    intros I. apply in_rev, in_map_iff in I. destruct I as [j [E J]]. apply in_seq in J. unfold slot in E.
    apply Z2Nat.inj in E; [|apply Z.mod_pos_bound; lia|apply Z.mod_pos_bound; lia]. revert E. apply it_distinct; [lia|]. rewrite <- pow_nat. lia. }
  assert (incl l (seq 0 (2 ^ k))) as I.
  { intros y Y. apply in_map_iff in Y. destruct Y as [j [<- _]]. apply in_seq. pose proof (Z.mod_pos_bound (it j x) (2 ^ Z.of_nat k) P). unfold slot. rewrite <- pow_nat in *. lia. }
  assert (In r l) as R.
  { assert (length (seq 0 (2 ^ k)) <= length l) as L by (unfold l; rewrite map_length; lia). apply (NoDup_length_incl D L I). apply in_seq. lia. }
  apply in_map_iff in R. destruct R as [n [E N]]. apply in_seq in N. exists n. split; [lia|exact E].
Qed.

(** ** The loop *)
Lemma land_slot k i : N.to_nat (N.land i (N.of_nat (2 ^ k) - 1)) = slot k (Z.of_N i).
Proof.
  assert (N.of_nat (2 ^ k) = 2 ^ N.of_nat k)%N as E by (apply Nnat.Nat2N.inj_pow).
  rewrite E. rewrite N.sub_1_r, <- N.ones_equiv, N.land_ones. unfold slot.
  rewrite <- (N2Z.id (i mod _)), N2Z.inj_mod, N2Z.inj_pow, nat_N_Z. cbn [Z.of_N]. rewrite <- (Z2N.id (Z.of_N i mod 2 ^ Z.of_nat k)) at 1 by (apply Z.mod_pos_bound, Z.pow_pos_nonneg; lia).
  rewrite N2Z.id. lia.
Qed.
(** The wrap-around of size_t does not matter. *)
Lemma wrap k i : k <= 64 -> N.land (i mod 2 ^ 64) (N.of_nat (2 ^ k) - 1) = N.land i (N.of_nat (2 ^ k) - 1).
Proof.
  intros H. assert (N.of_nat (2 ^ k) = 2 ^ N.of_nat k)%N as E by (apply Nnat.Nat2N.inj_pow). rewrite E, N.sub_1_r, <- N.ones_equiv, <- N.land_ones, <- N.land_assoc. f_equal.
  rewrite N.land_comm. rewrite N.land_ones. rewrite N.ones_equiv. apply N.mod_small. assert (2 ^ N.of_nat k <= 2 ^ 64)%N by (apply N.pow_le_mono_r; lia). assert (2 ^ N.of_nat k <> 0)%N by (apply N.pow_nonzero; lia). lia.
Qed.
