(** * Lemmas about format-number() *)
From Coq Require Import NArith ZArith QArith Qround String List Bool Lia Arith.
From Verif Require Import PyStr PyErr SerModel SerStream XpNum XpNumLemmas XtDecimal XtDecimalSpec.
Import ListNotations.
Local Open Scope nat_scope.

(** ** Digits *)
Lemma value_acc : forall b a, fold_left (fun x d => x * 10 + d)%N b a = (a * 10 ^ N.of_nat (List.length b) + value b)%N.
Proof.
  induction b as [|d b IH]; intros a; cbn [fold_left]; unfold value.
  - cbn [List.length fold_left]. change (N.of_nat 0) with 0%N. rewrite N.pow_0_r. lia.
  - cbn [fold_left]. rewrite IH, (IH (0 * 10 + d)%N). cbn [List.length]. rewrite Nat2N.inj_succ, N.pow_succ_r by lia. lia.
Qed.
Lemma value_app a b : value (a ++ b) = (value a * 10 ^ N.of_nat (List.length b) + value b)%N.
Proof. unfold value at 1. rewrite fold_left_app, value_acc. reflexivity. Qed.
Lemma value_cons d b : value (d :: b) = (d * 10 ^ N.of_nat (List.length b) + value b)%N.
Proof. change (d :: b) with ([d] ++ b). rewrite value_app. f_equal. Qed.
Lemma value_snoc a d : value (a ++ [d]) = (value a * 10 + d)%N.
Proof. rewrite value_app. cbn [List.length]. change (N.of_nat 1) with 1%N. rewrite N.pow_1_r. f_equal. Qed.
Lemma value_zeros k : value (repeat 0%N k) = 0%N.
Proof. induction k as [|k IH]; [reflexivity|]. cbn [repeat]. rewrite value_cons, IH. lia. Qed.
Lemma digits_app a b : digits (a ++ b) <-> digits a /\ digits b.
Proof. apply Forall_app. Qed.
Lemma digits_zeros k : digits (repeat 0%N k).
Proof. apply Forall_forall. intros d H. apply repeat_spec in H. lia. Qed.
Lemma value_bound : forall b, digits b -> (value b < 10 ^ N.of_nat (List.length b))%N.
Proof.
  induction b as [|d b IH]; intros D; [vm_compute; reflexivity|]. inversion_clear D as [|? ? Hd Hb]. specialize (IH Hb). rewrite value_cons.
  cbn [List.length]. rewrite Nat2N.inj_succ, N.pow_succ_r by lia. nia.
Qed.
Lemma value_split a b : digits b -> (value (a ++ b) / 10 ^ N.of_nat (List.length b) = value a /\ value (a ++ b) mod 10 ^ N.of_nat (List.length b) = value b)%N.
Proof.
  intros D. pose proof (value_bound b D) as B. rewrite value_app. split.
  - symmetry. apply N.div_unique with (value b); [exact B|lia].
  - symmetry. apply N.mod_unique with (value a); [exact B|lia].
Qed.
Lemma pow10_pos k : (0 < 10 ^ k)%N.
Proof. apply N.neq_0_lt_0, N.pow_nonzero. lia. Qed.
(** A row whose first digit is not zero has as many digits as its number. *)
Lemma value_lower d b : d <> 0%N -> (10 ^ N.of_nat (List.length b) <= value (d :: b))%N.
Proof. intros H. rewrite value_cons. pose proof (pow10_pos (N.of_nat (List.length b))). nia. Qed.

(** ** The printed number *)
Definition vals (s : str) : list N := map (fun c => c - 48)%N s.
Definition dchars (s : str) : Prop := Forall (fun c => 48 <= c <= 57)%N s.
Lemma vals_digits s : dchars s -> digits (vals s).
Proof. intros H. apply Forall_map. eapply Forall_impl; [|exact H]. cbn beta. intros c Hc. lia. Qed.
Lemma dec_loop_value : forall f n acc, (n < 10 ^ N.of_nat f)%N -> 0 < f ->
  value (vals (dec_loop f n acc)) = (n * 10 ^ N.of_nat (List.length acc) + value (vals acc))%N.
Proof.
  induction f as [|f IH]; intros n acc Hn Hf; [lia|]. cbn [dec_loop]. assert (n mod 10 < 10)%N as M by (apply N.mod_lt; lia).
  assert (forall d : N, (d < 10)%N -> value (vals (48 + d :: acc)%N) = (d * 10 ^ N.of_nat (List.length acc) + value (vals acc))%N) as C.
  { intros d Hd. unfold vals. cbn [map]. rewrite value_cons, map_length. replace (48 + d - 48)%N with d by lia. reflexivity. }
  destruct (N.ltb_spec n 10) as [L|L].
  - rewrite C by exact M. rewrite N.mod_small by exact L. reflexivity.
  - destruct f as [|f]; [cbn in Hn; lia|]. rewrite IH; [|rewrite Nat2N.inj_succ, N.pow_succ_r in Hn by lia; apply N.div_lt_upper_bound; lia|lia].
    rewrite C by exact M. cbn [List.length]. rewrite Nat2N.inj_succ, N.pow_succ_r by lia. pose proof (N.div_mod n 10 ltac:(lia)) as E.
    set (q := (n / 10)%N) in *. set (r := (n mod 10)%N) in *. set (t := (10 ^ N.of_nat (List.length acc))%N) in *. clearbody q r t. subst n. lia.
Qed.
Lemma dec_str_value n : value (vals (dec_str n)) = n.
Proof.
  unfold dec_str. rewrite dec_loop_value; [|apply size_bound|lia]. cbn [List.length vals map]. change (N.of_nat 0) with 0%N. rewrite N.pow_0_r.
  change (value []) with 0%N. lia.
Qed.
Lemma dec_loop_length : forall f n acc k, (n < 10 ^ N.of_nat k)%N -> 0 < k -> List.length (dec_loop f n acc) <= k + List.length acc.
Proof.
  induction f as [|f IH]; intros n acc k Hn Hk; cbn [dec_loop]; [lia|]. destruct (N.ltb_spec n 10) as [L|L]; [cbn [List.length]; lia|].
  destruct k as [|k]; [lia|]. destruct k as [|k]; [change (10 ^ N.of_nat 1)%N with 10%N in Hn; lia|].
  etransitivity; [apply (IH _ _ (S k)); [|lia]|cbn [List.length]; lia].
  rewrite Nat2N.inj_succ, N.pow_succ_r in Hn by lia. apply N.div_lt_upper_bound; lia.
Qed.
Lemma dec_str_length n k : (n < 10 ^ N.of_nat k)%N -> 0 < k -> List.length (dec_str n) <= k.
Proof. intros A B. unfold dec_str. pose proof (dec_loop_length (S (N.size_nat n)) n [] k A B) as H. cbn [List.length] in H. lia. Qed.
Lemma pad_spec k n : (n < 10 ^ N.of_nat k)%N -> 0 < k -> List.length (pad k (dec_str n)) = k /\ dchars (pad k (dec_str n)) /\ value (vals (pad k (dec_str n))) = n.
Proof.
  intros A B. pose proof (dec_str_length n k A B) as L. unfold pad. split; [rewrite app_length, repeat_length; lia|]. split.
  - apply Forall_app. split; [apply Forall_forall; intros c H; apply repeat_spec in H; lia|apply dec_str_digits].
  - unfold vals. rewrite map_app, value_app. fold (vals (dec_str n)). rewrite dec_str_value.
    replace (map (fun c => (c - 48)%N) (repeat 48%N (k - List.length (dec_str n)))) with (repeat 0%N (k - List.length (dec_str n))).
    + rewrite value_zeros. lia.
    + generalize (k - List.length (dec_str n)) as j. induction j as [|j IH]; [reflexivity|]. cbn [repeat map]. rewrite <- IH. reflexivity.
Qed.

(** The digits without the zeros in front. *)
Fixpoint dropz (l : list N) : list N := match l with 0%N :: r => dropz r | _ => l end.
Lemma dropz_split l : exists z, l = repeat 0%N z ++ dropz l.
Proof.
  induction l as [|d l [z IH]]; [exists 0; reflexivity|]. destruct d as [|p]; [|exists 0; reflexivity].
  exists (S z). cbn [dropz repeat app]. f_equal. exact IH.
Qed.
Lemma dropz_head l d r : dropz l = d :: r -> d <> 0%N.
Proof. induction l as [|c l IH]; [discriminate|]. destruct c as [|p]; cbn [dropz]; [exact IH|]. intros [= <- _]. discriminate. Qed.
Lemma value_dropz l : value (dropz l) = value l.
Proof. destruct (dropz_split l) as [z E]. rewrite E at 2. rewrite value_app, value_zeros. lia. Qed.
Lemma digits_dropz l : digits l -> digits (dropz l).
Proof. intros D. destruct (dropz_split l) as [z E]. rewrite E in D. apply digits_app in D. exact (proj2 D). Qed.

Lemma dot_not c : (48 <= c <= 57)%N -> (c =? 46)%N = false.
Proof. intros H. apply N.eqb_neq. lia. Qed.
(** After the first digit that is not zero. *)
Lemma scan_true_digits : forall s ds at_ zs rest, dchars s -> scan (s ++ rest) ds at_ true zs = scan rest (ds ++ vals s) at_ true zs.
Proof.
  induction s as [|c s IH]; intros ds at_ zs rest D; [rewrite app_nil_r; reflexivity|]. inversion_clear D as [|? ? Hc Hs].
  cbn [app scan]. rewrite dot_not by exact Hc. cbn [orb]. rewrite IH by exact Hs. rewrite <- app_assoc. reflexivity.
Qed.
(** Before it. *)
Lemma scan_false_digits : forall s at_ zs rest, dchars s ->
  scan (s ++ rest) [] at_ false zs =
    match dropz (vals s) with
    | [] => scan rest [] at_ false (zs + List.length s)
    | l => scan rest l at_ true (S zs + (List.length s - List.length l))
    end.
Proof.
  induction s as [|c s IH]; intros at_ zs rest D; [cbn [app vals map dropz List.length]; rewrite Nat.add_0_r; reflexivity|]. inversion_clear D as [|? ? Hc Hs].
  cbn [app scan]. rewrite dot_not by exact Hc. cbn [orb vals map]. fold (vals s). destruct (N.eqb_spec c 48) as [E|E]; cbn [negb].
  - subst c. change (48 - 48)%N with 0%N. cbn [dropz]. rewrite IH by exact Hs. destruct (dropz (vals s)) as [|d l] eqn:Z.
    + cbn [List.length]. f_equal. lia.
    + assert (List.length (d :: l) <= List.length s). { destruct (dropz_split (vals s)) as [z Ez]. apply (f_equal (@List.length N)) in Ez. rewrite app_length, Z in Ez. unfold vals in Ez. rewrite map_length in Ez. lia. }
      cbn [List.length] in *. f_equal. lia.
  - rewrite scan_true_digits by exact Hs. destruct (c - 48)%N as [|p] eqn:F; [lia|]. cbn [dropz app List.length]. unfold vals. rewrite map_length. f_equal. lia.
Qed.
Lemma scan_printed A B : dchars A -> dchars B -> dropz (vals A ++ vals B) <> [] ->
  exists at0 zs, scan (A ++ 46%N :: B) [] (-1)%Z false 0 = (dropz (vals A ++ vals B), at0, zs) /\
    match zs with O => at0 | S z => (at0 - Z.of_nat z)%Z end = (Z.of_nat (List.length (dropz (vals A ++ vals B))) - Z.of_nat (List.length B))%Z.
Proof.
  intros DA DB NE. rewrite scan_false_digits by exact DA. assert (forall l r, dropz l <> [] -> dropz (l ++ r) = dropz l ++ r) as App.
  { induction l as [|d l IH]; intros r H; [contradiction H; reflexivity|]. destruct d; cbn [app dropz] in *; [apply IH; exact H|reflexivity]. }
  assert (forall l r, dropz l = [] -> dropz (l ++ r) = dropz r) as App0.
  { induction l as [|d l IH]; intros r H; [reflexivity|]. destruct d; cbn [app dropz] in *; [apply IH; exact H|discriminate H]. }
  destruct (dropz (vals A)) as [|d l] eqn:Z.
  - rewrite (App0 _ _ Z) in NE |- *. cbn [scan List.length N.eqb Pos.eqb]. pose proof (scan_false_digits B 0%Z 0 [] DB) as H. rewrite app_nil_r in H.
    change (Z.of_nat 0) with 0%Z. rewrite H. destruct (dropz (vals B)) as [|d l] eqn:ZB; [contradiction NE; reflexivity|].
    cbn [scan]. eexists; eexists; split; [reflexivity|]. cbn [Nat.add].
    assert (List.length (d :: l) <= List.length B). { destruct (dropz_split (vals B)) as [z Ez]. apply (f_equal (@List.length N)) in Ez. rewrite app_length, ZB in Ez. unfold vals in Ez. rewrite map_length in Ez. lia. }
    lia.
  - rewrite (App (vals A) (vals B)) by (rewrite Z; discriminate). rewrite Z. cbn [scan N.eqb Pos.eqb].
    pose proof (scan_true_digits B (d :: l) (Z.of_nat (List.length (d :: l))) 0 [] DB) as H. rewrite app_nil_r in H. rewrite H. cbn [scan].
    eexists; eexists; split; [reflexivity|]. cbn iota. rewrite app_length. unfold vals. rewrite map_length. lia.
Qed.

(** ** Rounding *)
Lemma carry_value : forall l, digits l -> (forall j, value (rev l) + 1 <> 10 ^ j)%N ->
  exists l', carry l = Ok l' /\ digits l' /\ List.length l' = List.length l /\ value (rev l') = (value (rev l) + 1)%N.
Proof.
  induction l as [|d l IH]; intros D NP.
  - contradiction (NP 0%N). reflexivity.
  - inversion_clear D as [|? ? Hd Hl]. cbn [carry rev] in *. rewrite value_snoc in NP |- *. destruct (N.eqb_spec d 9) as [E|E].
    + subst d. destruct IH as (l' & R & D' & L' & V'); [exact Hl| |].
      { intros j H. apply (NP (N.succ j)). rewrite N.pow_succ_r by lia. lia. }
      rewrite R. cbn [rmap]. eexists; split; [reflexivity|]. split; [constructor; [lia|exact D']|]. split; [cbn [List.length]; lia|].
      cbn [rev]. rewrite value_snoc, V'. lia.
    + eexists; split; [reflexivity|]. split; [constructor; [lia|exact Hl]|]. split; [reflexivity|]. cbn [rev]. rewrite value_snoc. lia.
Qed.
(** The carry of a row of nines leaves the array. *)
Lemma carry_over : forall l, Forall (fun d => d = 9%N) l -> carry l = Err Garbage.
Proof. induction l as [|d l IH]; intros H; [reflexivity|]. inversion_clear H as [|? ? Hd Hl]. subst d. cbn [carry N.eqb Pos.eqb]. rewrite IH by exact Hl. reflexivity. Qed.

Lemma round_last_value l : digits l -> l <> [] -> (5 <= value (rev l) mod 10 -> forall j, value (rev l) / 10 + 1 <> 10 ^ j)%N ->
  exists r, round_last l = Ok r /\ digits r /\ S (List.length r) = List.length l /\ value (rev r) = ((value (rev l) + 5) / 10)%N.
Proof.
  intros D NE NP. destruct l as [|d l]; [contradiction NE; reflexivity|]. clear NE. inversion_clear D as [|? ? Hd Hl]. cbn [round_last rev] in *.
  rewrite value_snoc in NP |- *. set (v := value (rev l)) in *.
  assert ((v * 10 + d) mod 10 = d /\ (v * 10 + d) / 10 = v)%N as [E1 E2].
  { split; symmetry; [apply N.mod_unique with v|apply N.div_unique with d]; lia. }
  rewrite E1, E2 in NP. destruct (N.leb_spec 5 d) as [L|L].
  - destruct (carry_value l Hl (NP L)) as (l' & R & D' & L' & V'). exists l'. split; [exact R|]. split; [exact D'|]. split; [cbn [List.length]; lia|].
    rewrite V'. fold v. apply N.div_unique with (d - 5)%N; lia.
  - exists l. split; [reflexivity|]. split; [exact Hl|]. split; [reflexivity|]. fold v. apply N.div_unique with (d + 5)%N; lia.
Qed.

(** ** Zeros at the end *)
Lemma strip_spec : forall r at_, (0 < Z.of_nat (List.length r) \/ -1 <= at_)%Z -> nth 0 (rev r) 1%N <> 0%N ->
  exists r' z, strip r at_ = Ok r' /\ r = repeat 0%N z ++ r' /\
    (z = 0 \/ (at_ < Z.of_nat (List.length r'))%Z) /\
    ((Z.of_nat (List.length r') - 1 <= at_)%Z \/ exists d r'', r' = d :: r'' /\ d <> 0%N).
Proof.
  induction r as [|d r IH]; intros at_ H N0.
  - exists [], 0. cbn [strip List.length] in *. destruct (Z.gtb_spec (Z.of_nat 0 - 1) at_) as [G|G]; [lia|]. split; [reflexivity|]. split; [reflexivity|]. split; [left; reflexivity|left; lia].
  - cbn [strip]. destruct (Z.gtb_spec (Z.of_nat (List.length (d :: r)) - 1) at_) as [G|G].
    + destruct (N.eqb_spec d 0) as [E|E].
      * subst d. cbn [List.length] in G. destruct r as [|c r]; [cbn in N0; contradiction N0; reflexivity|].
        destruct (IH at_) as (r' & z & R & E' & Hz & Ht); [left; cbn [List.length]; lia| |].
        { cbn [rev] in N0 |- *. rewrite app_nth1 in N0; [exact N0|]. rewrite app_length. cbn [List.length]. lia. }
        exists r', (S z). split; [exact R|]. split; [cbn [repeat app]; f_equal; exact E'|]. split; [|exact Ht]. right. destruct Hz as [Hz|Hz]; [|exact Hz].
        assert (z = 0) as -> by lia. cbn [repeat app] in E'. subst r'. cbn [List.length] in *. lia.
      * exists (d :: r), 0. split; [reflexivity|]. split; [reflexivity|]. split; [left; reflexivity|]. right. exists d, r. split; [reflexivity|exact E].
    + exists (d :: r), 0. split; [reflexivity|]. split; [reflexivity|]. split; [left; reflexivity|left; lia].
Qed.

(** ** parse_number *)
Lemma parse_number_spec v k : List.length (printf_f (S k) v) < FRACTION_DIGITS -> (0 < rounded v k)%N -> no_carry_out v k ->
  exists ds0 ds t, parse_number v k = Ok (ds, (Z.of_nat (List.length ds0) - Z.of_nat k)%Z) /\
    ds0 = ds ++ repeat 0%N t /\ digits ds0 /\ value ds0 = rounded v k /\ (exists d r, ds0 = d :: r /\ d <> 0%N) /\
    (t = 0 \/ (Z.of_nat (List.length ds0) - Z.of_nat k < Z.of_nat (List.length ds))%Z) /\
    ((Z.of_nat (List.length ds) - 1 <= Z.of_nat (List.length ds0) - Z.of_nat k)%Z \/ last ds 0%N <> 0%N).
Proof.
  intros L P C. unfold parse_number. destruct (Nat.leb_spec FRACTION_DIGITS (List.length (printf_f (S k) v))) as [H|_]; [lia|].
  unfold printf_f. fold (printed v k). set (m := printed v k) in *. set (t := (10 ^ N.of_nat (S k))%N).
  assert (t <> 0)%N as T by (apply N.pow_nonzero; lia).
  destruct (pad_spec (S k) (m mod t)%N) as (PL & PD & PV); [apply N.mod_lt; exact T|lia|].
  set (A := dec_str (m / t)%N) in *. set (B := pad (S k) (dec_str (m mod t)%N)) in *.
  assert (dchars A) as DA by apply dec_str_digits.
  assert (value (vals A ++ vals B) = m) as V.
  { rewrite value_app, PV. unfold A. rewrite dec_str_value. unfold vals. rewrite map_length, PL. fold t. rewrite N.mul_comm. symmetry. apply N.div_mod. exact T. }
  set (l := dropz (vals A ++ vals B)) in *. assert (value l = m) as Vl by (unfold l; rewrite value_dropz; exact V).
  assert (digits l) as Dl by (apply digits_dropz, digits_app; split; apply vals_digits; assumption).
  assert (l <> []) as NE.
  { intros E. rewrite E in Vl. change (value []) with 0%N in Vl. unfold rounded in P. fold m in P. rewrite <- Vl in P. vm_compute in P. discriminate P. }
  destruct (scan_printed A B DA PD NE) as (at0 & zs & S & At). fold l in S, At. rewrite S, At, PL.
  destruct (round_last_value (rev l)) as (r & R & Dr & Lr & Vr); [apply Forall_rev; exact Dl|intros E; apply NE; rewrite <- (rev_involutive l), E; reflexivity| |].
  { rewrite rev_involutive, Vl. exact C. }
  rewrite rev_involutive, Vl in Vr. rewrite rev_length in Lr. rewrite R. cbn [bind].
  replace (Z.of_nat (List.length l) - Z.of_nat (Datatypes.S k))%Z with (Z.of_nat (List.length (rev r)) - Z.of_nat k)%Z by (rewrite rev_length; lia).
  change ((m + 5) / 10)%N with (rounded v k) in Vr. assert (exists d q, rev r = d :: q /\ d <> 0%N) as (d & q & Eq & Hd).
  { destruct (rev r) as [|d q] eqn:E; [change (value []) with 0%N in Vr; lia|]. exists d, q. split; [reflexivity|]. intros ->.
    rewrite value_cons in Vr. assert (digits q) as Dq. { apply Forall_rev in Dr. rewrite E in Dr. inversion_clear Dr. assumption. }
    pose proof (value_bound q Dq) as Bq. destruct l as [|c l'] eqn:El0; [contradiction NE; reflexivity|]. assert (c <> 0)%N as Hc by (exact (dropz_head _ _ _ El0)).
    pose proof (value_lower c l' Hc) as Lo. rewrite Vl in Lo. apply (f_equal (@List.length N)) in E. rewrite rev_length in E. cbn [List.length] in E, Lr.
    assert (List.length l' = Datatypes.S (List.length q)) as El by lia. rewrite El, Nat2N.inj_succ, N.pow_succ_r in Lo by lia.
    assert (10 ^ N.of_nat (List.length q) <= rounded v k)%N as Lo2 by (unfold rounded; fold m; apply N.div_le_lower_bound; lia).
    rewrite N.mul_0_l, N.add_0_l in Vr. lia. }
  destruct (strip_spec r (Z.of_nat (List.length (rev r)) - Z.of_nat k)%Z) as (r' & z & Er & Es & Hz & Ht).
  { left. apply (f_equal (@List.length N)) in Eq. rewrite rev_length in Eq. cbn [List.length] in Eq. lia. }
  { rewrite Eq. exact Hd. }
  rewrite Er. cbn [bind]. exists (rev r), (rev r'), z. split; [reflexivity|]. split.
  { rewrite Es, rev_app_distr. f_equal. clear. induction z as [|z IH]; [reflexivity|]. cbn [repeat rev]. rewrite IH. clear. induction z as [|z IH]; [reflexivity|]. cbn [repeat app]. f_equal. exact IH. }
  split; [apply Forall_rev; exact Dr|]. split; [exact Vr|]. split; [exists d, q; split; assumption|]. split.
  { destruct Hz as [Hz|Hz]; [left; exact Hz|right; rewrite (rev_length r'); exact Hz]. }
  destruct Ht as [Ht|(c & r'' & -> & Hc)]; [left; rewrite (rev_length r'); exact Ht|right]. cbn [rev]. rewrite last_last. exact Hc.
Qed.

(** ** format_number *)
Section Text.
Variable sy : symbols.
Notation dc := (digit_char sy).
Lemma dc_zero : dc 0 = zeroDigit sy.
Proof. unfold digit_char. apply N.add_0_l. Qed.
Lemma int_loop_digits g at_ : forall I R, (Z.of_nat (List.length I) <= at_)%Z ->
  int_loop sy g (List.length I) at_ (I ++ R) = (grouped (grouping sy) g (map dc I), R).
Proof.
  induction I as [|d I IH]; intros R H; [reflexivity|]. cbn [List.length int_loop app] in *. destruct (Z.ltb_spec (Z.of_nat (List.length I)) at_) as [L|L]; [|lia].
  rewrite IH by lia. cbn [map grouped]. rewrite map_length. reflexivity.
Qed.
Lemma int_loop_zeros g at_ I R : (I = [] /\ at_ <= 0)%Z \/ at_ = Z.of_nat (List.length I) -> forall n,
  int_loop sy g (n + List.length I) at_ (I ++ R) = (grouped (grouping sy) g (map dc (repeat 0%N n ++ I)), R).
Proof.
  intros H. induction n as [|n IH].
  - cbn [Nat.add repeat app]. destruct H as [[-> _]|H]; [reflexivity|]. apply int_loop_digits. lia.
  - cbn [Nat.add int_loop repeat app map grouped]. destruct (Z.ltb_spec (Z.of_nat (n + List.length I)) at_) as [L|L].
    + destruct H as [[-> H]|H]; lia.
    + rewrite IH, dc_zero, map_length, app_length, repeat_length. reflexivity.
Qed.
Lemma frac_loop_digits minF : forall n i at_ ds, List.length ds <= n -> minF <= i + n -> (- at_ <= Z.of_nat i)%Z ->
  frac_loop sy minF n i at_ ds = map dc (ds ++ repeat 0%N (minF - i - List.length ds)).
Proof.
  induction n as [|n IH]; intros i at_ ds L M H; cbn [frac_loop].
  - destruct ds as [|d ds]; [|cbn [List.length] in L; lia]. cbn [List.length app]. replace (minF - i - 0) with 0 by lia. reflexivity.
  - destruct ds as [|d ds].
    + rewrite andb_true_r. cbn [List.length app]. destruct (Nat.leb_spec minF i) as [E|E].
      * replace (minF - i - 0) with 0 by lia. reflexivity.
      * destruct (Z.gtb_spec (-1 - Z.of_nat i) (at_ - 1)) as [G|G]; [lia|]. rewrite IH by (cbn [List.length]; lia). cbn [List.length app].
        replace (minF - i - 0) with (S (minF - S i - 0)) by lia. cbn [repeat map]. rewrite dc_zero. reflexivity.
    + rewrite andb_false_r. destruct (Z.gtb_spec (-1 - Z.of_nat i) (at_ - 1)) as [G|G]; [lia|]. cbn [List.length] in L. rewrite IH by lia.
      cbn [List.length app map]. replace (minF - i - S (List.length ds)) with (minF - S i - List.length ds) by lia. reflexivity.
Qed.
Lemma frac_loop_zeros minF at_ ds z : ds <> [] -> at_ = (- Z.of_nat z)%Z -> forall j n i, i + j = z ->
  frac_loop sy minF (j + n) i at_ ds = map dc (repeat 0%N j) ++ frac_loop sy minF n z at_ ds.
Proof.
  intros NE E. induction j as [|j IH]; intros n i H.
  - cbn [Nat.add repeat map app]. replace i with z by lia. reflexivity.
  - cbn [Nat.add frac_loop repeat map app]. destruct ds as [|d ds]; [contradiction NE; reflexivity|]. rewrite andb_false_r.
    destruct (Z.gtb_spec (-1 - Z.of_nat i) (at_ - 1)) as [G|G]; [|lia]. rewrite IH by lia. rewrite dc_zero. reflexivity.
Qed.
Lemma grouped_length sep g l : List.length (grouped sep g l) <= 2 * List.length l.
Proof. induction l as [|c l IH]; [reflexivity|]. cbn [grouped List.length]. rewrite app_length. destruct ((0 <? List.length l) && negb (g =? 0) && (List.length l mod g =? 0)); cbn [List.length]; lia. Qed.
Lemma grouped_nil sep g l : grouped sep g l = [] <-> l = [].
Proof. destruct l; cbn [grouped]; split; intros H; (reflexivity || discriminate H). Qed.

Lemma last_app_ne {A} (a b : list A) x : b <> [] -> last (a ++ b) x = last b x.
Proof.
  intros H. induction a as [|c a IH]; [reflexivity|]. cbn [app last]. destruct (a ++ b) eqn:E; [apply app_eq_nil in E; destruct E as [_ E]; contradiction|]. exact IH.
Qed.
(** The parts of a text with the stripped digits. *)
Lemma number_text_intro mini minf k g show M I F z t :
  minf <= k -> digits I -> digits F -> value I = (M / 10 ^ N.of_nat k)%N ->
  (I <> [] -> nth 0 I 0%N <> 0%N) ->
  value (repeat 0%N z ++ F ++ repeat 0%N t) = (M mod 10 ^ N.of_nat k)%N -> z + List.length F + t = k ->
  (z <> 0 -> F <> []) ->
  (minf < z + List.length F -> F <> [] -> last F 0%N <> 0%N) ->
  let fs := repeat 0%N z ++ F ++ repeat 0%N (minf - z - List.length F) in
  let is := repeat 0%N (mini - List.length I) ++ I in
  number_text sy mini minf k g show M
    (grouped (grouping sy) g (map dc (match is, fs with [], [] => [0%N] | _, _ => is end))
     ++ (if show || negb (List.length fs =? 0) then [decimalSep sy] else []) ++ map dc fs).
Proof.
  intros Hk DI DF VI HI VF Hl Hz HF fs is. exists is, fs.
  assert (List.length fs = Nat.max minf (z + List.length F)) as Lf by (unfold fs; rewrite !app_length, !repeat_length; lia).
  assert (List.length is = Nat.max mini (List.length I)) as Li by (unfold is; rewrite app_length, repeat_length; lia).
  split; [unfold is; apply digits_app; split; [apply digits_zeros|exact DI]|]. split; [unfold fs; rewrite !digits_app; split; [apply digits_zeros|]; split; [exact DF|apply digits_zeros]|].
  split; [unfold is; rewrite value_app, value_zeros, VI; lia|]. split; [lia|]. split.
  { intros H. unfold is. replace (mini - List.length I) with 0 by lia. cbn [repeat app]. apply HI. intros ->. cbn [List.length] in Li. lia. }
  split.
  { rewrite <- VF, Lf. assert (repeat 0%N z ++ F ++ repeat 0%N t = fs ++ repeat 0%N (k - Nat.max minf (z + List.length F))) as ->.
    { unfold fs. rewrite <- !app_assoc, <- repeat_app. do 3 f_equal. lia. }
    rewrite value_app, value_zeros, repeat_length. lia. }
  split; [lia|]. split; [|reflexivity].
  intros H. unfold fs. replace (minf - z - List.length F) with 0 by lia. cbn [repeat]. rewrite app_nil_r.
  assert (F <> []) as NF. { destruct z as [|z]; [|apply Hz; discriminate]. intros ->. cbn [List.length] in Lf. lia. }
  rewrite last_app_ne by exact NF. apply HF; [lia|exact NF].
Qed.

Lemma half_even_le x X : (x <= inject_Z X)%Q -> (half_even x <= X)%Z.
Proof.
  intros H. pose proof (half_even_spec x) as (_ & B & _). cbv zeta in B. apply Z.lt_succ_r. unfold Z.succ. rewrite Zlt_Qlt. rewrite inject_Z_plus.
  apply Qle_lt_trans with (x + (1 # 2))%Q.
  - apply Qplus_le_l with (- x)%Q. ring_simplify. apply Qle_trans with (inject_Z (half_even x) - x)%Q; [|exact B]. apply Qle_lteq. right. ring.
  - apply Qle_lt_trans with (inject_Z X + (1 # 2))%Q; [apply Qplus_le_l; exact H|]. apply Qplus_lt_r. reflexivity.
Qed.
Lemma printed_bound v k : of_double v -> (printed v k <= 2 * 10 ^ 308 * 10 ^ N.of_nat (S k))%N.
Proof.
  intros [_ H]. unfold printed. assert (half_even (v * inject_Z (10 ^ Z.of_nat (S k))) <= 2 * 10 ^ 308 * 10 ^ Z.of_nat (S k))%Z as B.
  { apply half_even_le. rewrite inject_Z_mult. apply Qmult_le_compat_r; [exact H|]. change 0%Q with (inject_Z 0). rewrite <- Zle_Qle. apply Z.pow_nonneg. lia. }
  apply N2Z.inj_le. rewrite N2Z.inj_mul, N2Z.inj_pow. change (Z.of_N (2 * 10 ^ 308)) with (2 * 10 ^ 308)%Z. rewrite nat_N_Z. change (Z.of_N 10) with 10%Z.
  destruct (Z.le_gt_cases 0 (half_even (v * inject_Z (10 ^ Z.of_nat (S k))))) as [G|G].
  - rewrite Z2N.id by exact G. exact B.
  - destruct (half_even (v * inject_Z (10 ^ Z.of_nat (S k)))) eqn:E; lia.
Qed.
Lemma printf_length v k : of_double v -> List.length (printf_f (S k) v) <= 309 + S (S k).
Proof.
  intros H. unfold printf_f. fold (printed v k). rewrite app_length. cbn [List.length].
  destruct (pad_spec (S k) (printed v k mod 10 ^ N.of_nat (S k))%N) as (-> & _ & _); [apply N.mod_lt, N.pow_nonzero; lia|lia|].
  enough (List.length (dec_str (printed v k / 10 ^ N.of_nat (S k))%N) <= 309) by lia.
  apply dec_str_length; [|lia]. apply N.le_lt_trans with (2 * 10 ^ 308)%N; [|vm_compute; reflexivity].
  pose proof (pow10_pos (N.of_nat (S k))). apply N.div_le_upper_bound; [lia|]. rewrite N.mul_comm. apply printed_bound. exact H.
Qed.

Lemma format_number_spec v i : of_double v -> (0 < rounded v (i_maxFrac i))%N -> no_carry_out v (i_maxFrac i) ->
  i_minFrac i <= i_maxFrac i <= 25 -> i_minInt i <= 309 ->
  i_maxFrac i = 0 \/ 0 < i_minFrac i \/ (rounded v (i_maxFrac i) mod 10 ^ N.of_nat (i_maxFrac i) <> 0)%N ->
  exists s, format_number sy v i = Ok s /\
    number_text sy (i_minInt i) (i_minFrac i) (i_maxFrac i) (i_group i) (i_show i) (rounded v (i_maxFrac i)) s.
Proof.
  intros Dv P C [K1 K2] Mi Nz. set (k := i_maxFrac i) in *. unfold format_number. fold k.
  destruct (parse_number_spec v k) as (ds0 & ds & t & Pn & E0 & D0 & V0 & (d & q & Eq & Hd) & Ht & Hl); [pose proof (printf_length v k Dv); unfold FRACTION_DIGITS; lia|exact P|exact C|].
  rewrite Pn. cbn [bind]. clear Pn. set (M := rounded v k) in *. set (n0 := List.length ds0) in *. set (at_ := (Z.of_nat n0 - Z.of_nat k)%Z) in *.
  assert (n0 <= 309 + k) as Ln.
  { assert (10 ^ N.of_nat (List.length q) <= M)%N as Lo by (rewrite <- V0, Eq; apply value_lower; exact Hd).
    assert (M < 10 ^ (309 + N.of_nat k))%N as Up.
    { unfold M, rounded. pose proof (printed_bound v k Dv) as B. apply N.div_lt_upper_bound; [lia|]. rewrite Nat2N.inj_succ, N.pow_succ_r in B by lia. rewrite N.pow_add_r.
      replace (10 ^ 309)%N with (10 * 10 ^ 308)%N by (vm_compute; reflexivity).
      assert (1 <= 10 ^ N.of_nat k)%N by (pose proof (pow10_pos (N.of_nat k)); lia). assert (100 <= 10 ^ 308)%N as Big by (vm_compute; discriminate).
      set (x := (10 ^ N.of_nat k)%N) in *. set (y := (10 ^ 308)%N) in *. clearbody x y. nia. }
    assert (N.of_nat (List.length q) < 309 + N.of_nat k)%N as Lt by (apply (N.pow_lt_mono_r_iff 10); lia). unfold n0. rewrite Eq. cbn [List.length]. lia. }
  assert (List.length ds + t = n0) as Lds by (unfold n0; rewrite E0, app_length, repeat_length; reflexivity).
  assert (digits ds) as Dds by (rewrite E0 in D0; apply digits_app in D0; exact (proj1 D0)).
  (* the integer digits, the zeros behind the point and the other digits *)
  assert (exists I F z, ds = I ++ F /\ (digits I /\ digits F) /\ value I = (M / 10 ^ N.of_nat k)%N /\ (I <> [] -> nth 0 I 0%N <> 0%N) /\
            value (repeat 0%N z ++ F ++ repeat 0%N t) = (M mod 10 ^ N.of_nat k)%N /\ z + List.length F + t = k /\ (z <> 0 -> F <> []) /\
            at_ = (Z.of_nat (List.length I) - Z.of_nat z)%Z /\ (z = 0 \/ I = []) /\
            (i_minFrac i < z + List.length F -> F <> [] -> last F 0%N <> 0%N)) as (I & F & z & Ed & (DI & DF) & VI & HI & VF & Lk & HzF & At & Az & HF).
  { destruct (Nat.le_gt_cases k n0) as [G|G].
    - exists (firstn (n0 - k) ds), (skipn (n0 - k) ds), 0. assert (n0 - k <= List.length ds) as Le by (unfold at_ in Ht; lia).
      assert (ds = firstn (n0 - k) ds ++ skipn (n0 - k) ds) as Sp by (symmetry; apply firstn_skipn).
      assert (List.length (firstn (n0 - k) ds) = n0 - k) as LI by (apply firstn_length_le; exact Le).
      assert (List.length (skipn (n0 - k) ds) = List.length ds - (n0 - k)) as LF by apply skipn_length.
      set (I := firstn (n0 - k) ds) in *. set (F := skipn (n0 - k) ds) in *. clearbody I F. rewrite Sp in Dds. apply digits_app in Dds. destruct Dds as [DI DF].
      assert (digits (F ++ repeat 0%N t)) as DFt by (apply digits_app; split; [exact DF|apply digits_zeros]).
      assert (List.length (F ++ repeat 0%N t) = k) as LFt by (rewrite app_length, repeat_length; lia).
      destruct (value_split I (F ++ repeat 0%N t) DFt) as [S1 S2]. rewrite LFt in S1, S2. rewrite app_assoc, <- Sp, <- E0, V0 in S1, S2.
      assert (I <> [] -> nth 0 I 0%N <> 0%N) as HI.
      { intros NI. destruct I as [|c I]; [contradiction NI; reflexivity|]. rewrite Sp in E0. rewrite E0 in Eq. cbn [app] in Eq. inversion Eq. cbn [nth]. exact Hd. }
      split; [exact Sp|]. split; [split; assumption|]. split; [symmetry; exact S1|]. split; [exact HI|]. split; [symmetry; exact S2|]. split; [lia|]. split; [intros X; lia|].
      split; [unfold at_; lia|]. split; [left; reflexivity|]. intros Lt NF. cbn [Nat.add] in Lt. destruct Hl as [Hl|Hl].
      + (* one fraction digit is left *)
        assert (List.length F = 1) as L1. { destruct F as [|x F]; [contradiction NF; reflexivity|]. unfold at_ in Hl. cbn [List.length] in *. lia. }
        destruct F as [|x [|y F]]; try discriminate L1. cbn [last]. destruct Nz as [Nz|[Nz|Nz]]; [cbn [List.length] in *; lia|cbn [List.length] in *; lia|].
        intros ->. apply Nz. fold M in S2. rewrite S2. change ([0%N] ++ repeat 0%N t) with (repeat 0%N (S t)). apply value_zeros.
      + rewrite Sp, last_app_ne in Hl by exact NF. exact Hl.
    - exists [], ds, (k - n0). assert (digits (repeat 0%N (k - n0) ++ ds ++ repeat 0%N t)) as DF. { rewrite <- E0. apply digits_app. split; [apply digits_zeros|exact D0]. }
      assert (value (repeat 0%N (k - n0) ++ ds ++ repeat 0%N t) = M) as VM by (rewrite <- E0, value_app, value_zeros, V0; lia).
      assert (M < 10 ^ N.of_nat k)%N as Lt.
      { rewrite <- VM. pose proof (value_bound _ DF) as B. rewrite !app_length, !repeat_length in B. replace (k - n0 + (List.length ds + t)) with k in B by lia. exact B. }
      assert (ds <> []) as NE. { intros ->. destruct Ht as [->|Ht]; [cbn [app repeat] in E0; congruence|]. cbn [app] in E0. rewrite E0 in Eq. destruct t as [|t]; [discriminate Eq|]. cbn [repeat] in Eq. congruence. }
      split; [reflexivity|]. split; [split; [constructor|exact Dds]|]. split; [symmetry; apply N.div_small; exact Lt|]. split; [intros X; contradiction X; reflexivity|].
      split; [rewrite N.mod_small by exact Lt; exact VM|]. split; [lia|]. split; [intros _; exact NE|]. split; [unfold at_; cbn [List.length]; lia|]. split; [right; reflexivity|].
      intros _ _. destruct Hl as [Hl|Hl]; [|exact Hl]. destruct ds as [|x ds]; [contradiction NE; reflexivity|]. unfold at_ in Hl. cbn [List.length] in Hl. lia. }
  assert (List.length I <= 309) as L309 by (destruct Az as [->| ->]; [lia|cbn [List.length]; lia]).
  pose proof (number_text_intro (i_minInt i) (i_minFrac i) k (i_group i) (i_show i) M I F z t K1 DI DF VI HI VF Lk HzF HF) as NT. cbv zeta in NT.
  (* the loop of the integer digits *)
  assert ((if ((0 <? at_) && (Z.of_nat (i_minInt i) <? at_))%Z then Z.to_nat at_ else i_minInt i) = (i_minInt i - List.length I) + List.length I) as ->.
  { destruct (Z.ltb_spec 0 at_) as [G|G]; cbn [andb]; [destruct (Z.ltb_spec (Z.of_nat (i_minInt i)) at_) as [G2|G2]|]; destruct Az as [->| ->]; cbn [List.length] in *; lia. }
  destruct (Nat.ltb_spec INTEGER_DIGITS (i_minInt i - List.length I + List.length I)) as [G|_]; [unfold INTEGER_DIGITS in G; lia|]. cbn [bind].
  rewrite Ed. rewrite int_loop_zeros by (destruct Az as [->| ->]; [right; lia|left; split; [reflexivity|cbn [List.length] in At; lia]]).
  assert (frac_loop sy (i_minFrac i) k 0 at_ F = map (digit_char sy) (repeat 0%N z ++ F ++ repeat 0%N (i_minFrac i - z - List.length F))) as FL.
  { rewrite map_app. destruct z as [|z].
    - cbn [repeat map app]. rewrite frac_loop_digits by lia. rewrite Nat.sub_0_r. reflexivity.
    - destruct Az as [Az|Az]; [discriminate Az|]. subst I. cbn [List.length] in At.
      replace k with (S z + (k - S z)) by lia. rewrite (frac_loop_zeros _ _ _ (S z)) by (lia || (apply HzF; discriminate)). rewrite frac_loop_digits by lia. reflexivity. }
  rewrite FL. set (fs := repeat 0%N z ++ F ++ repeat 0%N (i_minFrac i - z - List.length F)) in *. set (is := repeat 0%N (i_minInt i - List.length I) ++ I) in *.
  assert (List.length fs = Nat.max (i_minFrac i) (z + List.length F)) as Lf by (unfold fs; rewrite !app_length, !repeat_length; lia).
  assert (List.length is <= 309) as Lis by (unfold is; rewrite app_length, repeat_length; lia).
  assert ((0 <? i_minFrac i) || match F with [] => false | _ => true end = negb (List.length fs =? 0)) as Pr.
  { rewrite Lf. destruct F as [|x F]; cbn [List.length].
    - destruct z as [|z]; [|contradiction HzF; [discriminate|reflexivity]]. rewrite orb_false_r, Nat.max_0_r. destruct (i_minFrac i); reflexivity.
    - rewrite orb_true_r. destruct (Nat.max (i_minFrac i) (z + S (List.length F))) eqn:X; [lia|reflexivity]. }
  rewrite Pr.
  assert (match grouped (grouping sy) (i_group i) (map (digit_char sy) is) with [] => if negb (List.length fs =? 0) then [] else [zeroDigit sy] | _ => grouped (grouping sy) (i_group i) (map (digit_char sy) is) end
          = grouped (grouping sy) (i_group i) (map (digit_char sy) (match is, fs with [], [] => [0%N] | _, _ => is end))) as Ints.
  { clearbody is fs. destruct is as [|x is]; [|cbn [map grouped]; destruct fs; reflexivity]. cbn [map grouped]. destruct fs as [|y fs]; [|reflexivity].
    cbn [List.length Nat.eqb negb map grouped app]. cbn [Nat.ltb Nat.leb andb app]. rewrite dc_zero. reflexivity. }
  rewrite Ints. set (s := grouped _ _ _ ++ _ ++ _) in *.
  assert (List.length s <= 2 * 309 + 1 + 25) as Ls.
  { unfold s. rewrite !app_length, map_length. assert (List.length fs <= 25) by lia.
    pose proof (grouped_length (grouping sy) (i_group i) (map (digit_char sy) (match is, fs with [], [] => [0%N] | _, _ => is end))) as GL. rewrite map_length in GL.
    assert (List.length (match is, fs with [], [] => [0%N] | _, _ => is end) <= 309) by (clear - Lis; destruct is; destruct fs; cbn [List.length] in *; lia).
    destruct (i_show i || negb (List.length fs =? 0)); cbn [List.length]; lia. }
  destruct (Nat.ltb_spec (2 * FRACTION_DIGITS) (List.length s)) as [G|_]; [unfold FRACTION_DIGITS in G; lia|]. exists s. split; [reflexivity|exact NT].
Qed.
End Text.
