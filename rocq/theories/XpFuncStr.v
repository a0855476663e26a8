(** * Proofs about the string functions *)
From Coq Require Import NArith ZArith QArith Qround Qabs String List Bool Lia Lqa.
From Verif Require Import PyStr PyErr XpNum XpNumSpec XpNumLemmas XpFuncs XpFuncSpec XpFuncNum XpFuncCmp.
Import ListNotations.
Local Open Scope N_scope.

(** ** Searching *)
Lemma prefixb_iff p s : prefixb p s = true <-> exists a, s = p ++ a.
Proof.
  split.
  - revert s. induction p as [|c p IH]; intros s H; [now exists s|]. destruct s as [|d s]; [discriminate|]. cbn in H. apply andb_prop in H. destruct H as [H K]. apply N.eqb_eq in H. destruct (IH s K) as [a ->]. exists a. now subst.
  - intros [a ->]. induction p as [|c p IH]; [now destruct a|]. cbn. now rewrite N.eqb_refl, IH.
Qed.
Lemma find_some o i n : find o i = Some n -> (n <= List.length o)%nat /\ o = firstn n o ++ i ++ skipn (n + List.length i) o /\ forall b a, o = b ++ i ++ a -> (n <= List.length b)%nat.
Proof.
  revert n. induction o as [|c o IH]; intros n; cbn [find].
  - destruct (prefixb i []) eqn:P; [|discriminate]. intros [= <-]. apply prefixb_iff in P. destruct P as [a P]. split; [cbn; lia|]. split; [|intros; lia]. symmetry in P. apply app_eq_nil in P. destruct P as [-> _]. reflexivity.
  - destruct (prefixb i (c :: o)) eqn:P.
    + intros [= <-]. apply prefixb_iff in P. destruct P as [a P]. split; [cbn; lia|]. split; [|intros; lia]. rewrite P. cbn [firstn app Nat.add]. now rewrite skipn_app, skipn_all, Nat.sub_diag.
    + destruct (find o i) as [m|] eqn:F; [|discriminate]. intros [= <-]. destruct (IH m eq_refl) as [L [E M]]. split; [cbn; lia|]. split.
      * cbn. f_equal. exact E.
      * intros b a K. destruct b as [|d b]; [cbn in K; assert (prefixb i (c :: o) = true) by (apply prefixb_iff; now exists a); congruence|]. cbn in *. injection K as -> K. apply le_n_S. now apply (M b a).
Qed.
Lemma find_none o i : find o i = None -> ~ occurs o i.
Proof.
  induction o as [|c o IH]; cbn [find].
  - destruct (prefixb i []) eqn:P; [discriminate|]. intros _ [b [a E]]. symmetry in E. apply app_eq_nil in E. destruct E as [_ E]. apply app_eq_nil in E. destruct E as [-> _]. discriminate.
  - destruct (prefixb i (c :: o)) eqn:P; [discriminate|]. destruct (find o i) eqn:F; [discriminate|]. intros _ [b [a E]]. destruct b as [|d b]; [assert (prefixb i (c :: o) = true) by (apply prefixb_iff; now exists a); congruence|]. injection E as -> E. apply IH; [reflexivity|]. now exists b, a.
Qed.
Theorem starts_with_ok o i : starts_with_function o i = true <-> exists r, o = i ++ r.
Proof.
  unfold starts_with_function. destruct i as [|c i]; [split; [intros _; now exists o|reflexivity]|]. set (j := c :: i). rewrite str_eqb_eq. split.
  - intros H. exists (skipn (List.length j) o). rewrite <- H at 1. symmetry. apply firstn_skipn.
  - intros [r ->]. rewrite firstn_app, firstn_all, Nat.sub_diag. apply app_nil_r.
Qed.
Theorem contains_ok o i : contains_function o i = true <-> occurs o i.
Proof.
  unfold contains_function. destruct (find o i) as [n|] eqn:F.
  - split; [|reflexivity]. intros _. destruct (find_some _ _ _ F) as [_ [E _]]. eexists _, _. exact E.
  - split; [discriminate|]. intros H. now apply find_none in F.
Qed.
Lemma find_first o i n : find o i = Some n -> first_occurrence o i (firstn n o) (skipn (n + List.length i) o).
Proof. intros F. destruct (find_some _ _ _ F) as [L [E M]]. split; [exact E|]. intros b a K. rewrite firstn_length. specialize (M b a K). lia. Qed.
Lemma first_unique o i b a b' a' : first_occurrence o i b a -> first_occurrence o i b' a' -> b = b' /\ a = a'.
Proof.
  intros [E M] [E' M']. pose proof (M _ _ E') as L. pose proof (M' _ _ E) as L'. rewrite E in E'. assert (List.length b = List.length b') as K by lia.
  assert (b = b' /\ i ++ a = i ++ a') as [-> H]. { clear - E' K. revert b' E' K. induction b as [|c b IH]; intros [|c' b'] E K; try discriminate; [now split|]. cbn in E. injection E as -> E. injection K as K. destruct (IH b' E K) as [-> F]. now split. }
  split; [reflexivity|]. eapply app_inv_head, H.
Qed.
Theorem substring_before_ok o i b a : first_occurrence o i b a -> substring_before_function o i = b.
Proof.
  intros H. unfold substring_before_function. destruct (find o i) as [n|] eqn:F.
  - apply find_first in F. now destruct (first_unique _ _ _ _ _ _ F H).
  - apply find_none in F. destruct F. exists b, a. apply H.
Qed.
Theorem substring_before_none o i : ~ occurs o i -> substring_before_function o i = [].
Proof. intros H. unfold substring_before_function. destruct (find o i) as [n|] eqn:F; [|reflexivity]. destruct H. apply find_first in F. eexists _, _. apply F. Qed.
Theorem substring_after_ok o i b a : i <> [] -> first_occurrence o i b a -> substring_after_function o i = a.
Proof.
  intros NE H. unfold substring_after_function. destruct i as [|c i]; [congruence|]. destruct (find o (c :: i)) as [n|] eqn:F.
  - apply find_first in F. now destruct (first_unique _ _ _ _ _ _ F H).
  - apply find_none in F. destruct F. exists b, a. apply H.
Qed.
Theorem substring_after_none o i : ~ occurs o i -> substring_after_function o i = [].
Proof. intros H. unfold substring_after_function. destruct i as [|c i]; [reflexivity|]. destruct (find o (c :: i)) as [n|] eqn:F; [|reflexivity]. destruct H. apply find_first in F. eexists _, _. apply F. Qed.
(** A first occurrence exists if the string occurs. *)
Lemma occurs_first o i : occurs o i -> exists b a, first_occurrence o i b a.
Proof. intros H. destruct (find o i) as [n|] eqn:F; [eexists _, _; apply find_first, F|]. now apply find_none in F. Qed.

(** ** normalize-space *)
Definition only_xml_space (s : str) : Prop := forall c, In c s -> unicode_space c = true -> space c.
Lemma space_unicode c : space c -> unicode_space c = true.
Proof. intros [<-|[<-|[<-|[<-|[]]]]]; reflexivity. Qed.
Lemma split_words_last w u : Forall (fun c => ~ space c) w -> only_xml_space w -> py_split u w = match rev u ++ w with [] => [] | x => [x] end.
Proof.
  revert u. induction w as [|c w IH]; intros u F X; cbn [py_split].
  - rewrite app_nil_r. destruct u as [|d u]; [reflexivity|]. cbn [rev]. destruct (rev u ++ [d]) eqn:E; [|reflexivity]. now apply app_eq_nil in E.
  - inversion_clear F as [|? ? C F']. destruct (unicode_space c) eqn:U; [destruct C; apply X; [now left|exact U]|]. rewrite IH; [|exact F'|intros d D; apply X; now right]. cbn [rev]. now rewrite <- app_assoc.
Qed.
Lemma split_words w c s u : Forall (fun c => ~ space c) w -> only_xml_space w -> space c -> py_split u (w ++ c :: s) = match rev u ++ w with [] => [] | x => [x] end ++ py_split [] s.
Proof.
  intros F X C. revert u. induction w as [|d w IH]; intros u; cbn [py_split app].
  - rewrite (space_unicode c C), app_nil_r. f_equal. destruct u as [|d u]; [reflexivity|]. cbn [rev]. destruct (rev u ++ [d]) eqn:E; [|reflexivity]. now apply app_eq_nil in E.
  - inversion_clear F as [|? ? D F']. destruct (unicode_space d) eqn:U; [destruct D; apply X; [now left|exact U]|]. rewrite IH; [|exact F'|intros e E; apply X; now right]. cbn [rev]. now rewrite <- app_assoc.
Qed.
Lemma words_split s l : words s l -> only_xml_space s -> py_split [] s = l.
Proof.
  induction 1 as [|c s l C W IH|w NE F|w c s l NE F C W IH]; intros X.
  - reflexivity.
  - cbn [py_split]. rewrite (space_unicode c C). cbn [app]. apply IH. intros d D. apply X. now right.
  - rewrite split_words_last by assumption. cbn [rev app]. now destruct w.
  - rewrite split_words; [|exact F|intros d D; apply X, in_app_iff; now left|exact C]. cbn [rev app]. rewrite IH; [now destruct w|]. intros d D. apply X, in_app_iff. right. now right.
Qed.
Lemma space_dec c : {space c} + {~ space c}.
Proof. destruct (c_space c) eqn:E; [left|right]; [now apply c_space_spec|intros H; apply c_space_spec in H; congruence]. Qed.
Lemma words_more c s l : ~ space c -> words s l -> exists l', words (c :: s) l'.
Proof.
  intros C W. destruct W as [|d s l D W|w NE F|w d s l NE F D W].
  - exists [[c]]. apply words_last; [discriminate|]. now constructor.
  - exists ([c] :: l). apply (words_word [c]); [discriminate|now constructor|exact D|exact W].
  - exists [c :: w]. apply words_last; [discriminate|]. now constructor.
  - exists ((c :: w) :: l). apply (words_word (c :: w)); [discriminate|now constructor|exact D|exact W].
Qed.
Lemma words_exist s : exists l, words s l.
Proof.
  induction s as [|c s [l IH]]; [exists []; constructor|]. destruct (space_dec c) as [C|C]; [exists l; now constructor|]. now apply (words_more c s l).
Qed.
Theorem normalize_ok s l : only_xml_space s -> words s l -> normalize_space_function s = join [32] l.
Proof. intros X W. unfold normalize_space_function. now rewrite (words_split s l W X). Qed.

(** ** translate *)
Fixpoint first_pair (f t : str) (c : N) : option str :=
  match f with
  | [] => None
  | s :: r => if s =? c then Some (match t with [] => [] | d :: _ => [d] end) else first_pair r (tl t) c
  end.
Lemma trans_map_lookup f : forall t m c, trans_lookup (trans_map m f t) c = match trans_lookup m c with Some v => Some v | None => first_pair f t c end.
Proof.
  induction f as [|s f IH]; intros t m c; cbn [trans_map first_pair]; [now destruct (trans_lookup m c)|].
  set (d := match t with [] => [] | d :: _ => [d] end).
  assert ((let (dst, t0) := match t with [] => ([], []) | d :: t0 => ([d], t0) end in trans_map (match trans_lookup m s with Some _ => m | None => (s, dst) :: m end) f t0) = trans_map (match trans_lookup m s with Some _ => m | None => (s, d) :: m end) f (tl t)) as -> by now destruct t.
  rewrite IH. destruct (trans_lookup m s) as [v|] eqn:S0.
  - destruct (N.eqb_spec s c) as [->|NE]; [now rewrite S0|reflexivity].
  - cbn [trans_lookup]. destruct (N.eqb_spec s c) as [->|NE]; [now rewrite S0|reflexivity].
Qed.
Lemma first_pair_translated f : forall t c, translated f t c (match first_pair f t c with Some d => d | None => [c] end).
Proof.
  induction f as [|s f IH]; intros t c; cbn [first_pair]; [left; split; [intros []|reflexivity]|].
  destruct (N.eqb_spec s c) as [->|NE].
  - right. exists 0%nat. split; [reflexivity|]. split; [intros; lia|]. now destruct t.
  - destruct (IH (tl t) c) as [[N E]|[i [I [M E]]]].
    + left. split; [intros [H|H]; congruence|exact E].
    + right. exists (S i). split; [exact I|]. split; [intros [|j] J; [cbn; congruence|apply M; lia]|]. rewrite E. destruct t; [now destruct i|reflexivity].
Qed.
Lemma translated_fun f t c o o' : translated f t c o -> translated f t c o' -> o = o'.
Proof.
  intros [[N ->]|[i [I [M ->]]]] [[N' ->]|[j [J [M' ->]]]]; [reflexivity|apply nth_error_In in J; contradiction|apply nth_error_In in I; contradiction|].
  assert (i = j) as ->; [|reflexivity]. destruct (Nat.lt_trichotomy i j) as [H|[H|H]]; [now apply M' in H|exact H|now apply M in H].
Qed.
Theorem translate_ok s f t outs : Forall2 (translated f t) s outs -> translate_function s f t = List.concat outs.
Proof.
  unfold translate_function. set (m := trans_map [] f t). induction 1 as [|c o s outs H F IH]; cbn [flat_map List.concat]; [reflexivity|]. f_equal; [|exact IH].
  unfold m. rewrite trans_map_lookup. cbn [trans_lookup]. eapply translated_fun; [apply first_pair_translated|exact H].
Qed.
Lemma translated_exists f t s : exists outs, Forall2 (translated f t) s outs.
Proof. induction s as [|c s [outs IH]]; [exists []; constructor|]. eexists (_ :: outs). constructor; [apply first_pair_translated|exact IH]. Qed.

(** ** substring *)
Lemma select_slice P a e s : forall p, (forall z, (p <= z < p + Z.of_nat (List.length s))%Z -> (P z <-> (a <= z < e)%Z)) -> select_positions P p s (firstn (Z.to_nat (e - Z.max a p)) (skipn (Z.to_nat (a - p)) s)).
Proof.
  induction s as [|c s IH]; intros p H; [rewrite skipn_nil, firstn_nil; constructor|].
  assert (P p <-> (a <= p < e)%Z) as Hp by (apply H; cbn [List.length]; lia).
  assert (select_positions P (p + 1) s (firstn (Z.to_nat (e - Z.max a (p + 1))) (skipn (Z.to_nat (a - (p + 1))) s))) as R by (apply IH; intros z Z; apply H; cbn [List.length]; lia).
  destruct (Z_le_gt_dec a p) as [A|A].
  - replace (Z.to_nat (a - p)) with 0%nat by lia. replace (Z.to_nat (a - (p + 1))) with 0%nat in R by lia. cbn [skipn] in *. rewrite Z.max_r in * by lia. destruct (Z_lt_ge_dec p e) as [B|B].
    + replace (Z.to_nat (e - p)) with (S (Z.to_nat (e - (p + 1)))) by lia. cbn [firstn]. apply sel_keep; [apply Hp; lia|exact R].
    + replace (Z.to_nat (e - p)) with 0%nat by lia. replace (Z.to_nat (e - (p + 1))) with 0%nat in R by lia. apply sel_drop; [intros K; apply Hp in K; lia|exact R].
  - replace (Z.to_nat (a - p)) with (S (Z.to_nat (a - (p + 1)))) by lia. cbn [skipn]. rewrite Z.max_l in * by lia. apply sel_drop; [intros K; apply Hp in K; lia|exact R].
Qed.
Lemma select_none P s : forall p, (forall z, ~ P z) -> select_positions P p s [].
Proof. induction s as [|c s IH]; intros p H; constructor; [apply H|now apply IH]. Qed.
Lemma select_fun P s p r r' : select_positions P p s r -> select_positions P p s r' -> r = r'.
Proof. intros H. revert r'. induction H; intros r' H'; inversion H'; subst; try contradiction; try reflexivity; f_equal; auto. Qed.

(** Halfway between two negative integers, where Python's round() goes down. *)
Definition negative_half (n : num) : Prop := exists z, (z < 0)%Z /\ same_number n (NFin (inject_Z z + (1 # 2))).
Lemma py_round_rounded q z : (inject_Z z - (1 # 2) <= q < inject_Z z + (1 # 2))%Q -> (q == inject_Z z - (1 # 2) -> 0 <= q)%Q -> py_round q = z.
Proof.
  intros [A B] H. unfold py_round. destruct (Qle_bool 0 q) eqn:L.
  - assert (inject_Z z <= q + (1 # 2))%Q as C by lra. assert (q + (1 # 2) < inject_Z (z + 1))%Q as D by (rewrite inj_plus; change (inject_Z 1) with 1%Q; lra). pose proof (Qfloor_le (q + (1 # 2))) as E. pose proof (Qlt_floor (q + (1 # 2))) as F.
    assert (z <= Qfloor (q + (1 # 2)))%Z. { assert (inject_Z z < inject_Z (Qfloor (q + (1 # 2)) + 1))%Q as G by lra. apply inj_lt_inv in G. lia. } assert (Qfloor (q + (1 # 2)) < z + 1)%Z by (apply inj_lt_inv; lra). lia.
  - assert (q < 0)%Q as N. { apply Qnot_le_lt. intros K. apply Qle_bool_iff in K. congruence. } assert (~ q == inject_Z z - (1 # 2))%Q as X by (intros K; specialize (H K); lra).
    pose proof (Qfloor_le (- q + (1 # 2))) as E. pose proof (Qlt_floor (- q + (1 # 2))) as F. set (f := Qfloor (- q + (1 # 2))) in *. rewrite inj_plus in F. change (inject_Z 1) with 1%Q in F.
    assert (- z < f + 1)%Z. { apply inj_lt_inv. rewrite inj_plus, inject_Z_opp. change (inject_Z 1) with 1%Q. lra. } assert (f < - z + 1)%Z. { apply inj_lt_inv. rewrite inj_plus, inject_Z_opp. change (inject_Z 1) with 1%Q. lra. } lia.
Qed.
Lemma finite_same n q m : finite n = Some q -> same_number n (NFin m) <-> (q == m)%Q.
Proof. destruct n; cbn; intros [= <-]; reflexivity. Qed.
Lemma same_finite n q : same_number n (NFin q) -> exists p, finite n = Some p /\ (p == q)%Q.
Proof. destruct n; cbn; intros H; try contradiction; eauto. Qed.
Lemma py_round_ok a q z : finite a = Some q -> ~ negative_half a -> (inject_Z z - (1 # 2) <= q < inject_Z z + (1 # 2))%Q -> py_round q = z.
Proof.
  intros F NH R. apply py_round_rounded; [exact R|]. intros E. apply Qnot_lt_le. intros L. apply NH. exists (z - 1)%Z. split.
  - assert (inject_Z z < inject_Z 1)%Q as K by (change (inject_Z 1) with 1%Q; lra). apply inj_lt_inv in K. lia.
  - apply (finite_same a q); [exact F|]. rewrite E. unfold Z.sub. rewrite inj_plus. change (inject_Z (Z.opp 1)) with (-(1))%Q. lra.
Qed.
(** Rounding is monotone. *)
Lemma rounds_ge s q n : representable s -> (s <= q)%Q -> rounds_to q n -> num_le (NFin s) n.
Proof.
  intros R L H. pose proof (representable_small s R) as B.
  assert (forall r, nearest q r -> (s <= r)%Q) as K. { intros r [_ [N _]]. specialize (N s R). apply Qnot_lt_le. intros C. qabs (q - r)%Q; qabs (q - s)%Q; lra. }
  destruct n as [| | | |r]; cbn in H; try contradiction; unfold num_le, num_lt, num_eq, same_number, finite.
  - now left. - exfalso. qabs s; lra.
  - destruct H as [_ H]. apply K in H. apply Qle_lteq in H. destruct H as [H|H]; [now left|right; split; [discriminate|exact H]].
  - destruct H as [_ H]. apply K in H. apply Qle_lteq in H. destruct H as [H|H]; [now left|right; split; [discriminate|exact H]].
Qed.
Lemma rounds_le s q n : representable s -> (q <= s)%Q -> rounds_to q n -> num_le n (NFin s).
Proof.
  intros R L H. pose proof (representable_small s R) as B.
  assert (forall r, nearest q r -> (r <= s)%Q) as K. { intros r [_ [N _]]. specialize (N s R). apply Qnot_lt_le. intros C. qabs (q - r)%Q; qabs (q - s)%Q; lra. }
  destruct n as [| | | |r]; cbn in H; try contradiction; unfold num_le, num_lt, num_eq, same_number, finite.
  - exfalso. qabs s; lra. - now left.
  - destruct H as [_ H]. apply K in H. apply Qle_lteq in H. destruct H as [H|H]; [now left|right; split; [discriminate|exact H]].
  - destruct H as [_ H]. apply K in H. apply Qle_lteq in H. destruct H as [H|H]; [now left|right; split; [discriminate|exact H]].
Qed.
Lemma position_less p z n : (Z.abs p < 2 ^ 53)%Z -> rounds_to (inject_Z z) n -> num_lt (NFin (inject_Z p)) n <-> (p < z)%Z.
Proof.
  intros B H. split.
  - intros L. destruct (Z_lt_ge_dec p z) as [K|K]; [exact K|]. exfalso. pose proof (rounds_le (inject_Z p) _ n (representable_int p ltac:(lia)) (inj_le z p ltac:(lia)) H) as G.
    destruct n; unfold num_le, num_lt, num_eq, same_number, finite in *; try contradiction; destruct G as [G|[_ G]]; try contradiction; lra.
  - intros L. pose proof (rounds_ge (inject_Z (p + 1)) _ n (representable_int (p + 1) ltac:(lia)) (inj_le (p + 1) z ltac:(lia)) H) as G.
    assert (inject_Z p < inject_Z (p + 1))%Q as X by (apply inj_lt; lia). destruct n; unfold num_le, num_lt, num_eq, same_number, finite in *; try contradiction; try exact I; destruct G as [G|[_ G]]; try contradiction; lra.
Qed.
Lemma add_position p b l zb zl : (Z.abs p < 2 ^ 53)%Z -> same_number b (NFin (inject_Z zb)) -> same_number l (NFin (inject_Z zl)) -> num_lt (NFin (inject_Z p)) (num_add b l) <-> (p < zb + zl)%Z.
Proof.
  intros P B L. apply same_finite in B, L. destruct B as [qb [B EB]], L as [ql [L EL]].
  assert (forall n q, finite n = Some q -> (q == inject_Z (zb + zl))%Q -> num_lt (NFin (inject_Z p)) n <-> (p < zb + zl)%Z) as X.
  { intros n q F E. destruct n; try discriminate; cbn in F; injection F as <-; unfold num_lt, finite; rewrite E; (split; [apply inj_lt_inv|apply inj_lt]). }
  assert (forall q, q == inject_Z (zb + zl) -> num_lt (NFin (inject_Z p)) (rnd q) <-> (p < zb + zl)%Z)%Q as Y.
  { intros q E. apply position_less; [exact P|]. pose proof (rnd_rounds q) as R. destruct (rnd q); cbn [rounds_to] in *; [contradiction|lra|lra| |].
    - destruct R as [R1 R2]. split; [lra|]. apply (nearest_comp q _ 0 0); [exact E|reflexivity|exact R2].
    - destruct R as [R1 R2]. split; [now rewrite <- E|]. apply (nearest_comp q _ q0 q0); [exact E|reflexivity|exact R2]. }
  destruct b, l; try discriminate; cbn in B, L; injection B as <-; injection L as <-; cbn [num_add].
  - apply (X NNegZero 0%Q eq_refl). rewrite inj_plus. lra.
  - apply (X (NFin q) q eq_refl). rewrite inj_plus. lra.
  - apply (X (NFin q) q eq_refl). rewrite inj_plus. lra.
  - apply Y. rewrite inj_plus. lra.
Qed.
Lemma position_ge p b zb : same_number b (NFin (inject_Z zb)) -> num_le b (NFin (inject_Z p)) <-> (zb <= p)%Z.
Proof.
  intros B. apply same_finite in B. destruct B as [qb [B EB]]. unfold num_le, num_lt, num_eq. destruct b; try discriminate; cbn in B; injection B as <-; unfold same_number, finite.
  - split; [intros [H|[_ H]]; apply inj_le_inv; lra|intros H; apply inj_le in H; apply Qle_lteq in H; destruct H as [H|H]; [left; lra|right; split; [discriminate|lra]]].
  - split; [intros [H|[_ H]]; apply inj_le_inv; lra|intros H; apply inj_le in H; apply Qle_lteq in H; destruct H as [H|H]; [left; lra|right; split; [discriminate|lra]]].
Qed.
Theorem substring_ok s start len : (Z.of_nat (List.length s) < 2 ^ 53)%Z -> ~ negative_half start -> (len = None -> start <> NNegInf) -> (forall l, len = Some l -> ~ negative_half l) -> substring_spec s start len (substring_function s start len).
Proof.
  intros LS NS NI NL b RB. unfold substring_function, rounded in *. destruct (finite start) as [q|] eqn:F.
  - destruct RB as [z [B R]]. pose proof (py_round_ok start q z F NS R) as PR. rewrite PR. set (idx := (if z <? 1 then 0 else z - 1)%Z).
    assert (forall e, (1 + Z.of_nat (List.length s) <= e)%Z -> skipn (Z.to_nat idx) s = firstn (Z.to_nat (e - Z.max z 1)) (skipn (Z.to_nat (z - 1)) s)) as SK.
    { intros e E. unfold idx. destruct (Z.ltb_spec z 1) as [K|K].
      - replace (Z.to_nat (z - 1)) with 0%nat by lia. cbn. rewrite firstn_all2; [reflexivity|lia].
      - rewrite firstn_all2; [reflexivity|]. rewrite skipn_length. lia. }
    destruct len as [l|].
    + intros lr RL. specialize (NL l eq_refl). destruct (finite l) as [ql|] eqn:FL.
      * destruct RL as [zl [L RL]]. rewrite (py_round_ok l ql zl FL NL RL).
        assert ((if (z + zl - 1 <? idx)%Z then [] else slice s idx (z + zl - 1)) = firstn (Z.to_nat (z + zl - Z.max z 1)) (skipn (Z.to_nat (z - 1)) s)) as ->.
        { unfold slice, idx. destruct (Z.ltb_spec z 1) as [K|K].
          - replace (Z.to_nat (z - 1)) with 0%nat by lia. cbn [skipn]. rewrite Z.max_r by lia. destruct (Z.ltb_spec (z + zl - 1) 0) as [M|M]; [replace (Z.to_nat (z + zl - 1)) with 0%nat by lia; reflexivity|]. now rewrite Z.sub_0_r.
          - rewrite Z.max_l by lia. destruct (Z.ltb_spec (z + zl - 1) (z - 1)) as [M|M]; [replace (Z.to_nat (z + zl - z)) with 0%nat by lia; reflexivity|]. do 2 f_equal. lia. }
        apply select_slice. intros p P. rewrite (position_ge p b z B), (add_position p b lr z zl ltac:(lia) B L). reflexivity.
      * subst lr. destruct l; try discriminate; cbn [num_ltb num_compare].
        -- apply select_none. intros p [_ P]. apply same_finite in B. destruct B as [qb [B _]]. destruct b; try discriminate; contradiction.
        -- rewrite (SK (1 + Z.of_nat (List.length s))%Z) by lia. apply select_slice. intros p P. rewrite (position_ge p b z B). apply same_finite in B. destruct B as [qb [B _]]. destruct b; try discriminate; cbn; intuition lia.
        -- apply select_none. intros p [_ P]. apply same_finite in B. destruct B as [qb [B _]]. destruct b; try discriminate; contradiction.
    + rewrite (SK (1 + Z.of_nat (List.length s))%Z) by lia. apply select_slice. intros p P. rewrite (position_ge p b z B). lia.
  - subst b. destruct len as [l|].
    + intros lr RL. apply select_none. intros p [P1 P2]. destruct start; try discriminate.
      * destruct P1 as [P|[P _]]; [exact P|congruence].
      * destruct P1 as [P|[_ P]]; exact P.
      * destruct lr; exact P2.
    + apply select_none. intros p P. specialize (NI eq_refl). destruct start; try discriminate; [|destruct P as [P|[_ P]]; exact P|congruence].
      destruct P as [P|[P _]]; [exact P|congruence].
Qed.
Theorem string_length_ok s : (Z.of_nat (List.length s) <= 2 ^ 53)%Z -> same_number (string_length_function s) (NFin (inject_Z (Z.of_nat (List.length s)))).
Proof.
  intros H. unfold string_length_function. assert (forall n, same_number (number_new n) n) as C. { intros n. unfold number_new. destruct (is_zero n) eqn:E; [|apply same_refl]. destruct n; try discriminate; cbn in *; [reflexivity|]. apply Qeq_bool_iff in E. now symmetry. }
  eapply same_trans; [apply C|]. apply rnd_int. lia.
Qed.
