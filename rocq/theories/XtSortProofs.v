(** * Proofs about xsl:sort and xsl:for-each *)
From Coq Require Import NArith ZArith QArith String List Bool Lia Arith Sorted Permutation.
From Verif Require Import PyStr PyErr XpNum XpNumSpec XpNumLemmas XpFuncCmp XtSort XtSortSpec.
Import ListNotations.
Local Open Scope nat_scope.

(** ** Comparison of strings *)
Lemma cmp_str_eq a : forall b, cmp_str a b = Eq <-> a = b.
Proof.
  induction a as [|x a IH]; intros [|y b]; cbn [cmp_str]; try (split; (reflexivity || discriminate)).
  destruct (x ?= y)%N eqn:C.
  - apply N.compare_eq_iff in C. subst. rewrite IH. split; congruence.
  - split; [discriminate|]. intros [= -> ->]. rewrite N.compare_refl in C. discriminate.
  - split; [discriminate|]. intros [= -> ->]. rewrite N.compare_refl in C. discriminate.
Qed.
Lemma cmp_str_opp a : forall b, cmp_str b a = CompOpp (cmp_str a b).
Proof.
  induction a as [|x a IH]; intros [|y b]; cbn [cmp_str]; try reflexivity. rewrite (N.compare_antisym x y). destruct (x ?= y)%N; cbn; auto.
Qed.
Lemma cmp_str_lt a : forall b, cmp_str a b = Lt <-> str_before a b.
Proof.
  induction a as [|x a IH]; intros [|y b]; cbn [cmp_str].
  - split; [discriminate|]. intros [p [a' [b' [A [B M]]]]]. symmetry in A, B. apply app_eq_nil in A, B. destruct A as [_ ->], B as [_ ->]. destruct M.
  - split; [|reflexivity]. intros _. exists [], [], (y :: b). repeat split.
  - split; [discriminate|]. intros [p [a' [b' [A [B M]]]]]. symmetry in B. apply app_eq_nil in B. destruct B as [-> ->]. cbn in A. subst a'. destruct M.
  - assert (forall C : comparison, (x ?= y)%N = C -> C <> Eq -> (C = Lt <-> str_before (x :: a) (y :: b))) as H.
    { intros C E NE. split.
      - intros ->. exists [], (x :: a), (y :: b). repeat split. exact E.
      - intros [p [a' [b' [A [B M]]]]]. destruct p as [|z p]; cbn in A, B.
        + subst a' b'. apply N.compare_lt_iff in M. congruence.
        + injection A as -> _. injection B as -> _. rewrite N.compare_refl in E. congruence. }
    destruct (x ?= y)%N eqn:C; [|apply H; [reflexivity|discriminate]..].
    apply N.compare_eq_iff in C. subst y. rewrite IH. split.
    + intros [p [a' [b' [-> [-> M]]]]]. exists (x :: p), a', b'. auto.
    + intros [p [a' [b' [A [B M]]]]]. destruct p as [|z p]; cbn in A, B; [subst; lia|]. injection A as -> A. injection B as B. exists p, a', b'. auto.
Qed.
Lemma str_before_trans a b d : str_before a b -> str_before b d -> str_before a d.
Proof.
  rewrite <- !cmp_str_lt. revert b d. induction a as [|x a IH]; intros [|y b] [|z d]; cbn [cmp_str]; try discriminate; try reflexivity.
  intros H1 H2.
  destruct (N.lt_trichotomy x y) as [L|[->|L]]; destruct (N.lt_trichotomy y z) as [L'|[->|L']].
  - assert (x < z)%N as Z by lia. apply N.compare_lt_iff in Z. now rewrite Z.
  - apply N.compare_lt_iff in L. now rewrite L.
  - apply N.compare_gt_iff in L'. rewrite L' in H2. discriminate.
  - apply N.compare_lt_iff in L'. now rewrite L'.
  - rewrite N.compare_refl in *. eapply IH; eauto.
  - apply N.compare_gt_iff in L'. rewrite L' in H2. discriminate.
  - apply N.compare_gt_iff in L. rewrite L in H1. discriminate.
  - apply N.compare_gt_iff in L. rewrite L in H1. discriminate.
  - apply N.compare_gt_iff in L. rewrite L in H1. discriminate.
Qed.
Lemma consistent_of {A} (cmp : A -> A -> comparison) : (forall a b, cmp b a = CompOpp (cmp a b)) -> (forall a b d, cmp a b = Lt -> cmp b d = Lt -> cmp a d = Lt) ->
  (forall a b d, cmp a b = Eq -> cmp a d = cmp b d) -> consistent cmp.
Proof.
  intros O T E. split; [exact O|]. intros a b d H1 H2. destruct (cmp a b) eqn:C1; [rewrite (E a b d C1); exact H2| |congruence].
  destruct (cmp b d) eqn:C2; [|rewrite (T a b d C1 C2); discriminate|congruence].
  rewrite O, (E d b a) by (rewrite O, C2; reflexivity). rewrite <- O, C1. discriminate.
Qed.
Lemma cmp_str_consistent : consistent cmp_str.
Proof.
  apply consistent_of; [intros; apply cmp_str_opp| |intros a b d H; apply cmp_str_eq in H; now subst].
  intros a b d. rewrite !cmp_str_lt. apply str_before_trans.
Qed.

(** ** Comparison of numbers *)
Lemma number_compare_lt a b : number_compare a b = Lt <-> num_before a b.
Proof.
  unfold number_compare, num_before. destruct a; destruct b; try (cbn; intuition (congruence || discriminate)).
  all: match goal with |- context [num_eqb ?a ?b] => pose proof (num_eqb_spec a b) as E; pose proof (num_ltb_spec a b) as L; destruct (num_eqb a b); destruct (num_ltb a b) end.
  all: cbn [num_eq num_lt] in *.
  all: try (split; [discriminate|]; intros [[Z _]|Z]; [discriminate|]; apply L in Z; discriminate).
  all: try (split; [intros _; right; apply L; reflexivity|reflexivity]).
  all: exfalso; destruct E as [[_ E] _]; [reflexivity|]; destruct L as [L _]; specialize (L eq_refl); cbn [same_number finite num_lt] in *; try (exact L); try (rewrite E in L; exact (Qlt_irrefl _ L)); try (rewrite <- E in L; exact (Qlt_irrefl _ L)); exact (Qlt_irrefl _ L).
Qed.
Lemma same_number_sym a b : same_number a b -> same_number b a.
Proof. destruct a, b; cbn; auto; intros H; now rewrite H. Qed.
Lemma number_compare_eq a b : number_compare a b = Eq <-> same_number a b.
Proof.
  unfold number_compare. destruct a; destruct b; try (cbn; intuition (congruence || discriminate)).
  all: match goal with |- context [num_eqb ?a ?b] => pose proof (num_eqb_spec a b) as E; destruct (num_eqb a b) eqn:EQ; [|destruct (num_ltb a b)] end.
  all: split; intros H; try discriminate; try reflexivity; try (apply E; reflexivity); try (exfalso; assert (false = true) by (apply E; split; [discriminate|exact H]); discriminate).
  all: destruct E as [E _]; destruct (E eq_refl); assumption.
Qed.
Lemma total_num a b : same_number a b \/ num_before a b \/ num_before b a.
Proof.
  unfold num_before. destruct a, b; cbn; try (left; exact I); try (right; left; right; exact I); try (right; right; right; exact I); try (right; left; left; split; [reflexivity|discriminate]); try (right; right; left; split; [reflexivity|discriminate]).
  - left. reflexivity.
  - destruct (Q_dec 0 q) as [[L|L]|L]; [right; left; now right|right; right; now right|left; exact L].
  - destruct (Q_dec q 0) as [[L|L]|L]; [right; left; now right|right; right; now right|left; exact L].
  - destruct (Q_dec q q0) as [[L|L]|L]; [right; left; now right|right; right; now right|left; exact L].
Qed.
Lemma num_before_trans a b d : num_before a b -> num_before b d -> num_before a d.
Proof.
  unfold num_before. intros [[-> H1]|H1] [[-> H2]|H2].
  - congruence.
  - left. split; [reflexivity|]. destruct b, d; cbn in H2; congruence || tauto.
  - destruct a; cbn in H1; tauto.
  - right. destruct a, b, d; cbn in *; try tauto; eapply Qlt_trans; eauto.
Qed.
Lemma num_before_irrefl a b : same_number a b -> ~ num_before a b.
Proof. intros H1 H2. apply number_compare_lt in H2. apply number_compare_eq in H1. congruence. Qed.
Lemma same_before a b d : same_number a b -> num_before a d -> num_before b d.
Proof.
  unfold num_before. intros H [[-> H1]|H1]; [destruct b; cbn in H; try tauto; left; auto|]. right.
  destruct a, b, d; cbn in *; try tauto; first [rewrite <- H; exact H1|rewrite H in H1; exact H1].
Qed.
Lemma before_same a b d : same_number a b -> num_before d a -> num_before d b.
Proof.
  unfold num_before. intros H [[-> H1]|H1]; [left; split; [reflexivity|]; intros ->; destruct a; cbn in H; tauto|]. right.
  destruct a, b, d; cbn in *; try tauto; first [rewrite <- H; exact H1|rewrite H in H1; exact H1].
Qed.
Lemma number_compare_opp a b : number_compare b a = CompOpp (number_compare a b).
Proof.
  destruct (number_compare a b) eqn:C; cbn.
  - apply number_compare_eq. apply same_number_sym. now apply number_compare_eq.
  - destruct (number_compare b a) eqn:C'; [|exfalso|reflexivity].
    + exfalso. apply number_compare_eq in C'. apply number_compare_lt in C. exact (num_before_irrefl _ _ (same_number_sym _ _ C') C).
    + apply number_compare_lt in C, C'. pose proof (num_before_trans _ _ _ C C') as H. refine (num_before_irrefl a a _ H). apply number_compare_eq. destruct a; cbn; try reflexivity. unfold num_eqb; cbn. now rewrite (proj1 (Qeq_alt q q) (Qeq_refl q)).
  - destruct (total_num a b) as [H|[H|H]]; [apply number_compare_eq in H; congruence|apply number_compare_lt in H; congruence|]. now apply number_compare_lt.
Qed.
Lemma number_compare_consistent : consistent number_compare.
Proof.
  apply consistent_of; [intros; apply number_compare_opp|intros a b d; rewrite !number_compare_lt; apply num_before_trans|].
  intros a b d H. apply number_compare_eq in H. destruct (number_compare b d) eqn:C.
  - apply number_compare_eq in C. apply number_compare_eq. destruct (total_num a d) as [G|[G|G]]; [exact G| |]; exfalso.
    + apply (num_before_irrefl b d C). eapply same_before; eauto.
    + apply (num_before_irrefl d b (same_number_sym _ _ C)). eapply before_same; eauto.
  - apply number_compare_lt in C. apply number_compare_lt. eapply same_before; [apply same_number_sym|]; eauto.
  - assert (number_compare d b = Lt) as C' by (rewrite number_compare_opp, C; reflexivity). apply number_compare_lt in C'. rewrite number_compare_opp.
    assert (number_compare d a = Lt) as ->; [|reflexivity]. apply number_compare_lt. eapply before_same; [apply same_number_sym|]; eauto.
Qed.

(** ** Case *)
Section Case.
Variables (lower : N -> N) (islower isupper : N -> bool).
Lemma upper_first_str a b : cased lower isupper -> upper_first_compare lower isupper a b = cmp_str a b.
Proof.
  intros CS. unfold upper_first_compare. destruct (same_letters lower a b) eqn:E; [|reflexivity]. unfold same_letters in E. apply str_eqb_eq in E. revert b E.
  induction a as [|x a IH]; intros [|y b] E; cbn in E; try discriminate; [reflexivity|]. injection E as E1 E2. cbn [first_difference cmp_str].
  destruct (N.compare_spec x y) as [->|L|L].
  - rewrite N.eqb_refl. now apply IH.
  - rewrite (proj2 (N.eqb_neq x y)) by lia. now rewrite (proj1 (CS x y E1 L)).
  - rewrite (proj2 (N.eqb_neq x y)) by lia. symmetry in E1. now rewrite (proj2 (CS y x E1 L)).
Qed.
Lemma consistent_map {A B} (f : A -> B) cmp : consistent cmp -> consistent (fun a b => cmp (f a) (f b)).
Proof. intros [O T]. split; [intros; apply O|]. intros a b d. apply T. Qed.
Lemma consistent_ext {A} (f g : A -> A -> comparison) : (forall a b, f a b = g a b) -> consistent f -> consistent g.
Proof. intros E [O T]. split; [intros; rewrite <- !E; apply O|]. intros a b d. rewrite <- !E. apply T. Qed.
Lemma get_compare_good k a b : good_key lower isupper k -> get_compare lower islower isupper k a b = if sk_numeric k then number_compare (as_number a) (as_number b) else cmp_str (as_text a) (as_text b).
Proof.
  intros G. unfold get_compare, good_key in *. destruct (sk_numeric k); [reflexivity|]. destruct (sk_case k) as [[|]|]; [|discriminate|reflexivity].
  destruct G as [G|G]; [discriminate|]. now apply upper_first_str.
Qed.
Lemma get_compare_consistent k : good_key lower isupper k -> consistent (get_compare lower islower isupper k).
Proof.
  intros G. eapply consistent_ext; [intros a b; symmetry; now apply get_compare_good|]. destruct (sk_numeric k).
  - apply (consistent_map as_number number_compare number_compare_consistent).
  - apply (consistent_map as_text cmp_str cmp_str_consistent).
Qed.

(** ** list.sort *)
Definition pair_in {A} (l : list A) (x y : A) : Prop := exists l1 l2 l3, l = l1 ++ x :: l2 ++ y :: l3.
Lemma pair_cons {A} (l : list A) z x y : pair_in (z :: l) x y <-> (x = z /\ In y l) \/ pair_in l x y.
Proof.
  split.
  - intros [[|u l1] [l2 [l3 E]]]; cbn in E; injection E as -> ->; [left; split; [reflexivity|apply in_or_app; right; now left]|right; exists l1, l2, l3; reflexivity].
  - intros [[-> I]|[l1 [l2 [l3 ->]]]]; [|exists (z :: l1), l2, l3; reflexivity]. apply in_split in I. destruct I as [l2 [l3 ->]]. exists [], l2, l3. reflexivity.
Qed.
Lemma pair_nil {A} (x y : A) : ~ pair_in [] x y.
Proof. intros [[|u l1] [l2 [l3 E]]]; discriminate. Qed.
Lemma pair_members {A} (l : list A) x y : pair_in l x y -> In x l /\ In y l.
Proof. intros [l1 [l2 [l3 ->]]]. split; apply in_or_app; right; [now left|]. right. apply in_or_app. right. now left. Qed.
Lemma pair_filter {A} (f : A -> bool) (l : list A) x y : pair_in (filter f l) x y <-> pair_in l x y /\ f x = true /\ f y = true.
Proof.
  induction l as [|z l IH]; cbn [filter].
  - split; [intros H; now apply pair_nil in H|intros [H _]; now apply pair_nil in H].
  - rewrite pair_cons. destruct (f z) eqn:F; [rewrite pair_cons, IH, filter_In|rewrite IH]; split; intuition (subst; auto; try congruence).
Qed.
Lemma pair_sorted {A} (R : A -> A -> Prop) (l : list A) : StronglySorted R l <-> forall x y, pair_in l x y -> R x y.
Proof.
  induction l as [|z l IH].
  - split; [intros _ x y H; now apply pair_nil in H|constructor].
  - split.
    + intros H x y. inversion H as [|? ? H1 H2]; subst. rewrite pair_cons. intros [[-> I]|P]; [rewrite Forall_forall in H2; auto|]. apply IH; assumption.
    + intros H. constructor; [apply IH; intros x y P; apply H; rewrite pair_cons; now right|]. apply Forall_forall. intros y I. apply H. rewrite pair_cons. now left.
Qed.
Lemma pair_map {A B} (f : A -> B) (l : list A) x y : pair_in (map f l) x y -> exists a b, f a = x /\ f b = y /\ pair_in l a b.
Proof.
  induction l as [|z l IH]; cbn [map]; intros H; [now apply pair_nil in H|]. rewrite pair_cons in H. destruct H as [[-> I]|H].
  - apply in_map_iff in I. destruct I as [b [E I]]. exists z, b. repeat split; auto. rewrite pair_cons. now left.
  - destruct (IH H) as [a [b [E1 [E2 P]]]]. exists a, b. repeat split; auto. rewrite pair_cons. now right.
Qed.
(** A stable sort refines the order the list had. *)
Lemma stable_pairs {A} sort cmp (reverse : bool) (l : list A) : stable_sort sort -> consistent cmp ->
  forall a b, pair_in (sort cmp reverse l) a b -> (if reverse then cmp b a = Lt else cmp a b = Lt) \/ (cmp a b = Eq /\ pair_in l a b).
Proof.
  intros ST CO a b P. destruct (ST cmp reverse l CO) as [PM [SS FI]]. pose proof (proj1 (pair_sorted _ _) SS a b P) as H. destruct CO as [O T].
  assert (cmp a b = Eq -> pair_in l a b) as HE.
  { intros E. assert (pair_in (filter (fun z => match cmp a z with Eq => true | _ => false end) (sort cmp reverse l)) a b) as PF.
    { apply pair_filter. split; [exact P|]. split; [|now rewrite E]. assert (cmp a a = Eq) as ->; [|reflexivity]. pose proof (O a a). destruct (cmp a a); cbn in *; congruence. }
    rewrite FI in PF. apply pair_filter in PF. apply PF. }
  pose proof (O a b) as O'. destruct reverse; destruct (cmp a b) eqn:C; cbn in O'; rewrite ?O' in *; try congruence; auto.
Qed.

(** ** sorted_expression *)
Lemma get_keys_nth c ks : forall vs, get_keys c ks = Ok vs -> length vs = length ks /\ forall j k, nth_error ks j = Some k -> get_key c k = Ok (nth j vs (VText [])).
Proof.
  induction ks as [|k ks IH]; intros vs H; cbn [get_keys] in H; [injection H as <-; split; [reflexivity|intros [|j]; discriminate]|].
  destruct (get_key c k) as [v|] eqn:G; cbn [bind] in H; [|discriminate]. destruct (get_keys c ks) as [l|]; cbn [bind] in H; [|discriminate]. injection H as <-. destruct (IH l eq_refl) as [L N].
  split; [cbn; lia|]. intros [|j] k' E; cbn in *; [injection E as <-; exact G|auto].
Qed.
Lemma decorate_ok ks nodes : forall c p ds c', decorate c ks p nodes = Ok (ds, c') ->
  map fst ds = nodes /\ c_template c' = c_template c /\ c_current c' = last nodes (c_current c) /\
  forall x vs, In (x, vs) ds -> exists i, nth_error nodes i = Some x /\
    get_keys {| c_node := x; c_position := S (p + i); c_size := c_size c; c_current := x; c_template := c_template c |} ks = Ok vs.
Proof.
  induction nodes as [|x nodes IH]; intros c p ds c' H; cbn [decorate] in H; [injection H as <- <-; repeat split; intros ? ? []|].
  destruct (get_keys _ ks) as [vs|] eqn:G; cbn [bind] in H; [|discriminate]. destruct (decorate _ ks (S p) nodes) as [[ds' c'']|] eqn:D; cbn [bind fst snd] in H; [|discriminate]. injection H as <- <-.
  destruct (IH _ _ _ _ D) as [M [T [C V]]]. cbn [c_template c_current c_size] in *. split; [cbn; now rewrite M|]. split; [exact T|]. split; [rewrite C; destruct nodes as [|n r]; [reflexivity|]; cbn [last]; clear; revert n x; induction r as [|m r IH]; intros n x; [reflexivity|]; cbn [last] in *; auto|].
  intros y ws [[= <- <-]|I]; [exists 0; split; [reflexivity|]; rewrite Nat.add_0_r; exact G|]. destruct (V y ws I) as [i [N K]]. exists (S i). split; [exact N|]. rewrite Nat.add_succ_r. exact K.
Qed.
Section Sorted.
Variables (sort : (decorated -> decorated -> comparison) -> bool -> list decorated -> list decorated) (c : context) (nodes : list nat) (ks : list sort_key) (ds : list decorated).
Hypothesis ST : stable_sort sort.
Hypothesis GK : forall k, In k ks -> good_key lower isupper k.
Hypothesis FST : map fst ds = nodes.
Hypothesis VALS : forall x vs, In (x, vs) ds -> exists d, focus_of c nodes x d /\ get_keys d ks = Ok vs.
Lemma item_value j k a : In a ds -> nth_error ks j = Some k ->
  if sk_numeric k then exists n, item (S j) a = VNumber n /\ number_of c nodes k (fst a) n else exists v, item (S j) a = VText v /\ text_of c nodes k (fst a) v.
Proof.
  destruct a as [x vs]. intros I N. destruct (VALS x vs I) as [d [F G]]. destruct (get_keys_nth _ _ _ G) as [_ H]. specialize (H j k N). unfold item. cbn [fst snd]. replace (S j - 1) with j by lia.
  unfold get_key in H. destruct (sk_numeric k).
  - destruct (sk_number k d) as [n|] eqn:E; cbn [bind] in H; [|discriminate]. injection H as <-. exists n. split; [reflexivity|]. exists d. auto.
  - destruct (sk_string k d) as [n|] eqn:E; cbn [bind] in H; [|discriminate]. injection H as <-. exists n. split; [reflexivity|]. exists d. auto.
Qed.
Lemma compare_less j k a b : In a ds -> In b ds -> nth_error ks j = Some k -> get_compare lower islower isupper k (item (S j) a) (item (S j) b) = Lt -> less c nodes k (fst a) (fst b).
Proof.
  intros Ia Ib N H. rewrite get_compare_good in H by (apply GK; eapply nth_error_In; eauto). pose proof (item_value j k a Ia N) as Va. pose proof (item_value j k b Ib N) as Vb. unfold less. destruct (sk_numeric k).
  - destruct Va as [m [Ea Va]], Vb as [n [Eb Vb]]. rewrite Ea, Eb in H. cbn [as_number] in H. apply number_compare_lt in H. eauto.
  - destruct Va as [m [Ea Va]], Vb as [n [Eb Vb]]. rewrite Ea, Eb in H. cbn [as_text] in H. apply cmp_str_lt in H. eauto.
Qed.
Lemma compare_same j k a b : In a ds -> In b ds -> nth_error ks j = Some k -> get_compare lower islower isupper k (item (S j) a) (item (S j) b) = Eq -> same c nodes k (fst a) (fst b).
Proof.
  intros Ia Ib N H. rewrite get_compare_good in H by (apply GK; eapply nth_error_In; eauto). pose proof (item_value j k a Ia N) as Va. pose proof (item_value j k b Ib N) as Vb. unfold same. destruct (sk_numeric k).
  - destruct Va as [m [Ea Va]], Vb as [n [Eb Vb]]. rewrite Ea, Eb in H. cbn [as_number] in H. apply number_compare_eq in H. eauto.
  - destruct Va as [m [Ea Va]], Vb as [n [Eb Vb]]. rewrite Ea, Eb in H. cbn [as_text] in H. apply cmp_str_eq in H. subst n. eauto.
Qed.
Lemma sort_by_ok rest : forall done l, ks = done ++ rest -> Permutation l ds -> (forall a b, pair_in l a b -> precedes c nodes (rev done) (fst a) (fst b)) ->
  Permutation (sort_by lower islower isupper sort (S (length done)) rest l) ds /\
  forall a b, pair_in (sort_by lower islower isupper sort (S (length done)) rest l) a b -> precedes c nodes (rev ks) (fst a) (fst b).
Proof.
  induction rest as [|k rest IH]; intros done l E PM PR; cbn [sort_by].
  - rewrite app_nil_r in E. subst done. auto.
  - assert (nth_error ks (length done) = Some k) as N by (rewrite E, nth_error_app2, Nat.sub_diag by lia; reflexivity).
    assert (consistent (fun a b => get_compare lower islower isupper k (item (S (length done)) a) (item (S (length done)) b))) as CO.
    { apply (consistent_map (item (S (length done)))). apply get_compare_consistent. apply GK. eapply nth_error_In; eauto. }
    pose proof (stable_pairs sort _ (sk_descending k) l ST CO) as SP. destruct (ST _ (sk_descending k) l CO) as [PM' _]. set (l' := sort _ (sk_descending k) l) in *.
    replace (S (S (length done))) with (S (length (done ++ [k]))) by (rewrite app_length; cbn; lia).
    apply IH; [rewrite <- app_assoc; exact E|now transitivity l|]. intros a b P. rewrite rev_app_distr. cbn [rev app precedes].
    assert (In a ds /\ In b ds) as [Ia Ib] by (assert (Permutation l' ds) as PD by (now transitivity l); destruct (pair_members _ _ _ P); split; eapply Permutation_in; eauto).
    destruct (SP a b P) as [L|[Q P']].
    + left. unfold before. destruct (sk_descending k); apply (compare_less (length done)); assumption.
    + right. split; [apply (compare_same (length done)); assumption|apply PR, P'].
Qed.
End Sorted.
End Case.

(** ** The order is strict *)
Section Order.
Variables (c : context) (nodes : list nat).
Hypothesis ND : NoDup nodes.
Lemma focus_unique x d e : focus_of c nodes x d -> focus_of c nodes x e -> d = e.
Proof.
  intros [i [N ->]] [j [M ->]]. assert (i = j) as ->; [|reflexivity]. eapply NoDup_nth_error; [exact ND|apply nth_error_Some; congruence|congruence].
Qed.
Lemma text_unique k x u v : text_of c nodes k x u -> text_of c nodes k x v -> u = v.
Proof. intros [d [F E]] [d' [F' E']]. rewrite (focus_unique x d' d F' F) in E'. congruence. Qed.
Lemma number_unique k x u v : number_of c nodes k x u -> number_of c nodes k x v -> u = v.
Proof. intros [d [F E]] [d' [F' E']]. rewrite (focus_unique x d' d F' F) in E'. congruence. Qed.
Lemma less_asym k x y : less c nodes k x y -> ~ less c nodes k y x.
Proof.
  unfold less. destruct (sk_numeric k).
  - intros [m [n [A [B H]]]] [m' [n' [A' [B' H']]]]. rewrite (number_unique k y m' n A' B), (number_unique k x n' m B' A) in H'. pose proof (num_before_trans _ _ _ H H') as Z. apply number_compare_lt in Z. destruct number_compare_consistent as [O _]. specialize (O m m). rewrite Z in O. discriminate.
  - intros [m [n [A [B H]]]] [m' [n' [A' [B' H']]]]. rewrite (text_unique k y m' n A' B), (text_unique k x n' m B' A) in H'. pose proof (str_before_trans _ _ _ H H') as Z. apply cmp_str_lt in Z. pose proof (cmp_str_opp m m) as O. rewrite Z in O. discriminate.
Qed.
Lemma less_same k x y : less c nodes k x y -> ~ same c nodes k x y /\ ~ same c nodes k y x.
Proof.
  unfold less, same. destruct (sk_numeric k).
  - intros [m [n [A [B H]]]]. split; intros [m' [n' [A' [B' H']]]].
    + rewrite (number_unique k x m' m A' A), (number_unique k y n' n B' B) in H'. exact (num_before_irrefl _ _ H' H).
    + rewrite (number_unique k y m' n A' B), (number_unique k x n' m B' A) in H'. exact (num_before_irrefl _ _ (same_number_sym _ _ H') H).
  - intros [m [n [A [B H]]]]. split; intros [m' [A' B']]; [pose proof (text_unique k x _ _ A' A); pose proof (text_unique k y _ _ B' B)|pose proof (text_unique k y _ _ A' B); pose proof (text_unique k x _ _ B' A)]; subst; subst; apply cmp_str_lt in H; [|]; rewrite (proj2 (cmp_str_eq _ _) eq_refl) in H; discriminate.
Qed.
Lemma earlier_asym x y : earlier nodes x y -> ~ earlier nodes y x.
Proof.
  clear c. revert ND. induction nodes as [|z l IH]; intros N; [intros H; now apply pair_nil in H|]. inversion N as [|? ? NI N']; subst. unfold earlier. fold (pair_in (z :: l) x y) (pair_in (z :: l) y x). rewrite !pair_cons.
  intros [[-> I]|P] [[-> J]|Q]; [tauto|apply pair_members in Q; tauto|apply pair_members in P; tauto|exact (IH N' P Q)].
Qed.
Lemma precedes_asym ks x y : precedes c nodes ks x y -> ~ precedes c nodes ks y x.
Proof.
  induction ks as [|k ks IH]; cbn [precedes]; [apply earlier_asym|]. unfold before. intros [H|[H H1]] [G|[G G1]].
  - destruct (sk_descending k); exact (less_asym _ _ _ H G).
  - destruct (sk_descending k); apply less_same in H; tauto.
  - destruct (sk_descending k); apply less_same in G; tauto.
  - exact (IH H1 G1).
Qed.
End Order.
Lemma sorted_unique {A} (R : A -> A -> Prop) : (forall x y, R x y -> ~ R y x) -> forall l m, Permutation l m -> (forall x y, pair_in l x y -> R x y) -> (forall x y, pair_in m x y -> R x y) -> l = m.
Proof.
  intros AS. induction l as [|x l IH]; intros m PM L M; [apply Permutation_nil in PM; now subst|].
  destruct m as [|y m]; [symmetry in PM; apply Permutation_nil in PM; discriminate|].
  assert (x = y) as ->.
  { assert (In y (x :: l)) as I by (eapply Permutation_in; [symmetry; exact PM|now left]). assert (In x (y :: m)) as J by (eapply Permutation_in; [exact PM|now left]).
    destruct I as [->|I]; [reflexivity|]. destruct J as [->|J]; [reflexivity|]. exfalso. apply (AS x y); [apply L|apply M]; rewrite pair_cons; now left. }
  f_equal. apply IH; [now apply Permutation_cons_inv in PM|intros; apply L; rewrite pair_cons; now right|intros; apply M; rewrite pair_cons; now right].
Qed.
