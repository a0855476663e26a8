(** * Proofs about comparisons *)
From Coq Require Import NArith ZArith QArith Qround Qabs String List Bool Lia Lqa.
From Verif Require Import PyStr PyErr XpNum XpNumSpec XpNumLemmas XpFuncs XpFuncSpec XpFuncNum.
Import ListNotations.
Local Open Scope N_scope.

(** ** Numbers *)
Lemma same_refl a : same_number a a.
Proof. destruct a; cbn; try exact I; reflexivity. Qed.
Lemma same_sym a b : same_number a b -> same_number b a.
Proof. destruct a, b; cbn; auto; intros; now symmetry. Qed.
Lemma same_trans a b c : same_number a b -> same_number b c -> same_number a c.
Proof. destruct a, b, c; cbn; auto; try contradiction; intros; lra. Qed.
Lemma same_nan a : same_number NNaN a -> a = NNaN.
Proof. destruct a; cbn; auto; contradiction. Qed.
Lemma num_eqb_spec a b : num_eqb a b = true <-> num_eq a b.
Proof.
  assert (forall p q, (match Qcompare p q with Eq => true | _ => false end = true) <-> (p == q)%Q) as Q.
  { intros p q. rewrite Qeq_alt. destruct (Qcompare p q); split; congruence. }
  unfold num_eqb, num_eq, num_compare.
  destruct a as [| | | |p], b as [| | | |q]; unfold same_number, finite; rewrite ?Q;
    try (split; [intros H; try discriminate H; split; [discriminate|try exact I; try exact H; try reflexivity]|intros [_ H]; try contradiction; reflexivity || exact H]).
  all: split; [discriminate|intros [H K]; first [contradiction|congruence]].
Qed.
Lemma num_ltb_spec a b : num_ltb a b = true <-> num_lt a b.
Proof.
  assert (forall p q, (match Qcompare p q with Lt => true | _ => false end = true) <-> (p < q)%Q) as Q.
  { intros p q. rewrite Qlt_alt. destruct (Qcompare p q); split; congruence. }
  unfold num_ltb, num_compare, num_lt.
  destruct a as [| | | |p], b as [| | | |q]; unfold finite; rewrite ?Q;
    first [reflexivity|split; [intros _; exact I|reflexivity]|split; [discriminate|intros H; now apply Qlt_irrefl in H]|split; [discriminate|intros []]].
Qed.
Lemma num_leb_spec a b : num_leb a b = true <-> num_le a b.
Proof.
  unfold num_le. rewrite <- num_ltb_spec, <- num_eqb_spec. unfold num_leb, num_ltb, num_eqb. destruct (num_compare a b) as [[| |]|]; intuition congruence.
Qed.
Lemma float_compare_spec op a b : float_compare op a b = true <-> numbers_compare op a b.
Proof.
  destruct op; cbn [float_compare numbers_compare]; rewrite ?negb_true_iff; try apply num_eqb_spec; try apply num_ltb_spec; try apply num_leb_spec.
  rewrite <- num_eqb_spec. destruct (num_eqb a b); intuition congruence.
Qed.
Lemma num_eq_same a a' b b' : same_number a a' -> same_number b b' -> num_eq a b -> num_eq a' b'.
Proof.
  intros A B [N E]. split; [|eapply same_trans; [apply same_sym, A|]; eapply same_trans; eauto]. intros ->. apply N. apply same_nan. now apply same_sym.
Qed.
Lemma num_lt_same a a' b b' : same_number a a' -> same_number b b' -> num_lt a b -> num_lt a' b'.
Proof. unfold num_lt. destruct a, a'; cbn; try contradiction; destruct b, b'; cbn; try contradiction; auto; intros; lra. Qed.
Lemma numbers_compare_same op a a' b b' : same_number a a' -> same_number b b' -> numbers_compare op a b -> numbers_compare op a' b'.
Proof.
  intros A B. assert (num_lt a b -> num_lt a' b') as L1 by (now apply num_lt_same). assert (num_lt b a -> num_lt b' a') as L2 by (now apply num_lt_same).
  assert (num_eq a b -> num_eq a' b') as E1 by (now apply num_eq_same). assert (num_eq b a -> num_eq b' a') as E2 by (now apply num_eq_same). assert (num_eq a' b' -> num_eq a b) as E3 by (apply num_eq_same; now apply same_sym).
  destruct op; cbn; unfold num_le; tauto.
Qed.
Lemma num_eq_sym a b : num_eq a b -> num_eq b a.
Proof. intros [N E]. split; [|now apply same_sym]. intros ->. apply N, same_nan, same_sym, E. Qed.
Lemma numbers_compare_swap op a b : numbers_compare op a b <-> numbers_compare (swapped op) b a.
Proof. pose proof (num_eq_sym a b). pose proof (num_eq_sym b a). destruct op; cbn; unfold num_le; tauto. Qed.

(** ** Conversions *)
Lemma numeral_from s q : numeral s q -> exists q0, (q0 == q)%Q /\ from_string s = Ok (number_new (rnd q0)).
Proof.
  intros Q. pose proof (scan_end_numeral s q Q) as E. destruct Q as [b [ng [ip [pt [fp [a [D [B [A [F [NE V]]]]]]]]]]]. exists (figure_value ng ip fp). split; [symmetry; exact V|].
  rewrite from_string_eq, E. assert (Nat.eqb (List.length (@nil N)) (List.length s) = false) as ->.
  { apply Nat.eqb_neq. intros L. cbn in L. destruct s; [|discriminate]. symmetry in D. apply app_eq_nil in D. destruct D as [_ D]. apply app_eq_nil in D. destruct D as [D _]. unfold figure in D. apply app_eq_nil in D. destruct D as [_ D]. apply app_eq_nil in D. destruct D as [-> D]. destruct pt; [discriminate|]. apply NE. destruct F as [_ [_ P]]. now rewrite P. }
  cbn [negb orb]. rewrite D, py_float_figure by assumption. destruct (ip ++ fp); [congruence|reflexivity].
Qed.
Lemma string_number_unique s n m : string_number s n -> from_string s = Ok m -> same_number m n.
Proof.
  intros [[q [Q R]]|[NN ->]] E.
  - destruct (numeral_from s q Q) as [q0 [Eq E']]. rewrite E' in E. injection E as <-. apply (rounds_unique q0 q); [exact Eq|apply rounds_collapse, rnd_rounds|exact R].
  - apply from_string_ok in E. destruct E as [[q [Q _]]|[_ ->]]; [now apply NN in Q|exact I].
Qed.
Lemma to_number_ok v n : to_number v = Ok n -> value_number v n.
Proof.
  destruct v as [b|m|s|[|s l]]; cbn [to_number value_number].
  - intros [= <-]. destruct b; reflexivity.
  - now intros [= ->].
  - apply from_string_ok.
  - now intros [= ->].
  - apply from_string_ok.
Qed.
Lemma value_number_unique v n m : value_number v n -> to_number v = Ok m -> same_number m n.
Proof.
  destruct v as [b|k|s|[|s l]]; cbn [to_number value_number].
  - intros H [= <-]. apply same_sym. eapply same_trans; [exact H|]. destruct b; reflexivity.
  - intros -> [= ->]. apply same_refl.
  - apply string_number_unique.
  - intros -> [= <-]. exact I.
  - apply string_number_unique.
Qed.
Lemma as_numbers_iff op v w a b : to_number v = Ok a -> to_number w = Ok b -> as_numbers op v w <-> float_compare op a b = true.
Proof.
  intros A B. rewrite float_compare_spec. split.
  - intros [a' [b' [A' [B' H]]]]. apply (numbers_compare_same op a' a b' b); [apply same_sym; eapply value_number_unique; eauto|apply same_sym; eapply value_number_unique; eauto|exact H].
  - intros H. exists a, b. split; [now apply to_number_ok|]. split; [now apply to_number_ok|exact H].
Qed.
Lemma truth_spec v : truth v <-> to_boolean v = true.
Proof.
  destruct v as [b|n|s|l]; cbn [truth to_boolean]; [reflexivity| | |].
  - destruct n as [| | | |q]; unfold same_number, finite, is_zero; cbn [negb andb].
    + split; [intros [H _]; congruence|discriminate].
    + split; [reflexivity|]. intros _. split; [discriminate|intros []].
    + split; [reflexivity|]. intros _. split; [discriminate|intros []].
    + split; [intros [_ K]; exfalso; apply K; reflexivity|discriminate].
    + destruct (Qeq_bool q 0) eqn:E; cbn.
      * apply Qeq_bool_iff in E. split; [intros [_ K]; contradiction|discriminate].
      * apply Qeq_bool_neq in E. split; [reflexivity|]. intros _. split; [discriminate|exact E].
  - destruct s; split; congruence.
  - destruct l; split; congruence.
Qed.

(** ** Reflection *)
Lemma swapped_twice op : swapped (swapped op) = op.
Proof. now destruct op. Qed.
Lemma as_numbers_swap op v w : as_numbers op v w <-> as_numbers (swapped op) w v.
Proof.
  assert (forall o x y, as_numbers o x y -> as_numbers (swapped o) y x) as H.
  { intros o x y [a [b [A [B H]]]]. exists b, a. split; [assumption|]. split; [assumption|]. now apply numbers_compare_swap in H. }
  split; [apply H|]. intros K. apply H in K. now rewrite swapped_twice in K.
Qed.
Lemma strings_compare_swap op s t : strings_compare op s t <-> strings_compare (swapped op) t s.
Proof. destruct op; cbn [strings_compare swapped]; try (intuition congruence); apply as_numbers_swap. Qed.
Lemma booleans_compare_swap op v w : booleans_compare op v w <-> booleans_compare (swapped op) w v.
Proof.
  assert (forall o, (exists a b : bool, (a = true <-> truth v) /\ (b = true <-> truth w) /\ as_numbers o (VBool a) (VBool b)) <-> (exists a b : bool, (a = true <-> truth w) /\ (b = true <-> truth v) /\ as_numbers (swapped o) (VBool a) (VBool b))) as H.
  { intros o. split; intros [a [b [A [B H]]]]; exists b, a; (split; [assumption|]); (split; [assumption|]); now apply (as_numbers_swap o). }
  destruct op; cbn [booleans_compare swapped]; try apply H; tauto.
Qed.
Lemma comparison_swap op v w : comparison_holds op v w <-> comparison_holds (swapped op) w v.
Proof.
  assert (forall (A : Type) (P Q : A -> Prop), (forall x, P x <-> Q x) -> (exists x, P x) <-> (exists x, Q x)) as EX by (intros A P Q H; split; intros [x K]; exists x; now apply H).
  destruct v as [b|n|s|l], w as [b'|n'|s'|l']; cbn [comparison_holds];
    try (destruct op; cbn [swapped]; apply booleans_compare_swap || apply as_numbers_swap || apply strings_compare_swap);
    try apply booleans_compare_swap;
    try (apply EX; intros x; (apply and_iff_compat_l; apply as_numbers_swap || apply strings_compare_swap) || fail).
  split; intros [x [y [X [Y H]]]]; exists y, x; (split; [assumption|]); (split; [assumption|]); now apply (strings_compare_swap op).
Qed.

(** ** The comparison *)
Lemma any_true {A} (f : A -> result bool) l : any f l = Ok true -> exists x, In x l /\ f x = Ok true.
Proof.
  induction l as [|x l IH]; cbn; [discriminate|]. destruct (f x) as [[|]|e] eqn:E; cbn; intros H; [exists x; auto| |discriminate]. destruct (IH H) as [y [I K]]. exists y. auto.
Qed.
Lemma any_false {A} (f : A -> result bool) l : any f l = Ok false -> forall x, In x l -> f x = Ok false.
Proof.
  induction l as [|x l IH]; cbn; [contradiction|]. destruct (f x) as [[|]|e] eqn:E; cbn; intros H y I; [discriminate| |discriminate]. destruct I as [<-|I]; [exact E|now apply IH].
Qed.
Lemma any_err {A} (f : A -> result bool) l e : any f l = Err e -> exists x, In x l /\ f x = Err e.
Proof.
  induction l as [|x l IH]; cbn; [discriminate|]. destruct (f x) as [[|]|e'] eqn:E; cbn; intros H; [discriminate| |]. - destruct (IH H) as [y [I K]]. exists y. auto. - injection H as <-. exists x. auto.
Qed.
Definition strings_in (v : value) : list str := match v with VStr s => [s] | VSet l => l | _ => [] end.
Lemma object_ok v w op b : (match v, w with VSet _, _ | _, VSet _ => False | _, _ => True end) -> object_richcompare v w op = Ok b -> (b = true <-> comparison_holds op v w).
Proof.
  intros NS H.
  assert (forall o, (do x <- to_number v ; do y <- to_number w ; Ok (float_compare o x y)) = Ok b -> (b = true <-> as_numbers o v w)) as Num.
  { intros o K. destruct (to_number v) as [x|e] eqn:V; [|discriminate]. destruct (to_number w) as [y|e] eqn:W; [|discriminate]. cbn in K. injection K as <-. symmetry. now apply as_numbers_iff. }
  assert (forall x y, (b = Bool.eqb x y) -> (x = true <-> truth v) -> (y = true <-> truth w) -> (b = true <-> (truth v <-> truth w))) as BE.
  { intros x y -> X Y. rewrite <- X, <- Y. destruct x, y; cbn; intuition congruence. }
  assert (forall x y, (b = negb (Bool.eqb x y)) -> (x = true <-> truth v) -> (y = true <-> truth w) -> (b = true <-> ~ (truth v <-> truth w))) as BN.
  { intros x y -> X Y. rewrite <- X, <- Y. destruct x, y; cbn; intuition congruence. }
  pose proof (truth_spec v) as TV. pose proof (truth_spec w) as TW. symmetry in TV, TW.
  destruct op; try (unfold object_richcompare in H; apply Num in H; destruct v, w; try contradiction; exact H).
  - destruct v as [x|x|x|x], w as [y|y|y|y]; try contradiction; cbn [comparison_holds booleans_compare strings_compare]; try (apply Num; exact H); cbn [object_richcompare] in H; injection H as H.
    all: try (symmetry in H; eapply BE; [exact H| |]; assumption || reflexivity).
    subst b. apply str_eqb_eq.
  - destruct v as [x|x|x|x], w as [y|y|y|y]; try contradiction; cbn [comparison_holds booleans_compare strings_compare]; try (apply Num; exact H); cbn [object_richcompare] in H; injection H as H.
    all: try (symmetry in H; eapply BN; [exact H| |]; assumption || reflexivity).
    subst b. rewrite negb_true_iff. destruct (str_eqb_spec x y); intuition congruence.
Qed.
Lemma object_err v w op e : (match v, w with VSet _, _ | _, VSet _ => False | _, _ => True end) -> object_richcompare v w op = Err e -> e = ValueError /\ exists s, In s (strings_in v ++ strings_in w) /\ unconvertible s.
Proof.
  intros NS H.
  assert (forall o, (do x <- to_number v ; do y <- to_number w ; Ok (float_compare o x y)) = Err e -> e = ValueError /\ exists s, In s (strings_in v ++ strings_in w) /\ unconvertible s) as Num.
  { intros o K. destruct (to_number v) as [x|e1] eqn:V.
    - destruct (to_number w) as [y|e2] eqn:W; [discriminate|]. cbn in K. injection K as <-. destruct w as [y|y|y|y]; try discriminate; [|destruct v; contradiction]. destruct (from_string_err _ _ W) as [-> U]. split; [reflexivity|]. exists y. split; [apply in_app_iff; right; now left|exact U].
    - cbn in K. injection K as <-. destruct v as [y|y|y|y]; try discriminate; [|contradiction]. destruct (from_string_err _ _ V) as [-> U]. split; [reflexivity|]. exists y. split; [now left|exact U]. }
  destruct op; try (unfold object_richcompare in H; now apply Num in H); destruct v as [x|x|x|x], w as [y|y|y|y]; try contradiction; try (now apply (Num EQ)); try (now apply (Num NE)); discriminate H.
Qed.

Definition both_sets (v w : value) : bool := match v, w with VSet _, VSet _ => true | _, _ => false end.
(** A node-set against something that is not one. *)
Lemma num_pair op s a n b : from_string s = Ok a -> object_richcompare (VNum a) (VNum n) op = Ok b -> (b = true <-> as_numbers op (VStr s) (VNum n)).
Proof.
  intros E H. assert (b = float_compare op a n) as -> by (destruct op; cbn in H; now injection H as <-). symmetry. now apply as_numbers_iff.
Qed.
Lemma set_pair op s t a n b : from_string s = Ok a -> from_string t = Ok n -> object_richcompare (VNum a) (VNum n) op = Ok b -> (b = true <-> as_numbers op (VStr s) (VStr t)).
Proof.
  intros E F H. assert (b = float_compare op a n) as -> by (destruct op; cbn in H; now injection H as <-). symmetry. now apply as_numbers_iff.
Qed.
Lemma any_iff {A} (f : A -> result bool) (P : A -> Prop) l b : (forall x c, In x l -> f x = Ok c -> (c = true <-> P x)) -> any f l = Ok b -> (b = true <-> exists x, In x l /\ P x).
Proof.
  intros H E. destruct b.
  - split; [|reflexivity]. intros _. destruct (any_true _ _ E) as [x [I K]]. exists x. split; [exact I|]. now apply (H x true I K).
  - split; [discriminate|]. intros [x [I K]]. apply (H x false I (any_false _ _ E x I)) in K. discriminate.
Qed.
Lemma set_other_ok l w op b : (match w with VSet _ => False | _ => True end) -> nodeset_richcompare l w op = Ok b -> (b = true <-> comparison_holds op (VSet l) w).
Proof.
  intros NS H. destruct w as [y|n|t|y]; [| | |contradiction].
  - cbn [nodeset_richcompare comparison_holds] in *. set (x := match l with [] => false | _ => true end) in *. apply object_ok in H; [|exact I].
    assert (x = true <-> truth (VSet l)) as X by (unfold x; destruct l; cbn; split; congruence). rewrite H. clear H.
    destruct op; cbn [comparison_holds booleans_compare truth]; try (rewrite X; reflexivity);
      (split; [intros K; exists x, y; split; [exact X|]; split; [reflexivity|exact K]|intros [x' [y' [X' [Y' K]]]]; assert (x' = x) as -> by (apply eq_true_iff_eq; rewrite X, X'; reflexivity); assert (y' = y) as -> by (apply eq_true_iff_eq; exact Y'); exact K]).
  - cbn [nodeset_richcompare comparison_holds] in *. revert H. apply any_iff. intros s c _ E. destruct (from_string s) as [a|e] eqn:F; [|discriminate]. cbn [bind] in E. now apply (num_pair op s a n c).
  - cbn [nodeset_richcompare comparison_holds] in *. destruct (relational op) eqn:R.
    + destruct l as [|s0 l0]; [injection H as <-; split; [discriminate|intros [s [[] _]]]|]. destruct (from_string t) as [n|e] eqn:T; [|discriminate]. cbn [bind] in H. revert H. apply any_iff. intros s c _ E. destruct (from_string s) as [a|e] eqn:F; [|discriminate]. cbn [bind] in E.
      assert (strings_compare op s t <-> as_numbers op (VStr s) (VStr t)) as -> by (destruct op; discriminate R || reflexivity). now apply (set_pair op s t a n c).
    + revert H. apply any_iff. intros s c _ E. apply object_ok in E; [|exact I]. rewrite E. destruct op; try discriminate R; reflexivity.
Qed.
Lemma sets_equal l r op b : relational op = false -> nodeset_richcompare l (VSet r) op = Ok b -> (b = true <-> comparison_holds op (VSet l) (VSet r)).
Proof.
  intros R H. cbn [nodeset_richcompare comparison_holds] in *. destruct l as [|s0 l0]; [injection H as <-; split; [discriminate|intros [s [t [[] _]]]]|]. destruct r as [|t0 r0]; [injection H as <-; split; [discriminate|intros [s [t [_ [[] _]]]]]|].
  set (l := s0 :: l0) in *. set (r := t0 :: r0) in *. clearbody l r. destruct op; try discriminate R.
  - injection H as <-. rewrite existsb_exists. split.
    + intros [s [I H]]. apply existsb_exists in H. destruct H as [t [J H]]. apply str_eqb_eq in H. exists s, t. auto.
    + intros [s [t [I [J H]]]]. cbn in H. subst t. exists s. split; [exact I|]. apply existsb_exists. exists s. split; [exact J|apply str_eqb_refl].
  - assert (b = true <-> exists s, In s l /\ exists t, In t r /\ strings_compare NE s t) as ->.
    { revert H. apply any_iff. intros s c _. apply any_iff. intros t d _ E. apply object_ok in E; [|exact I]. exact E. }
    split; [intros [s [J [t [K L]]]]; eauto|intros [s [t [J [K L]]]]; eauto].
Qed.
Theorem compare_ok op v w b : both_sets v w = false \/ relational op = false -> compare op v w = Ok b -> (b = true <-> comparison_holds op v w).
Proof.
  intros C H. unfold compare in H.
  destruct v as [x|x|x|x], w as [y|y|y|y]; try (apply object_ok; [exact I|exact H]);
    try (rewrite comparison_swap; apply set_other_ok; [exact I|exact H]);
    try (apply set_other_ok; [exact I|exact H]).
  destruct C as [C|C]; [discriminate|]. now apply sets_equal.
Qed.

(** Two node-sets, relational operators *)
Lemma relational_sets_true op w v : relational op = true -> forall i, relational_sets op w i v = Ok true -> exists s t, In s v /\ In t w /\ as_numbers op (VStr s) (VStr t).
Proof.
  intros R. induction v as [|s v IH]; intros i; cbn [relational_sets]; [discriminate|]. destruct (from_string s) as [a|e] eqn:A; [|discriminate]. cbn [bind].
  destruct (any _ w) as [[|]|e] eqn:E; cbn [bind]; [| |discriminate].
  - intros _. apply any_true in E. destruct E as [x [_ E]]. destruct (nth_error w i) as [t|] eqn:T; [|discriminate]. destruct (from_string t) as [n|e] eqn:N; [|discriminate]. cbn [bind] in E. exists s, t. split; [now left|]. split; [eapply nth_error_In, T|]. now apply (set_pair op s t a n true).
  - intros H. destruct (IH _ H) as [s' [t [I K]]]. exists s', t. split; [now right|exact K].
Qed.
Theorem compare_true op v w : compare op v w = Ok true -> comparison_holds op v w.
Proof.
  intros H. destruct (both_sets v w) eqn:B; [|now apply (compare_ok op v w true (or_introl B))]. destruct (relational op) eqn:R; [|now apply (compare_ok op v w true (or_intror R))].
  destruct v as [|?|?|l], w as [|?|?|r]; try discriminate. cbn [compare nodeset_richcompare] in H. destruct l as [|s0 l0]; [discriminate|]. destruct r as [|t0 r0]; [discriminate|].
  assert (relational_sets op (t0 :: r0) 0 (s0 :: l0) = Ok true) as H' by (destruct op; try discriminate R; exact H). destruct (relational_sets_true _ _ _ R _ H') as [s [t [I [J K]]]]. exists s, t. split; [exact I|]. split; [exact J|]. destruct op; try discriminate R; exact K.
Qed.

(** ** Exceptions *)
Lemma set_other_err l w op e : (match w with VSet _ => False | _ => True end) -> nodeset_richcompare l w op = Err e -> e = ValueError /\ exists s, In s (l ++ strings_in w) /\ unconvertible s.
Proof.
  intros NS H. destruct w as [y|n|t|y]; [| | |contradiction]; cbn [nodeset_richcompare] in H.
  - apply object_err in H; [|exact I]. destruct H as [_ [s [[] _]]].
  - apply any_err in H. destruct H as [s [J H]]. destruct (from_string s) as [a|e'] eqn:F.
    + cbn [bind] in H. apply object_err in H; [|exact I]. destruct H as [_ [s' [[] _]]].
    + cbn in H. injection H as <-. destruct (from_string_err _ _ F) as [-> U]. split; [reflexivity|]. exists s. split; [apply in_app_iff; now left|exact U].
  - destruct (relational op).
    + destruct l as [|s0 l0]; [discriminate|]. set (l := s0 :: l0) in *. destruct (from_string t) as [n|e'] eqn:T.
      * cbn [bind] in H. apply any_err in H. destruct H as [s [J H]]. destruct (from_string s) as [a|e'] eqn:F.
        -- cbn [bind] in H. apply object_err in H; [|exact I]. destruct H as [_ [s' [[] _]]].
        -- cbn in H. injection H as <-. destruct (from_string_err _ _ F) as [-> U]. split; [reflexivity|]. exists s. split; [apply in_app_iff; now left|exact U].
      * cbn in H. injection H as <-. destruct (from_string_err _ _ T) as [-> U]. split; [reflexivity|]. exists t. split; [apply in_app_iff; right; now left|exact U].
    + apply any_err in H. destruct H as [s [J H]]. apply object_err in H; [|exact I]. destruct H as [-> [s' [K U]]]. split; [reflexivity|]. exists s'. split; [|exact U]. cbn in K. destruct K as [<-|K]; apply in_app_iff; [now left|now right].
Qed.
Theorem compare_err op v w e : both_sets v w = false \/ relational op = false -> compare op v w = Err e -> e = ValueError /\ exists s, In s (strings_in v ++ strings_in w) /\ unconvertible s.
Proof.
  intros C H. unfold compare in H.
  destruct v as [x|x|x|x], w as [y|y|y|y]; try (apply object_err in H; [exact H|exact I]); try (apply set_other_err in H; [exact H|exact I]);
    try (apply set_other_err in H; [destruct H as [-> [s [J U]]]; split; [reflexivity|]; exists s; split; [|exact U]; apply in_app_iff in J; apply in_app_iff; tauto|exact I]).
  destruct C as [C|C]; [discriminate|]. cbn [nodeset_richcompare] in H. destruct x as [|s0 x0]; [discriminate|]. destruct y as [|t0 y0]; [discriminate|]. destruct op; try discriminate C; [discriminate|].
  apply any_err in H. destruct H as [s [_ H]]. apply any_err in H. destruct H as [t [_ H]]. discriminate H.
Qed.

(** What the loops over two node-sets compute: nodes at the same position. *)
Lemma any_const (x : result bool) {A} (w : list A) : w <> [] -> any (fun _ => x) w = x.
Proof.
  intros NE. destruct w as [|a w]; [congruence|]. clear NE. revert a. induction w as [|b w IH]; intros a; cbn; [now destruct x as [[|]|]|]. destruct x as [[|]|e]; try reflexivity. exact (IH b).
Qed.
Lemma relational_sets_ok op w v : w <> [] -> forall i b, relational_sets op w i v = Ok b -> (b = true <-> exists k s t, nth_error v k = Some s /\ nth_error w (i + k) = Some t /\ as_numbers op (VStr s) (VStr t)).
Proof.
  intros NE. induction v as [|s v IH]; intros i b; cbn [relational_sets].
  - intros [= <-]. split; [discriminate|]. intros [[|k] [s [t [K _]]]]; discriminate K.
  - destruct (from_string s) as [a|e] eqn:A; [|discriminate]. cbn [bind]. rewrite any_const by exact NE. destruct (nth_error w i) as [t|] eqn:T; [|discriminate]. destruct (from_string t) as [n|e] eqn:N; [|discriminate]. cbn [bind].
    destruct (object_richcompare (VNum a) (VNum n) op) as [c|e] eqn:O; [|discriminate]. cbn [bind]. pose proof (set_pair op s t a n c A N O) as C. destruct c.
    + intros [= <-]. split; [|reflexivity]. intros _. exists 0%nat, s, t. split; [reflexivity|]. split; [now rewrite Nat.add_0_r|now apply C].
    + intros H. rewrite (IH _ _ H). split.
      * intros [k [s' [t' [K [L M]]]]]. exists (S k), s', t'. split; [exact K|]. split; [rewrite <- Nat.add_succ_comm; exact L|exact M].
      * intros [[|k] [s' [t' [K [L M]]]]]; cbn in K.
        -- injection K as <-. rewrite Nat.add_0_r, T in L. injection L as <-. apply C in M. discriminate.
        -- exists k, s', t'. split; [exact K|]. split; [rewrite Nat.add_succ_comm; exact L|exact M].
Qed.
Theorem compare_sets op l r b : relational op = true -> compare op (VSet l) (VSet r) = Ok b -> (b = true <-> exists k s t, nth_error l k = Some s /\ nth_error r k = Some t /\ as_numbers op (VStr s) (VStr t)).
Proof.
  intros R H. cbn [compare nodeset_richcompare] in H. destruct l as [|s0 l0]; [injection H as <-; split; [discriminate|intros [[|k] [s [t [K _]]]]; discriminate K]|]. destruct r as [|t0 r0]; [injection H as <-; split; [discriminate|intros [[|k] [s [t [_ [K _]]]]]; discriminate K]|].
  assert (relational_sets op (t0 :: r0) 0 (s0 :: l0) = Ok b) as H' by (destruct op; try discriminate R; exact H). apply relational_sets_ok in H'; [exact H'|discriminate].
Qed.
