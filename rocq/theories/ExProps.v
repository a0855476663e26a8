(** * C70-C73: the EXSLT functions on node-sets and strings *)
From Coq Require Import NArith ZArith QArith String List Bool Lia Arith Sorted Permutation.
From Verif Require Import PyStr PyErr XsModel SerModel SerSpec SerTree XwModel XwSpec XcModel TwModel TwSpec TwProps XpNum XpFuncs ExModel ExSpec.
Import ListNotations.
Open Scope N_scope.

(** ** Node-sets *)
Lemma insert_perm : forall x l, Permutation (insert_node x l) (x :: l).
Proof.
  induction l as [|y l IH]; [reflexivity|]. cbn [insert_node]. destruct (Nat.leb x y); [reflexivity|].
  rewrite IH. apply perm_swap.
Qed.
Lemma nodeset_perm : forall l, Permutation (nodeset_of l) l.
Proof. induction l as [|x l IH]; [reflexivity|]. cbn [nodeset_of fold_right]. fold (nodeset_of l). rewrite insert_perm. now apply perm_skip. Qed.
Lemma insert_order : forall x l, ~ In x l -> in_order l -> in_order (insert_node x l).
Proof.
  intros x l Hx H. induction H as [|y l Hl IH Hy]; [repeat constructor|]. cbn [insert_node]. destruct (Nat.leb_spec x y).
  - assert (x <> y) by (intros ->; apply Hx; now left). constructor; [constructor; assumption|]. constructor; [lia|]. eapply Forall_impl; [|exact Hy]. intros; cbn in *. lia.
  - constructor; [apply IH; intro; apply Hx; now right|]. eapply Permutation_Forall; [symmetry; apply insert_perm|]. constructor; [lia|assumption].
Qed.
Lemma nodeset_order : forall l, NoDup l -> in_order (nodeset_of l).
Proof.
  induction 1 as [|x l Hx _ IH]; [constructor|]. cbn [nodeset_of fold_right]. fold (nodeset_of l). apply insert_order; [|assumption].
  intro H. apply Hx. eapply Permutation_in; [apply nodeset_perm|eassumption].
Qed.
Lemma has_In : forall x l, has x l = true <-> In x l.
Proof. intros x l. unfold has. rewrite existsb_exists. split; [intros (y & H & E); apply Nat.eqb_eq in E; now subst|intro; exists x; rewrite Nat.eqb_refl; auto]. Qed.

Lemma set_result : forall order f n, (forall l, Permutation (order l) l) ->
  (forall x, In x (nodeset_of (order (filter f (set_of n)))) <-> In x n /\ f x = true) /\ in_order (nodeset_of (order (filter f (set_of n)))).
Proof.
  intros order f n HO. unfold set_of. split.
  - intro x. split; intro H.
    + apply (Permutation_in _ (nodeset_perm _)) in H. apply (Permutation_in _ (HO _)) in H. apply filter_In in H. now rewrite nodup_In in H.
    + apply (Permutation_in _ (Permutation_sym (nodeset_perm _))), (Permutation_in _ (Permutation_sym (HO _))). apply filter_In. now rewrite nodup_In.
  - apply nodeset_order. apply (Permutation_NoDup (Permutation_sym (HO _))). apply NoDup_filter, NoDup_nodup.
Qed.

(** set:difference, set:intersection and set:has-same-node, whatever order Python
    lists its sets in. *)
Theorem C70_sets : forall order n1 n2, (forall l, Permutation (order l) l) ->
  (forall x, In x (set_difference order n1 n2) <-> In x n1 /\ ~ In x n2) /\ in_order (set_difference order n1 n2) /\
  (forall x, In x (set_intersection order n1 n2) <-> In x n1 /\ In x n2) /\ in_order (set_intersection order n1 n2) /\
  (set_has_same_node n1 n2 = true <-> exists x, In x n1 /\ In x n2).
Proof.
  intros order n1 n2 HO. unfold set_difference, set_intersection.
  destruct (set_result order (fun x => negb (has x n2)) n1 HO) as [A B]. destruct (set_result order (fun x => has x n2) n1 HO) as [C D].
  repeat split; try assumption.
  - apply A in H. tauto.
  - apply A in H. destruct H as [_ H]. intro K. apply has_In in K. rewrite K in H. discriminate.
  - intros [H K]. apply A. split; [assumption|]. destruct (has x n2) eqn:E; [|reflexivity]. apply has_In in E. contradiction.
  - apply C in H. tauto.
  - apply C in H. now apply has_In.
  - intros [H K]. apply C. split; [assumption|now apply has_In].
  - unfold set_has_same_node. intro H. apply existsb_exists in H. destruct H as (x & H & E). apply has_In in E. eauto.
  - unfold set_has_same_node. intros (x & H & E). apply existsb_exists. exists x. split; [assumption|now apply has_In].
Qed.
Print Assumptions C70_sets.

Lemma dict_set_In : forall d k v e, NoDup (map fst d) -> (In e (dict_set d k v) <-> e = (k, v) \/ (In e d /\ fst e <> k)).
Proof.
  induction d as [|[k' v'] d IH]; intros k v e HN; cbn [dict_set].
  - cbn. intuition.
  - cbn [map fst] in HN. inversion HN as [|? ? H1 H2]; subst. destruct (str_eqb_spec k' k) as [->|HK].
    + cbn [In]. split.
      * intros [<-|H]; [now left|]. right. split; [now right|]. intro E. apply H1. rewrite <- E. now apply in_map.
      * intros [->|[[<-|H] E]]; [now left|now cbn in E|now right].
    + cbn [In]. rewrite IH by assumption. split.
      * intros [<-|[->|[H E]]]; [right; split; [now left|assumption]|now left|right; split; [now right|assumption]].
      * intros [->|[[<-|H] E]]; [right; now left|now left|right; right; now split].
Qed.
Lemma dict_set_nodup : forall d k v, NoDup (map fst d) -> NoDup (map fst (dict_set d k v)).
Proof.
  induction d as [|[k' v'] d IH]; intros k v HN; cbn [dict_set]; [repeat constructor; auto|]. cbn [map fst] in HN. inversion HN as [|? ? H1 H2]; subst.
  destruct (str_eqb_spec k' k) as [->|HK]; cbn [map fst]; constructor; try assumption; [|now apply IH].
  intro H. apply in_map_iff in H. destruct H as ([k2 v2] & E & H). cbn in E. subst k2. apply dict_set_In in H; [|assumption].
  destruct H as [H|[H _]]; [injection H as -> _; now apply HK|]. apply H1. apply in_map_iff. now exists (k', v2).
Qed.
(** The entries of dict(...) are the last ones of each key. *)
Lemma dict_of_spec : forall l, NoDup (map fst (dict_of l)) /\
  forall e, In e (dict_of l) <-> exists a b, l = a ++ e :: b /\ ~ In (fst e) (map fst b).
Proof.
  unfold dict_of. intro l. induction l as [|[k v] l IH] using rev_ind.
  - split; [constructor|]. intro e. split; [intros []|intros (a & b & H & _); now destruct a].
  - rewrite fold_left_app. cbn [fold_left fst snd]. destruct IH as [IN IE]. split; [now apply dict_set_nodup|]. intro e.
    rewrite dict_set_In by assumption. split.
    + intros [->|[H E]]; [exists l, []; now split|]. apply IE in H. destruct H as (a & b & -> & H).
      exists a, (b ++ [(k, v)]). split; [now rewrite <- app_assoc|]. rewrite map_app. intro K. apply in_app_or in K. destruct K as [K|[K|[]]]; [tauto|cbn in K; congruence].
    + intros (a & b & E & H). destruct b as [|y b] using rev_ind.
      * apply app_inj_tail in E. left. now destruct E.
      * clear IHb. rewrite app_comm_cons, app_assoc in E. apply app_inj_tail in E. destruct E as [E <-]. right. split.
        -- apply IE. exists a, b. split; [assumption|]. intro K. apply H. rewrite map_app. apply in_or_app. now left.
        -- intro K. apply H. rewrite map_app. apply in_or_app. right. left. now symmetry.
Qed.
Lemma order_app : forall a x b, in_order (a ++ x :: b) -> forall y, (In y a -> (y < x)%nat) /\ (In y b -> (x < y)%nat).
Proof.
  induction a as [|z a IH]; intros x b H y; cbn [app] in H; inversion H as [|? ? H1 H2]; subst.
  - split; [intros []|]. rewrite Forall_forall in H2. apply H2.
  - destruct (IH _ _ H1 y) as [A B]. split; [|assumption]. intros [<-|K]; [|tauto]. rewrite Forall_forall in H2. apply H2. apply in_or_app. right. now left.
Qed.

(** set:distinct: of the nodes with the same string value the first in document order. *)
Theorem C70_distinct : forall order string n, (forall l, Permutation (order l) l) -> in_order n ->
  let r := fst (set_distinct order string n) in
  (forall x, In x r <-> In x n /\ forall y, In y n -> string y = string x -> (x <= y)%nat) /\ in_order r.
Proof.
  intros order string n HO Hn r.
  destruct (dict_of_spec (map (fun x => (string x, x)) (rev n))) as [ND IE].
  assert (HV : forall x, In x (map snd (dict_of (map (fun x => (string x, x)) (rev n)))) <-> In x n /\ forall y, In y n -> string y = string x -> (x <= y)%nat).
  { intro x. split.
    - intro H. apply in_map_iff in H. destruct H as ([k v] & E & H). cbn in E. subst v. apply IE in H. destruct H as (a & b & E & H). cbn [fst] in H.
      apply map_eq_app in E. destruct E as (a' & b' & E & <- & E2). apply map_eq_cons in E2. destruct E2 as (x' & b2 & -> & E2 & <-). injection E2 as <- ->.
      assert (EN : n = rev b2 ++ x :: rev a') by (rewrite <- (rev_involutive n), E, rev_app_distr; cbn [rev]; now rewrite <- app_assoc).
      subst n. split; [apply in_or_app; right; now left|]. intros y Hy Es.
      destruct (order_app _ _ _ Hn y) as [A B]. apply in_app_or in Hy. destruct Hy as [Hy|[<-|Hy]]; [|lia|apply B in Hy; lia].
      exfalso. apply H. rewrite map_map. cbn [fst]. apply in_map_iff. exists y. split; [assumption|]. now rewrite in_rev.
    - intros [Hx Hf]. destruct (in_split x n Hx) as (a & b & ->). apply in_map_iff. exists (string x, x). split; [reflexivity|]. apply IE.
      exists (map (fun x => (string x, x)) (rev b)), (map (fun x => (string x, x)) (rev a)). split.
      + rewrite rev_app_distr. cbn [rev]. rewrite <- app_assoc, map_app. reflexivity.
      + rewrite map_map. cbn [fst]. intro K. apply in_map_iff in K. destruct K as (y & Es & Hy). rewrite <- in_rev in Hy.
        destruct (order_app _ _ _ Hn y) as [A _]. apply A in Hy as L. assert (x <= y)%nat by (apply Hf; [apply in_or_app; now left|assumption]). lia. }
  unfold set_distinct in r. cbn [fst] in r. subst r. split.
  - intro x. rewrite <- HV. split; intro H.
    + apply (Permutation_in _ (nodeset_perm _)) in H. now apply (Permutation_in _ (HO _)) in H.
    + apply (Permutation_in _ (Permutation_sym (nodeset_perm _))). now apply (Permutation_in _ (Permutation_sym (HO _))).
  - apply nodeset_order. apply (Permutation_NoDup (Permutation_sym (HO _))).
    assert (HK : forall e, In e (dict_of (map (fun x => (string x, x)) (rev n))) -> fst e = string (snd e)).
    { intros e H. apply IE in H. destruct H as (a & b & E & _). assert (K : In e (map (fun x => (string x, x)) (rev n))) by (rewrite E; apply in_or_app; right; now left).
      apply in_map_iff in K. destruct K as (x & <- & _). reflexivity. }
    revert ND HK. generalize (dict_of (map (fun x => (string x, x)) (rev n))). clear. intro d. induction d as [|[k v] d IH]; intros ND HK; [constructor|].
    cbn [map fst snd] in *. inversion ND as [|? ? H1 H2]; subst. constructor; [|apply IH; [assumption|intros; apply HK; now right]].
    intro H. apply in_map_iff in H. destruct H as ([k' v'] & E & H). cbn in E. subst v'. apply H1. apply in_map_iff. exists (k', v). split; [|assumption].
    assert (A : k' = string v) by (apply (HK (k', v)); now right). assert (B : k = string v) by (apply (HK (k, v)); now left). cbn. congruence.
Qed.
Print Assumptions C70_distinct.

(** The node-set that was given is left reversed: if it is the value of a variable,
    set:distinct($v) has a different result the second time, the last nodes. *)
Theorem C70_argument_refuted : exists string n, in_order n /\
  let (r, n') := set_distinct (fun l => l) string n in n' <> n /\ fst (set_distinct (fun l => l) string n') <> r.
Proof.
  exists (fun x => if Nat.ltb x 2 then lit "a" else lit "b"), [0; 1; 2]%nat. split; [repeat constructor; lia|].
  vm_compute. split; intro; discriminate.
Qed.
Print Assumptions C70_argument_refuted.
(** set:leading and set:trailing are never answered. *)
Theorem C70_leading_refuted : forall n1 n2, ~ exists r, set_leading n1 n2 = Ok r \/ set_trailing n1 n2 = Ok r.
Proof. intros n1 n2 (r & [H|H]); discriminate. Qed.
Print Assumptions C70_leading_refuted.

Example C70_case :
  (forall l : list nat, Permutation (rev l) l) /\ in_order [1; 4; 6; 9]%nat /\
  set_difference (@rev nat) [1; 4; 6; 9]%nat [4; 7]%nat = [1; 6; 9]%nat /\ set_intersection (@rev nat) [1; 4; 6; 9]%nat [6; 4]%nat = [4; 6]%nat /\
  set_has_same_node [1; 4]%nat [4]%nat = true /\ set_has_same_node [1; 4]%nat [5]%nat = false /\
  fst (set_distinct (@rev nat) (fun x => if Nat.even x then lit "even" else lit "odd") [1; 4; 6; 9]%nat) = [1; 4]%nat.
Proof.
  split; [intro l; symmetry; apply Permutation_rev|]. split; [repeat constructor; lia|]. repeat split; vm_compute; reflexivity.
Qed.

(** ** Numbers *)
Lemma isnan_iff : forall n, isnan n = true <-> n = NNaN.
Proof.
  intros [| | | |q]; unfold isnan, num_eqb, num_compare; split; intro H; try reflexivity; try discriminate.
  now rewrite (proj1 (Qeq_alt q q) (Qeq_refl q)) in H.
Qed.
Lemma qlt_false : forall p q, match (p ?= q)%Q with Lt => true | _ => false end = false <-> (q <= p)%Q.
Proof. intros p q. rewrite Qle_alt, <- (Qcompare_antisym p q). destruct (p ?= q)%Q; cbn; split; intro H; try reflexivity; try discriminate; now destruct H. Qed.
Lemma ltb_false_trans : forall a b c, b <> NNaN -> num_ltb a b = false -> num_ltb b c = false -> num_ltb a c = false.
Proof.
  intros [| | | |p] [| | | |q] [| | | |r] N; unfold num_ltb, num_compare; intros H K; try reflexivity; try discriminate; try (now contradiction N);
    rewrite ?qlt_false in *; try (eapply Qle_trans; eassumption); try assumption.
Qed.
Lemma ltb_asym : forall a b, num_ltb a b = true -> num_ltb b a = false.
Proof.
  intros [| | | |p] [| | | |q]; unfold num_ltb, num_compare; intros H; try reflexivity; try discriminate; rewrite qlt_false; apply Qlt_le_weak; rewrite Qlt_alt;
    match type of H with (match ?x with _ => _ end = _) => destruct x; try discriminate; reflexivity end.
Qed.
Definition sensible (better : num -> num -> bool) : Prop :=
  (forall a, better a NNaN = false /\ better NNaN a = false) /\
  (forall a b, better a b = true -> better b a = false) /\
  (forall a b c, b <> NNaN -> better a b = false -> better b c = false -> better a c = false).
Lemma greater_sensible : sensible (fun a b => num_ltb b a).
Proof. split; [|split]. - intros [| | | |q]; split; reflexivity. - intros a b; apply ltb_asym. - intros a b c N H K. cbn in *. eapply ltb_false_trans; eassumption. Qed.
Lemma less_sensible : sensible num_ltb.
Proof. split; [|split]. - intros [| | | |q]; split; reflexivity. - intros a b; apply ltb_asym. - intros a b c N H K. eapply ltb_false_trans; eassumption. Qed.

Lemma best_loop_spec : forall better l ns best v, sensible better -> numbers_of l = Ok ns -> best_loop better best l = Ok v ->
  (In NNaN (best :: ns) -> v = NNaN) /\
  (~ In NNaN (best :: ns) -> In v (best :: ns) /\ forall n, In n (best :: ns) -> better n v = false).
Proof.
  intros better l ns best v (B1 & B2 & B3). revert ns best. induction l as [|s l IH]; intros ns best HN H; cbn [numbers_of best_loop] in *.
  - injection HN as <-. injection H as <-. split; [now intros [E|[]]|]. intro N. split; [now left|]. intros n [<-|[]]. destruct (better best best) eqn:E; [|reflexivity]. now rewrite (B2 _ _ E) in E.
  - destruct (from_string s) as [n|]; cbn [bind] in *; [|discriminate]. destruct (numbers_of l) as [m|]; cbn [bind] in *; [|discriminate]. injection HN as <-. specialize (IH m).
    destruct (better n best) eqn:E.
    + assert (Nn : n <> NNaN) by (intros ->; now rewrite (proj2 (B1 best)) in E).
      assert (Nb : best <> NNaN) by (intros ->; now rewrite (proj1 (B1 n)) in E).
      destruct (IH n eq_refl H) as [C D]. split.
      * intros [K|K]; [now contradiction Nb|now apply C].
      * intro N. destruct D as [D1 D2]; [intro K; apply N; right; exact K|]. split; [right; exact D1|]. intros k [<-|K]; [|now apply D2].
        apply B3 with n; [assumption| |apply D2; now left]. now apply B2.
    + destruct (isnan n) eqn:EN.
      * apply isnan_iff in EN. subst n. injection H as <-. split; [reflexivity|]. intro N. exfalso. apply N. right. now left.
      * assert (Nn : n <> NNaN) by (intros ->; discriminate). destruct (IH best eq_refl H) as [C D]. split.
        -- intros [K|[K|K]]; [apply C; now left|now contradiction Nn|apply C; now right].
        -- intro N. destruct D as [D1 D2]; [intros [K|K]; apply N; [now left|right; now right]|]. split; [destruct D1 as [D1|D1]; [now left|right; now right]|].
           intros k [<-|[<-|K]]; [apply D2; now left| |apply D2; now right]. apply B3 with best; [intro K; apply N; now left|assumption|apply D2; now left].
Qed.
Lemma best_loop_total : forall better l ns best, numbers_of l = Ok ns -> exists v, best_loop better best l = Ok v.
Proof.
  induction l as [|s l IH]; intros ns best HN; cbn [numbers_of best_loop] in *; [eauto|].
  destruct (from_string s) as [n|]; cbn [bind] in *; [|discriminate]. destruct (numbers_of l) as [m|]; cbn [bind] in *; [|discriminate].
  destruct (better n best); [eapply IH; reflexivity|]. destruct (isnan n); [eauto|eapply IH; reflexivity].
Qed.
Lemma best_spec : forall better l ns, sensible better -> numbers_of l = Ok ns ->
  exists v, best_function better l = Ok v /\
  (ns = [] \/ In NNaN ns -> v = NNaN) /\
  (ns <> [] -> ~ In NNaN ns -> In v ns /\ forall n, In n ns -> better n v = false).
Proof.
  intros better l ns HB HN. destruct l as [|s l]; cbn [numbers_of best_function] in *.
  - injection HN as <-. exists NNaN. repeat split; intros; congruence.
  - destruct (from_string s) as [n|]; cbn [bind] in *; [|discriminate]. destruct (numbers_of l) as [m|] eqn:EM; cbn [bind] in *; [|discriminate]. injection HN as <-.
    destruct (best_loop_total better l m n EM) as [v Hv]. exists v. split; [assumption|]. destruct (best_loop_spec _ _ _ _ _ HB EM Hv) as [C D].
    split; [intros [K|K]; [discriminate|auto]|auto].
Qed.

(** math:max and math:min: NaN if there is no node or a node is not a number, else
    a number of the node-set such that none is greater, less. *)
Theorem C71_max_min : forall strings ns, numbers_of strings = Ok ns ->
  exists hi lo, max_function strings = Ok hi /\ min_function strings = Ok lo /\
  (ns = [] \/ In NNaN ns -> hi = NNaN /\ lo = NNaN) /\
  (ns <> [] -> ~ In NNaN ns -> greatest ns hi /\ least ns lo).
Proof.
  intros strings ns HN. destruct (best_spec _ _ _ greater_sensible HN) as (hi & A1 & A2 & A3). destruct (best_spec _ _ _ less_sensible HN) as (lo & B1 & B2 & B3).
  exists hi, lo. repeat split; try assumption; try (now apply A2); try (now apply B2); try (now apply A3); try (now apply B3).
Qed.
Print Assumptions C71_max_min.

Lemma eqb_false_ltb : forall a b, a <> NNaN -> b <> NNaN -> num_eqb a b = true <-> num_ltb a b = false /\ num_ltb b a = false.
Proof.
  intros [| | | |p] [| | | |q] N M; unfold num_eqb, num_ltb, num_compare; try (now contradiction N); try (now contradiction M); try (split; [intro H; try discriminate; now split|intros [H K]; try discriminate; reflexivity]);
    [rewrite <- (Qcompare_antisym 0 q)|rewrite <- (Qcompare_antisym p 0)|rewrite <- (Qcompare_antisym p q)];
    match goal with |- context [(?x ?= ?y)%Q] => destruct (x ?= y)%Q end; cbn; split; intro H; try discriminate; try (now split); now destruct H.
Qed.
Lemma numbers_split : forall string l ns, numbers_of_nodes string l = Ok ns -> numbers_of (map string l) = Ok (map snd ns) /\ map fst ns = l /\ forall x n, In (x, n) ns -> from_string (string x) = Ok n.
Proof.
  induction l as [|x l IH]; intros ns H; cbn [numbers_of_nodes numbers_of map] in *; [injection H as <-; split; [reflexivity|split; [reflexivity|intros ? ? []]]|].
  destruct (from_string (string x)) as [n|] eqn:E; cbn [bind] in *; [|discriminate]. destruct (numbers_of_nodes string l) as [m|]; cbn [bind] in *; [|discriminate]. injection H as <-.
  destruct (IH m eq_refl) as (A & B & C). cbn [map fst snd]. rewrite A, B. split; [reflexivity|]. split; [reflexivity|]. intros y k [K|K]; [injection K as <- <-; assumption|now apply C].
Qed.
Lemma fold_best : forall better l best, sensible better -> ~ In NNaN (best :: l) ->
  let v := fold_left (fun b n => if better n b then n else b) l best in In v (best :: l) /\ forall n, In n (best :: l) -> better n v = false.
Proof.
  intros better l best (B1 & B2 & B3). revert best. induction l as [|n l IH]; intros best N; cbn [fold_left].
  - cbn. split; [now left|]. intros k [<-|[]]. destruct (better best best) eqn:E; [|reflexivity]. now rewrite (B2 _ _ E) in E.
  - assert (Nn : n <> NNaN) by (intros ->; apply N; right; now left). assert (Nb : best <> NNaN) by (intros ->; apply N; now left).
    destruct (better n best) eqn:E.
    + destruct (IH n) as [C D]; [intro K; apply N; now right|]. split; [now right|]. intros k [<-|K]; [|now apply D]. apply B3 with n; [assumption|now apply B2|apply D; now left].
    + destruct (IH best) as [C D]; [intros [K|K]; apply N; [now left|right; now right]|]. split; [destruct C as [C|C]; [now left|right; now right]|].
      intros k [<-|[<-|K]]; [apply D; now left| |apply D; now right]. apply B3 with best; [assumption|assumption|apply D; now left].
Qed.
Lemma best_nodes_spec : forall better string n ns, sensible better -> numbers_of_nodes string n = Ok ns -> n <> [] -> ~ In NNaN (map snd ns) ->
  exists v r, best_nodes better string n = Ok r /\ In v (map snd ns) /\ (forall k, In k (map snd ns) -> better k v = false) /\
  forall x, In x r <-> exists k, In (x, k) ns /\ num_eqb k v = true.
Proof.
  intros better string n ns HB HN Hne NN. unfold best_nodes. rewrite HN. cbn [bind].
  destruct (numbers_split _ _ _ HN) as (_ & E2 & _). destruct ns as [|[x0 k0] ns]; [now subst n|]. cbn [map snd best_key bind] in *.
  destruct (fold_best better (map snd ns) k0 HB NN) as [A B]. eexists _, _. split; [reflexivity|]. split; [exact A|]. split; [exact B|].
  intro x. rewrite in_map_iff. split.
  - intros ([x' k] & E & H). cbn in E. subst x'. apply filter_In in H. exists k. cbn [snd] in H. exact H.
  - intros (k & H & E). exists (x, k). split; [reflexivity|]. apply filter_In. now split.
Qed.
(** math:highest and math:lowest, for a node-set that is not empty and has numbers
    only: the nodes whose number is the maximum, the minimum. *)
Theorem C71_highest_partial : forall string n ns, numbers_of_nodes string n = Ok ns -> n <> [] -> ~ In NNaN (map snd ns) ->
  exists hi lo h l, max_function (map string n) = Ok hi /\ min_function (map string n) = Ok lo /\
  highest_function string n = Ok h /\ lowest_function string n = Ok l /\
  (forall x, In x h <-> exists k, In (x, k) ns /\ num_eqb k hi = true) /\
  (forall x, In x l <-> exists k, In (x, k) ns /\ num_eqb k lo = true).
Proof.
  intros string n ns HN Hne NN. destruct (numbers_split _ _ _ HN) as (EN & E2 & _).
  destruct (C71_max_min _ _ EN) as (hi & lo & H1 & H2 & _ & H4).
  assert (Hs : map snd ns <> []) by (destruct ns; [now subst n|discriminate]). destruct (H4 Hs NN) as [[G1 G2] [L1 L2]].
  destruct (best_nodes_spec _ _ _ _ greater_sensible HN Hne NN) as (v & h & A1 & A2 & A3 & A4).
  destruct (best_nodes_spec _ _ _ _ less_sensible HN Hne NN) as (w & l & B1 & B2 & B3 & B4).
  exists hi, lo, h, l. repeat (split; [assumption|]).
  assert (NE : forall k, In k (map snd ns) -> k <> NNaN) by (intros k K ->; contradiction).
  split; intro x; [rewrite A4|rewrite B4]; split; intros (k & K & E); exists k; (split; [assumption|]);
    assert (Hk : In k (map snd ns)) by (apply in_map_iff; now exists (x, k));
    apply eqb_false_ltb in E; try (now apply NE); apply eqb_false_ltb; try (now apply NE).
  - split; [|now apply G2]. apply ltb_false_trans with v; [now apply NE|tauto|now apply A3].
  - split; [|now apply A3]. apply ltb_false_trans with hi; [now apply NE|tauto|now apply G2].
  - split; [now apply L2|]. apply ltb_false_trans with w; [now apply NE|now apply B3|tauto].
  - split; [now apply B3|]. apply ltb_false_trans with lo; [now apply NE|now apply L2|tauto].
Qed.
Print Assumptions C71_highest_partial.

(** Of an empty node-set there should be no highest node, and none either if a node
    is not a number: there is an error, or a node. *)
Theorem C71_highest_refuted :
  highest_function (fun _ => []) [] = Err ValueError /\
  exists string n, in_order n /\ max_function (map string n) = Ok NNaN /\ highest_function string n = Ok [0%nat] /\ lowest_function string n = Ok [0%nat].
Proof. split; [reflexivity|]. exists (fun x => match x with O => lit "1" | _ => lit "one" end), [0; 1]%nat. split; [repeat constructor; lia|]. repeat split; vm_compute; reflexivity. Qed.
Print Assumptions C71_highest_refuted.
(** math:sqrt of a number and math:constant are never answered. *)
Theorem C71_sqrt_refuted : forall n name precision, n <> NNaN -> ~ exists r, sqrt_function n = Ok r \/ constant_function name precision = Ok r.
Proof.
  intros n name precision N (r & [H|H]); [|discriminate]. unfold sqrt_function in H. destruct (isnan n) eqn:E; [apply isnan_iff in E; contradiction|discriminate].
Qed.
Print Assumptions C71_sqrt_refuted.

Definition c71_string (x : nat) : str := match x with 1%nat => lit "-3" | 4%nat => lit " 12 " | 6%nat => lit "12.0" | _ => lit "7.5" end.
Example C71_case : exists ns, numbers_of_nodes c71_string [1; 4; 6; 9]%nat = Ok ns /\ ~ In NNaN (map snd ns) /\
  (exists v, max_function (map c71_string [1; 4; 6; 9]%nat) = Ok v /\ num_eqb v (NFin 12) = true) /\
  (exists v, min_function (map c71_string [1; 4; 6; 9]%nat) = Ok v /\ num_eqb v (NFin (-3)) = true) /\
  highest_function c71_string [1; 4; 6; 9]%nat = Ok [4; 6]%nat /\ lowest_function c71_string [1; 4; 6; 9]%nat = Ok [1]%nat.
Proof.
  eexists. split; [vm_compute; reflexivity|]. split; [cbn [map snd In]; intuition discriminate|].
  split; [eexists; split; vm_compute; reflexivity|]. split; [eexists; split; vm_compute; reflexivity|]. split; vm_compute; reflexivity.
Qed.

(** ** Strings *)
Lemma skipn_more : forall (s : str) i j, skipn j (skipn i s) = skipn (i + j) s.
Proof. induction s as [|c s IH]; intros [|i] j; try reflexivity; [now destruct j|]. cbn [skipn Nat.add]. apply IH. Qed.
(** str:align, except that an empty target at the right is lost with the padding. *)
Theorem C72_align_partial : forall target padding alignment,
  (side_of alignment = AtRight -> target = [] -> padding = []) ->
  aligned (side_of alignment) target padding (align_function target padding alignment).
Proof.
  intros target padding alignment HR. unfold align_function, aligned, side_of in *. set (t := List.length target). set (p := List.length padding).
  destruct (Nat.ltb_spec p t) as [L|L].
  - left. split; [assumption|]. exists (skipn p target). split; [symmetry; apply firstn_skipn|]. rewrite firstn_length. subst t p. lia.
  - right.
    assert (SL : forall (s : str) i j, (i <= j)%nat -> (j <= List.length s)%nat -> s = firstn i s ++ firstn (j - i) (skipn i s) ++ skipn j s /\ List.length (firstn (j - i) (skipn i s)) = (j - i)%nat /\ List.length (firstn i s) = i /\ List.length (skipn j s) = (List.length s - j)%nat).
    { intros s i j H1 H2. rewrite !firstn_length, !skipn_length. split; [|lia]. rewrite <- (firstn_skipn i s) at 1. f_equal.
      rewrite <- (firstn_skipn (j - i) (skipn i s)) at 1. f_equal. rewrite skipn_more. f_equal. lia. }
    destruct alignment as [a|].
    + destruct (str_eqb a (lit "right")) eqn:E1; [|destruct (str_eqb a (lit "center")) eqn:E2].
      * destruct (SL padding (p - t)%nat p) as (A & B & C & D); [lia|reflexivity|]. exists (firstn (p - t) padding), (firstn (p - (p - t)) (skipn (p - t) padding)), (skipn p padding).
        split; [assumption|]. split; [rewrite B; subst t p; lia|]. rewrite (skipn_all2 padding) by reflexivity. split; [|reflexivity]. rewrite app_nil_r. f_equal.
        subst t p. unfold slice_before_end. destruct target as [|c target]; [|reflexivity]. rewrite HR by reflexivity. reflexivity.
      * set (l := ((p - t) / 2)%nat). assert (Hl : (2 * l <= p - t < 2 * l + 2)%nat) by (subst l; pose proof (Nat.div_mod (p - t) 2); pose proof (Nat.mod_upper_bound (p - t) 2); lia).
        destruct (SL padding l (l + t)%nat) as (A & B & C & D); [lia|subst p; lia|]. exists (firstn l padding), (firstn (l + t - l) (skipn l padding)), (skipn (l + t) padding).
        split; [assumption|]. split; [rewrite B; subst t; lia|]. split; [reflexivity|]. rewrite C, D. fold p. lia.
      * destruct (SL padding 0%nat t) as (A & B & C & D); [lia|assumption|]. exists [], (firstn (t - 0) (skipn 0 padding)), (skipn t padding). split; [assumption|]. split; [rewrite B; subst t; lia|]. now split.
    + destruct (SL padding 0%nat t) as (A & B & C & D); [lia|assumption|]. exists [], (firstn (t - 0) (skipn 0 padding)), (skipn t padding). split; [assumption|]. split; [rewrite B; subst t; lia|]. now split.
Qed.
Print Assumptions C72_align_partial.
Theorem C72_align_refuted : align_function [] (lit "---") (Some (lit "right")) = [] /\ ~ aligned AtRight [] (lit "---") [].
Proof.
  split; [vm_compute; reflexivity|]. intros [[H _]|(a & b & c & E & L & R & ->)]; [cbn in H; lia|]. destruct b; [|discriminate]. destruct a; [|discriminate]. cbn in E. discriminate.
Qed.
Print Assumptions C72_align_refuted.

(** str:padding: as many characters as the number says, the fraction dropped; NaN and
    infinities are errors. *)
Theorem C72_padding : forall n chars,
  let cs := match chars with Some c => c | None => [32] end in
  match n with
  | NNaN => padding_function n chars = Err ValueError
  | NPosInf | NNegInf => padding_function n chars = Err OverflowError
  | NNegZero => padding_function n chars = Ok []
  | NFin q => exists r, padding_function n chars = Ok r /\
      (cs = [] -> r = []) /\
      (cs <> [] -> List.length r = Z.to_nat (Qtrunc q) /\ forall i, (i < List.length r)%nat -> nth_error r i = nth_error cs (i mod List.length cs))
  end.
Proof.
  intros n chars cs. unfold padding_function. fold cs. clearbody cs. destruct n as [| | | |q]; try reflexivity. cbn [py_int bind]. set (m := Z.to_nat (Qtrunc q)).
  eexists. split; [reflexivity|].
  assert (HL : List.length (List.concat (repeat cs m)) = (m * List.length cs)%nat).
  { clearbody m. induction m as [|m IH]; [reflexivity|]. cbn [repeat List.concat]. rewrite app_length, IH. lia. }
  split.
  - intros ->. destruct (List.concat (repeat [] m)); [now destruct m|]. cbn [List.length] in HL. lia.
  - intro Hc. assert (0 < List.length cs)%nat by (destruct cs; [congruence|cbn; lia]).
    assert (Hm : List.length (firstn m (List.concat (repeat cs m))) = m) by (rewrite firstn_length, HL; nia). split; [assumption|].
    rewrite Hm. intros i Hi.
    assert (HN : forall k i, (i < k * List.length cs)%nat -> nth_error (List.concat (repeat cs k)) i = nth_error cs (i mod List.length cs)).
    { induction k as [|k IH]; intros j Hj; [lia|]. cbn [repeat List.concat]. destruct (Nat.lt_ge_cases j (List.length cs)) as [L|L].
      - rewrite nth_error_app1 by assumption. now rewrite Nat.mod_small.
      - rewrite nth_error_app2 by assumption. rewrite IH by lia. f_equal. replace j with ((j - List.length cs) + 1 * List.length cs)%nat at 2 by lia. now rewrite Nat.mod_add by lia. }
    rewrite <- (HN m i) by nia. clear - Hi Hm. revert Hi. generalize (List.concat (repeat cs m)). generalize m. clear. intros m l. revert l i. induction m as [|m IH]; intros l i H; [lia|].
    destruct l as [|x l]; [reflexivity|]. destruct i as [|i]; [reflexivity|]. cbn. apply IH. lia.
Qed.
Print Assumptions C72_padding.

Lemma skip_loop : forall sep acc k s, split_loop sep acc k s = split_loop sep acc 0 (skipn k s).
Proof. intros sep acc k s. revert k. induction s as [|c s IH]; intros [|k]; try reflexivity. cbn [split_loop skipn]. apply IH. Qed.
Lemma split_loop_spec : forall sep n s acc, sep <> [] -> (List.length s <= n)%nat ->
  (forall a b, rev acc ++ s = a ++ sep ++ b -> (List.length acc <= List.length a)%nat) ->
  splits sep (rev acc ++ s) (split_loop sep acc 0 s).
Proof.
  intros sep n. induction n as [|n IH]; intros s acc Hs HL HA.
  - destruct s as [|c s]; [|cbn in HL; lia]. cbn [split_loop]. rewrite app_nil_r in *. apply sp_last. intros (a & b & E).
    assert (List.length (rev acc) = List.length (a ++ sep ++ b)) by now rewrite E. rewrite !app_length, rev_length in H. apply HA in E. destruct sep; [congruence|]. cbn [List.length] in H. lia.
  - destruct s as [|c s].
    + cbn [split_loop]. rewrite app_nil_r in *. apply sp_last. intros (a & b & E).
      assert (List.length (rev acc) = List.length (a ++ sep ++ b)) by now rewrite E. rewrite !app_length, rev_length in H. apply HA in E. destruct sep; [congruence|]. cbn [List.length] in H. lia.
    + cbn [split_loop]. destruct (prefixb sep (c :: s)) eqn:E.
      * apply prefixb_spec in E. destruct E as [rest E]. rewrite skip_loop.
        assert (ER : skipn (List.length sep - 1) s = rest).
        { destruct sep as [|d sep]; [congruence|]. cbn [app] in E. injection E as -> ->. cbn [List.length]. replace (S (List.length sep) - 1)%nat with (List.length sep) by lia. now rewrite skipn_app, skipn_all, Nat.sub_diag. }
        rewrite ER, E. apply sp_more.
        -- intros a b Eab. assert (LA : (List.length acc <= List.length a)%nat) by (apply (HA a (b ++ rest)); rewrite E, !app_assoc; f_equal; rewrite <- app_assoc; exact Eab).
           assert (LL : List.length (rev acc ++ sep) = List.length (a ++ sep ++ b)) by now rewrite Eab. rewrite !app_length, rev_length in LL. destruct b; [reflexivity|cbn [List.length] in LL; lia].
        -- apply (IH rest []); [assumption| |cbn; lia]. assert (LL : List.length (c :: s) = List.length (sep ++ rest)) by now rewrite E. rewrite app_length in LL. cbn [List.length] in *. destruct sep; [congruence|]. cbn [List.length] in LL. lia.
      * replace (rev acc ++ c :: s) with (rev (c :: acc) ++ s) by (cbn [rev]; now rewrite <- app_assoc). apply IH; [assumption|cbn in HL; lia|].
        intros a b Eab. cbn [rev] in Eab. rewrite <- app_assoc in Eab. cbn [app] in Eab. apply HA in Eab as L. cbn [List.length]. destruct (Nat.eq_dec (List.length a) (List.length acc)) as [D|D]; [|lia]. exfalso.
        assert (a = rev acc /\ c :: s = sep ++ b) as [_ K].
        { assert (firstn (List.length a) (rev acc ++ c :: s) = a) by (rewrite Eab, firstn_app, firstn_all, Nat.sub_diag; cbn; now rewrite app_nil_r).
          rewrite D, <- (rev_length acc), firstn_app, firstn_all, Nat.sub_diag in H. cbn in H. rewrite app_nil_r in H. subst a. split; [reflexivity|]. now apply app_inv_head in Eab. }
        assert (prefixb sep (c :: s) = true) by (apply prefixb_spec; now exists b). congruence.
Qed.
Lemma split_sep_spec : forall sep s, sep <> [] -> splits sep s (py_split_sep sep s).
Proof. intros sep s H. apply (split_loop_spec sep (List.length s) s []); [assumption|reflexivity|]. intros; cbn; lia. Qed.
Lemma split_class_spec : forall delims s acc, (forall c, In c acc -> ~ In c delims) -> cut_at delims (rev acc ++ s) (split_class delims acc s).
Proof.
  intros delims s. induction s as [|c s IH]; intros acc H; cbn [split_class].
  - rewrite app_nil_r. apply ca_last. intros d K. apply H. now rewrite in_rev.
  - destruct (mem c delims) eqn:E.
    + apply ca_more; [intros d K; apply H; now rewrite in_rev|now apply mem_In|]. apply (IH []). intros ? [].
    + replace (rev acc ++ c :: s) with (rev (c :: acc) ++ s) by (cbn [rev]; now rewrite <- app_assoc). apply IH. intros d [<-|K]; [|now apply H]. intro K. apply mem_In in K. congruence.
Qed.
Lemma token_nodes : forall ts, fragment (token_calls ts) = Ok (map token ts).
Proof.
  intro ts. assert (E : token_calls ts = flat_map calls (map (fun t => WElem None (lit "token") None [] [] [] [WText t]) ts)).
  { induction ts as [|t ts IH]; [reflexivity|]. unfold token_calls in *. cbn [flat_map map]. rewrite IH. reflexivity. }
  rewrite E, C69_built_partial.
  - f_equal. clear E. induction ts as [|t ts IH]; [reflexivity|]. cbn [map merge_text fold_right]. fold (merge_text (map tree_of (map (fun t => WElem None (lit "token") None [] [] [] [WText t]) ts))). rewrite IH.
    destruct t; reflexivity.
  - apply Forall_forall. intros w H. apply in_map_iff in H. destruct H as (t & <- & _). apply as_elem; try (now constructor); try (intros; discriminate); try (intros ? ? []).
    + intros K. cbn in K. intuition discriminate.
    + repeat constructor.
Qed.
(** The tokens of str:split and str:tokenize, as elements that have them as text. *)
Theorem C72_split : forall s pattern, exists ts, split_function s pattern = Ok (map token ts) /\
  let p := match pattern with Some p => p | None => [32] end in
  (p <> [] -> splits p s ts) /\ (p = [] -> ts = map (fun c => [c]) s).
Proof.
  intros s pattern. exists (split_tokens s pattern). split; [apply token_nodes|]. unfold split_tokens. destruct (match pattern with Some p => p | None => [32] end) as [|c p].
  - split; [congruence|reflexivity].
  - split; [apply split_sep_spec|discriminate].
Qed.
Print Assumptions C72_split.
Theorem C72_tokenize : forall s delimiters, exists ts, tokenize_function s delimiters = Ok (map token ts) /\
  let d := match delimiters with Some d => d | None => [9; 10; 13; 32] end in
  (d <> [] -> cut_at d s ts) /\ (d = [] -> ts = map (fun c => [c]) s).
Proof.
  intros s delimiters. exists (tokenize_tokens s delimiters). split; [apply token_nodes|]. unfold tokenize_tokens. destruct (match delimiters with Some d => d | None => [9; 10; 13; 32] end) as [|c d].
  - split; [congruence|reflexivity].
  - split; [intros _; apply (split_class_spec (c :: d) s []); intros ? []|discriminate].
Qed.
Print Assumptions C72_tokenize.
(** There is only one way to cut a string. *)
Theorem C72_tokens_unique : forall sep s ts ts', sep <> [] -> splits sep s ts -> splits sep s ts' -> ts = ts'.
Proof.
  intros sep s ts ts' Hs H. revert ts'. induction H as [s N|t rest ts HF H IH]; intros ts' H'.
  - inversion H' as [|t' rest' u' HF' H1]; subst; [reflexivity|]. exfalso. apply N. now exists t', rest'.
  - inversion H' as [? N E|t' rest' u' HF' H1 E]; subst.
    + exfalso. apply N. now exists t, rest.
    + assert (LT : forall (t t' rest rest' : str), t' ++ sep ++ rest' = t ++ sep ++ rest -> (forall a b, t ++ sep = a ++ sep ++ b -> b = []) -> (List.length t <= List.length t')%nat).
      { clear - Hs. intros t t' rest rest' E HF. destruct (Nat.le_gt_cases (List.length t) (List.length t')) as [L|L]; [assumption|]. exfalso.
        assert (P : exists b, t ++ sep = t' ++ sep ++ b /\ b <> []).
        { assert (F : firstn (List.length t + List.length sep) (t' ++ sep ++ rest') = t ++ sep).
          { rewrite E, app_assoc, <- app_length, firstn_app, firstn_all, Nat.sub_diag. cbn. now rewrite app_nil_r. }
          rewrite app_assoc, firstn_app, firstn_all2 in F by (rewrite app_length; lia). rewrite <- app_assoc in F. eexists. split; [symmetry; exact F|].
          intro K. rewrite K, app_nil_r in F. assert (List.length (t' ++ sep) = List.length (t ++ sep)) by now rewrite F. rewrite !app_length in H. lia. }
        destruct P as (b & P & Nb). apply HF in P. contradiction. }
      assert (EL : List.length t = List.length t') by (apply Nat.le_antisymm; [eapply LT; [exact E|exact HF]|eapply LT; [symmetry; exact E|exact HF']]).
      assert (ET : t = t').
      { assert (F : firstn (List.length t) (t' ++ sep ++ rest') = firstn (List.length t) (t ++ sep ++ rest)) by now rewrite E.
        rewrite EL in F at 1. rewrite !firstn_app, !firstn_all, !Nat.sub_diag in F. cbn in F. now rewrite !app_nil_r in F. }
      subst t'. apply app_inv_head, app_inv_head in E. subst rest'. f_equal. now apply IH.
Qed.
Print Assumptions C72_tokens_unique.
(** str:encode-uri and str:decode-uri are never answered. *)
Theorem C72_uri_refuted : forall uri b encoding, ~ exists r, encode_uri_function uri b encoding = Ok r \/ decode_uri_function uri encoding = Ok r.
Proof. intros uri b encoding (r & [H|H]); discriminate. Qed.
Print Assumptions C72_uri_refuted.
Example C72_case :
  align_function (lit "ab") (lit "-------") (Some (lit "center")) = lit "--ab---" /\ align_function (lit "ab") (lit "----") (Some (lit "right")) = lit "--ab" /\
  align_function (lit "abcd") (lit "--") None = lit "ab" /\
  padding_function (NFin (9 # 2)) (Some (lit "ab")) = Ok (lit "abab") /\ padding_function (NFin 5) (Some (lit "ab")) = Ok (lit "ababa") /\
  split_tokens (lit "a, b,, c") (Some (lit ", ")) = [lit "a"; lit "b,"; lit "c"] /\ split_tokens (lit "aaa") (Some (lit "aa")) = [[]; lit "a"] /\
  tokenize_tokens (lit "2001-06-03T11:40") (Some (lit "-T:")) = [lit "2001"; lit "06"; lit "03"; lit "11"; lit "40"] /\
  tokenize_function (lit "a  b") None = Ok [token (lit "a"); token []; token (lit "b")].
Proof. repeat split; vm_compute; reflexivity. Qed.

(** ** Replacement *)
Fixpoint interl (x : piece) (pss : list (list piece)) : list piece :=
  match pss with [] => [] | ps :: r => ps ++ match r with [] => [] | _ => x :: interl x r end end.
Definition segments (search s : str) : list str := match search with [] => map (fun c => [c]) s | _ => py_split_sep search s end.
Fixpoint pieces (l : list (str * nat)) (s : str) : list piece :=
  match l with
  | [] => [Stays s]
  | (search, i) :: rest => interl (Found i) (map (fun seg => match seg with [] => [] | _ => pieces rest seg end) (segments search s))
  end.
Definition piece_calls (replace : list (list call)) (p : piece) : list call :=
  match p with Stays s => [Text s] | Found i => match nth_error replace i with Some c => c | None => [] end end.
Lemma calls_pieces : forall replace l s,
  replace_calls (map (fun e => (fst e, nth_error replace (snd e))) l) s = flat_map (piece_calls replace) (pieces l s).
Proof.
  intros replace l. induction l as [|[search i] l IH]; intro s; cbn [map replace_calls pieces fst snd]; [reflexivity|].
  fold (segments search s). generalize (segments search s). intro segs. induction segs as [|seg segs IHs]; [reflexivity|].
  cbn [map interl]. rewrite IHs, flat_map_app. f_equal; [destruct seg; [reflexivity|apply IH]|].
  destruct segs as [|seg2 segs]; [reflexivity|]. cbn [map flat_map piece_calls]. destruct (nth_error replace i); reflexivity.
Qed.
Lemma insert_map : forall {A B} (f : A -> B) x l, insert_longest (fst x, f (snd x)) (map (fun e => (fst e, f (snd e))) l) = map (fun e => (fst e, f (snd e))) (insert_longest x l).
Proof. intros A B f x l. induction l as [|y l IH]; [reflexivity|]. cbn [insert_longest map fst snd]. destruct (Nat.leb _ _); [reflexivity|]. cbn [map fst snd]. now rewrite IH. Qed.
Lemma longest_map : forall {A B} (f : A -> B) l, longest_first (map (fun e => (fst e, f (snd e))) l) = map (fun e => (fst e, f (snd e))) (longest_first l).
Proof. intros A B f l. induction l as [|x l IH]; [reflexivity|]. cbn [map longest_first fold_right]. fold (longest_first l). fold (longest_first (map (fun e : str * A => (fst e, f (snd e))) l)). rewrite IH. apply insert_map. Qed.
Lemma pair_map : forall {R} (replace : list R) search k,
  pair_up search (skipn k replace) = map (fun e => (fst e, nth_error replace (snd e))) (combine search (seq k (List.length search))).
Proof.
  intros R replace search. induction search as [|s search IH]; intro k; [reflexivity|]. cbn [List.length seq combine map fst snd].
  assert (E : skipn k replace = match nth_error replace k with Some r => r :: skipn (S k) replace | None => [] end).
  { clear. revert k. induction replace as [|r l IH]; intros [|k]; try reflexivity. cbn [skipn nth_error]. apply IH. }
  rewrite <- IH, E. destruct (nth_error replace k) eqn:N; [reflexivity|]. cbn [pair_up]. f_equal.
  assert (K : skipn (S k) replace = []) by (apply skipn_all2; apply nth_error_None in N; lia). now rewrite K.
Qed.
Lemma insert_in : forall {R} (x e : str * R) l, In e (insert_longest x l) <-> e = x \/ In e l.
Proof.
  intros R x e l. induction l as [|y l IH]; cbn [insert_longest In]; [intuition|]. destruct (Nat.leb _ _); cbn [In]; [intuition|]. rewrite IH. tauto.
Qed.
Lemma longest_in : forall {R} (e : str * R) l, In e (longest_first l) <-> In e l.
Proof. intros R e l. induction l as [|x l IH]; [reflexivity|]. cbn [longest_first fold_right]. fold (longest_first l). rewrite insert_in, IH. cbn [In]. intuition. Qed.

Definition before (a b : str * nat) : Prop :=
  (List.length (fst b) < List.length (fst a))%nat \/ List.length (fst b) = List.length (fst a) /\ (snd a < snd b)%nat.
Lemma longest_sorted : forall search k, StronglySorted before (longest_first (combine search (seq k (List.length search)))).
Proof.
  induction search as [|s search IH]; intro k; [constructor|]. cbn [List.length seq combine longest_first fold_right]. fold (longest_first (combine search (seq (S k) (List.length search)))).
  assert (HK : forall e, In e (longest_first (combine search (seq (S k) (List.length search)))) -> (k < snd e)%nat).
  { intros [s' i] H. apply (proj1 (longest_in _ _)) in H. apply in_combine_r, in_seq in H. cbn. lia. }
  specialize (IH (S k)). revert IH HK. generalize (longest_first (combine search (seq (S k) (List.length search)))). clear. intros l H HK.
  induction H as [|y l Hl IH Hy]; [repeat constructor|]. cbn [insert_longest fst]. destruct (Nat.leb_spec (List.length (fst y)) (List.length s)) as [L|L].
  - constructor; [constructor; assumption|]. assert (Bxy : before (s, k) y) by (unfold before; cbn; specialize (HK y (or_introl eq_refl)); lia).
    constructor; [assumption|]. rewrite Forall_forall in *. intros z Hz. specialize (Hy z Hz). specialize (HK z (or_intror Hz)). unfold before in *. cbn [fst snd] in *. lia.
  - constructor; [apply IH; intros; apply HK; now right|]. rewrite Forall_forall in *. intros z Hz. apply insert_in in Hz. destruct Hz as [->|Hz]; [|auto]. unfold before. cbn. lia.
Qed.

Lemma interl_run : forall x pss p run q, interl x pss = p ++ run ++ q -> ~ In x run -> run = [] \/ exists ps p' q', In ps pss /\ ps = p' ++ run ++ q'.
Proof.
  intros x pss. induction pss as [|ps r IH]; intros p run q E N.
  - left. cbn in E. destruct p; [|discriminate]. now destruct run.
  - cbn [interl] in E. destruct r as [|ps2 r].
    + rewrite app_nil_r in E. right. exists ps, p, q. split; [now left|assumption].
    + apply app_eq_app in E. destruct E as (m & [[E1 E2]|[E1 E2]]).
      * destruct (app_eq_app _ _ _ _ E2) as (m2 & [[E3 E4]|[E3 E4]]).
        -- destruct m2 as [|y m2]; [rewrite app_nil_r in E3; right; exists ps, p, []; split; [now left|]; rewrite app_nil_r; now rewrite E1, E3|]. cbn [app] in E4. injection E4 as -> _. exfalso. apply N. rewrite E3. apply in_or_app. right. now left.
        -- right. exists ps, p, m2. split; [now left|]. now rewrite E1, E3.
      * destruct m as [|y m].
        -- cbn [app] in E2. destruct run as [|z run]; [now left|]. cbn [app] in E2. injection E2 as -> _. exfalso. apply N. now left.
        -- cbn [app] in E2. injection E2 as -> E2. destruct (IH m run q E2 N) as [H|(ps' & p' & q' & H & E)]; [now left|]. right. exists ps', p', q'. split; [now right|assumption].
Qed.
Lemma interl_end : forall x pss p run q, interl x pss = p ++ run ++ x :: q -> ~ In x run -> (forall ps, In ps pss -> ~ In x ps) ->
  exists k ps p', nth_error pss k = Some ps /\ (S k < List.length pss)%nat /\ ps = p' ++ run.
Proof.
  intros x pss. induction pss as [|ps r IH]; intros p run q E N HP.
  - cbn in E. destruct p; [|discriminate]. destruct run; discriminate.
  - cbn [interl] in E. destruct r as [|ps2 r].
    + rewrite app_nil_r in E. exfalso. apply (HP ps); [now left|]. rewrite E. apply in_or_app. right. apply in_or_app. right. now left.
    + rewrite app_assoc in E. apply app_eq_app in E. destruct E as (m & [[E1 E2]|[E1 E2]]).
      * destruct m as [|y m]; [|cbn [app] in E2; injection E2 as -> _; exfalso; apply (HP ps); [now left|]; rewrite E1; apply in_or_app; right; now left].
        rewrite app_nil_r in E1. exists 0%nat, ps, p. split; [reflexivity|]. split; [cbn; lia|]. assumption.
      * destruct m as [|y m].
        -- rewrite app_nil_r in E1. exists 0%nat, ps, p. split; [reflexivity|]. split; [cbn; lia|]. now symmetry.
        -- cbn [app] in E2. injection E2 as <- E2.
           assert (EX : exists p2, p = ps ++ x :: p2 /\ m = p2 ++ run).
           { apply app_eq_app in E1. destruct E1 as (m2 & [[A B]|[A B]]).
             - destruct m2 as [|z m2]; [rewrite app_nil_r in A; subst p; cbn [app] in B; destruct run as [|z run]; [discriminate|]; injection B as -> _; exfalso; apply N; now left|].
               cbn [app] in B. injection B as <- ->. exists m2. now split.
             - exfalso. apply N. rewrite B. apply in_or_app. right. now left. }
           destruct EX as (p2 & -> & ->). rewrite <- app_assoc in E2. destruct (IH p2 run q E2 N) as (k & ps' & p' & H1 & H2 & H3); [intros; apply HP; now right|].
           exists (S k), ps', p'. split; [assumption|]. split; [cbn in *; lia|assumption].
Qed.

Lemma splits_facts : forall sep s ts, sep <> [] -> splits sep s ts ->
  ts <> [] /\ (forall t, In t ts -> ~ contains sep t) /\ (forall k t, nth_error ts k = Some t -> (S k < List.length ts)%nat -> forall a b, t ++ sep = a ++ sep ++ b -> b = []).
Proof.
  intros sep s ts Hs H. induction H as [s N|t rest ts HF H (IH0 & IH1 & IH2)].
  - split; [discriminate|]. split; [intros t [<-|[]]; assumption|]. intros k t E L. cbn in L. lia.
  - split; [discriminate|]. split.
    + intros t' [<-|K]; [|now apply IH1]. intros (a & b & ->). assert (E : b ++ sep = []) by (apply (HF a); now rewrite <- !app_assoc). apply app_eq_nil in E. tauto.
    + intros [|k] t' E L; [injection E as <-; exact HF|]. cbn in E, L. apply (IH2 k); [assumption|lia].
Qed.
Section Pieces.
  Variable search : list str.
  Local Notation text := (flat_map (piece_text search)).
  Lemma splits_text : forall sep s ts x f, splits sep s ts -> piece_text search x = sep -> (forall t, text (f t) = t) -> text (interl x (map f ts)) = s.
  Proof.
    intros sep s ts x f H Hx Hf. induction H as [s N|t rest ts HF H IH]; cbn [map interl]; [now rewrite app_nil_r|].
    destruct ts as [|t2 ts]; [inversion H|]. cbn [map] in *. rewrite flat_map_app, Hf. f_equal. cbn [flat_map]. now rewrite Hx, IH.
  Qed.
  Lemma chars_text : forall s x f, piece_text search x = [] -> (forall t, text (f t) = t) -> text (interl x (map f (map (fun c => [c]) s))) = s.
  Proof.
    intros s x f Hx Hf. induction s as [|c s IH]; [reflexivity|]. cbn [map interl]. rewrite flat_map_app, Hf. cbn [app]. f_equal.
    destruct s as [|c2 s]; [reflexivity|]. cbn [map] in *. cbn [flat_map]. now rewrite Hx, IH.
  Qed.
  Definition known (l : list (str * nat)) : Prop := forall e, In e l -> nth (snd e) search [] = fst e /\ (snd e < List.length search)%nat.
  Lemma before_goes : forall l e f, known l -> In e l -> In f l -> before e f -> goes_before search (snd e) (snd f).
  Proof. intros l e f H He Hf B. destruct (H e He) as [E1 _]. destruct (H f Hf) as [E2 _]. unfold goes_before. rewrite E1, E2. exact B. Qed.
  Lemma goes_asym : forall i j, goes_before search i j -> ~ goes_before search j i.
  Proof. unfold goes_before. intros i j H K. lia. Qed.
  Lemma not_in_nothing : forall s, ~ found_in s [].
  Proof. intros [|c s]; cbn [found_in]; [cbn; lia|]. intros (a & b & E). destruct a; discriminate. Qed.
  Lemma after_no : forall i j run, (i = j \/ goes_before search j i) -> Forall (after search i) run -> ~ In (Found j) run.
  Proof.
    intros i j run H F K. rewrite Forall_forall in F. apply F in K. cbn in K. destruct H as [->|H]; [|now apply goes_asym in K]. unfold goes_before in K. lia.
  Qed.
  Lemma pieces_spec : forall l, known l -> StronglySorted before l -> forall s,
    text (pieces l s) = s /\
    (forall i, In (Found i) (pieces l s) -> In i (map snd l)) /\
    (forall e, In e l -> forall p run q, pieces l s = p ++ run ++ q -> Forall (after search (snd e)) run -> ~ found_in (fst e) (text run)) /\
    (forall e, In e l -> forall p run q, pieces l s = p ++ run ++ Found (snd e) :: q -> fst e <> [] -> Forall (after search (snd e)) run ->
       forall a b, text run ++ fst e = a ++ fst e ++ b -> b = []).
  Proof.
    intros l HK HS. induction HS as [|[sep i0] l HS IH HB]; intro s; cbn [pieces].
    - split; [cbn; apply app_nil_r|]. split; [intros i [K|[]]; discriminate|]. split; intros e [].
    - set (f := fun seg : str => match seg with [] => [] | _ => pieces l seg end). set (segs := segments sep s).
      destruct (HK _ (or_introl eq_refl)) as [Hi0 Li0]. cbn [fst snd] in Hi0, Li0.
      assert (HK' : known l) by (intros e He; apply HK; now right). specialize (IH HK').
      assert (G0 : forall e, In e l -> goes_before search i0 (snd e)).
      { intros e He. apply (before_goes _ (sep, i0) e HK); [now left|now right|]. rewrite Forall_forall in HB. now apply HB. }
      assert (FT : forall t, text (f t) = t) by (intros [|c t]; [reflexivity|apply IH]).
      assert (FI : forall t i, In (Found i) (f t) -> In i (map snd l)) by (intros [|c t] i H; [destruct H|apply IH in H; assumption]).
      assert (F0 : forall ps, In ps (map f segs) -> ~ In (Found i0) ps).
      { intros ps H K. apply in_map_iff in H. destruct H as (t & <- & _). apply FI in K. apply in_map_iff in K. destruct K as (e & E & He). apply G0 in He. rewrite E in He. unfold goes_before in He. lia. }
      assert (SUB : forall ps p' run q', In ps (map f segs) -> ps = p' ++ run ++ q' -> exists t, In t segs /\ f t = p' ++ run ++ q' /\ t = text p' ++ text run ++ text q').
      { intros ps p' run q' H ->. apply in_map_iff in H. destruct H as (t & E & Ht). exists t. split; [assumption|]. split; [assumption|]. rewrite <- (FT t), E, !flat_map_app. reflexivity. }
      split; [|split; [|split]].
      + unfold segs, segments. destruct sep as [|c sep]; [now apply chars_text|]. eapply splits_text; [apply split_sep_spec; discriminate|assumption|assumption].
      + intros i K. cbn [map snd]. assert (KI : forall pss, In (Found i) (interl (Found i0) pss) -> i = i0 \/ exists ps, In ps pss /\ In (Found i) ps).
        { clear. induction pss as [|ps r IHr]; [intros []|]. cbn [interl]. intro H. apply in_app_or in H. destruct H as [H|H]; [right; exists ps; split; [now left|assumption]|].
          destruct r; [destruct H|]. destruct H as [H|H]; [injection H as <-; now left|]. destruct (IHr H) as [E|(ps' & A & B)]; [now left|]. right. exists ps'. split; [now right|assumption]. }
        apply KI in K. destruct K as [->|(ps & A & B)]; [now left|]. right. apply in_map_iff in A. destruct A as (t & <- & _). now apply FI in B.
      + intros e [<-|He] p run q E F; cbn [fst snd] in *.
        * assert (N : ~ In (Found i0) run) by (eapply after_no; [left; reflexivity|exact F]).
          destruct (interl_run _ _ _ _ _ E N) as [->|(ps & p' & q' & A & B)]; [apply not_in_nothing|]. destruct (SUB _ _ _ _ A B) as (t & Ht & _ & Et).
          unfold segs, segments in Ht. destruct sep as [|c sep]; cbn [found_in].
          -- apply in_map_iff in Ht. destruct Ht as (c & Ec & _). assert (L : List.length t = 1%nat) by now subst t. rewrite Et, !app_length in L. lia.
          -- destruct (splits_facts (c :: sep) s _ ltac:(discriminate) (split_sep_spec (c :: sep) s ltac:(discriminate))) as (_ & NC & _).
             intros (a & b & Eab). apply (NC t Ht). exists (text p' ++ a), (b ++ text q'). rewrite Et, Eab. now rewrite <- !app_assoc.
        * assert (N : ~ In (Found i0) run) by (apply (after_no (snd e)); [right; now apply G0|exact F]).
          destruct (interl_run _ _ _ _ _ E N) as [->|(ps & p' & q' & A & B)]; [apply not_in_nothing|]. destruct (SUB _ _ _ _ A B) as (t & Ht & Ef & _).
          destruct t as [|c t].
          -- cbn in Ef. symmetry in Ef. apply app_eq_nil in Ef. destruct Ef as [_ Ef]. apply app_eq_nil in Ef. destruct Ef as [-> _]. apply not_in_nothing.
          -- cbn [f] in Ef. destruct (IH (c :: t)) as (_ & _ & IHC & _). eapply IHC; eassumption.
      + intros e [<-|He] p run q E Hne F; cbn [fst snd] in *.
        * assert (N : ~ In (Found i0) run) by (eapply after_no; [left; reflexivity|exact F]).
          destruct (interl_end _ _ _ _ _ E N F0) as (k & ps & p' & A & L & B). rewrite map_length in L.
          assert (HT : exists t, nth_error segs k = Some t /\ f t = ps) by (rewrite nth_error_map in A; destruct (nth_error segs k) as [t|]; [injection A as <-; eauto|discriminate]).
          destruct HT as (t & Ht & Ef). assert (Et : t = text p' ++ text run) by (rewrite <- (FT t), Ef, B, flat_map_app; reflexivity).
          assert (HSp : splits sep s segs) by (unfold segs, segments; destruct sep; [congruence|apply split_sep_spec; discriminate]).
          destruct (splits_facts sep s segs Hne HSp) as (_ & _ & LM). intros a b Eab. apply (LM k t Ht L (text p' ++ a)). rewrite Et, <- app_assoc, Eab. now rewrite <- app_assoc.
        * assert (N : ~ In (Found i0) (run ++ [Found (snd e)])).
          { intro K. apply in_app_or in K. destruct K as [K|[K|[]]]; [revert K; apply (after_no (snd e)); [right; now apply G0|exact F]|]. injection K as K. specialize (G0 _ He). rewrite K in G0. unfold goes_before in G0. lia. }
          rewrite (app_assoc _ [_] q : run ++ Found (snd e) :: q = _) in E.
          destruct (interl_run _ _ _ _ _ E N) as [K|(ps & p' & q' & A & B)]; [destruct run; discriminate|]. destruct (SUB _ _ _ _ A B) as (t & Ht & Ef & _). rewrite <- app_assoc in Ef. cbn [app] in Ef.
          destruct t as [|c t]; [cbn in Ef; destruct p'; [|discriminate]; destruct run; discriminate|]. cbn [f] in Ef.
          destruct (IH (c :: t)) as (_ & _ & _ & IHD). eapply IHD; eassumption.
  Qed.
End Pieces.

Definition piece_nodes (replace : list wnode) (p : piece) : list wnode :=
  match p with Stays s => [WText s] | Found i => match nth_error replace i with Some n => [n] | None => [] end end.
(** str:replace: the pieces of the string as nodes, each search string replaced by
    the node at the same place, or removed. *)
Theorem C73_replace : forall s search replace, Forall askable replace ->
  exists ps, replaced search s ps /\
  replace_function s search (map calls replace) = Ok (merge_text (map tree_of (flat_map (piece_nodes replace) ps))).
Proof.
  intros s search replace HR. set (l := longest_first (combine search (seq 0 (List.length search)))). exists (pieces l s).
  assert (HK : known search l).
  { intros [t i] H. unfold l in H. apply (proj1 (longest_in _ _)) in H. cbn [fst snd]. split.
    - apply In_nth_error in H. destruct H as [k H].
      assert (HC : forall (A B : Type) (la : list A) (lb : list B) k a b, nth_error (combine la lb) k = Some (a, b) -> nth_error la k = Some a /\ nth_error lb k = Some b).
      { clear. intros A B la. induction la as [|x la IH]; intros [|y lb] [|k] a b H; try discriminate; cbn in H; [injection H as <- <-; now split|apply IH in H; exact H]. }
      apply HC in H. destruct H as [H1 H2]. assert (Hk : (k < List.length search)%nat) by (apply nth_error_Some; congruence).
      rewrite (nth_error_nth' _ 0%nat) in H2 by now rewrite seq_length. rewrite seq_nth in H2 by assumption. injection H2 as <-. cbn. now apply nth_error_nth.
    - apply in_combine_r, in_seq in H. lia. }
  assert (HIn : forall i, (i < List.length search)%nat -> In (nth i search [], i) l).
  { intros i Hi. unfold l. apply longest_in. pose proof (combine_nth search (seq 0 (List.length search)) i [] 0%nat ltac:(now rewrite seq_length)) as E. rewrite seq_nth in E by assumption. cbn [Nat.add] in E. rewrite <- E. apply nth_In. rewrite combine_length, seq_length. lia. }
  destruct (pieces_spec search l HK (longest_sorted search 0) s) as (A & B & C & D).
  assert (B' : forall i, In (Found i) (pieces l s) -> (i < List.length search)%nat).
  { intros i H. apply B, in_map_iff in H. destruct H as (e & <- & H). now apply HK. }
  split; [split; [assumption|split; [assumption|split]]|].
  - intros i p run q Hi. now apply (C _ (HIn i Hi)).
  - intros i p run q E. assert (Hi : (i < List.length search)%nat) by (apply B'; rewrite E; apply in_or_app; right; apply in_or_app; right; now left).
    exact (D _ (HIn i Hi) p run q E).
  - unfold replace_function. replace (pair_up search (map calls replace)) with (pair_up search (skipn 0 (map calls replace))) by reflexivity. rewrite pair_map, longest_map. fold l. rewrite calls_pieces, <- C69_built_partial.
    + f_equal. generalize (pieces l s). clear. intro ps. induction ps as [|p ps IH]; [reflexivity|]. cbn [flat_map]. rewrite flat_map_app, IH. f_equal.
      destruct p as [t|i]; cbn [piece_calls piece_nodes]; [reflexivity|]. rewrite nth_error_map. destruct (nth_error replace i); cbn [option_map flat_map]; [now rewrite app_nil_r|reflexivity].
    + apply Forall_forall. intros n H. apply in_flat_map in H. destruct H as ([t|i] & _ & H); cbn [piece_nodes] in H; [destruct H as [<-|[]]; constructor|].
      destruct (nth_error replace i) eqn:E; [|destruct H]. destruct H as [<-|[]]. apply nth_error_In in E. rewrite Forall_forall in HR. now apply HR.
Qed.
Print Assumptions C73_replace.

Definition c73_nodes : list wnode := [WElem None (lit "br") None [] [] [] []; WText (lit "Z")].
Example C73_case : Forall askable c73_nodes /\
  replace_function (lit "xabcabyc") [lit "ab"; lit "abc"; lit "y"] (map calls c73_nodes) =
    Ok [NText (lit "xZ"); NElem None (lit "br") [] [] []; NText (lit "c")] /\
  replace_function (lit "abc") [[]] [[Text (lit "-")]] = Ok [NText (lit "a-b-c")].
Proof.
  split; [|split; vm_compute; reflexivity]. repeat constructor; try (intros; discriminate); try (intros ? ? []). intro K. cbn in K. intuition discriminate.
Qed.
