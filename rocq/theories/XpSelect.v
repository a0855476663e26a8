(** * Proofs about the axes: every axis *)
From Coq Require Import NArith ZArith String List Bool Lia Arith Sorted.
From Verif Require Import PyStr PyErr DomModel DomSpec DomCells DomInv DomOps DomStep DomOrder XpModel XpSpec XpTree XpAxes XpOrder.
Import ListNotations.
Local Open Scope nat_scope.

Lemma split_sorted {A} (R : A -> A -> Prop) l : (forall l1 x l2 y l3, l = l1 ++ x :: l2 ++ y :: l3 -> R x y) -> StronglySorted R l.
Proof.
  induction l as [|a l IH]; intros H; [constructor|]. constructor.
  - apply IH. intros l1 x l2 y l3 E. apply (H (a :: l1) x l2 y l3). now rewrite E.
  - apply Forall_forall. intros b B. apply in_split in B. destruct B as [u [v ->]]. apply (H [] a u b v). reflexivity.
Qed.
Lemma kids_sorted s p l1 l l2 : forest s -> kids s p = l1 ++ l ++ l2 -> StronglySorted (before s) l.
Proof.
  intros F K. apply split_sorted. intros u x v y w ->. apply (before_kids s x y p x y (l1 ++ u) v (w ++ l2)); [|left; reflexivity|left; reflexivity].
  rewrite K. rewrite <- !app_assoc. cbn. now rewrite <- app_assoc.
Qed.
(** Among siblings, before in the child list is before in document order. *)
Lemma sibling_before s p x y : forest s -> In x (kids s p) -> In y (kids s p) -> (before s x y <-> exists l1 l2 l3, kids s p = l1 ++ x :: l2 ++ y :: l3).
Proof.
  intros F X Y. split.
  - intros B. apply In_nth_error in X, Y. destruct X as [i X], Y as [j Y]. destruct (Nat.lt_trichotomy i j) as [L|[L|L]].
    + eapply nth_split2; eauto.
    + exfalso. subst j. rewrite X in Y. injection Y as ->. exact (before_irrefl s y F B).
    + exfalso. destruct (nth_split2 _ _ _ _ _ L Y X) as [l1 [l2 [l3 K]]]. apply (before_asym s x y F B). apply (before_kids s y x p y x l1 l2 l3 K); left; reflexivity.
  - intros [l1 [l2 [l3 K]]]. apply (before_kids s x y p x y l1 l2 l3 K); left; reflexivity.
Qed.
Lemma find_absent s p n : forest s -> parent_of s n = Some p -> attribute s n -> exists m, get s p = Some m /\ n_count m = length (kids s p) /\ holds (n_cells m) (kids s p) /\ lfind (n_cells m) n 0 (n_count m) = None.
Proof.
  intros F P A. destruct (sibling_get s p n F P) as [m [G [C H]]]. exists m. repeat (split; [assumption|]). rewrite C. apply lfind_absent; [|exact H]. intros I. exact (kid_nonattr s p n F I A).
Qed.

Definition supported (s : store) (a : axis) (n : nat) : Prop :=
  attribute s n -> match a with Following | Preceding | PrecedingSibling => False | _ => True end.

Lemma select_ok s a n : forest s -> exists_node s n -> supported s a n ->
  exists l, select a s n = Ok l /\ (forall x, In x l <-> on_axis s a n x) /\ in_axis_order s a l.
Proof.
  intros F E SU. destruct (top_ex s n F E) as [r [d TN]]. destruct a; cbn [select on_axis in_axis_order is_reverse]; unfold in_axis_order; cbn [is_reverse].
  - (* ancestor *) unfold ancestor_axis. destruct (parent_of s n) as [p|] eqn:P.
    + assert (exists_node s p) as EP by exact (parent_exists s n p F P). destruct (top_ex s p F EP) as [r' [d' TP]]. destruct (ancestors_ok s F _ p r' d' TP) as [l [EL [M SS]]].
      exists (p :: l). split; [exact EL|]. split; [|exact SS]. intros x. cbn. rewrite M. split.
      * intros [<-|A]; [now apply above_parent|eapply above_up; eauto].
      * intros A. apply (aos_parent (parent_of s) p n P) in A. destruct A as [->|A]; auto.
    + exists []. split; [reflexivity|]. split; [|constructor]. intros x. split; [intros []|]. intros A. inversion A; congruence.
  - (* ancestor-or-self *) unfold ancestor_or_self_axis. destruct (ancestors_ok s F _ n r d TN) as [l [EL [M SS]]]. exists (n :: l). split; [exact EL|]. split; [|exact SS].
    intros x. cbn. rewrite M. split; intros [X|X]; auto.
  - (* attribute *) unfold attribute_axis. eexists. split; [reflexivity|]. assert ((if is_element s n then match get s n with Some m => n_attrs m | None => [] end else []) = attrs_of s n) as ->.
    { unfold attrs_of, is_element, has_kind. destruct (get s n) as [m|] eqn:G; [|reflexivity]. destruct (n_attrs m) as [|a l] eqn:A; [now destruct (kind_eqb _ _)|].
      assert (In a (attrs_of s n)) as I by (unfold attrs_of; rewrite G, A; now left). apply (f_aparent s F) in I. rewrite (kind_get s n m G) in I. injection I as ->. reflexivity. }
    split; [intros x; apply (f_alink s F)|]. apply split_sorted. intros l1 x l2 y l3 X. eapply before_attrs; eauto.
  - (* child *) rewrite (child_axis_ok s n F E). eexists. split; [reflexivity|]. split; [intros x; apply (f_link s F)|]. apply (kids_sorted s n [] _ []); [exact F|now rewrite app_nil_r].
  - (* descendant *) destruct (subtree s n F E) as [ts R]. rewrite (descendant_axis_ok s n ts F E R). eexists. split; [reflexivity|].
    pose proof (pre_sorted s F _ R) as SS. cbn in SS. inversion SS as [|? ? S1 S2]; subst. split; [|exact S1]. intros x. pose proof (pre_in s F _ R x) as X. cbn [pre root] in X. split.
    + intros I. destruct (proj1 X (or_intror I)) as [->|A]; [|exact A]. exfalso. rewrite Forall_forall in S2. exact (before_irrefl s n F (S2 n I)).
    + intros A. destruct (proj2 X (or_intror A)) as [->|I]; [|exact I]. exfalso. exact (f_acyclic s F x (proj1 A)).
  - (* descendant-or-self *) destruct (subtree s n F E) as [ts R]. unfold descendant_or_self_axis. rewrite (descendant_axis_ok s n ts F E R). cbn [bind]. eexists. split; [reflexivity|].
    split; [exact (pre_in s F _ R)|exact (pre_sorted s F _ R)].
  - (* following *) assert (~ attribute s n) as NA by (intros A; exact (SU A)). unfold following_axis. destruct (following_from_ok s F _ n r d E NA TN) as [l [EL [M SS]]].
    exists l. split; [exact EL|]. split; [|exact SS]. intros x. rewrite M. split.
    + intros [X NX]. apply (following_right s n x F NA NX) in X. tauto.
    + intros [X1 [X2 NX]]. split; [|exact NX]. apply (following_right s n x F NA NX). auto.
  - (* following-sibling *) destruct (parent_of s n) as [p|] eqn:P.
    2:{ unfold following_sibling_axis. rewrite P. exists []. split; [reflexivity|]. split; [|constructor]. intros x. split; [intros []|]. intros [[p [X _]] _]. discriminate. }
    destruct (get_ex s n E) as [m G]. destruct (kind_eqb (n_kind m) KAttr) eqn:KA.
    + assert (attribute s n) as A by (unfold attribute; rewrite (kind_get s n m G); destruct (n_kind m); try discriminate; reflexivity).
      destruct (find_absent s p n F P A) as [m' [G' [C [H L]]]]. unfold following_sibling_axis. rewrite P, G', L, Nat.sub_diag. exists []. split; [reflexivity|]. split; [|constructor].
      intros x. split; [intros []|]. intros [_ [_ [X _]]]. contradiction.
    + assert (~ attribute s n) as A by (unfold attribute; rewrite (kind_get s n m G); intros [= X]; rewrite X in KA; discriminate).
      destruct (kid_index s p n F P A) as [i N]. rewrite (following_sibling_ok s p i n F N). eexists. split; [reflexivity|]. split.
      * intros x. pose proof (nth_error_In _ _ N) as IN. split.
        -- intros I. assert (In x (kids s p)) as IX by (rewrite <- (firstn_skipn (S i) (kids s p)); apply in_or_app; now right).
           split; [exists p; split; [reflexivity|exact (kid_parent s p x F IX)]|]. split; [|split; [exact A|exact (kid_nonattr s p x F IX)]].
           apply (sibling_before s p n x F IN IX). now apply (split_after _ _ _ _ (f_nodup s F p) N).
        -- intros [[q [Q1 Q2]] [B [_ NX]]]. injection Q1 as <-. assert (In x (kids s p)) as IX by (apply (f_link s F); split; [exact Q2|exact NX]).
           apply (split_after _ _ _ _ (f_nodup s F p) N). now apply (sibling_before s p n x F IN IX).
      * apply (kids_sorted s p (firstn (S i) (kids s p)) _ []); [exact F|now rewrite app_nil_r, firstn_skipn].
  - (* parent *) unfold parent_axis. eexists. split; [reflexivity|]. destruct (parent_of s n) as [p|] eqn:P; (split; [|repeat constructor]); intros x; cbn; split; intros X.
    + destruct X as [->|[]]. reflexivity.
    + injection X as ->. now left.
    + destruct X.
    + discriminate.
  - (* preceding *) assert (~ attribute s n) as NA by (intros A; exact (SU A)). unfold preceding_axis. destruct (preceding_from_ok s F _ n r d E NA TN) as [l [EL [M SS]]].
    exists l. split; [exact EL|]. split; [|exact SS]. intros x. rewrite M. split.
    + intros [X NX]. apply (preceding_right s n x F NX) in X. tauto.
    + intros [X1 [X2 NX]]. split; [|exact NX]. apply (preceding_right s n x F NX). auto.
  - (* preceding-sibling *) assert (~ attribute s n) as NA by (intros A; exact (SU A)). unfold preceding_sibling_axis. destruct (parent_of s n) as [p|] eqn:P.
    2:{ unfold get_preceding_sibling. rewrite P. cbn. exists []. split; [reflexivity|]. split; [|constructor]. intros x. split; [intros []|]. intros [[p [X _]] _]. discriminate. }
    destruct (kid_index s p n F P NA) as [i N]. rewrite (preceding_ok s p i n F N). cbn [bind].
    assert (i < length (kids s p)) as Li by (apply nth_error_Some; congruence). pose proof (kids_short s p F) as KS.
    rewrite (preceding_siblings_ok s p F i) by (unfold bound; lia). eexists. split; [reflexivity|]. split.
    + intros x. rewrite <- in_rev. pose proof (nth_error_In _ _ N) as IN. split.
      * intros I. assert (In x (kids s p)) as IX by (rewrite <- (firstn_skipn i (kids s p)); apply in_or_app; now left).
        split; [exists p; split; [reflexivity|exact (kid_parent s p x F IX)]|]. split; [|split; [exact NA|exact (kid_nonattr s p x F IX)]].
        apply (sibling_before s p x n F IX IN). now apply (split_before _ _ _ _ (f_nodup s F p) N).
      * intros [[q [Q1 Q2]] [B [_ NX]]]. injection Q1 as <-. assert (In x (kids s p)) as IX by (apply (f_link s F); split; [exact Q2|exact NX]).
        apply (split_before _ _ _ _ (f_nodup s F p) N). now apply (sibling_before s p x n F IX IN).
    + apply ss_rev. apply (kids_sorted s p [] _ (skipn i (kids s p))); [exact F|cbn; now rewrite firstn_skipn].
  - (* self *) exists [n]. split; [reflexivity|]. split; [|repeat constructor]. intros x. cbn. split; [intros [->|[]]; reflexivity|intros ->; now left].
Qed.

Lemma select_attribute s n a : forest s -> exists_node s n -> attribute s n -> ~ supported s a n -> (exists p, parent_of s n = Some p) -> select a s n = Err InvalidStateErr.
Proof.
  intros F E A SU [p P]. destruct (find_absent s p n F P A) as [m [G [C [H L]]]].
  assert (get_following_sibling s n = Err InvalidStateErr /\ get_preceding_sibling s n = Err InvalidStateErr) as [X1 X2].
  { unfold get_following_sibling, get_preceding_sibling. now rewrite P, G, L. }
  destruct a; cbn; try (exfalso; apply SU; intros _; exact I); unfold following_axis, preceding_axis, preceding_sibling_axis, bound; cbn [following_from preceding_from]; now rewrite ?X1, ?X2.
Qed.
