(** * Properties C27 and C28: the XPath axes

    Statements only; proofs are in XpTree, XpAxes, XpOrder and XpSelect.  The
    vocabulary ([on_axis], [in_axis_order]) is in XpSpec, [forest] and [before] in
    DomSpec. *)
From Coq Require Import NArith ZArith String List Bool Lia Arith Sorted.
From Verif Require Import PyStr PyErr DomModel DomSpec DomCells DomInv DomOps DomStep DomOrder DomProps XpModel XpSpec XpTree XpAxes XpOrder XpSelect.
Import ListNotations.
Local Open Scope nat_scope.

(** ** C27 *)
(** Every axis of every node of a consistent forest, except following, preceding
    and preceding-sibling of an attribute node (refuted below); the namespace axis
    is not modelled. *)
Theorem C27_axes_partial : forall s a n, forest s -> exists_node s n ->
  ~ (attribute s n /\ (a = Following \/ a = Preceding \/ a = PrecedingSibling)) ->
  exists l, select a s n = Ok l /\ (forall x, In x l <-> on_axis s a n x) /\ in_axis_order s a l /\ NoDup l.
Proof.
  intros s a n F E H. destruct (select_ok s a n F E) as [l [EL [M SS]]].
  { intros A. destruct a; try exact I; apply H; auto. }
  exists l. split; [exact EL|]. split; [exact M|]. split; [exact SS|]. unfold in_axis_order in SS. destruct (is_reverse a).
  - apply ss_rev in SS. apply (sorted_nodup s) in SS; [|exact F]. apply NoDup_rev in SS. now rewrite rev_involutive in SS.
  - now apply (sorted_nodup s).
Qed.
Print Assumptions C27_axes_partial.

(** The flag that makes the step iterator restore document order says which axes
    are in reverse order. *)
Theorem C27_reverse_flag : forall a, reverse a = is_reverse a.
Proof. intros []; reflexivity. Qed.
Print Assumptions C27_reverse_flag.

(** A document 0 with an element 1; its children are the text 2, the element 3
    with the attributes 9 and 10, and the element 7 with the text 8; 3 contains
    the element 4 around the text 5, and the comment 6. *)
Definition sample_ops : list op :=
  [New KEntity []; New KElement []; New KText (lit "a"); New KElement []; New KElement []; New KText (lit "b"); New KComment (lit "c"); New KElement []; New KText (lit "d");
   AddAttr 3 (lit "x"); AddAttr 3 (lit "y");
   Append 0 1; Append 1 2; Append 1 3; Append 1 7; Append 3 4; Append 3 6; Append 4 5; Append 7 8].
Definition sample : store := run empty sample_ops.
Lemma sample_forest : forest sample.
Proof. apply run_forest; [exact forest_empty|]. apply safe_runb_ok. vm_compute. reflexivity. Qed.
Example C27_case : forest sample /\ exists_node sample 4 /\ attribute sample 9 /\
  select Descendant sample 1 = Ok [2; 3; 4; 5; 6; 7; 8] /\ select Ancestor sample 4 = Ok [3; 1; 0] /\ select Preceding sample 8 = Ok [6; 5; 4; 3; 2] /\
  select Following sample 4 = Ok [6; 7; 8] /\ select PrecedingSibling sample 7 = Ok [3; 2] /\ select Attribute sample 3 = Ok [9; 10] /\ select FollowingSibling sample 9 = Ok [].
Proof.
  split; [exact sample_forest|]. split; [vm_compute; lia|]. split; [vm_compute; reflexivity|]. repeat apply conj; vm_compute; reflexivity.
Qed.

(** From an attribute node these three axes raise an exception; the following
    axis of the attribute 9, for one, should contain the children of its element. *)
Theorem C27_attribute_refuted : forest sample /\ attribute sample 9 /\ on_axis sample Following 9 4 /\
  select Following sample 9 = Err InvalidStateErr /\ select Preceding sample 9 = Err InvalidStateErr /\ select PrecedingSibling sample 9 = Err InvalidStateErr.
Proof.
  assert (attribute sample 9) as A9 by (vm_compute; reflexivity). split; [exact sample_forest|]. split; [exact A9|]. split.
  - split; [|split]; [| |vm_compute; discriminate].
    + apply (before_attr sample 9 4 3 4); [vm_compute; auto|vm_compute; auto|left; reflexivity].
    + intros A. exact (above_container sample 9 4 sample_forest A A9).
  - repeat apply conj; vm_compute; reflexivity.
Qed.
Theorem C27_attribute_fails : forall s n p a, forest s -> attribute s n -> parent_of s n = Some p -> a = Following \/ a = Preceding \/ a = PrecedingSibling -> select a s n = Err InvalidStateErr.
Proof.
  intros s n p a F A P H. apply select_attribute; [exact F| |exact A| |eauto].
  - destruct (parent_ex s n p P) as [m [G _]]. eapply get_some; eauto.
  - intros X. specialize (X A). destruct H as [H|[H|H]]; subst a; exact X.
Qed.
Print Assumptions C27_attribute_fails.

(** ** C28 *)
Theorem C28_partition : forall s n, forest s -> exists_node s n -> ~ attribute s n ->
  exists anc desc prec foll,
    select Ancestor s n = Ok anc /\ select Descendant s n = Ok desc /\ select Preceding s n = Ok prec /\ select Following s n = Ok foll /\
    NoDup (n :: anc ++ desc ++ prec ++ foll) /\
    (forall x, In x (n :: anc ++ desc ++ prec ++ foll) <-> exists_node s x /\ same_tree s n x /\ ~ attribute s x).
Proof.
  intros s n F E NA.
  assert (forall a, exists l, select a s n = Ok l /\ (forall x, In x l <-> on_axis s a n x) /\ in_axis_order s a l /\ NoDup l) as H.
  { intros a. apply C27_axes_partial; [exact F|exact E|tauto]. }
  destruct (H Ancestor) as [anc [E1 [M1 [_ D1]]]]. destruct (H Descendant) as [desc [E2 [M2 [_ D2]]]].
  destruct (H Preceding) as [prec [E3 [M3 [_ D3]]]]. destruct (H Following) as [foll [E4 [M4 [_ D4]]]]. clear H.
  exists anc, desc, prec, foll. repeat (split; [assumption|]). cbn [on_axis] in *.
  destruct (C20_order_is_total s F) as [IR [TR TOT]].
  assert (forall x, before s x n -> before s n x -> False) as AS by (intros x X Y; exact (before_asym s x n F X Y)).
  assert (forall x, above (parent_of s) x n -> before s x n) as B1 by (intros x X; now apply before_above).
  assert (forall x, above (parent_of s) n x -> before s n x) as B2 by (intros x X; now apply before_above).
  assert (forall {A} (a b : list A), NoDup a -> NoDup b -> (forall x, In x a -> In x b -> False) -> NoDup (a ++ b)) as ND.
  { intros A a b Ha Hb Hd. induction Ha as [|x a Hx Ha IH]; [exact Hb|]. cbn. constructor; [intros I; apply in_app_or in I; destruct I; [contradiction|apply (Hd x); [now left|assumption]]|]. apply IH. intros y Y. apply Hd. now right. }
  split.
  - constructor.
    + rewrite !in_app_iff, M1, M2, M3, M4. intros [X|[[X _]|[[X _]|[X _]]]]; [exact (f_acyclic s F n X)|exact (f_acyclic s F n X)|exact (IR n X)|exact (IR n X)].
    + apply ND; [exact D1| |].
      * apply ND; [exact D2| |].
        -- apply ND; [exact D3|exact D4|]. intros x X Y. apply M3 in X. apply M4 in Y. apply (AS x); tauto.
        -- intros x X Y. apply M2 in X. apply in_app_iff in Y. destruct Y as [Y|Y]; [apply M3 in Y; apply (AS x); [tauto|apply B2; tauto]|apply M4 in Y; tauto].
      * intros x X Y. apply M1 in X. rewrite !in_app_iff in Y. destruct Y as [Y|[Y|Y]].
        -- apply M2 in Y. apply (AS x); [auto|apply B2; tauto].
        -- apply M3 in Y. tauto.
        -- apply M4 in Y. apply (AS x); [auto|tauto].
  - intros x. cbn [In]. rewrite !in_app_iff, M1, M2, M3, M4. split.
    + assert (same_tree s n n) as SN by (exists n; split; left; reflexivity).
      assert (forall x, before s x n -> same_tree s n x) as ST1 by (intros y Y; apply before_same_tree in Y; [|exact F]; destruct Y as [t [T1 T2]]; exists t; auto).
      assert (forall x, before s n x -> same_tree s n x) as ST2 by (intros y Y; now apply before_same_tree in Y).
      intros [<-|[X|[[X N]|[[X [_ N]]|[X [_ N]]]]]].
      * auto.
      * pose proof (before_exists s x n F (B1 x X)) as [EX _]. split; [exact EX|]. split; [auto|]. eapply above_container; eauto.
      * pose proof (before_exists s n x F (B2 x X)) as [_ EX]. auto.
      * pose proof (before_exists s x n F X) as [EX _]. auto.
      * pose proof (before_exists s n x F X) as [_ EX]. auto.
    + intros [EX [ST N]]. destruct (TOT n x E EX ST) as [->|[X|X]]; [now left| |].
      * right. destruct (following_right s n x F NA N) as [Y1 Y2].
        assert (above (parent_of s) n x \/ ~ above (parent_of s) n x) as [A|A]; [|right; left; auto|right; right; right; auto].
        { destruct (in_dec Nat.eq_dec x desc) as [I|I]; [left; apply M2 in I; tauto|right; intros A; apply I, M2; auto]. }
      * right. assert (above (parent_of s) x n \/ ~ above (parent_of s) x n) as [A|A]; [|left; auto|right; right; left; auto].
        { destruct (in_dec Nat.eq_dec x anc) as [I|I]; [left; now apply M1|right; intros A; now apply I, M1]. }
Qed.
Print Assumptions C28_partition.
Example C28_case : forest sample /\ exists_node sample 4 /\ ~ attribute sample 4 /\ select Ancestor sample 4 = Ok [3; 1; 0] /\ select Descendant sample 4 = Ok [5] /\ select Preceding sample 4 = Ok [2] /\ select Following sample 4 = Ok [6; 7; 8].
Proof. split; [exact sample_forest|]. split; [vm_compute; lia|]. split; [vm_compute; discriminate|]. repeat apply conj; vm_compute; reflexivity. Qed.
