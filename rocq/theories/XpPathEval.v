(** * Evaluation of location paths *)
From Coq Require Import NArith ZArith QArith String List Bool Lia Arith Sorted Permutation.
From Verif Require Import PyStr PyErr DomModel DomSpec DomCells DomInv DomOps DomStep DomOrder DomProps XpModel XpSpec XpTree XpAxes XpOrder XpSelect XpProps XpPath XpPathSpec XpPathSteps XpPathOrder.
Import ListNotations.
Local Open Scope nat_scope.

Lemma filter_sub s nm f l : sub (apply_filter s nm f l) l.
Proof. destruct f; [apply sub_filter|apply sub_refl]. Qed.
Lemma order_sub s a l r : sub l r -> in_axis_order s a r -> in_axis_order s a l.
Proof. unfold in_axis_order. destruct (is_reverse a); apply sub_sorted. Qed.

Section Step.
Variables (namespaces : str -> option str) (s : store) (nm : names) (size : nat).
Hypothesis F : forest s.

Lemma step_node_ok st c n l : exists_node s n -> compile_step namespaces st = Ok c -> Forall handled (ls_preds st) -> step_node s nm size c n = Ok l ->
  (forall x, In x l <-> step_from namespaces s nm st n x) /\ StronglySorted (before s) l.
Proof.
  intros E C HH. destruct (compile_step_inv _ _ _ C) as [EA [EF [EP _]]]. unfold step_node. rewrite EA.
  destruct (select (ls_axis st) s n) as [l0|] eqn:S0; cbn [bind]; [|discriminate]. destruct (select_sound s _ n l0 F E S0) as [M O].
  set (l1 := apply_filter s nm (si_filter c) l0).
  assert (forall y, In y l1 <-> on_axis s (ls_axis st) n y /\ passes namespaces s nm (ls_axis st) (ls_test st) y) as M1.
  { intros y. unfold l1. rewrite (apply_filter_in namespaces s nm (ls_axis st) (ls_test st) _ l0 y EF), M. tauto. }
  assert (in_axis_order s (ls_axis st) l1) as O1 by (eapply order_sub; [apply filter_sub|exact O]).
  destruct (apply_selectors size (si_preds c) l1) as [r|] eqn:R; cbn [bind]; [|discriminate]. pose proof (predicates_ok size _ _ l1 r EP HH R) as FL.
  assert (forall x, In x r <-> step_from namespaces s nm st n x) as MR.
  { intros x. split.
    - intros I. exists l1, r. auto.
    - intros [l' [r' [M' [O' [FL' I]]]]]. assert (l' = l1) as -> by (apply (axis_order_eq s (ls_axis st)); auto; intros y; rewrite M', M1; tauto).
      now rewrite <- (filtered_fun _ _ _ FL _ FL'). }
  assert (in_axis_order s (ls_axis st) r) as OR by (eapply order_sub; [eapply filtered_sub; exact FL|exact O1]).
  rewrite C27_reverse_flag. unfold in_axis_order in OR. destruct (is_reverse (ls_axis st)); intros [= <-].
  - split; [intros x; rewrite <- in_rev; apply MR|]. now apply ss_rev in OR.
  - auto.
Qed.

Lemma on_axis_before a n x : on_axis s a n x -> x = n \/ before s n x \/ before s x n.
Proof.
  destruct a; cbn; auto.
  - intros H. right. right. now apply before_above.
  - intros [H|H]; [auto|]. right. right. now apply before_above.
  - intros [H _]. right. left. apply before_above. now apply above_parent.
  - intros [H _]. right. left. apply before_above. now apply above_parent.
  - intros [H _]. right. left. now apply before_above.
  - intros [H|[H _]]; [auto|]. right. left. now apply before_above.
  - tauto.
  - tauto.
  - intros H. right. right. apply before_above. now apply above_parent.
  - tauto.
  - tauto.
Qed.
Lemma on_axis_tree a n x : exists_node s n -> on_axis s a n x -> exists_node s x /\ same_tree s n x.
Proof.
  intros E H. apply on_axis_before in H. destruct H as [->|[H|H]].
  - split; [exact E|]. exists n. split; left; reflexivity.
  - split; [now destruct (before_exists s n x F H)|now apply before_same_tree].
  - split; [now destruct (before_exists s x n F H)|]. apply before_same_tree in H; [|exact F]. destruct H as [t [T1 T2]]. exists t. auto.
Qed.
Lemma step_from_axis st n x : step_from namespaces s nm st n x -> on_axis s (ls_axis st) n x /\ passes namespaces s nm (ls_axis st) (ls_test st) x.
Proof. intros [l [r [M [_ [FL I]]]]]. apply M. eapply sub_in; [eapply filtered_sub; exact FL|exact I]. Qed.
Lemma step_from_tree st n x : exists_node s n -> step_from namespaces s nm st n x -> exists_node s x /\ same_tree s n x.
Proof. intros E H. apply step_from_axis in H. eapply on_axis_tree; [exact E|apply H]. Qed.
Lemma reached_tree sts n x : reached namespaces s nm sts n x -> exists_node s n -> exists_node s x /\ same_tree s n x.
Proof.
  induction 1 as [n|st sts n m x H R IH]; intros E; [split; [exact E|exists n; split; left; reflexivity]|].
  destruct (step_from_tree st n m E H) as [EM TM]. destruct (IH EM) as [EX TX]. split; [exact EX|]. exact (same_tree_trans s n m x F EM TM TX).
Qed.

Lemma step_nodes_ok st c : compile_step namespaces st = Ok c -> Forall handled (ls_preds st) ->
  forall ctx l, (forall n, In n ctx -> exists_node s n) -> step_nodes s nm size c ctx = Ok l ->
  forall x, In x l <-> exists n, In n ctx /\ step_from namespaces s nm st n x.
Proof.
  intros C HH. induction ctx as [|n ctx IH]; intros l E; cbn [step_nodes].
  - intros [= <-] x. split; [intros []|intros [? [[] _]]].
  - destruct (step_node s nm size c n) as [l1|] eqn:S1; cbn [bind]; [|discriminate]. destruct (step_nodes s nm size c ctx) as [l2|] eqn:S2; cbn [bind]; [|discriminate].
    intros [= <-] x. rewrite in_app_iff. destruct (step_node_ok st c n l1 (E n ltac:(now left)) C HH S1) as [M1 _]. rewrite M1, (IH l2 ltac:(intros; apply E; now right) eq_refl x).
    split; [intros [H|[m [I H]]]; [exists n; cbn; auto|exists m; cbn; auto]|intros [m [[<-|I] H]]; [auto|right; eauto]].
Qed.
Lemma compile_steps_cons st sts cs : compile_steps namespaces (st :: sts) = Ok cs -> exists c cs', cs = c :: cs' /\ compile_step namespaces st = Ok c /\ compile_steps namespaces sts = Ok cs'.
Proof.
  cbn [compile_steps]. destruct (compile_step namespaces st) as [c|]; cbn [bind]; [|discriminate]. destruct (compile_steps namespaces sts) as [cs'|]; cbn [bind]; [|discriminate].
  intros [= <-]. eauto.
Qed.
Lemma iterate_ok : forall sts cs ctx l, compile_steps namespaces sts = Ok cs -> Forall (fun st => Forall handled (ls_preds st)) sts ->
  (forall n, In n ctx -> exists_node s n) -> iterate s nm size cs ctx = Ok l ->
  forall x, In x l <-> exists n, In n ctx /\ reached namespaces s nm sts n x.
Proof.
  induction sts as [|st sts IH]; intros cs ctx l C HH E.
  - injection C as <-. intros [= <-] x. split; [intros I; exists x; split; [exact I|constructor]|intros [n [I R]]; inversion R; subst; exact I].
  - destruct (compile_steps_cons _ _ _ C) as [c [cs' [-> [C1 C2]]]]. inversion HH as [|? ? H1 H2]; subst. cbn [iterate].
    destruct (step_nodes s nm size c ctx) as [m|] eqn:S1; cbn [bind]; [|discriminate]. intros IT x. pose proof (step_nodes_ok st c C1 H1 ctx m E S1) as M.
    rewrite (IH cs' m l C2 H2); [| |exact IT].
    + split.
      * intros [y [Y R]]. apply M in Y. destruct Y as [n [N SF]]. exists n. split; [exact N|]. econstructor; eauto.
      * intros [n [N R]]. inversion R as [|? ? ? y ? SF R']; subst. exists y. split; [apply M; eauto|exact R'].
    + intros y Y. apply M in Y. destruct Y as [n [N SF]]. eapply step_from_tree; [|exact SF]. auto.
Qed.

(** ** Errors *)
Definition succeeds {A} (r : result A) : Prop := exists v, r = Ok v.
Lemma apply_selector_total e p l : predicate_init e = Ok p -> callable p = true -> never_fails e -> succeeds (apply_selector size p l).
Proof.
  assert (forall e z, (forall n p z, exists v, e n p z = Ok v) -> forall l q, succeeds (number_loop e z q l)) as HN.
  { intros e0 z H. induction l0 as [|x l0 IH]; intros q; [eexists; reflexivity|]. cbn [number_loop]. destruct (H x q z) as [v ->]. cbn [bind]. destruct (IH (q + 1)%Z) as [r ->]. cbn [bind]. eexists; reflexivity. }
  assert (forall e z, (forall n p z, exists v, e n p z = Ok v) -> forall l q, succeeds (boolean_loop e z q l)) as HB.
  { intros e0 z H. induction l0 as [|x l0 IH]; intros q; [eexists; reflexivity|]. cbn [boolean_loop]. destruct (H x q z) as [v ->]. cbn [bind]. destruct (IH (q + 1)%Z) as [r ->]. cbn [bind]. eexists; reflexivity. }
  assert (forall e z, (forall n p z, exists v, e n p z = Ok v) -> forall l q, succeeds (select_loop e z q l)) as HS.
  { intros e0 z H. induction l0 as [|x l0 IH]; intros q; [eexists; reflexivity|]. cbn [select_loop]. destruct (H x q z) as [v ->]. cbn [bind]. destruct (IH (q + 1)%Z) as [r ->]. cbn [bind]. eexists; reflexivity. }
  assert (forall k, literal_select k = Ok p -> callable p = true -> succeeds (apply_selector size p l)) as HL.
  { intros k. unfold literal_select. destruct k; try discriminate. cbv zeta. destruct (_ && _); [|intros [= <-]; discriminate]. destruct (_ <=? _)%Z; [|discriminate]. intros [= <-] _. eexists; reflexivity. }
  intros P C N. destruct e; cbn [predicate_init never_fails] in *; try (eapply HL; eassumption); try discriminate; injection P as <-; cbn [apply_selector]; try (eexists; reflexivity); auto.
Qed.
Lemma apply_selectors_total : forall es ps, init_all es = Ok ps -> forallb callable ps = true -> Forall never_fails es -> forall l, succeeds (apply_selectors size ps l).
Proof.
  induction es as [|e es IH]; intros ps; cbn [init_all]; [intros [= <-] _ _ l; eexists; reflexivity|].
  destruct (predicate_init e) as [p|] eqn:P; cbn [bind]; [|discriminate]. destruct (init_all es) as [ps'|] eqn:PS; cbn [bind]; [|discriminate]. intros [= <-]. cbn [forallb].
  intros C N l. apply andb_prop in C. destruct C as [C1 C2]. inversion N; subst. cbn [apply_selectors]. destruct (apply_selector_total e p l P C1) as [m ->]; [assumption|]. cbn [bind]. eauto.
Qed.
Lemma step_node_total st c n : exists_node s n -> compile_step namespaces st = Ok c -> Forall never_fails (ls_preds st) -> supported s (ls_axis st) n -> succeeds (step_node s nm size c n).
Proof.
  intros E C N SU. destruct (compile_step_inv _ _ _ C) as [EA [_ [EP EC]]]. unfold step_node. rewrite EA. destruct (select_ok s (ls_axis st) n F E SU) as [l [-> _]]. cbn [bind].
  destruct (apply_selectors_total _ _ EP EC N (apply_filter s nm (si_filter c) l)) as [r ->]. cbn [bind]. eexists; reflexivity.
Qed.
Lemma step_nodes_succeeds c : forall ctx, succeeds (step_nodes s nm size c ctx) <-> forall n, In n ctx -> succeeds (step_node s nm size c n).
Proof.
  induction ctx as [|n ctx IH]; cbn [step_nodes]; [split; [intros _ n []|intros _; eexists; reflexivity]|]. split.
  - intros [v H]. destruct (step_node s nm size c n) as [l1|] eqn:S1; cbn [bind] in H; [|discriminate]. destruct (step_nodes s nm size c ctx) as [l2|] eqn:S2; cbn [bind] in H; [|discriminate].
    intros m [<-|I]; [rewrite S1; eexists; reflexivity|]. apply IH; [eexists; reflexivity|exact I].
  - intros H. destruct (H n ltac:(now left)) as [l1 ->]. cbn [bind]. destruct (proj2 IH) as [l2 ->]; [intros; apply H; now right|]. cbn [bind]. eexists; reflexivity.
Qed.
Lemma step_nodes_in c : forall ctx l, step_nodes s nm size c ctx = Ok l -> forall x, In x l <-> exists n r, In n ctx /\ step_node s nm size c n = Ok r /\ In x r.
Proof.
  induction ctx as [|n ctx IH]; intros l; cbn [step_nodes]; [intros [= <-] x; split; [intros []|intros [? [? [[] _]]]]|].
  destruct (step_node s nm size c n) as [l1|] eqn:S1; cbn [bind]; [|discriminate]. destruct (step_nodes s nm size c ctx) as [l2|] eqn:S2; cbn [bind]; [|discriminate].
  intros [= <-] x. rewrite in_app_iff, (IH l2 eq_refl x). split.
  - intros [I|[m [r [I1 I2]]]]; [exists n, l1; cbn; auto|exists m, r; cbn; tauto].
  - intros [m [r [[<-|I] [R X]]]]; [rewrite S1 in R; injection R as <-; auto|right; eauto].
Qed.
(** The selected nodes depend only on which nodes the context contains. *)
Lemma iterate_same : forall cs a b, (forall x, In x a <-> In x b) -> same_selection (iterate s nm size cs a) (iterate s nm size cs b).
Proof.
  induction cs as [|c cs IH]; intros a b E; cbn [iterate]; [exact E|].
  assert (succeeds (step_nodes s nm size c a) <-> succeeds (step_nodes s nm size c b)) as ES.
  { rewrite !step_nodes_succeeds. split; intros H n I; apply H, E, I. }
  destruct (step_nodes s nm size c a) as [la|ea] eqn:SA, (step_nodes s nm size c b) as [lb|eb] eqn:SB; cbn [bind same_selection].
  - apply IH. intros x. rewrite (step_nodes_in c a la SA), (step_nodes_in c b lb SB). split; intros [n [r [I R]]]; exists n, r; (split; [apply E, I|exact R]).
  - destruct (proj1 ES) as [v V]; [eexists; reflexivity|discriminate].
  - destruct (proj2 ES) as [v V]; [eexists; reflexivity|discriminate].
  - exact I.
Qed.
Lemma iterate_total : forall sts cs ctx, compile_steps namespaces sts = Ok cs -> Forall (fun st => Forall handled (ls_preds st) /\ Forall never_fails (ls_preds st)) sts ->
  (forall n, In n ctx -> exists_node s n) ->
  Forall (fun st => match ls_axis st with Following | Preceding | PrecedingSibling => False | _ => True end) sts ->
  succeeds (iterate s nm size cs ctx).
Proof.
  induction sts as [|st sts IH]; intros cs ctx C HH E AX.
  - injection C as <-. eexists; reflexivity.
  - destruct (compile_steps_cons _ _ _ C) as [c [cs' [-> [C1 C2]]]]. inversion HH as [|? ? [H1 H1'] H2]; inversion AX as [|? ? A1 A2]; subst. cbn [iterate].
    assert (succeeds (step_nodes s nm size c ctx)) as [m M].
    { apply step_nodes_succeeds. intros n I. eapply step_node_total; eauto. intros _. exact A1. }
    rewrite M. cbn [bind]. apply IH; auto. intros y Y. apply (step_nodes_ok st c C1 H1 ctx m E M) in Y. destruct Y as [n [N SF]]. eapply step_from_tree; [|exact SF]. auto.
Qed.

Lemma iterate_app : forall a b ctx, iterate s nm size (a ++ b) ctx = (do l <- iterate s nm size a ctx ; iterate s nm size b l).
Proof.
  induction a as [|c a IH]; intros b ctx; [reflexivity|]. cbn [app iterate]. destruct (step_nodes s nm size c ctx); cbn [bind]; [apply IH|reflexivity].
Qed.
Lemma compile_app : forall a b, compile_steps namespaces (a ++ b) = (do x <- compile_steps namespaces a ; do y <- compile_steps namespaces b ; Ok (x ++ y)).
Proof.
  induction a as [|st a IH]; intros b; cbn [app compile_steps].
  - cbn [bind]. destruct (compile_steps namespaces b); reflexivity.
  - rewrite IH. destruct (compile_step namespaces st); cbn [bind]; [|reflexivity]. destruct (compile_steps namespaces a); cbn [bind]; [|reflexivity].
    destruct (compile_steps namespaces b); reflexivity.
Qed.

(** ** No duplicates *)
Definition antichain (l : list nat) : Prop := forall x y, In x l -> In y l -> ~ above (parent_of s) x y.
Lemma step_nodes_nodup st c : compile_step namespaces st = Ok c -> Forall handled (ls_preds st) ->
  forall ctx l, (forall n, In n ctx -> exists_node s n) -> NoDup ctx ->
  (forall n m x, In n ctx -> In m ctx -> on_axis s (ls_axis st) n x -> on_axis s (ls_axis st) m x -> n = m) ->
  step_nodes s nm size c ctx = Ok l -> NoDup l.
Proof.
  intros C HH. induction ctx as [|n ctx IH]; intros l E ND INJ; cbn [step_nodes]; [intros [= <-]; constructor|].
  destruct (step_node s nm size c n) as [l1|] eqn:S1; cbn [bind]; [|discriminate]. destruct (step_nodes s nm size c ctx) as [l2|] eqn:S2; cbn [bind]; [|discriminate].
  intros [= <-]. inversion ND as [|? ? NI ND']; subst. destruct (step_node_ok st c n l1 (E n ltac:(now left)) C HH S1) as [M1 SS1].
  assert (forall m, In m ctx -> exists_node s m) as E' by (intros; apply E; now right).
  pose proof (step_nodes_ok st c C HH ctx l2 E' S2) as M2.
  assert (NoDup l2) as ND2 by (apply (IH l2); auto; intros a b x A B; apply INJ; now right).
  pose proof (sorted_nodup s l1 F SS1) as ND1. clear SS1 S1.
  assert (forall x, In x l1 -> In x l2 -> False) as DJ.
  { intros x X1 X2. apply M1 in X1. apply M2 in X2. destruct X2 as [m [I X2]]. apply step_from_axis in X1, X2. apply NI.
    rewrite (INJ n m x); [exact I|now left|now right|apply X1|apply X2]. }
  clear M1. induction l1 as [|x l1 IH1]; [exact ND2|]. inversion ND1; subst. cbn. constructor.
  - rewrite in_app_iff. intros [I|I]; [contradiction|exact (DJ x ltac:(now left) I)].
  - apply IH1; [assumption|]. intros y Y. apply DJ. now right.
Qed.
Lemma above_chain a b x : above_or_self (parent_of s) a x -> above_or_self (parent_of s) b x -> a = b \/ above (parent_of s) a b \/ above (parent_of s) b a.
Proof.
  intros [->|HA] HB; [destruct HB as [->|HB]; auto|]. induction HA as [x P|x p P HA IH].
  - destruct HB as [->|HB]; [right; left; now apply above_parent|]. apply (aos_parent _ _ _ P) in HB. destruct HB as [->|HB]; auto.
  - destruct HB as [->|HB]; [right; left; eapply above_up; eauto|]. apply IH. exact (aos_parent _ _ _ P _ HB).
Qed.
Lemma narrow_axis a n m x : match a with Self | Child | Attribute => True | _ => False end -> on_axis s a n x -> on_axis s a m x -> n = m.
Proof. destruct a; try contradiction; cbn; intros _ H1 H2; destruct H1, H2; congruence. Qed.
Lemma descendant_antichain a n m x ctx : match a with Descendant | DescendantOrSelf => True | _ => False end -> antichain ctx -> In n ctx -> In m ctx -> on_axis s a n x -> on_axis s a m x -> n = m.
Proof.
  intros A AC N M H1 H2.
  assert (above_or_self (parent_of s) n x /\ above_or_self (parent_of s) m x) as [X1 X2].
  { destruct a; try contradiction; cbn in H1, H2; split; [destruct H1|destruct H2|destruct H1 as [->|[]]|destruct H2 as [->|[]]]; try (left; reflexivity); right; assumption. }
  destruct (above_chain n m x X1 X2) as [E|[E|E]]; [exact E| |]; exfalso; [exact (AC n m N M E)|exact (AC m n M N E)].
Qed.
Lemma narrow_antichain a ctx l : match a with Self | Child | Attribute => True | _ => False end -> antichain ctx -> (forall x, In x l -> exists n, In n ctx /\ on_axis s a n x) -> antichain l.
Proof.
  intros A AC H x y X Y AB. destruct (H x X) as [n [N O1]], (H y Y) as [m [M O2]]. destruct a; try contradiction; cbn in O1, O2.
  - destruct O1 as [_ O1]. exact (above_container s x y F AB O1).
  - destruct O1 as [P1 _], O2 as [P2 _]. apply (AC n m N M). apply (aos_parent _ _ _ P2) in AB. destruct AB as [->|AB]; [now apply above_parent|]. eapply above_trans; [apply above_parent; exact P1|exact AB].
  - subst. exact (AC n m N M AB).
Qed.
Lemma iterate_nodup : forall sts cs ctx l descended, compile_steps namespaces sts = Ok cs -> Forall (fun st => Forall handled (ls_preds st)) sts ->
  (forall n, In n ctx -> exists_node s n) -> NoDup ctx -> (descended = false -> antichain ctx) -> no_overlap descended sts -> iterate s nm size cs ctx = Ok l -> NoDup l.
Proof.
  induction sts as [|st sts IH]; intros cs ctx l d C HH E ND AC NO.
  - injection C as <-. intros [= <-]. exact ND.
  - destruct (compile_steps_cons _ _ _ C) as [c [cs' [-> [C1 C2]]]]. inversion HH as [|? ? H1 H2]; subst. cbn [iterate].
    destruct (step_nodes s nm size c ctx) as [m|] eqn:S1; cbn [bind]; [|discriminate]. pose proof (step_nodes_ok st c C1 H1 ctx m E S1) as M.
    assert (forall y, In y m -> exists_node s y) as EM.
    { intros y Y. apply M in Y. destruct Y as [n [N SF]]. eapply step_from_tree; [|exact SF]. auto. }
    assert (forall x, In x m -> exists n, In n ctx /\ on_axis s (ls_axis st) n x) as MA.
    { intros x X. apply M in X. destruct X as [n [N SF]]. exists n. split; [exact N|]. apply (step_from_axis st n x SF). }
    cbn [no_overlap] in NO.
    assert ((match ls_axis st with Self | Child | Attribute => True | _ => False end /\ no_overlap d sts) \/ (match ls_axis st with Descendant | DescendantOrSelf => True | _ => False end /\ d = false /\ no_overlap true sts)) as [[A NO']|[A [-> NO']]] by (destruct (ls_axis st); tauto).
    + apply (IH cs' m l d C2 H2 EM).
      * apply (step_nodes_nodup st c C1 H1 ctx m E ND); [|exact S1]. intros n n' x _ _. now apply narrow_axis.
      * intros D. eapply narrow_antichain; eauto.
      * exact NO'.
    + apply (IH cs' m l true C2 H2 EM).
      * apply (step_nodes_nodup st c C1 H1 ctx m E ND); [|exact S1]. intros n n' x N N' O1 O2. eapply descendant_antichain; eauto.
      * discriminate.
      * exact NO'.
Qed.

(** ** The root *)
Lemma entity_top m : kind_of s m = Some KEntity -> parent_of s m = None.
Proof.
  intros K. destruct (parent_of s m) as [p|] eqn:P; [|reflexivity]. exfalso. assert (In m (kids s p)) as I by (apply (f_link s F); split; [exact P|rewrite K; discriminate]).
  destruct (f_kind s F p m I) as [k [K' C]]. rewrite K in K'. injection K' as <-. discriminate.
Qed.
Lemma get_root_sound : forall fuel n m, get_root fuel s n = Some m -> kind_of s m = Some KEntity /\ above_or_self (parent_of s) m n.
Proof.
  induction fuel as [|f IH]; intros n m; cbn [get_root]; [discriminate|]. destruct (is_entity s n) eqn:EN.
  - intros [= <-]. split; [now apply has_kind_iff|left; reflexivity].
  - destruct (parent_of s n) as [p|] eqn:P; [|discriminate]. intros H. destruct (IH p m H) as [K A]. split; [exact K|]. right. destruct A as [->|A]; [now apply above_parent|eapply above_up; eauto].
Qed.
Lemma get_root_unique fuel n m m' : get_root fuel s n = Some m -> kind_of s m' = Some KEntity -> above_or_self (parent_of s) m' n -> m' = m.
Proof.
  intros H K A. destruct (get_root_sound fuel n m H) as [K2 A2]. destruct (above_chain m' m n A A2) as [E|[E|E]]; [exact E| |].
  - exfalso. inversion E as [? P|? ? P]; rewrite (entity_top m K2) in P; discriminate.
  - exfalso. inversion E as [? P|? ? P]; rewrite (entity_top m' K) in P; discriminate.
Qed.
Lemma aos_node m n : exists_node s n -> above_or_self (parent_of s) m n -> exists_node s m.
Proof. intros E [->|A]; [exact E|]. destruct (before_exists s m n F (before_above s m n A)). assumption. Qed.
Lemma get_root_ex : forall fuel n r d, top fuel s n = Some (r, d) -> kind_of s r = Some KEntity -> exists m, get_root fuel s n = Some m.
Proof.
  induction fuel as [|f IH]; intros n r d; cbn [top get_root]; [discriminate|]. destruct (is_entity s n) eqn:EN; [eauto|].
  destruct (parent_of s n) as [p|] eqn:P.
  - destruct (top f s p) as [[r' d']|] eqn:T; cbn; [|discriminate]. intros [= <- <-]. eauto.
  - intros [= <- <-] K. apply has_kind_iff in K. unfold is_entity in EN. congruence.
Qed.

Lemma path_iterable_ok p n l : exists_node s n -> Forall (fun st => Forall handled (ls_preds st)) (lp_steps p) -> path_iterable namespaces s nm size p n = Ok l ->
  (forall x, In x l <-> denotes namespaces s nm p n x) /\ one_tree s l.
Proof.
  intros E HH. unfold path_iterable, denotes, start. destruct (compile_steps namespaces (lp_steps p)) as [cs|] eqn:C; cbn [bind]; [|discriminate].
  assert (forall m, exists_node s m -> iterate s nm size cs [m] = Ok l -> (forall x, In x l <-> reached namespaces s nm (lp_steps p) m x) /\ one_tree s l) as HI.
  { intros m EM IT. assert (forall x, In x l <-> reached namespaces s nm (lp_steps p) m x) as M.
    { intros x. rewrite (iterate_ok (lp_steps p) cs [m] l C HH ltac:(intros y [<-|[]]; exact EM) IT x). split; [intros [y [[<-|[]] R]]; exact R|intros R; exists m; cbn; auto]. }
    split; [exact M|]. split.
    - intros x X. apply M in X. eapply reached_tree; eauto.
    - intros x y X Y. apply M in X, Y. destruct (reached_tree _ _ _ X EM) as [_ TX]. destruct (reached_tree _ _ _ Y EM) as [_ TY].
      eapply same_tree_trans; [exact F|exact EM| |exact TY]. destruct TX as [t [T1 T2]]. exists t. auto. }
  destruct (lp_absolute p).
  - destruct (get_root (bound s) s n) as [m|] eqn:R; [|discriminate]. intros IT. destruct (get_root_sound _ _ _ R) as [K A]. destruct (HI m (aos_node m n E A) IT) as [M O]. split; [|exact O].
    intros x. rewrite M. split; [intros X; exists m; auto|]. intros [m' [[K' A'] X]]. now rewrite (get_root_unique _ _ _ _ R K' A') in X.
  - intros IT. destruct (HI n E IT) as [M O]. split; [|exact O]. intros x. rewrite M. split; [intros X; exists n; auto|intros [m' [-> X]]; exact X].
Qed.
End Step.

(** ** The abbreviation '//' *)
Section Short.
Variables (namespaces : str -> option str) (s : store) (nm : names) (size : nat).
Hypothesis F : forest s.

Lemma skip_in : forall n l x, In x (skip_nodes n l) -> In x l.
Proof. induction n as [|n IH]; intros l x; cbn [skip_nodes]; [auto|]. destruct l; [auto|]. intros H. right. auto. Qed.
Lemma slice_loop_in k : forall l p x, In x (slice_loop p k l) -> In x l.
Proof. induction l as [|y l IH]; intros p x; cbn [slice_loop]; [auto|]. destruct (int_gt p k); intros H; right; eauto. Qed.
Lemma apply_selector_in p l r : apply_selector size p l = Ok r -> forall x, In x r -> In x l.
Proof.
  assert (forall e z l q r, number_loop e z q l = Ok r -> forall x, In x r -> In x l) as HN.
  { intros e z. induction l0 as [|y l0 IH]; intros q r0; cbn [number_loop]; [intros [= <-]; auto|]. destruct (e y q z) as [v|]; cbn [bind]; [|discriminate].
    destruct (number_loop e z (q + 1) l0) as [r1|] eqn:R; cbn [bind]; [|discriminate]. intros [= <-] x. destruct (int_eq q v); [intros [<-|I]; [now left|]|intros I]; right; eauto. }
  assert (forall e z l q r, boolean_loop e z q l = Ok r -> forall x, In x r -> In x l) as HB.
  { intros e z. induction l0 as [|y l0 IH]; intros q r0; cbn [boolean_loop]; [intros [= <-]; auto|]. destruct (e y q z) as [v|]; cbn [bind]; [|discriminate].
    destruct (boolean_loop e z (q + 1) l0) as [r1|] eqn:R; cbn [bind]; [|discriminate]. intros [= <-] x. destruct v; [intros [<-|I]; [now left|]|intros I]; right; eauto. }
  assert (forall e z l q r, select_loop e z q l = Ok r -> forall x, In x r -> In x l) as HS.
  { intros e z. induction l0 as [|y l0 IH]; intros q r0; cbn [select_loop]; [intros [= <-]; auto|]. destruct (e y q z) as [v|]; cbn [bind]; [|discriminate].
    destruct (select_loop e z (q + 1) l0) as [r1|] eqn:R; cbn [bind]; [|discriminate]. intros [= <-] x. destruct (match v with VNumber k => int_eq q k | VOther b => b end); [intros [<-|I]; [now left|]|intros I]; right; eauto. }
  destruct p as [k| |a k|[] e|e|e]; cbn [apply_selector]; try discriminate; try (intros H x X; eauto; fail).
  - intros [= <-] x. unfold position_filter. pose proof (skip_in (Z.to_nat (k - 1)) l) as H. destruct (skip_nodes _ l) as [|y rest]; [intros []|]. intros [<-|[]]. apply H. now left.
  - intros [= <-] x. unfold slice. destruct (int_gt a k); [auto|apply slice_loop_in].
Qed.
Lemma apply_selectors_in : forall ps l r, apply_selectors size ps l = Ok r -> forall x, In x r -> In x l.
Proof.
  induction ps as [|p ps IH]; intros l r; cbn [apply_selectors]; [intros [= <-]; auto|]. destruct (apply_selector size p l) as [m|] eqn:E; cbn [bind]; [|discriminate].
  intros H x X. eapply apply_selector_in; [exact E|]. eapply IH; eauto.
Qed.
Lemma step_node_exists c n l : exists_node s n -> step_node s nm size c n = Ok l -> forall x, In x l -> exists_node s x.
Proof.
  intros E. unfold step_node. destruct (select (si_axis c) s n) as [l0|] eqn:S0; cbn [bind]; [|discriminate].
  destruct (apply_selectors size (si_preds c) _) as [r|] eqn:R; cbn [bind]; [|discriminate]. intros [= <-] x X.
  assert (In x r) as X1 by (destruct (reverse (si_axis c)); [now apply in_rev|exact X]). apply (apply_selectors_in _ _ _ R) in X1. apply (sub_in _ _ _ (filter_sub s nm (si_filter c) l0)) in X1.
  apply (proj1 (select_sound s _ n l0 F E S0)) in X1. apply (on_axis_tree s F _ _ _ E X1).
Qed.
Lemma iterate_exists : forall cs ctx l, (forall n, In n ctx -> exists_node s n) -> iterate s nm size cs ctx = Ok l -> forall x, In x l -> exists_node s x.
Proof.
  induction cs as [|c cs IH]; intros ctx l E; cbn [iterate]; [intros [= <-]; exact E|]. destruct (step_nodes s nm size c ctx) as [m|] eqn:S1; cbn [bind]; [|discriminate].
  intros H. apply (IH m l); [|exact H]. intros y Y. apply (step_nodes_in s nm size c ctx m S1) in Y. destruct Y as [n [r [N [R X]]]]. eapply step_node_exists; [|exact R|exact X]. auto.
Qed.
Lemma iterate_tree t : forall cs ctx l, exists_node s t -> (forall n, In n ctx -> exists_node s n /\ same_tree s t n) -> iterate s nm size cs ctx = Ok l -> forall x, In x l -> exists_node s x /\ same_tree s t x.
Proof.
  intros cs ctx l ET. revert ctx l. induction cs as [|c cs IH]; intros ctx l E; cbn [iterate]; [intros [= <-]; exact E|]. destruct (step_nodes s nm size c ctx) as [m|] eqn:S1; cbn [bind]; [|discriminate].
  intros H. apply (IH m l); [|exact H]. intros y Y. apply (step_nodes_in s nm size c ctx m S1) in Y. destruct Y as [n [r [N [R X]]]]. destruct (E n N) as [EN TN].
  unfold step_node in R. destruct (select (si_axis c) s n) as [l0|] eqn:S0; cbn [bind] in R; [|discriminate].
  destruct (apply_selectors size (si_preds c) _) as [r1|] eqn:R1; cbn [bind] in R; [|discriminate]. injection R as <-.
  assert (In y r1) as X1 by (destruct (reverse (si_axis c)); [now apply in_rev|exact X]). apply (apply_selectors_in _ _ _ R1) in X1. apply (sub_in _ _ _ (filter_sub s nm (si_filter c) l0)) in X1.
  apply (proj1 (select_sound s _ n l0 F EN S0)) in X1. destruct (on_axis_tree s F _ _ _ EN X1) as [EY TY]. split; [exact EY|]. exact (same_tree_trans s t n y F EN TN TY).
Qed.
Lemma path_tree p n l : exists_node s n -> path_iterable namespaces s nm size p n = Ok l -> forall x, In x l -> exists_node s x /\ same_tree s n x.
Proof.
  intros E. unfold path_iterable. destruct (compile_steps namespaces (lp_steps p)) as [cs|]; cbn [bind]; [|discriminate]. destruct (lp_absolute p).
  - destruct (get_root (bound s) s n) as [m|] eqn:R; [|discriminate]. destruct (get_root_sound s _ _ _ R) as [_ A]. pose proof (aos_node s F m n E A) as EM. apply iterate_tree; [exact E|].
    intros y [<-|[]]. split; [exact EM|]. exists m. split; [exact A|left; reflexivity].
  - apply iterate_tree; [exact E|]. intros y [<-|[]]. split; [exact E|]. exists n. split; left; reflexivity.
Qed.

Lemma descendant_split n x : exists_node s n -> (on_axis s Descendant n x <-> exists m, on_axis s DescendantOrSelf n m /\ on_axis s Child m x).
Proof.
  intros E. cbn [on_axis]. split.
  - intros [A NA]. inversion A as [? P|? p P A']; subst.
    + exists n. auto.
    + exists p. split; [right|auto]. split; [exact A'|]. exact (above_container s p x F (above_parent _ _ _ P)).
  - intros [m [D [P NA]]]. split; [|exact NA]. destruct D as [->|[A _]]; [now apply above_parent|]. eapply above_up; [exact P|exact A].
Qed.
Definition short_step (t : ntest) : lstep := {| ls_axis := Descendant; ls_test := t; ls_preds := [] |}.
Definition child_step (t : ntest) : lstep := {| ls_axis := Child; ls_test := t; ls_preds := [] |}.
Lemma plain_step st c ctx : compile_step namespaces st = Ok c -> ls_preds st = [] -> (forall n, In n ctx -> exists_node s n) ->
  match ls_axis st with Following | Preceding | PrecedingSibling => False | _ => True end ->
  exists l, step_nodes s nm size c ctx = Ok l /\ forall x, In x l <-> exists n, In n ctx /\ on_axis s (ls_axis st) n x /\ passes namespaces s nm (ls_axis st) (ls_test st) x.
Proof.
  intros C P E A. assert (succeeds (step_nodes s nm size c ctx)) as [l L].
  { apply step_nodes_succeeds. intros n I. eapply step_node_total; eauto; [rewrite P; constructor|]. intros _. exact A. }
  exists l. split; [exact L|]. intros x. rewrite (step_nodes_in s nm size c ctx l L).
  destruct (compile_step_inv _ _ _ C) as [EA [EF [EP _]]]. rewrite P in EP. injection EP as EP.
  assert (forall n, In n ctx -> exists r, step_node s nm size c n = Ok r /\ forall x, In x r <-> on_axis s (ls_axis st) n x /\ passes namespaces s nm (ls_axis st) (ls_test st) x) as H.
  { intros n N. unfold step_node. rewrite EA, <- EP. destruct (select_ok s (ls_axis st) n F (E n N)) as [l0 [L0 [M _]]]; [intros _; exact A|]. rewrite L0. cbn [bind apply_selectors].
    eexists. split; [reflexivity|]. intros y. rewrite <- M, <- (apply_filter_in namespaces s nm (ls_axis st) (ls_test st) _ l0 y EF). destruct (reverse (ls_axis st)); [symmetry; apply in_rev|reflexivity]. }
  split.
  - intros [n [r [N [R X]]]]. destruct (H n N) as [r' [R' M]]. rewrite R in R'. injection R' as <-. exists n. split; [exact N|]. now apply M.
  - intros [n [N X]]. destruct (H n N) as [r [R M]]. exists n, r. split; [exact N|]. split; [exact R|]. now apply M.
Qed.
Lemma short_steps t rest : forall cs cs' ctx, compile_steps namespaces (short_step t :: rest) = Ok cs -> compile_steps namespaces (descendant_or_self_node :: child_step t :: rest) = Ok cs' ->
  (forall n, In n ctx -> exists_node s n) -> same_selection (iterate s nm size cs ctx) (iterate s nm size cs' ctx).
Proof.
  intros cs cs' ctx H1 H2 E. destruct (compile_steps_cons _ _ _ _ H1) as [c1 [d1 [-> [C1 D1]]]]. destruct (compile_steps_cons _ _ _ _ H2) as [c2 [d2 [-> [C2 D2]]]].
  destruct (compile_steps_cons _ _ _ _ D2) as [c3 [d3 [-> [C3 D3]]]]. rewrite D1 in D3. injection D3 as <-. cbn [iterate].
  destruct (plain_step _ c1 ctx C1 eq_refl E I) as [l1 [L1 M1]]. destruct (plain_step _ c2 ctx C2 eq_refl E I) as [l2 [L2 M2]]. rewrite L1, L2. cbn [bind].
  assert (forall n, In n l2 -> exists_node s n) as E2.
  { intros y Y. apply M2 in Y. destruct Y as [n [N [Y _]]]. eapply (on_axis_tree s F); [|exact Y]. auto. }
  destruct (plain_step _ c3 l2 C3 eq_refl E2 I) as [l3 [L3 M3]]. rewrite L3. cbn [bind]. apply iterate_same. intros x. rewrite M1, M3. cbn [ls_axis ls_test short_step child_step].
  assert (passes namespaces s nm Descendant t x <-> passes namespaces s nm Child t x) as PE by (destruct t; reflexivity). split.
  - intros [n [N [A P]]]. apply descendant_split in A; [|auto]. destruct A as [m [A1 A2]]. apply PE in P. exists m. split; [|auto]. apply M2. exists n. cbn. auto.
  - intros [m [Y [A P]]]. apply M2 in Y. destruct Y as [n [N [A1 _]]]. exists n. split; [exact N|]. split; [|apply PE; exact P]. apply descendant_split; [auto|]. exists m. auto.
Qed.
Lemma short_compile t rest : match compile_steps namespaces (short_step t :: rest), compile_steps namespaces (descendant_or_self_node :: child_step t :: rest) with
  | Ok _, Ok _ | Err _, Err _ => True | _, _ => False end.
Proof.
  cbn [compile_steps]. unfold compile_step. cbn [ls_preds ls_test ls_axis short_step child_step descendant_or_self_node init_all bind get_filter forallb].
  change (principal_type Descendant) with KElement. change (principal_type Child) with KElement. destruct (get_filter namespaces KElement t); cbn [bind]; [|exact I]. destruct (compile_steps namespaces rest); cbn [bind]; exact I.
Qed.
Lemma short_path pre t rest ctx : (forall n, In n ctx -> exists_node s n) ->
  same_selection (do cs <- compile_steps namespaces (pre ++ short_step t :: rest) ; iterate s nm size cs ctx)
                 (do cs <- compile_steps namespaces (pre ++ descendant_or_self_node :: child_step t :: rest) ; iterate s nm size cs ctx).
Proof.
  intros E. rewrite !compile_app. destruct (compile_steps namespaces pre) as [cp|]; cbn [bind]; [|exact I]. pose proof (short_compile t rest) as SC.
  destruct (compile_steps namespaces (short_step t :: rest)) as [a|] eqn:A, (compile_steps namespaces (descendant_or_self_node :: child_step t :: rest)) as [b|] eqn:B; try contradiction; cbn [bind]; [|exact I].
  rewrite !iterate_app. destruct (iterate s nm size cp ctx) as [l|] eqn:L; cbn [bind]; [|exact I]. eapply short_steps; eauto. intros n N. eapply iterate_exists; eauto.
Qed.
End Short.
