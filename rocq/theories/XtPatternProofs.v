(** * Proofs about XSLT patterns *)
From Coq Require Import NArith ZArith QArith String List Bool Lia Arith Sorted Permutation.
From Verif Require Import PyStr PyErr DomModel DomSpec DomCells DomInv DomOps DomStep DomOrder DomProps XpModel XpSpec XpTree XpAxes XpOrder XpSelect XpProps XpPath XpPathSpec XpPathSteps XpPathOrder XpPathEval XtPattern XtPatternSpec.
Import ListNotations.
Local Open Scope nat_scope.

Definition kind_eq_dec (a b : kind) : {a = b} + {a <> b}.
Proof. decide equality. Defined.
Definition str_eq_dec : forall a b : str, {a = b} + {a <> b} := list_eq_dec N.eq_dec.
Definition ostr_eq_dec (a b : option str) : {a = b} + {a <> b}.
Proof. decide equality. apply str_eq_dec. Defined.

Section Pattern.
Variables (namespaces : str -> option str) (s : store) (nm : names) (size : nat).
Hypothesis F : forest s.
Hypothesis PN : proper_names nm.

Definition axis_of (attr : bool) : axis := if attr then Attribute else Child.
Definition kind_for (attr : bool) : kind := if attr then KAttr else KElement.
Lemma falsy_none x : falsy_ns (nm_ns nm x) = true <-> nm_ns nm x = None.
Proof. unfold falsy_ns. specialize (PN x). destruct (nm_ns nm x) as [[|c u]|]; split; congruence. Qed.

Lemma test_ok attr t x b : good_test attr t -> test_match namespaces s nm t x (Some (kind_for attr)) = Ok b -> (b = true <-> passes namespaces s nm (axis_of attr) t x).
Proof.
  assert (principal_kind (axis_of attr) = kind_for attr) as PK by (destruct attr; reflexivity).
  pose proof (has_kind_iff s (kind_for attr) x) as HK.
  intros G. destruct t as [| | |target| |name|prefix|prefix name]; cbn [good_test] in G; try contradiction; cbn [test_match passes is_principal]; rewrite ?PK.
  - intros [= <-]. tauto.
  - intros [= <-]. apply has_kind_iff.
  - intros [= <-]. apply has_kind_iff.
  - intros [= <-]. exact HK.
  - intros [= <-]. destruct (has_kind s (kind_for attr) x); cbn [andb]; [|split; [discriminate|intros [K _]; now apply HK in K]].
    pose proof (falsy_none x) as FN. destruct (falsy_ns (nm_ns nm x)).
    + rewrite str_eqb_eq. tauto.
    + split; [discriminate|]. intros [_ [N _]]. apply FN in N. discriminate.
  - destruct (has_kind s (kind_for attr) x); [|intros [= <-]; split; [discriminate|intros [K _]; now apply HK in K]].
    destruct (namespaces prefix) as [u|]; [|discriminate]. intros [= <-]. destruct (nm_ns nm x) as [v|].
    + rewrite str_eqb_eq. split; [intros ->; split; [tauto|exists u; auto]|intros [_ [w [[= <-] [= <-]]]]; reflexivity].
    + split; [discriminate|]. intros [_ [w [_ [=]]]].
  - destruct (has_kind s (kind_for attr) x); cbn [andb]; [|intros [= <-]; split; [discriminate|intros [K _]; now apply HK in K]].
    destruct (str_eqb (nm_local nm x) name) eqn:L.
    + apply str_eqb_eq in L. destruct (namespaces prefix) as [u|]; [|discriminate]. intros [= <-]. destruct (nm_ns nm x) as [v|].
      * rewrite str_eqb_eq. split; [intros ->; split; [tauto|split; [exists u; auto|exact L]]|intros [_ [[w [[= <-] [= <-]]] _]]; reflexivity].
      * split; [discriminate|]. intros [_ [[w [_ [=]]] _]].
    + intros [= <-]. split; [discriminate|]. intros [_ [_ E]]. apply str_eqb_eq in E. congruence.
Qed.
Lemma test_total attr t x : good_test attr t -> declared namespaces t -> exists b, test_match namespaces s nm t x (Some (kind_for attr)) = Ok b.
Proof.
  intros G D. destruct t; cbn in G, D; try contradiction; cbn [test_match]; try (eexists; reflexivity).
  - destruct D as [u ->]. destruct (is_principal _ _ _); eexists; reflexivity.
  - destruct D as [u ->]. destruct (is_principal _ _ _ && _); eexists; reflexivity.
Qed.

Lemma test_filter_ok attr t : good_test attr t -> forall l r, test_filter namespaces s nm t (Some (kind_for attr)) l = Ok r ->
  sub r l /\ forall y, In y r <-> In y l /\ passes namespaces s nm (axis_of attr) t y.
Proof.
  intros G. induction l as [|x l IH]; intros r; cbn [test_filter].
  - intros [= <-]. split; [apply sub_refl|]. cbn. tauto.
  - destruct (test_match namespaces s nm t x (Some (kind_for attr))) as [b|] eqn:B; cbn [bind]; [|discriminate].
    destruct (test_filter namespaces s nm t (Some (kind_for attr)) l) as [r'|] eqn:R; cbn [bind]; [|discriminate]. intros [= <-].
    destruct (IH r' eq_refl) as [SU M]. apply (test_ok attr t x b G) in B. destruct b.
    + split; [now constructor|]. intros y. cbn [In]. rewrite M. split; [intros [<-|[I P]]; [split; [now left|now apply B]|tauto]|intros [[<-|I] P]; tauto].
    + split; [now constructor|]. intros y. cbn [In]. rewrite M. split; [tauto|]. intros [[<-|I] P]; [apply B in P; discriminate|tauto].
Qed.
Lemma test_filter_total attr t : good_test attr t -> declared namespaces t -> forall l, exists r, test_filter namespaces s nm t (Some (kind_for attr)) l = Ok r.
Proof.
  intros G D. induction l as [|x l [r R]]; cbn [test_filter]; [eexists; reflexivity|]. destruct (test_total attr t x G D) as [b ->]. rewrite R. cbn. eexists; reflexivity.
Qed.

(** Sorting what is in document order changes nothing. *)
Lemma insert_last x : forall acc, (forall y, In y acc -> node_lt s x y = false) -> insert_node s x acc = acc ++ [x].
Proof. induction acc as [|y acc IH]; intros H; cbn; [reflexivity|]. rewrite (H y) by (now left). rewrite IH; [reflexivity|]. intros; apply H; now right. Qed.
Lemma later_not_lt x y : exists_node s x -> exists_node s y -> before s y x -> node_lt s x y = false.
Proof.
  intros EX EY B. assert (same_tree s x y) as T.
  { apply before_same_tree in B; [|exact F]. destruct B as [t [T1 T2]]. exists t. auto. }
  assert (x <> y) as N by (intros ->; exact (before_irrefl s y F B)).
  unfold node_lt. destruct (compare_spec s x y F EX EY T N) as [u [v [-> [M1 _]]]]. destruct (Z.ltb_spec u v) as [L|L]; [|reflexivity].
  exfalso. apply M1 in L. exact (before_asym s x y F L B).
Qed.
Lemma sort_id l : (forall x, In x l -> exists_node s x) -> StronglySorted (before s) l -> nodeset_new s l = l.
Proof.
  intros E SS. unfold nodeset_new, py_sort.
  assert (forall l acc, (forall x, In x (acc ++ l) -> exists_node s x) -> StronglySorted (before s) (acc ++ l) -> fold_left (fun acc x => insert_node s x acc) l acc = acc ++ l) as H.
  { clear l E SS. induction l as [|x l IH]; intros acc E SS; cbn [fold_left]; [now rewrite app_nil_r|].
    rewrite insert_last.
    - rewrite IH; rewrite <- app_assoc; [reflexivity|exact E|exact SS].
    - intros y Y. apply ss_app_inv in SS. destruct SS as [_ [_ SS]]. apply later_not_lt; [apply E; apply in_or_app; right; now left|apply E; apply in_or_app; now left|]. apply SS; [exact Y|now left]. }
  apply (H l []); assumption.
Qed.
Lemma predicates_filter_ok : forall es ps l r, init_all es = Ok ps -> Forall handled es -> (forall x, In x l -> exists_node s x) -> StronglySorted (before s) l ->
  predicates_filter s size ps l = Ok r -> filtered es l r.
Proof.
  induction es as [|e es IH]; intros ps l r; cbn [init_all].
  - intros [= <-] _ _ _ [= <-]. constructor.
  - destruct (predicate_init e) as [p|] eqn:P; cbn [bind]; [|discriminate]. destruct (init_all es) as [ps'|] eqn:PS; cbn [bind]; [|discriminate].
    intros [= <-] HF E SS. inversion HF; subst. cbn [predicates_filter]. destruct (apply_selector size p l) as [m|] eqn:M; cbn [bind]; [|discriminate].
    assert (kept (fun x q => XpPathSpec.holds e x q (length l)) 1 l m) as K by (eapply predicate_ok; eauto). pose proof (kept_sub _ _ _ _ K) as SM.
    rewrite sort_id; [|intros x X; apply E; eapply sub_in; eauto|eapply sub_sorted; eauto]. intros HR.
    econstructor; [exact K|]. eapply IH; eauto; [intros x X; apply E; eapply sub_in; eauto|eapply sub_sorted; eauto].
Qed.
Lemma predicates_filter_total : forall es ps l, init_all es = Ok ps -> forallb callable ps = true -> Forall never_fails es -> exists r, predicates_filter s size ps l = Ok r.
Proof.
  induction es as [|e es IH]; intros ps l; cbn [init_all]; [intros [= <-] _ _; eexists; reflexivity|].
  destruct (predicate_init e) as [p|] eqn:P; cbn [bind]; [|discriminate]. destruct (init_all es) as [ps'|] eqn:PS; cbn [bind]; [|discriminate].
  intros [= <-] C NF. cbn [forallb] in C. apply andb_prop in C. destruct C as [C1 C2]. inversion NF; subst. cbn [predicates_filter].
  destruct (apply_selector_total size e p l P C1) as [m ->]; [assumption|]. cbn [bind]. eapply IH; eauto.
Qed.
Lemma memb_in x l : memb x l = true <-> In x l.
Proof. unfold memb. rewrite existsb_exists. split; [intros [y [I E]]; apply Nat.eqb_eq in E; now subst|intros I; exists x; split; [exact I|apply Nat.eqb_refl]]. Qed.

Lemma axis_as_step p : ls_axis (as_step p) = axis_of (ps_attr p).
Proof. reflexivity. Qed.
(** node() is asked only about children. *)
Definition good_at (p : pstep) (x : nat) : Prop := ps_test p = TNode -> is_child s x.
Lemma good_axis attr t x m : good_test attr t -> (t = TNode -> is_child s x) -> parent_of s x = Some m -> passes namespaces s nm (axis_of attr) t x -> on_axis s (axis_of attr) m x.
Proof.
  intros G GA P H. destruct attr; cbn [axis_of on_axis].
  - split; [exact P|]. unfold attribute. destruct t; cbn in G; try contradiction; try discriminate G; cbn [passes axis_of principal_kind] in H; tauto.
  - split; [exact P|]. unfold attribute. destruct t; cbn in G; try contradiction; cbn [passes axis_of principal_kind] in H; intros A; try (destruct (GA eq_refl) as [_ NA]; exact (NA A)); try rewrite A in H; try discriminate H; destruct H as [H _]; discriminate H.
Qed.
(** A step from [m] leads to [x] only if [m] is the parent of [x]. *)
Lemma step_parent p m x : step_from namespaces s nm (as_step p) m x -> parent_of s x = Some m.
Proof. intros H. apply step_from_axis in H. destruct H as [H _]. cbn [as_step ls_axis] in H. destruct (ps_attr p); cbn in H; tauto. Qed.

Lemma tuple_axis p t : step_tuple p = Ok t -> pt_axis t = Some (kind_for (ps_attr p)).
Proof. unfold step_tuple. destruct (ps_preds p); [intros [= <-]; reflexivity|]. destruct (init_all _); cbn; [|discriminate]. intros [= <-]. reflexivity. Qed.

Lemma step_ok p t x m b : step_tuple p = Ok t -> good_step p -> good_at p x -> parent_of s x = Some m -> ptest_match namespaces s nm size (pt_test t) x (pt_axis t) = Ok b ->
  (b = true <-> step_from namespaces s nm (as_step p) m x).
Proof.
  intros ST [G HH] GA P. rewrite (tuple_axis p t ST). assert (exists_node s m) as EM by (eapply parent_exists; eauto).
  assert (forall l0, (forall y, In y l0 <-> on_axis s (axis_of (ps_attr p)) m y) -> in_axis_order s (axis_of (ps_attr p)) l0 -> forall l r,
    test_filter namespaces s nm (ps_test p) (Some (kind_for (ps_attr p))) l0 = Ok l -> filtered (ps_preds p) l r ->
    (In x r <-> step_from namespaces s nm (as_step p) m x)) as K.
  { intros l0 M O l r TF FL. destruct (test_filter_ok _ _ G _ _ TF) as [SU MT].
    assert (forall y, In y l <-> on_axis s (ls_axis (as_step p)) m y /\ passes namespaces s nm (ls_axis (as_step p)) (ls_test (as_step p)) y) as M1.
    { intros y. rewrite MT, M. reflexivity. }
    assert (in_axis_order s (ls_axis (as_step p)) l) as O1 by (eapply order_sub; eauto).
    split.
    - intros I. exists l, r. auto.
    - intros [l' [r' [M' [O' [FL' I]]]]]. assert (l' = l) as -> by (apply (axis_order_eq s (ls_axis (as_step p))); auto; intros y; rewrite M', M1; tauto).
      now rewrite <- (filtered_fun _ _ _ FL _ FL'). }
  unfold step_tuple in ST. destruct (ps_preds p) as [|e es] eqn:EP.
  - injection ST as <-. cbn [pt_test ptest_match]. intros TM. rewrite (test_ok _ _ _ _ G TM). split.
    + intros PA. pose proof (good_axis _ _ _ _ G GA P PA) as OA. destruct (select_ok s (axis_of (ps_attr p)) m F EM) as [l0 [_ [M O]]]; [intros _; destruct (ps_attr p); exact I|].
      assert (exists l, sub l l0 /\ forall y, In y l <-> In y l0 /\ passes namespaces s nm (axis_of (ps_attr p)) (ps_test p) y) as [l [SU ML]].
      { clear - G TM. assert (forall y, passes namespaces s nm (axis_of (ps_attr p)) (ps_test p) y \/ ~ passes namespaces s nm (axis_of (ps_attr p)) (ps_test p) y) as DEC.
        { intros y. assert (forall k, kind_of s y = Some k \/ kind_of s y <> Some k) as DK by (intros k; destruct (kind_of s y) as [k'|]; [|right; discriminate]; destruct (kind_eq_dec k' k) as [->|]; [now left|right; congruence]).
          assert (forall (u v : option str), u = v \/ u <> v) as DS by (intros u v; destruct (ostr_eq_dec u v); auto).
          assert (forall (u v : str), u = v \/ u <> v) as DN by (intros u v; destruct (str_eq_dec u v); auto).
          destruct (ps_test p) as [| | |tg| |name|prefix|prefix name]; cbn in G; try contradiction; cbn [passes]; auto.
          - destruct (DK (principal_kind (axis_of (ps_attr p)))), (DS (nm_ns nm y) None), (DN (nm_local nm y) name); tauto.
          - destruct (DK (principal_kind (axis_of (ps_attr p)))); [|tauto]. destruct (namespaces prefix) as [u|]; [|right; intros [_ [u [? _]]]; discriminate].
            destruct (DS (nm_ns nm y) (Some u)) as [E|E]; [left; split; [assumption|exists u; auto]|right; intros [_ [v [[= <-] E']]]; auto].
          - destruct (DK (principal_kind (axis_of (ps_attr p)))); [|tauto]. destruct (namespaces prefix) as [u|]; [|right; intros [_ [[u [? _]] _]]; discriminate].
            destruct (DS (nm_ns nm y) (Some u)) as [E|E]; [|right; intros [_ [[v [[= <-] E']] _]]; auto]. destruct (DN (nm_local nm y) name); [left; split; [assumption|split; [exists u; auto|assumption]]|tauto]. }
        induction l0 as [|y l0 [l [SU ML]]]; [exists []; split; [constructor|cbn; tauto]|]. destruct (DEC y) as [D|D].
        - exists (y :: l). split; [now constructor|]. intros z. cbn [In]. rewrite ML. split; [intros [<-|?]; [split; auto|tauto]|intros [[<-|?] ?]; tauto].
        - exists l. split; [now constructor|]. intros z. cbn [In]. rewrite ML. split; [tauto|]. intros [[<-|?] ?]; [contradiction|tauto]. }
      exists l, l. split; [intros y; rewrite ML, M; reflexivity|]. split; [eapply order_sub; eauto|]. split; [cbn [as_step ls_preds]; rewrite EP; constructor|]. apply ML. split; [now apply M|exact PA].
    + intros H. apply step_from_axis in H. exact (proj2 H).
  - destruct (init_all (e :: es)) as [ps|] eqn:IA; cbn [bind] in ST; [|discriminate]. injection ST as <-. cbn [pt_test ptest_match]. unfold predicated_match. rewrite P.
    assert (forall l0, (forall y, In y l0 <-> on_axis s (axis_of (ps_attr p)) m y) -> in_axis_order s (axis_of (ps_attr p)) l0 ->
      (do nodes <- test_filter namespaces s nm (ps_test p) (Some (kind_for (ps_attr p))) l0 ; do nodes <- predicates_filter s size ps nodes ; Ok (memb x nodes)) = Ok b ->
      (b = true <-> step_from namespaces s nm (as_step p) m x)) as H.
    { intros l0 M O. destruct (test_filter _ _ _ _ _ l0) as [l|] eqn:TF; cbn [bind]; [|discriminate]. destruct (predicates_filter s size ps l) as [r|] eqn:PF; cbn [bind]; [|discriminate]. intros [= <-].
      rewrite memb_in. apply (K l0 M O l r TF). destruct (test_filter_ok _ _ G _ _ TF) as [SU _]. apply (predicates_filter_ok (e :: es) ps l r IA HH); [| |exact PF].
      - intros y Y. apply (sub_in _ _ _ SU), M in Y. eapply (on_axis_tree s F); eauto.
      - eapply sub_sorted; [exact SU|]. unfold in_axis_order in O. destruct (ps_attr p); exact O. }
    destruct (ps_attr p); cbn [kind_for axis_of] in *.
    + destruct (is_element s m) eqn:EL; [|discriminate]. unfold attribute_axis. rewrite EL. cbn [bind].
      assert (select Attribute s m = Ok (match get s m with Some n => n_attrs n | None => [] end)) as SA by (cbn; unfold attribute_axis; rewrite EL; reflexivity).
      destruct (select_sound s Attribute m _ F EM SA) as [M O]. apply H; assumption.
    + rewrite (f_read s F m EM). cbn [bind]. pose proof (child_axis_ok s m F EM) as SC. destruct (select_sound s Child m _ F EM SC) as [M O]. apply H; assumption.
Qed.
(** No good step matches a document. *)
Lemma step_top p t x b : step_tuple p = Ok t -> good_step p -> good_at p x -> parent_of s x = None -> kind_of s x = Some KEntity -> ptest_match namespaces s nm size (pt_test t) x (pt_axis t) = Ok b -> b = false.
Proof.
  intros ST [G _] GA P K. rewrite (tuple_axis p t ST). unfold step_tuple in ST. destruct (ps_preds p) as [|e es].
  - injection ST as <-. cbn [pt_test ptest_match]. intros TM. destruct b; [|reflexivity]. apply (test_ok _ _ _ _ G) in TM. destruct TM as [TM _]. specialize (TM eq_refl).
    unfold good_at in GA. destruct (ps_test p); cbn in G; try contradiction; try (destruct (GA eq_refl) as [[q Q] _]; congruence); cbn [passes] in TM; rewrite K in TM; destruct (ps_attr p); cbn in TM; try discriminate TM; destruct TM as [TM _]; discriminate TM.
  - destruct (init_all (e :: es)) as [ps|]; cbn [bind] in ST; [|discriminate]. injection ST as <-. cbn [pt_test ptest_match]. unfold predicated_match. rewrite P. destruct (ps_attr p); cbn [kind_for]; [discriminate|]. now intros [= <-].
Qed.
Lemma up_document x y : in_document s x -> above_or_self (parent_of s) y x -> in_document s y.
Proof.
  intros [r [K A]] B. exists r. split; [exact K|]. destruct (above_chain s r y x A B) as [->|[H|H]]; [left; reflexivity|right; exact H|].
  exfalso. pose proof (entity_top s F r K) as T. inversion H as [b Q|b q Q]; rewrite T in Q; discriminate.
Qed.
Lemma document_parent x : in_document s x -> kind_of s x = Some KEntity \/ exists m, parent_of s x = Some m.
Proof. intros [r [K [->|A]]]; [now left|]. right. inversion A; eauto. Qed.
Lemma step_iff p t x b : in_document s x -> step_tuple p = Ok t -> good_step p -> good_at p x -> ptest_match namespaces s nm size (pt_test t) x (pt_axis t) = Ok b ->
  (b = true <-> exists m, step_from namespaces s nm (as_step p) m x).
Proof.
  intros D ST G GA TM. destruct (parent_of s x) as [m|] eqn:P.
  - rewrite (step_ok p t x m b ST G GA P TM). split; [eauto|]. intros [m' H]. pose proof (step_parent p m' x H) as P'. rewrite P in P'. injection P' as <-. exact H.
  - destruct (document_parent x D) as [K|[m K]]; [|congruence]. rewrite (step_top p t x b ST G GA P K TM). split; [discriminate|]. intros [m H]. apply step_parent in H. congruence.
Qed.

(** ** Chains of ancestors *)
Fixpoint chain (anchor : nat -> Prop) (first : pstep) (rest : list (sep * pstep)) (x : nat) : Prop :=
  match rest with
  | [] => exists m, step_from namespaces s nm (as_step first) m x /\ anchor m
  | (d, p) :: rest' => exists m y, step_from namespaces s nm (as_step p) m x /\ chain anchor first rest' y /\ match d with Slash => m = y | DoubleSlash => above_or_self (parent_of s) y m end
  end.
Lemma reached_app a b n x : reached namespaces s nm (a ++ b) n x <-> exists m, reached namespaces s nm a n m /\ reached namespaces s nm b m x.
Proof.
  revert n. induction a as [|st a IH]; intros n; cbn [app].
  - split; [intros H; exists n; split; [constructor|exact H]|intros [m [H1 H2]]; inversion H1; subst; exact H2].
  - split.
    + intros H. inversion H as [|? ? ? m ? H1 H2]; subst. apply IH in H2. destruct H2 as [m' [H2 H3]]. exists m'. split; [econstructor; eauto|exact H3].
    + intros [m [H1 H2]]. inversion H1 as [|? ? ? m' ? H3 H4]; subst. econstructor; [exact H3|]. apply IH. eauto.
Qed.
Lemma reached_one st n x : reached namespaces s nm [st] n x <-> step_from namespaces s nm st n x.
Proof. split; [intros H; inversion H as [|? ? ? m ? H1 H2]; subst; inversion H2; subst; exact H1|intros H; econstructor; [exact H|constructor]]. Qed.
Lemma any_depth_iff n m : exists_node s n -> (step_from namespaces s nm any_depth n m <-> m = n \/ (above (parent_of s) n m /\ ~ attribute s m)).
Proof.
  intros E. split.
  - intros H. apply step_from_axis in H. exact (proj1 H).
  - intros H. destruct (select_ok s DescendantOrSelf n F E) as [l [_ [M O]]]; [intros _; exact I|].
    exists l, l. split; [intros y; rewrite M; cbn; tauto|]. split; [exact O|]. split; [constructor|]. now apply M.
Qed.
Lemma step_node_exists' p m x : step_from namespaces s nm (as_step p) m x -> exists_node s m /\ exists_node s x.
Proof. intros H. apply step_parent in H. split; [eapply parent_exists; eauto|]. destruct (parent_ex s x m H) as [k [G _]]. eapply get_some; eauto. Qed.
Lemma aos_dec_depth y m p x : exists_node s y -> step_from namespaces s nm (as_step p) m x -> (step_from namespaces s nm any_depth y m <-> above_or_self (parent_of s) y m).
Proof.
  intros E H. rewrite (any_depth_iff y m E). apply step_parent in H. split.
  - intros [->|[A _]]; [left; reflexivity|right; exact A].
  - intros [->|A]; [now left|]. right. split; [exact A|eapply parent_nonattr; eauto].
Qed.
Lemma chain_exists anchor first : forall rest x, chain anchor first rest x -> exists_node s x.
Proof. destruct rest as [|[d p] rest]; intros x; cbn [chain]; [intros [m [H _]]|intros [m [y [H _]]]]; apply step_node_exists' in H; tauto. Qed.
Lemma chain_reached anchor first rest : forall x, (exists n, anchor n /\ exists_node s n /\ reached namespaces s nm (as_steps {| rp_first := first; rp_rest := rev rest |}) n x) <-> chain anchor first rest x.
Proof.
  induction rest as [|[d p] rest IH]; intros x; cbn [rev chain].
  - unfold as_steps. cbn [rp_first rp_rest flat_map]. split.
    + intros [n [A [_ R]]]. apply reached_one in R. eauto.
    + intros [m [H A]]. exists m. split; [exact A|]. split; [exact (proj1 (step_node_exists' _ _ _ H))|]. apply <- reached_one. exact H.
  - assert (as_steps {| rp_first := first; rp_rest := rev rest ++ [(d, p)] |} = as_steps {| rp_first := first; rp_rest := rev rest |} ++ joined d [as_step p]) as ->.
    { unfold as_steps. cbn [rp_first rp_rest]. rewrite flat_map_app. cbn [flat_map fst snd]. now rewrite app_nil_r. }
    split.
    + intros [n [A [E R]]]. apply reached_app in R. destruct R as [y [R1 R2]]. assert (chain anchor first rest y) as CY by (apply IH; eauto).
      destruct d; cbn [joined] in R2.
      * apply reached_one in R2. exists y, y. auto.
      * inversion R2 as [|? ? ? m ? H1 H2]; subst. apply reached_one in H2. exists m, y. split; [exact H2|]. split; [exact CY|]. apply (aos_dec_depth y m p x); [eapply chain_exists; eauto|exact H2|exact H1].
    + intros [m [y [H [C D]]]]. pose proof (chain_exists _ _ _ _ C) as EY. apply IH in C. destruct C as [n [A [E R]]]. exists n. split; [exact A|]. split; [exact E|]. apply reached_app. exists y. split; [exact R|].
      destruct d; cbn [joined]; [subst m; apply <- reached_one; exact H|]. econstructor; [apply (aos_dec_depth y m p x EY H); exact D|apply <- reached_one; exact H].
Qed.

(** ** The tuples *)
Definition maybe_flag (d : sep) (t : ptuple) : ptuple := match d with Slash => t | DoubleSlash => flag t end.
Fixpoint tuples (first : pstep) (rest : list (sep * pstep)) : result (list ptuple) :=
  match rest with
  | [] => do t <- step_tuple first ; Ok [t]
  | (d, p) :: rest' =>
    do l <- tuples first rest' ; do t <- step_tuple p ;
    Ok (match l with [] => [t] | u :: l' => t :: maybe_flag d u :: l' end)
  end.
Lemma append_app : forall a b l, append_steps l (a ++ b) = do m <- append_steps l a ; append_steps m b.
Proof. induction a as [|[d p] a IH]; intros b l; cbn [app append_steps]; [reflexivity|]. destruct (step_tuple p); cbn [bind]; [|reflexivity]. apply IH. Qed.
Lemma flag_last_rev l : rev (flag_last l) = match rev l with [] => [] | t :: l' => flag t :: l' end.
Proof.
  induction l as [|t l IH]; [reflexivity|]. destruct l as [|u l]; [reflexivity|]. change (flag_last (t :: u :: l)) with (t :: flag_last (u :: l)). cbn [rev] in *. rewrite IH.
  destruct (rev l ++ [u]) as [|v w] eqn:E; [destruct (rev l); discriminate|]. reflexivity.
Qed.
Lemma tuples_ok first rest : (do l <- relative_tuples {| rp_first := first; rp_rest := rev rest |} ; Ok (rev l)) = tuples first rest.
Proof.
  unfold relative_tuples. cbn [rp_first rp_rest]. induction rest as [|[d p] rest IH]; cbn [rev tuples].
  - destruct (step_tuple first); reflexivity.
  - rewrite <- IH. destruct (step_tuple first) as [t0|]; cbn [bind]; [|reflexivity]. rewrite append_app. destruct (append_steps [t0] (rev rest)) as [l|]; cbn [bind append_steps]; [|reflexivity].
    destruct (step_tuple p) as [t|]; cbn [bind]; [|reflexivity]. f_equal. rewrite rev_app_distr. cbn [rev app]. destruct d; cbn [maybe_flag].
    + destruct (rev l); reflexivity.
    + rewrite flag_last_rev. destruct (rev l); reflexivity.
Qed.

(** ** The climb *)
Lemma climb_sound t : forall fuel node y, climb namespaces s nm size fuel t node = Ok (Some y) ->
  exists x, node = Some x /\ above_or_self (parent_of s) y x /\ ptest_match namespaces s nm size (pt_test t) y (pt_axis t) = Ok true /\
    forall z, above_or_self (parent_of s) z x -> above (parent_of s) y z -> ptest_match namespaces s nm size (pt_test t) z (pt_axis t) = Ok false.
Proof.
  induction fuel as [|f IH]; intros [x|] y; cbn [climb]; try discriminate.
  destruct (ptest_match namespaces s nm size (pt_test t) x (pt_axis t)) as [b|] eqn:B; cbn [bind]; [|discriminate]. destruct b.
  - intros [= <-]. exists x. split; [reflexivity|]. split; [left; reflexivity|]. split; [exact B|]. intros z [->|Z] A; [exfalso; exact (f_acyclic s F x A)|exfalso; apply (f_acyclic s F x); eapply above_trans; eauto].
  - intros H. destruct (IH _ _ H) as [q [P [A [M N]]]]. exists x. split; [reflexivity|]. split; [right; destruct A as [->|A]; [now apply above_parent|eapply above_up; eauto]|]. split; [exact M|].
    intros z [->|Z] YZ; [exact B|]. apply N; [|exact YZ]. inversion Z as [? Q|? w Q Z']; rewrite P in Q; injection Q as <-; [left; reflexivity|right; exact Z'].
Qed.
Lemma climb_none t : forall fuel node, climb namespaces s nm size fuel t node = Ok None ->
  forall x, node = Some x -> forall z, above_or_self (parent_of s) z x -> ptest_match namespaces s nm size (pt_test t) z (pt_axis t) = Ok false.
Proof.
  induction fuel as [|f IH]; intros node; destruct node as [x|]; cbn [climb]; try discriminate.
  destruct (ptest_match namespaces s nm size (pt_test t) x (pt_axis t)) as [b|] eqn:B; cbn [bind]; [|discriminate]. destruct b; [discriminate|].
  intros H w [= <-] z [->|Z]; [exact B|]. inversion Z as [? Q|? q Q Z']; apply (IH _ H _ Q); [left; reflexivity|right; exact Z'].
Qed.

Lemma steps_match_cons t l x b : steps_match namespaces s nm size (t :: l) x = Ok b ->
  exists c, ptest_match namespaces s nm size (pt_test t) x (pt_axis t) = Ok c /\ (if c then match_rest namespaces s nm size l x = Ok b else b = false).
Proof. cbn [steps_match]. destruct (ptest_match _ _ _ _ _ _ _) as [c|]; cbn [bind]; [|discriminate]. intros H. exists c. split; [reflexivity|]. destruct c; [exact H|]. now injection H. Qed.
Lemma match_one u l y : pt_ancestor u = false -> parent_of s y = None -> match_rest namespaces s nm size (u :: l) y = Ok false.
Proof. intros A P. cbn [match_rest]. now rewrite A, P. Qed.
Lemma step_unflagged p t : step_tuple p = Ok t -> pt_ancestor t = false.
Proof. unfold step_tuple. destruct (ps_preds p); [intros [= <-]; reflexivity|]. destruct (init_all _); cbn; [|discriminate]. intros [= <-]. reflexivity. Qed.

Lemma tuples_head first rest l : tuples first rest = Ok l -> exists t l', l = t :: l' /\ step_tuple (match rest with [] => first | (_, p) :: _ => p end) = Ok t.
Proof.
  destruct rest as [|[d p] rest]; cbn [tuples].
  - destruct (step_tuple first) as [t|]; cbn [bind]; [|discriminate]. intros [= <-]. eauto.
  - destruct (tuples first rest) as [l0|]; cbn [bind]; [|discriminate]. destruct (step_tuple p) as [t|] eqn:T; cbn [bind]; [|discriminate]. destruct l0; intros [= <-]; eauto.
Qed.

(** [anc] is the tuple list of what comes before the first step. *)
Definition anchored (anc : list ptuple) (anchor : nat -> Prop) : Prop :=
  forall x m b, parent_of s x = Some m -> match_rest namespaces s nm size anc x = Ok b -> (b = true <-> anchor m).

Definition head_step (first : pstep) (rest : list (sep * pstep)) : pstep := match rest with [] => first | (_, p) :: _ => p end.
Definition inner_ok (first : pstep) (rest : list (sep * pstep)) : Prop :=
  match rest with [] => True | _ :: rest' => ps_test first <> TNode /\ Forall (fun dp => ps_test (snd dp) <> TNode) rest' end.
Lemma inner_head d p first rest y : inner_ok first ((d, p) :: rest) -> good_at (head_step first rest) y /\ inner_ok first rest.
Proof.
  intros [H1 H2]. destruct rest as [|[d' q] rest]; cbn [head_step inner_ok].
  - split; [intros E; contradiction|exact I].
  - inversion H2 as [|? ? H3 H4]; subst. split; [intros E; contradiction|]. auto.
Qed.
Lemma match_sound anc (anchor : nat -> Prop) first rest : good_step first -> Forall (fun dp => good_step (snd dp)) rest ->
  (forall x m, parent_of s x = Some m -> match_rest namespaces s nm size anc x = Ok true -> anchor m) ->
  forall l x, in_document s x -> good_at (head_step first rest) x -> inner_ok first rest -> tuples first rest = Ok l -> steps_match namespaces s nm size (l ++ anc) x = Ok true -> chain anchor first rest x.
Proof.
  intros G1 GR AN. induction rest as [|[d p] rest IH]; intros l x D GA IN T H; cbn [tuples chain head_step] in *.
  - destruct (step_tuple first) as [t|] eqn:ST; cbn [bind] in T; [|discriminate]. injection T as <-. cbn [app] in H. apply steps_match_cons in H. destruct H as [c [TM R]]. destruct c; [|discriminate].
    pose proof (step_iff first t x true D ST G1 GA TM) as [SI _]. destruct (SI eq_refl) as [m H]. exists m. split; [exact H|]. eapply AN; [eapply step_parent; exact H|exact R].
  - inversion GR as [|? ? G2 GR']; subst. cbn [snd] in G2. destruct (tuples first rest) as [l0|] eqn:T0; cbn [bind] in T; [|discriminate]. destruct (step_tuple p) as [t|] eqn:ST; cbn [bind] in T; [|discriminate].
    destruct (tuples_head _ _ _ T0) as [u [l1 [-> SU]]]. injection T as <-. cbn [app] in H. apply steps_match_cons in H. destruct H as [c [TM R]]. destruct c; [|discriminate].
    pose proof (step_iff p t x true D ST G2 GA TM) as [SI _]. destruct (SI eq_refl) as [m HS]. pose proof (step_parent p m x HS) as P. exists m.
    assert (in_document s m) as DM by (apply (up_document x m D); right; now apply above_parent).
    destruct d; cbn [maybe_flag] in R.
    + cbn [match_rest] in R. rewrite (step_unflagged _ _ SU), P in R. exists m. split; [exact HS|]. split; [|reflexivity]. destruct (inner_head _ _ _ _ m IN) as [GA' IN']. apply (IH GR' (u :: l1) m DM GA' IN' eq_refl). cbn [app steps_match].
      destruct (ptest_match _ _ _ _ _ _ _) as [c|]; cbn [bind] in *; [|discriminate]. exact R.
    + cbn [match_rest flag pt_ancestor] in R. rewrite P in R. destruct (climb namespaces s nm size (bound s) (flag u) (Some m)) as [[y|]|] eqn:C; cbn [bind] in R; try discriminate.
      destruct (climb_sound _ _ _ _ C) as [m' [[= <-] [A [M _]]]]. cbn [flag pt_test pt_axis] in M. exists y. split; [exact HS|]. split; [|exact A].
      destruct (inner_head _ _ _ _ y IN) as [GA' IN']. apply (IH GR' (u :: l1) y); [eapply up_document; eauto|exact GA'|exact IN'|reflexivity|]. cbn [app steps_match]. rewrite M. exact R.
Qed.

(** The nearest ancestor is as good as any other when only '//' precedes. *)
Lemma chain_lower (anchor : nat -> Prop) first : (forall m, anchor m) -> forall rest, Forall (fun dp => fst dp = DoubleSlash) rest -> forall y z,
  chain anchor first rest y -> above_or_self (parent_of s) y z -> (exists m, step_from namespaces s nm (as_step (match rest with [] => first | (_, p) :: _ => p end)) m z) -> chain anchor first rest z.
Proof.
  intros AN [|[d p] rest] FA y z; cbn [chain].
  - intros _ _ [m H]. eauto.
  - inversion FA as [|? ? E FA']; subst. cbn [fst] in E. subst d. intros [m [w [HS [C A]]]] YZ [m' HS']. exists m', w. split; [exact HS'|]. split; [exact C|].
    destruct YZ as [->|YZ].
    + pose proof (step_parent p m z HS) as P1. pose proof (step_parent p m' z HS') as P2. rewrite P1 in P2. injection P2 as <-. exact A.
    + pose proof (step_parent p m y HS) as P1. pose proof (step_parent p m' z HS') as P2. right. eapply aos_above; [exact A|].
      eapply above_aos; [apply above_parent; exact P1|]. inversion YZ as [? Q|? q Q YZ']; rewrite P2 in Q; injection Q as <-; [left; reflexivity|right; exact YZ'].
Qed.
Lemma no_slash_snoc b l d p : no_slash_before b (l ++ [(d, p)]) -> no_slash_before b l /\ (d = DoubleSlash -> b = false /\ Forall (fun dp => fst dp = DoubleSlash) l).
Proof.
  revert b. induction l as [|[[|] q] l IH]; intros b; cbn [app no_slash_before].
  - destruct d; cbn; [intros _; split; [exact I|discriminate]|]. intros [E _]. split; [exact I|]. intros _. split; [exact E|constructor].
  - intros H. destruct (IH true H) as [H1 H2]. split; [exact H1|]. intros E. destruct (H2 E). discriminate.
  - intros [E H]. destruct (IH b H) as [H1 H2]. split; [split; assumption|]. intros D. destruct (H2 D) as [_ H3]. split; [exact E|]. now constructor.
Qed.
Lemma match_complete anc (anchor : nat -> Prop) slashed first rest : good_step first -> Forall (fun dp => good_step (snd dp)) rest ->
  (forall x m b, parent_of s x = Some m -> anchor m -> match_rest namespaces s nm size anc x = Ok b -> b = true) ->
  (slashed = false -> forall m, anchor m) -> no_slash_before slashed (rev rest) ->
  forall l x b, in_document s x -> good_at (head_step first rest) x -> inner_ok first rest -> tuples first rest = Ok l -> chain anchor first rest x -> steps_match namespaces s nm size (l ++ anc) x = Ok b -> b = true.
Proof.
  intros G1 GR AN SL. induction rest as [|[d p] rest IH]; intros NS l x b D GA IN T CH H; cbn [tuples chain head_step] in *.
  - destruct (step_tuple first) as [t|] eqn:ST; cbn [bind] in T; [|discriminate]. injection T as <-. cbn [app] in H. apply steps_match_cons in H. destruct H as [c [TM R]].
    destruct CH as [m [HS A]]. pose proof (step_iff first t x c D ST G1 GA TM) as [_ SI]. rewrite SI in R by eauto. eapply AN; [eapply step_parent; exact HS|exact A|exact R].
  - cbn [rev] in NS. destruct (no_slash_snoc _ _ _ _ NS) as [NS1 NS2].
    inversion GR as [|? ? G2 GR']; subst. cbn [snd] in G2. destruct (tuples first rest) as [l0|] eqn:T0; cbn [bind] in T; [|discriminate]. destruct (step_tuple p) as [t|] eqn:ST; cbn [bind] in T; [|discriminate].
    destruct (tuples_head _ _ _ T0) as [u [l1 [-> SU]]]. injection T as <-. cbn [app] in H. apply steps_match_cons in H. destruct H as [c [TM R]].
    destruct CH as [m [y [HS [CH A]]]]. pose proof (step_iff p t x c D ST G2 GA TM) as [_ SI]. rewrite SI in R by eauto. pose proof (step_parent p m x HS) as P.
    assert (in_document s m) as DM by (apply (up_document x m D); right; now apply above_parent).
    destruct d; cbn [maybe_flag] in R.
    + subst y. cbn [match_rest] in R. rewrite (step_unflagged _ _ SU), P in R. destruct (inner_head _ _ _ _ m IN) as [GA' IN']. apply (IH GR' NS1 (u :: l1) m b DM GA' IN' eq_refl CH). exact R.
    + destruct (NS2 eq_refl) as [SF ALL]. cbn [match_rest flag pt_ancestor] in R. rewrite P in R.
      assert (in_document s y) as DY by (eapply up_document; eauto).
      set (hd := match rest with [] => first | (_, q) :: _ => q end) in *.
      assert (good_step hd) as GH by (subst hd; destruct rest as [|[? q] ?]; [exact G1|]; inversion GR'; assumption).
      assert (forall z c, in_document s z -> ptest_match namespaces s nm size (pt_test u) z (pt_axis u) = Ok c -> (c = true <-> exists m, step_from namespaces s nm (as_step hd) m z)) as SIZ.
      { intros z c' DZ. exact (step_iff hd u z c' DZ SU GH (proj1 (inner_head _ _ _ _ z IN))). }
      assert (exists my, step_from namespaces s nm (as_step hd) my y) as SY by (subst hd; destruct rest as [|[? q] ?]; cbn [chain] in CH; [destruct CH as [my [? _]]; eauto|destruct CH as [my [? [? _]]]; eauto]).
      destruct (climb namespaces s nm size (bound s) (flag u) (Some m)) as [[z|]|] eqn:C; cbn [bind] in R; try discriminate.
      * destruct (climb_sound _ _ _ _ C) as [m' [[= <-] [AZ [M NM]]]]. cbn [flag pt_test pt_axis] in M, NM.
        assert (above_or_self (parent_of s) y z) as YZ.
        { destruct (above_chain s y z m A AZ) as [->|[YZ|YZ]]; [left; reflexivity|right; exact YZ|]. exfalso. apply NM in YZ; [|exact A]. apply (SIZ y false DY) in YZ. destruct YZ as [_ YZ]. specialize (YZ SY). discriminate. }
        assert (in_document s z) as DZ by exact (up_document m z DM AZ).
        assert (chain anchor first rest z) as CZ.
        { apply (chain_lower anchor first (SL SF) rest) with (y := y); [|exact CH|exact YZ|].
          - apply Forall_forall. intros dp I. rewrite Forall_forall in ALL. apply ALL. now apply -> in_rev.
          - apply (SIZ z true DZ); [exact M|reflexivity]. }
        destruct (inner_head _ _ _ _ z IN) as [GA' IN']. apply (IH GR' NS1 (u :: l1) z b DZ GA' IN' eq_refl CZ). cbn [app steps_match]. rewrite M. exact R.
      * exfalso. pose proof (climb_none _ _ _ C m eq_refl y A) as NM. cbn [flag pt_test pt_axis] in NM. apply (SIZ y false DY) in NM. destruct NM as [_ NM]. specialize (NM SY). discriminate.
Qed.

(** ** Totality *)
Definition easy (p : pstep) : Prop := good_test (ps_attr p) (ps_test p) /\ declared namespaces (ps_test p) /\ evaluable p /\ (ps_attr p = true -> ps_preds p = []).
Lemma step_tuple_total p : easy p -> exists t, step_tuple p = Ok t.
Proof. intros [_ [_ [[_ [l [IA _]]] _]]]. unfold step_tuple. destruct (ps_preds p); [eexists; reflexivity|]. rewrite IA. eexists; reflexivity. Qed.
Lemma ptest_total p t x : easy p -> step_tuple p = Ok t -> exists b, ptest_match namespaces s nm size (pt_test t) x (pt_axis t) = Ok b.
Proof.
  intros [G [D [[NF [ps [IA CA]]] AT]]] ST. rewrite (tuple_axis p t ST). unfold step_tuple in ST. destruct (ps_preds p) as [|e es] eqn:EP.
  - injection ST as <-. cbn [pt_test ptest_match]. now apply test_total.
  - rewrite IA in ST. injection ST as <-. cbn [pt_test ptest_match]. unfold predicated_match. destruct (ps_attr p) eqn:AP; [specialize (AT eq_refl); discriminate|]. cbn [kind_for].
    destruct (parent_of s x) as [m|] eqn:P; [|eexists; reflexivity]. rewrite (f_read s F m) by (eapply parent_exists; eauto). cbn [bind].
    destruct (test_filter_total false (ps_test p) G D (kids s m)) as [l TF]. cbn [kind_for] in TF. rewrite TF. cbn [bind]. destruct (predicates_filter_total (e :: es) ps l IA CA NF) as [r ->]. cbn. eexists; reflexivity.
Qed.
Lemma climb_total t : (forall x, exists b, ptest_match namespaces s nm size (pt_test t) x (pt_axis t) = Ok b) -> forall fuel x r d, top fuel s x = Some (r, d) -> exists y, climb namespaces s nm size fuel t (Some x) = Ok y.
Proof.
  intros T. induction fuel as [|f IH]; intros x r d; cbn [top climb]; [discriminate|]. intros H. destruct (T x) as [b ->]. cbn [bind]. destruct b; [eexists; reflexivity|].
  destruct (parent_of s x) as [p|] eqn:P; [|destruct f; eexists; reflexivity]. destruct (top f s p) as [[r' d']|] eqn:TP; [|discriminate]. eapply IH; eauto.
Qed.
Definition sound_tuple (t : ptuple) : Prop := forall x, exists b, ptest_match namespaces s nm size (pt_test t) x (pt_axis t) = Ok b.
Lemma match_rest_total : forall l, Forall sound_tuple l -> forall x, exists b, match_rest namespaces s nm size l x = Ok b.
Proof.
  induction l as [|t l IH]; intros FA x; cbn [match_rest]; [eexists; reflexivity|]. inversion FA as [|? ? T FA']; subst. destruct (pt_ancestor t).
  - destruct (parent_of s x) as [m|] eqn:P.
    + assert (exists_node s m) as EM by (eapply parent_exists; eauto). destruct (top_ex s m F EM) as [r [d TM]]. destruct (climb_total t T _ _ _ _ TM) as [y C]. unfold bound. rewrite C. cbn [bind]. destruct y; [now apply IH|eexists; reflexivity].
    + unfold bound. cbn. eexists; reflexivity.
  - destruct (parent_of s x) as [m|]; [|eexists; reflexivity]. destruct (T m) as [b ->]. cbn [bind]. destruct b; [now apply IH|eexists; reflexivity].
Qed.
Lemma tuples_total first rest : easy first -> Forall (fun dp => easy (snd dp)) rest -> exists l, tuples first rest = Ok l /\ Forall sound_tuple l.
Proof.
  intros E1. induction rest as [|[d p] rest IH]; intros FA; cbn [tuples].
  - destruct (step_tuple_total first E1) as [t ST]. rewrite ST. cbn. eexists. split; [reflexivity|]. constructor; [|constructor]. intros x. eapply ptest_total; eauto.
  - inversion FA as [|? ? E2 FA']; subst. cbn [snd] in E2. destruct (IH FA') as [l [-> S]]. destruct (step_tuple_total p E2) as [t ST]. rewrite ST. cbn [bind].
    assert (sound_tuple t) as TT by (intros x; eapply ptest_total; eauto). eexists. split; [reflexivity|]. destruct l as [|u l]; [constructor; [exact TT|constructor]|]. inversion S as [|? ? U S']; subst. constructor; [exact TT|]. constructor; [|exact S'].
    destruct d; exact U.
Qed.
End Pattern.
