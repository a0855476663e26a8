(** * Properties C29 to C32: location paths, unions and predicates

    Statements only; proofs are in XpPathSteps, XpPathOrder and XpPathEval.  The
    vocabulary ([denotes], [document_order], [kept], [holds], [handled],
    [same_selection], [no_overlap]) is in XpPathSpec, [on_axis] in XpSpec,
    [forest] in DomSpec. *)
From Coq Require Import NArith ZArith QArith String List Bool Lia Arith Sorted Permutation.
From Verif Require Import PyStr PyErr DomModel DomSpec DomCells DomInv DomOps DomStep DomOrder DomProps XpModel XpSpec XpTree XpAxes XpOrder XpSelect XpProps XpPath XpPathSpec XpPathSteps XpPathOrder XpPathEval.
Import ListNotations.
Local Open Scope nat_scope.

(** The names of the nodes of [sample] (see XpProps): the elements 1, 3, 4, 7 are
    'r', 'a', 'b', 'a'; the attributes 9, 10 are 'x', 'y'. *)
Definition sample_names : names :=
  {| nm_ns := fun _ => None;
     nm_local := fun n => match n with 1 => lit "r" | 3 => lit "a" | 4 => lit "b" | 7 => lit "a" | 9 => lit "x" | 10 => lit "y" | _ => [] end |}.
Definition no_prefixes : str -> option str := fun _ => None.
Definition eval := path_nodeset no_prefixes sample sample_names 1.
Definition plain (a : axis) (t : ntest) : lstep := {| ls_axis := a; ls_test := t; ls_preds := [] |}.
Definition with_pred (a : axis) (t : ntest) (e : pexpr) : lstep := {| ls_axis := a; ls_test := t; ls_preds := [e] |}.
Definition relative (sts : list lstep) : location_path := {| lp_absolute := false; lp_steps := sts |}.
Definition absolute (sts : list lstep) : location_path := {| lp_absolute := true; lp_steps := sts |}.
Definition int_num (k : Z) : xnum := Fin (inject_Z k).

(** ** C29 *)
(** 'p//step/...' selects what 'p/descendant-or-self::node()/step/...' selects. *)
Theorem C29_relative : forall namespaces s nm size steps st rest node, forest s -> exists_node s node ->
  same_selection (path_iterable namespaces s nm size {| lp_absolute := false; lp_steps := lp_steps (abbreviated_relative steps st) ++ rest |} node)
                 (path_iterable namespaces s nm size {| lp_absolute := false; lp_steps := steps ++ [{| ls_axis := DescendantOrSelf; ls_test := TNode; ls_preds := [] |}; st] ++ rest |} node).
Proof.
  intros namespaces s nm size steps st rest node F E. unfold path_iterable, abbreviated_relative. cbn [lp_absolute lp_steps].
  destruct (no_predicates st && is_child_axis (ls_axis st)) eqn:B.
  - apply andb_prop in B. destruct B as [B1 B2]. destruct st as [a t ps]. cbn [ls_axis ls_test] in *. unfold no_predicates in B1. cbn in B1. destruct ps; [|discriminate]. destruct a; try discriminate B2.
    rewrite <- app_assoc. cbn [app]. apply (short_path namespaces s nm size F steps t rest [node]). intros n [<-|[]]. exact E.
  - rewrite <- app_assoc. cbn [app]. change {| ls_axis := DescendantOrSelf; ls_test := TNode; ls_preds := [] |} with descendant_or_self_node.
    destruct (do sts <- _ ; _) as [l|]; cbn; [reflexivity|exact I].
Qed.
Print Assumptions C29_relative.
(** '//steps' selects what '/descendant-or-self::node()/steps' selects. *)
Theorem C29_absolute : forall namespaces s nm size st rest node, forest s -> exists_node s node ->
  same_selection (path_iterable namespaces s nm size (abbreviated_absolute (st :: rest)) node)
                 (path_iterable namespaces s nm size {| lp_absolute := true; lp_steps := {| ls_axis := DescendantOrSelf; ls_test := TNode; ls_preds := [] |} :: st :: rest |} node).
Proof.
  intros namespaces s nm size st rest node F E. unfold path_iterable, abbreviated_absolute. cbn [lp_absolute lp_steps]. change {| ls_axis := DescendantOrSelf; ls_test := TNode; ls_preds := [] |} with descendant_or_self_node.
  destruct (no_predicates st && is_child_axis (ls_axis st)) eqn:B.
  - apply andb_prop in B. destruct B as [B1 B2]. destruct st as [a t ps]. cbn [ls_axis ls_test] in *. unfold no_predicates in B1. cbn in B1. destruct ps; [|discriminate]. destruct a; try discriminate B2.
    destruct (get_root (bound s) s node) as [m|] eqn:R.
    + apply (short_path namespaces s nm size F [] t rest [m]). intros n [<-|[]]. destruct (get_root_sound s _ _ _ R) as [_ A]. exact (aos_node s F m node E A).
    + pose proof (short_compile namespaces t rest) as SC. unfold short_step, child_step in SC. destruct (compile_steps namespaces (_ :: rest)); [|destruct (compile_steps namespaces _); [contradiction|exact I]].
      destruct (compile_steps namespaces _); [exact I|contradiction].
  - destruct (do sts <- _ ; _) as [l|]; cbn; [reflexivity|exact I].
Qed.
Print Assumptions C29_absolute.
(** '//b', './/text()' and './/b[1]' (which is not rewritten). *)
Example C29_case : forest sample /\ exists_node sample 1 /\
  eval (abbreviated_absolute [plain Child (TLocal (lit "b"))]) 8 = Ok [4] /\ lp_steps (abbreviated_absolute [plain Child (TLocal (lit "b"))]) = [plain Descendant (TLocal (lit "b"))] /\
  eval (abbreviated_relative [] (plain Child TText)) 3 = Ok [5] /\ eval (abbreviated_relative [] (with_pred Child TText (ELiteral (int_num 1)))) 0 = Ok [2; 5; 8].
Proof. split; [exact sample_forest|]. split; [vm_compute; lia|]. repeat apply conj; vm_compute; reflexivity. Qed.

(** ** C30 *)
(** Whenever a location path has a value, it consists of the nodes that XPath 1.0
    defines, in document order; the order of the attributes of one element is
    whatever the implementation makes it.  Missing: predicates that are not
    [handled] (refuted under C32), the absence of duplicates (next theorems) and
    the namespace axis. *)
Theorem C30_nodes_partial : forall namespaces s nm size p node l, forest s -> exists_node s node ->
  Forall (fun st => Forall handled (ls_preds st)) (lp_steps p) ->
  path_nodeset namespaces s nm size p node = Ok l ->
  (forall x, In x l <-> denotes namespaces s nm p node x) /\ StronglySorted (fun x y => x = y \/ document_order s x y) l.
Proof.
  intros namespaces s nm size p node l F E HH. unfold path_nodeset, nodeset_new. destruct (path_iterable namespaces s nm size p node) as [r|] eqn:R; cbn [bind]; [|discriminate]. intros [= <-].
  destruct (path_iterable_ok namespaces s nm size F p node r E HH R) as [M O]. split; [intros x; rewrite sort_in; apply M|]. now apply sort_sorted.
Qed.
Print Assumptions C30_nodes_partial.
(** Each node once, for paths that take at most one step to descendants and
    otherwise go only to self, children and attributes. *)
Theorem C30_no_duplicates_partial : forall namespaces s nm size p node l, forest s -> exists_node s node ->
  Forall (fun st => Forall handled (ls_preds st)) (lp_steps p) -> no_overlap false (lp_steps p) ->
  path_nodeset namespaces s nm size p node = Ok l ->
  (forall x, In x l <-> denotes namespaces s nm p node x) /\ NoDup l /\ StronglySorted (document_order s) l.
Proof.
  intros namespaces s nm size p node l F E HH NO H. destruct (C30_nodes_partial namespaces s nm size p node l F E HH H) as [M SS]. split; [exact M|].
  assert (NoDup l) as ND; [|split; [exact ND|now apply upto_strict]].
  unfold path_nodeset, nodeset_new in H. destruct (path_iterable namespaces s nm size p node) as [r|] eqn:R; cbn [bind] in H; [|discriminate]. injection H as <-.
  apply (Permutation_NoDup (sort_perm s r)). unfold path_iterable in R. destruct (compile_steps namespaces (lp_steps p)) as [cs|] eqn:C; cbn [bind] in R; [|discriminate].
  assert (forall m, exists_node s m -> iterate s nm size cs [m] = Ok r -> NoDup r) as HI.
  { intros m EM IT. apply (iterate_nodup namespaces s nm size F (lp_steps p) cs [m] r false C HH); [intros n [<-|[]]; exact EM|constructor; [intros []|constructor]| |exact NO|exact IT].
    intros _ x y [<-|[]] [<-|[]] A. exact (f_acyclic s F m A). }
  destruct (lp_absolute p); [|exact (HI node E R)]. destruct (get_root (bound s) s node) as [m|] eqn:G; [|discriminate]. destruct (get_root_sound s _ _ _ G) as [_ A]. exact (HI m (aos_node s F m node E A) R).
Qed.
Print Assumptions C30_no_duplicates_partial.
(** A path has a value if its predicates are valid, its prefixes declared
    ([compile_steps] accepts it), its expressions raise nothing and, if it is
    absolute, the tree has a document; the axes following, preceding and
    preceding-sibling are excluded, since they fail on attribute nodes (C27). *)
Theorem C30_total_partial : forall namespaces s nm size p node cs, forest s -> exists_node s node ->
  compile_steps namespaces (lp_steps p) = Ok cs ->
  Forall (fun st => Forall handled (ls_preds st) /\ Forall never_fails (ls_preds st)) (lp_steps p) ->
  Forall (fun st => ls_axis st <> Following /\ ls_axis st <> Preceding /\ ls_axis st <> PrecedingSibling) (lp_steps p) ->
  (lp_absolute p = true -> exists m, kind_of s m = Some KEntity /\ above_or_self (parent_of s) m node) ->
  exists l, path_nodeset namespaces s nm size p node = Ok l.
Proof.
  intros namespaces s nm size p node cs F E C HH AX RT. unfold path_nodeset, path_iterable. rewrite C. cbn [bind].
  assert (Forall (fun st => match ls_axis st with Following | Preceding | PrecedingSibling => False | _ => True end) (lp_steps p)) as AX'.
  { rewrite Forall_forall in *. intros st I. specialize (AX st I). destruct (ls_axis st); tauto. }
  assert (forall m, exists_node s m -> exists l, iterate s nm size cs [m] = Ok l) as HI.
  { intros m EM. apply (iterate_total namespaces s nm size F (lp_steps p) cs [m] C HH); [intros n [<-|[]]; exact EM|exact AX']. }
  destruct (lp_absolute p).
  - destruct (RT eq_refl) as [m [K A]]. destruct (top_ex s node F E) as [r [d T]]. pose proof (proj2 (top_spec s _ _ _ _ T)) as PR.
    assert (kind_of s r = Some KEntity) as KR.
    { apply top_spec in T. destruct T as [U _]. apply up_aos in U. destruct (above_chain s m r node A U) as [X|[X|X]].
      - now rewrite <- X.
      - exfalso. inversion X; congruence.
      - exfalso. rewrite <- (entity_top s F m K) in PR. inversion X; rewrite (entity_top s F m K) in *; discriminate. }
    destruct (get_root_ex s _ node r d T KR) as [m' G]. unfold bound. rewrite G. destruct (get_root_sound s _ _ _ G) as [_ A']. destruct (HI m' (aos_node s F m' node E A')) as [l ->]. cbn [bind]. eauto.
  - destruct (HI node E) as [l ->]. cbn [bind]. eauto.
Qed.
Print Assumptions C30_total_partial.
(** 'a/node()', '//@*', 'ancestor::*[2]' (the second in reverse order) and
    '/r/a[2]/text()'. *)
Example C30_case : forest sample /\ exists_node sample 8 /\
  no_overlap false [plain Descendant TNode; plain Attribute TPrincipal] /\
  eval (relative [plain Child (TLocal (lit "a")); plain Child TNode]) 1 = Ok [4; 6; 8] /\
  eval (abbreviated_absolute [plain Attribute TPrincipal]) 8 = Ok [9; 10] /\
  eval (relative [with_pred Ancestor TPrincipal (ELiteral (int_num 2))]) 5 = Ok [3] /\
  eval (absolute [plain Child (TLocal (lit "r")); with_pred Child (TLocal (lit "a")) (ELiteral (int_num 2)); plain Child TText]) 5 = Ok [8] /\
  eval (relative [plain Child (TLocal (lit "zzz"))]) 1 = Ok [].
Proof. split; [exact sample_forest|]. split; [vm_compute; lia|]. split; [vm_compute; auto|]. repeat apply conj; vm_compute; reflexivity. Qed.
(** '//node()/..' contains the element 1 three times. *)
Theorem C30_duplicates_refuted : forest sample /\ exists_node sample 0 /\
  eval (abbreviated_absolute [plain Child TNode; plain Parent TNode]) 0 = Ok [0; 1; 1; 1; 3; 3; 4; 7].
Proof. split; [exact sample_forest|]. split; [vm_compute; lia|]. vm_compute. reflexivity. Qed.

(** ** C31 *)
(** [keys]: the keys of a dictionary filled with the nodes, in any order. *)
Theorem C31_union : forall keys namespaces s nm size ps node l, forest s -> exists_node s node ->
  (forall args, NoDup (keys args) /\ forall x, In x (keys args) <-> In x args) ->
  union_nodeset keys namespaces s nm size ps node = Ok l ->
  (forall p, In p ps -> exists lp, path_nodeset namespaces s nm size p node = Ok lp) /\
  (forall x, In x l <-> exists p lp, In p ps /\ path_nodeset namespaces s nm size p node = Ok lp /\ In x lp) /\
  NoDup l /\ StronglySorted (document_order s) l.
Proof.
  intros keys namespaces s nm size ps node l F E HK. unfold union_nodeset, nodeset_new, union_iter. destruct (iterate_all namespaces s nm size ps node) as [ls|] eqn:IA; cbn [bind]; [|discriminate]. intros [= <-].
  assert ((forall p, In p ps -> exists lp, path_nodeset namespaces s nm size p node = Ok lp) /\
          (forall x, In x (concat ls) <-> exists p lp, In p ps /\ path_nodeset namespaces s nm size p node = Ok lp /\ In x lp) /\ (forall x, In x (concat ls) -> exists_node s x /\ same_tree s node x)) as [OK [M T]].
  { revert ls IA. induction ps as [|p ps IH]; intros ls; cbn [iterate_all].
    - intros [= <-]. split; [intros p []|]. split; [intros x; split; [intros []|intros [? [? [[] _]]]]|intros x []].
    - destruct (path_iterable namespaces s nm size p node) as [l1|] eqn:R; cbn [bind]; [|discriminate]. destruct (iterate_all namespaces s nm size ps node) as [r|]; cbn [bind]; [|discriminate]. intros [= <-].
      destruct (IH r eq_refl) as [IO [IM IT]]. assert (path_nodeset namespaces s nm size p node = Ok (py_sort s l1)) as PN by (unfold path_nodeset; rewrite R; reflexivity).
      split; [intros q [<-|Q]; eauto|]. cbn [concat]. split; intros x; rewrite in_app_iff.
      + rewrite IM, <- (sort_in s l1). split.
        * intros [D|[q [lq [Q D]]]]; [exists p, (py_sort s l1); cbn; auto|exists q, lq; cbn; tauto].
        * intros [q [lq [[<-|Q] [D X]]]]; [left; rewrite PN in D; injection D as <-; exact X|right; eauto].
      + intros [I|I]; [|auto]. exact (path_tree namespaces s nm size F p node l1 E R x I). }
  destruct (HK (concat (rev ls))) as [ND KI].
  assert (forall x, In x (concat (rev ls)) <-> In x (concat ls)) as RV.
  { intros x. rewrite !in_concat. split; intros [y [Y I]]; exists y; (split; [now apply in_rev in Y || (apply in_rev; rewrite ?rev_involutive; exact Y)|exact I]). }
  set (k := keys (concat (rev ls))) in *. assert (one_tree s k) as O.
  { split; [intros x X; apply T, RV, KI, X|]. intros x y X Y. apply KI, RV, T in X, Y. destruct X as [_ X], Y as [_ Y]. apply (same_tree_trans s x node y F E); [|exact Y]. destruct X as [t [T1 T2]]. exists t. auto. }
  assert (one_tree s (py_sort s k)) as O2 by (destruct O as [O1 O2]; split; [intros x X|intros x y X Y; rewrite sort_in in Y]; rewrite sort_in in X; auto).
  split; [exact OK|]. split; [intros x; rewrite !sort_in, KI, RV; apply M|].
  assert (NoDup (py_sort s (py_sort s k))) as ND2 by (apply (Permutation_NoDup (sort_perm s _)), (Permutation_NoDup (sort_perm s _)); exact ND).
  split; [exact ND2|]. apply upto_strict; [exact ND2|]. now apply sort_sorted.
Qed.
Print Assumptions C31_union.
(** 'a/node() | //b | ..' with the keys in order of first insertion. *)
Example C31_case : forest sample /\ exists_node sample 1 /\ (forall args : list nat, NoDup (nodup Nat.eq_dec args) /\ forall x, In x (nodup Nat.eq_dec args) <-> In x args) /\
  union_nodeset (nodup Nat.eq_dec) no_prefixes sample sample_names 1
    [relative [plain Child (TLocal (lit "a")); plain Child TNode]; abbreviated_absolute [plain Child (TLocal (lit "b"))]; relative [plain Parent TNode]] 1 = Ok [0; 4; 6; 8].
Proof.
  split; [exact sample_forest|]. split; [vm_compute; lia|]. split; [intros args; split; [apply NoDup_nodup|intros x; apply nodup_In]|]. vm_compute. reflexivity.
Qed.

(** ** C32 *)
(** Whatever the form of a predicate that is [handled], it keeps exactly the nodes
    of which it is true, positions counting from 1. *)
Theorem C32_predicate_partial : forall e p size l r, predicate_init e = Ok p -> handled e -> apply_selector size p l = Ok r ->
  kept (fun x position => holds e x position (length l)) 1 l r.
Proof. intros e p size l r. apply predicate_ok. Qed.
Print Assumptions C32_predicate_partial.
(** [k] and [position() = k] for every k from 1 to the largest C int: the node at
    that position. *)
Theorem C32_position_partial : forall (k : Z) e, (1 <= k <= 2147483647)%Z ->
  e = ELiteral (int_num k) \/ e = EPositionEqLiteral (int_num k) \/ e = ELiteralEqPosition (int_num k) ->
  exists p, predicate_init e = Ok p /\ forall size l, apply_selector size p l = Ok (match nth_error l (Z.to_nat (k - 1)) with Some x => [x] | None => [] end).
Proof.
  intros k e [K1 K2] H. exists (SPositionFilter k).
  assert (literal_select (int_num k) = Ok (SPositionFilter k)) as L.
  { unfold literal_select, int_num. cbn [Qnum Qden inject_Z]. rewrite Z.quot_1_r. cbv zeta. replace (Qeq_bool (inject_Z k) (inject_Z k)) with true by (symmetry; apply Qeq_bool_iff; reflexivity).
    replace (1 <=? k)%Z with true by lia. replace (k <=? 2147483647)%Z with true by lia. reflexivity. }
  split; [destruct H as [->|[->| ->]]; exact L|]. intros size l. cbn [apply_selector]. unfold position_filter. f_equal. generalize (Z.to_nat (k - 1)) as n. clear. intros n. revert l.
  induction n as [|n IH]; intros [|x l]; cbn [skip_nodes nth_error]; auto.
Qed.
Print Assumptions C32_position_partial.
(** [position() > k] for every number k. *)
Theorem C32_position_gt : forall k size l, exists p r, predicate_init (EPositionGt k) = Ok p /\ apply_selector size p l = Ok r /\ kept (fun _ position => num_gt position k) 1 l r.
Proof. intros k size l. exists (SSlice 1 k), (slice 1 k l). split; [reflexivity|]. split; [reflexivity|]. apply slice_ok. Qed.
Print Assumptions C32_position_gt.
(** [position() = e] for every expression e, also with last(), that has a value. *)
Theorem C32_position_eq : forall e size l, (forall n p z, exists v, e n p z = Ok v) ->
  exists p r, predicate_init (EPositionEq e) = Ok p /\ apply_selector size p l = Ok r /\ kept (fun x position => exists k, e x position (length l) = Ok k /\ num_eq position k) 1 l r.
Proof.
  intros e size l N. destruct (apply_selector_total size (EPositionEq e) (SNumber true e) l eq_refl eq_refl N) as [r R]. exists (SNumber true e), r. split; [reflexivity|]. split; [exact R|].
  exact (predicate_ok (EPositionEq e) _ size l r eq_refl I R).
Qed.
Print Assumptions C32_position_eq.
(** What [position() >= k] does for an integer k that is not negative: it drops the
    first k + 1 nodes. *)
Theorem C32_position_ge_actual : forall (k : nat) size l, exists p, predicate_init (EPositionGe (int_num (Z.of_nat k))) = Ok p /\ apply_selector size p l = Ok (skipn (k + 1) l).
Proof.
  intros k size l. exists (SSlice 0 (int_num (Z.of_nat k))). split; [reflexivity|]. cbn [apply_selector]. f_equal. unfold slice.
  assert (forall p q : Z, int_gt p (int_num q) = (q <? p)%Z) as G.
  { intros p q. apply eq_true_iff_eq. rewrite int_gt_iff, Z.ltb_lt. cbn. rewrite <- Zlt_Qlt. reflexivity. }
  rewrite G. destruct (Z.ltb_spec (Z.of_nat k) 0) as [?|_]; [lia|].
  assert (forall n l p, (0 <= p)%Z -> (p = Z.of_nat k + 1 - Z.of_nat n)%Z -> slice_loop p (int_num (Z.of_nat k)) l = skipn (n + 1) l) as H.
  { clear l. induction n as [|n IH]; intros l p P0 P; destruct l as [|x l]; try reflexivity; cbn [slice_loop]; rewrite G.
    - destruct (Z.ltb_spec (Z.of_nat k) p) as [_|?]; [reflexivity|lia].
    - destruct (Z.ltb_spec (Z.of_nat k) p) as [?|_]; [lia|]. rewrite (IH l (p + 1)%Z) by lia. reflexivity. }
  rewrite (H k l (0 + 1)%Z) by lia. reflexivity.
Qed.
Print Assumptions C32_position_ge_actual.
(** The predicates a[2], a[position()=last()], node()[position()>1]. *)
Example C32_case :
  eval (relative [with_pred Child (TLocal (lit "a")) (ELiteral (int_num 2))]) 1 = Ok [7] /\
  eval (relative [with_pred Child TNode (EPositionEq (fun _ _ size => Ok (int_num (Z.of_nat size))))]) 1 = Ok [7] /\
  eval (relative [with_pred Child TNode (EPositionGt (int_num 1))]) 1 = Ok [3; 7] /\
  eval (relative [with_pred Child TNode (EPositionGt (Fin (3 # 2)))]) 1 = Ok [3; 7] /\
  eval (relative [with_pred PrecedingSibling TNode (ELiteral (int_num 1))]) 7 = Ok [3] /\
  eval (relative [{| ls_axis := Child; ls_test := TNode; ls_preds := [EPositionGt (int_num 1); ELiteral (int_num 1)] |}]) 1 = Ok [3].
Proof. repeat apply conj; vm_compute; reflexivity. Qed.
(** [0] and [1.5] raise ValueError instead of selecting nothing. *)
Theorem C32_not_positive_refuted :
  eval (relative [with_pred Child TNode (ELiteral (int_num 0))]) 1 = Err ValueError /\
  eval (relative [with_pred Child TNode (ELiteral (Fin (3 # 2)))]) 1 = Err ValueError /\
  eval (relative [with_pred Child TNode (EPositionEqLiteral (int_num 0))]) 1 = Err ValueError.
Proof. repeat apply conj; vm_compute; reflexivity. Qed.
(** In general for every literal that is not a positive integer. *)
Theorem C32_not_positive_fails : forall namespaces a t q, ~ (exists k, (1 <= k)%Z /\ (inject_Z k == q)%Q) ->
  exists x, compile_step namespaces (with_pred a t (ELiteral (Fin q))) = Err x.
Proof.
  intros namespaces a t q H. unfold compile_step. cbn [ls_preds with_pred init_all predicate_init literal_select]. cbv zeta.
  destruct (Qeq_bool (inject_Z (Qnum q ÷ Z.pos (Qden q))) q && (1 <=? Qnum q ÷ Z.pos (Qden q))%Z) eqn:B.
  - exfalso. apply andb_prop in B. destruct B as [B1 B2]. apply H. eexists. split; [apply Z.leb_le; exact B2|]. now apply Qeq_bool_iff.
  - cbn [bind]. destruct (get_filter _ _ _); cbn [bind forallb callable andb]; eauto.
Qed.
(** node()[position() >= 1] drops the nodes 2 and 3; [position() >= 0] drops the
    node 2. *)
Theorem C32_position_ge_refuted :
  eval (relative [plain Child TNode]) 1 = Ok [2; 3; 7] /\
  eval (relative [with_pred Child TNode (EPositionGe (int_num 1))]) 1 = Ok [7] /\
  eval (relative [with_pred Child TNode (EPositionGe (int_num 0))]) 1 = Ok [3; 7] /\
  ~ kept (fun x position => holds (EPositionGe (int_num 1)) x position 3) 1 [2; 3; 7] [7].
Proof.
  split; [vm_compute; reflexivity|]. split; [vm_compute; reflexivity|]. split; [vm_compute; reflexivity|]. intros K. inversion K as [| |? ? ? ? N _]; subst. apply N. cbn. discriminate.
Qed.
(** ['2'] is a string, hence true of every node, but selects the second; ['x']
    raises ValueError. *)
Theorem C32_string_refuted :
  eval (relative [with_pred Child TNode (EString true (int_num 2))]) 1 = Ok [3] /\
  eval (relative [with_pred Child TNode (EString true NaN)]) 1 = Err ValueError /\
  kept (fun x position => holds (EString true (int_num 2)) x position 3) 1 [2; 3; 7] [2; 3; 7].
Proof.
  split; [vm_compute; reflexivity|]. split; [vm_compute; reflexivity|]. repeat constructor.
Qed.
(** [last()] selects the node at the position given by the size of the context of
    the whole expression, not the last node. *)
Theorem C32_last_refuted :
  eval (relative [with_pred Child TNode (ENumber (fun _ _ size => Ok (int_num (Z.of_nat size))))]) 1 = Ok [2] /\
  kept (fun x position => holds (ENumber (fun _ _ size => Ok (int_num (Z.of_nat size)))) x position 3) 1 [2; 3; 7] [7].
Proof.
  split; [vm_compute; reflexivity|].
  repeat (first [apply kept_nil|apply kept_yes; [eexists; split; [reflexivity|reflexivity]|]|apply kept_no; [intros [k [[= <-] K]]; discriminate K|]]).
Qed.
(** [1 < 2] and [1 <= position()] raise NameError. *)
Theorem C32_constant_first_refuted : forall e, eval (relative [with_pred Child TNode (EConstantFirst e)]) 1 = Err NameError.
Proof. intros e. reflexivity. Qed.
