(** * C53: a node matches an XSLT pattern as section 5.2 of XSLT 1.0 says *)
From Coq Require Import NArith ZArith QArith String List Bool Lia Arith Sorted Permutation.
From Verif Require Import PyStr PyErr DomModel DomSpec DomCells DomInv DomOps DomStep DomOrder DomProps XpModel XpSpec XpTree XpAxes XpOrder XpSelect XpProps XpPath XpPathSpec XpPathSteps XpPathOrder XpPathEval XpPathProps XtPattern XtPatternSpec XtPatternProofs.
Import ListNotations.
Local Open Scope nat_scope.

(** What precedes the first step. *)
Definition anchor_of (s : store) (p : lpattern) (m : nat) : Prop :=
  match p with
  | LAbsolute _ => kind_of s m = Some KEntity
  | LIdKeyPath nodes Slash _ => In m nodes
  | LIdKeyPath nodes DoubleSlash _ => exists z, In z nodes /\ above_or_self (parent_of s) z m
  | _ => True
  end.
Definition anchor_tuples (p : lpattern) : list ptuple :=
  match p with LAbsolute _ => [document_tuple] | LIdKeyPath nodes _ _ => [idkey_tuple nodes] | _ => [] end.
Lemma steps_tuples p r : path_of p = Some r -> pattern_steps p = do l <- tuples (rp_first r) (rev (rp_rest r)) ; Ok (l ++ anchor_tuples p).
Proof.
  assert (relative_tuples r = relative_tuples {| rp_first := rp_first r; rp_rest := rev (rev (rp_rest r)) |}) as E by (rewrite rev_involutive; destruct r; reflexivity).
  destruct p; cbn [path_of]; try discriminate; intros [= ->]; unfold pattern_steps; cbn [location_tuples anchor_tuples]; rewrite <- tuples_ok, <- E; destruct (relative_tuples r) as [l|]; cbn; rewrite ?app_nil_r; reflexivity.
Qed.
Lemma good_split s x p r : path_of p = Some r -> good_pattern s x p ->
  good_step (rp_first r) /\ Forall (fun dp => good_step (snd dp)) (rev (rp_rest r)) /\ good_at s (head_step (rp_first r) (rev (rp_rest r))) x /\ inner_ok (rp_first r) (rev (rp_rest r)).
Proof.
  intros P G. unfold good_pattern in G. rewrite P in G. destruct G as [G [N1 N2]]. unfold steps_of in *.
  assert (good_at s (head_step (rp_first r) (rev (rp_rest r))) x /\ inner_ok (rp_first r) (rev (rp_rest r))) as H.
  { clear G. destruct (rp_rest r) as [|a l] using rev_ind; [cbn in *; split; [exact N2|exact I]|]. clear IHl. rewrite map_app in *. cbn [map] in *. rewrite app_comm_cons, removelast_last in N1. rewrite app_comm_cons, last_last in N2.
    rewrite rev_app_distr. cbn [rev app head_step inner_ok]. destruct a as [d q]. split; [exact N2|]. inversion N1 as [|? ? H1 H2]; subst. split; [exact H1|]. apply Forall_rev. apply (proj1 (Forall_map _ _ _)) in H2. exact H2. }
  inversion G as [|? ? G1 G2]; subst. split; [exact G1|]. split; [|exact H]. apply Forall_rev. apply (proj1 (Forall_map _ _ _)) in G2. exact G2.
Qed.

Section Matches.
Variables (namespaces : str -> option str) (s : store) (nm : names) (size : nat).
Hypothesis F : forest s.
Lemma reached_down st : ls_axis st = Child \/ ls_axis st = Attribute \/ ls_axis st = DescendantOrSelf -> forall n x, step_from namespaces s nm st n x -> above_or_self (parent_of s) n x.
Proof.
  intros H n x S1. apply step_from_axis in S1. destruct S1 as [A _]. destruct H as [H|[H|H]]; rewrite H in A; cbn in A.
  - right. apply above_parent. tauto.
  - right. apply above_parent. tauto.
  - destruct A as [->|[A _]]; [left; reflexivity|right; exact A].
Qed.
Lemma steps_down r : forall n x, reached namespaces s nm (as_steps r) n x -> above_or_self (parent_of s) n x.
Proof.
  assert (Forall (fun st => ls_axis st = Child \/ ls_axis st = Attribute \/ ls_axis st = DescendantOrSelf) (as_steps r)) as FA.
  { unfold as_steps. constructor; [cbn; destruct (ps_attr (rp_first r)); auto|]. apply Forall_flat_map. apply Forall_forall. intros [d p] _. cbn [fst snd]. destruct d; cbn [joined]; repeat (constructor; cbn; [destruct (ps_attr p); auto|]); repeat constructor; cbn; destruct (ps_attr p); auto. }
  induction FA as [|st l H FA IH]; intros n x R; inversion R as [|? ? ? m ? R1 R2]; subst; [left; reflexivity|]. eapply aos_trans; [eapply reached_down; eauto|]. now apply IH.
Qed.
Lemma reached_exists r n x : reached namespaces s nm (as_steps r) n x -> exists_node s n.
Proof. unfold as_steps. intros R. inversion R as [|? ? ? m ? R1 R2]; subst. exact (proj1 (step_node_exists' namespaces s nm F _ _ _ R1)). Qed.
Lemma reached_first r n x : reached namespaces s nm (as_steps r) n x -> exists y, step_from namespaces s nm (as_step (rp_first r)) n y.
Proof. unfold as_steps. intros R. inversion R as [|? ? ? m ? R1 R2]; subst. eauto. Qed.

Lemma entity_exists m : kind_of s m = Some KEntity -> exists_node s m.
Proof. unfold kind_of. destruct (get s m) as [n|] eqn:E; [|discriminate]. intros _. eapply get_some; eauto. Qed.
Lemma matches_chain p r x : path_of p = Some r -> in_document s x -> (forall nodes d q, p = LIdKeyPath nodes d q -> forall z, In z nodes -> exists_node s z) ->
  (matches namespaces s nm p x <-> chain namespaces s nm (anchor_of s p) (rp_first r) (rev (rp_rest r)) x).
Proof.
  intros P D NE. rewrite <- (chain_reached namespaces s nm 0 F). rewrite rev_involutive. assert ({| rp_first := rp_first r; rp_rest := rp_rest r |} = r) as -> by (destruct r; reflexivity).
  unfold matches. destruct p as [|r0|nodes|nodes d r0|r0|r0]; cbn [path_of] in P; try discriminate; injection P as ->; cbn [in_result anchor_of].
  - split.
    + intros [n [A [m [[K B] R]]]]. exists m. split; [exact K|]. split; [exact (entity_exists m K)|exact R].
    + intros [m [K [E R]]]. exists x. split; [left; reflexivity|]. exists m. split; [|exact R]. split; [exact K|]. cbn. exact (steps_down _ _ _ R).
  - destruct d; cbn [joined].
    + split; [intros [n [_ [m [I R]]]]; exists m; split; [exact I|]; split; [eapply NE; eauto|exact R]|intros [m [I [E R]]]; exists x; split; [left; reflexivity|eauto]].
    + split.
      * intros [n [_ [m [I R]]]]. inversion R as [|? ? ? k ? R1 R2]; subst. exists k. split; [|split; [eapply reached_exists; eauto|exact R2]]. exists m. split; [exact I|]. eapply reached_down; [|exact R1]. auto.
      * intros [k [[z [I A]] [E R]]]. exists x. split; [left; reflexivity|]. exists z. split; [exact I|]. econstructor; [|exact R].
        destruct (reached_first _ _ _ R) as [y Y]. apply (aos_dec_depth namespaces s nm F z k (rp_first r) y); [eapply NE; eauto|exact Y|exact A].
  - split.
    + intros [n [A [m [[K B] R]]]]. cbn [lp_steps] in R. inversion R as [|? ? ? k ? R1 R2]; subst. exists k. split; [exact I|]. split; [eapply reached_exists; eauto|exact R2].
    + intros [k [_ [E R]]]. exists x. split; [left; reflexivity|]. destruct D as [root [K A]]. exists root. split; [split; [exact K|exact A]|]. cbn [lp_steps]. econstructor; [|exact R].
      destruct (reached_first _ _ _ R) as [y Y]. apply (aos_dec_depth namespaces s nm F root k (rp_first r) y); [exact (entity_exists root K)|exact Y|].
      destruct (above_chain s root k x A (steps_down _ _ _ R)) as [->|[H|H]]; [left; reflexivity|right; exact H|]. exfalso. pose proof (entity_top s F root K) as T. inversion H as [b Q|b q Q]; rewrite T in Q; discriminate.
  - split.
    + intros [n [A [m [H R]]]]. unfold start in H. cbn in H. subst m. exists n. split; [exact I|]. split; [eapply reached_exists; eauto|exact R].
    + intros [n [_ [E R]]]. exists n. split; [exact (steps_down _ _ _ R)|]. exists n. split; [reflexivity|exact R].
Qed.
Lemma is_entity_iff x : is_entity s x = true <-> kind_of s x = Some KEntity.
Proof. apply has_kind_iff. Qed.
Lemma root_matches x : in_document s x -> (matches namespaces s nm LRoot x <-> kind_of s x = Some KEntity).
Proof.
  intros D. unfold matches. cbn [in_result]. split.
  - intros [n [_ [m [[K _] R]]]]. inversion R; subst. exact K.
  - intros K. exists x. split; [left; reflexivity|]. exists x. split; [split; [exact K|left; reflexivity]|constructor].
Qed.
End Matches.

(** ** C53 *)
(** The nodes in the values of id() and key() are nodes of the store. *)
Definition real_nodes (s : store) (p : lpattern) : Prop := forall nodes d r, p = LIdKeyPath nodes d r -> forall z, In z nodes -> exists_node s z.

(** A pattern that is said to match does match.  Missing: node() in a step other than
    the last or tried on the root or an attribute, and processing-instruction() (both
    refuted below). *)
Theorem C53_sound_partial : forall namespaces s nm size p x, forest s -> proper_names nm -> in_document s x -> real_nodes s p -> good_pattern s x p ->
  pattern_match namespaces s nm size p x = Ok true -> matches namespaces s nm p x.
Proof.
  intros namespaces s nm size p x F PN D RN G H. unfold pattern_match in H. destruct (path_of p) as [r|] eqn:P.
  - rewrite (steps_tuples p r P) in H. destruct (tuples _ _) as [l|] eqn:T; cbn [bind] in H; [|discriminate]. destruct (good_split s x p r P G) as [G1 [G2 [GA IN]]].
    apply (matches_chain namespaces s nm F p r x P D RN). apply (match_sound namespaces s nm size F PN (anchor_tuples p) (anchor_of s p) _ _ G1 G2) with (l := l); auto.
    intros y m PA. destruct p as [|r0|nodes|nodes d r0|r0|r0]; cbn [anchor_tuples anchor_of]; auto; cbn [match_rest pt_ancestor document_tuple idkey_tuple pt_test pt_axis ptest_match bind]; rewrite PA.
    + destruct (is_entity s m) eqn:E; [|discriminate]. intros _. now apply is_entity_iff.
    + destruct (memb m nodes) eqn:E; [|discriminate]. intros _. apply memb_in in E. destruct d; [exact E|]. exists m. split; [exact E|left; reflexivity].
  - destruct p; cbn in P; try discriminate; cbn in H.
    + destruct (is_entity s x) eqn:E; [|discriminate]. apply root_matches; [exact D|]. now apply is_entity_iff.
    + destruct (memb x nodes) eqn:E; [|discriminate]. apply memb_in in E. exists x. split; [left; reflexivity|exact E].
Qed.
Print Assumptions C53_sound_partial.

(** Where no '/' comes before a '//', the answer is the right one, both ways.
    Missing: the other patterns with '//' (refuted below), and what is
    missing above. *)
Theorem C53_exact_partial : forall namespaces s nm size p x b, forest s -> proper_names nm -> in_document s x -> real_nodes s p -> good_pattern s x p -> greedy_pattern p ->
  pattern_match namespaces s nm size p x = Ok b -> (b = true <-> matches namespaces s nm p x).
Proof.
  intros namespaces s nm size p x b F PN D RN G GP H. split; [intros ->; eapply C53_sound_partial; eauto|]. intros M. unfold pattern_match in H. destruct (path_of p) as [r|] eqn:P.
  - rewrite (steps_tuples p r P) in H. destruct (tuples _ _) as [l|] eqn:T; cbn [bind] in H; [|discriminate]. destruct (good_split s x p r P G) as [G1 [G2 [GA IN]]].
    apply (matches_chain namespaces s nm F p r x P D RN) in M.
    apply (match_complete namespaces s nm size F PN (anchor_tuples p) (anchor_of s p) (match p with LAnywhere _ | LRelative _ => false | _ => true end) _ _ G1 G2) with (l := l) (x := x); auto.
    + intros y m c PA. destruct p as [|r0|nodes|nodes d r0|r0|r0]; cbn [path_of] in P; try discriminate; cbn [anchor_tuples anchor_of match_rest pt_ancestor document_tuple idkey_tuple pt_test pt_axis ptest_match bind]; try (intros _ [= <-]; reflexivity); rewrite PA.
      * intros K. apply is_entity_iff in K. rewrite K. congruence.
      * destruct GP as [-> _]. intros I. apply memb_in in I. rewrite I. congruence.
    + destruct p; cbn [path_of] in P; try discriminate; cbn [anchor_of]; intros E m; auto.
    + rewrite rev_involutive. destruct p; cbn [path_of] in P; try discriminate; injection P as ->; cbn [greedy_pattern] in GP; try exact GP. exact (proj2 GP).
  - destruct p; cbn in P; try discriminate; cbn in H.
    + apply root_matches in M; [|exact D]. apply is_entity_iff in M. rewrite M in H. congruence.
    + destruct M as [n [_ M]]. cbn in M. apply memb_in in M. rewrite M in H. congruence.
Qed.
Print Assumptions C53_exact_partial.

(** It always answers.  Missing: predicates on the attribute axis (refuted below),
    and the node tests above. *)
Definition easy_pattern (namespaces : str -> option str) (p : lpattern) : Prop :=
  match path_of p with
  | None => True
  | Some r => Forall (fun st => good_test (ps_attr st) (ps_test st) /\ declared namespaces (ps_test st) /\ evaluable st /\ (ps_attr st = true -> ps_preds st = [])) (steps_of r)
  end.
Theorem C53_total_partial : forall namespaces s nm size p x, forest s -> easy_pattern namespaces p -> exists b, pattern_match namespaces s nm size p x = Ok b.
Proof.
  intros namespaces s nm size p x F E. unfold pattern_match, easy_pattern in *. destruct (path_of p) as [r|] eqn:P.
  - rewrite (steps_tuples p r P). unfold steps_of in E. inversion E as [|? ? E1 E2]; subst.
    destruct (tuples_total namespaces s nm size F (rp_first r) (rev (rp_rest r)) E1) as [l [T S1]]; [apply Forall_rev; apply (proj1 (Forall_map _ _ _)) in E2; exact E2|]. rewrite T. cbn [bind].
    assert (Forall (sound_tuple namespaces s nm size) (l ++ anchor_tuples p)) as S2.
    { apply Forall_app. split; [exact S1|]. destruct p; cbn [anchor_tuples]; repeat constructor; intros y; cbn; eexists; reflexivity. }
    destruct (tuples_head _ _ _ T) as [t [l' [-> _]]]. cbn [app steps_match] in *. inversion S2 as [|? ? T1 S3]; subst. destruct (T1 x) as [b ->]. cbn [bind]. destruct b; [|eexists; reflexivity].
    apply match_rest_total; assumption.
  - destruct p; cbn in P; try discriminate; cbn; [destruct (is_entity s x)|destruct (memb x nodes)]; eexists; reflexivity.
Qed.
Print Assumptions C53_total_partial.

(** Alternatives separated by '|'. *)
Theorem C53_alternatives_partial : forall namespaces s nm size ps x b, forest s -> proper_names nm -> in_document s x ->
  Forall (fun p => real_nodes s p /\ good_pattern s x p /\ greedy_pattern p) ps ->
  patterns_match namespaces s nm size ps x = Ok b -> (b = true <-> Exists (fun p => matches namespaces s nm p x) ps).
Proof.
  intros namespaces s nm size ps x b F PN D FA. revert b. induction FA as [|p ps [RN [G GP]] FA IH]; intros b; cbn [patterns_match].
  - intros [= <-]. split; [discriminate|]. intros E. inversion E.
  - destruct (pattern_match namespaces s nm size p x) as [c|] eqn:PM; cbn [bind]; [|discriminate]. pose proof (C53_exact_partial namespaces s nm size p x c F PN D RN G GP PM) as C.
    destruct c; intros H.
    + injection H as <-. split; [intros _; left; now apply C|reflexivity].
    + rewrite (IH b H). split; [intros E; now right|]. intros E. inversion E as [? ? M|? ? M]; subst; [apply C in M; discriminate|exact M].
Qed.
Print Assumptions C53_alternatives_partial.

(** In [sample] (see XpProps and XpPathProps): '*//b', '//a[1]/@x', '/r/a/b',
    'a/node()' and 'text()' on nodes they match and do not match. *)
Definition pst (t : ntest) : pstep := {| ps_attr := false; ps_test := t; ps_preds := [] |}.
Definition pat (t : ntest) : pstep := {| ps_attr := true; ps_test := t; ps_preds := [] |}.
Definition named (n : string) : pstep := pst (TLocal (lit n)).
Definition rel (p : pstep) (l : list (sep * pstep)) : relpath := {| rp_first := p; rp_rest := l |}.
Definition check := pattern_match no_prefixes sample sample_names 1.
Definition p1 := LRelative (rel (pst TPrincipal) [(DoubleSlash, named "b")]).
Definition p2 := LAnywhere (rel {| ps_attr := false; ps_test := TLocal (lit "a"); ps_preds := [ELiteral (int_num 1)] |} [(Slash, pat (TLocal (lit "x")))]).
Definition p3 := LAbsolute (rel (named "r") [(Slash, named "a"); (Slash, named "b")]).
Definition p4 := LRelative (rel (named "a") [(Slash, pst TNode)]).
Lemma one_handled : handled (ELiteral (int_num 1)).
Proof. cbn. repeat split; auto; try lia; try reflexivity; vm_compute; congruence. Qed.
Ltac good_steps := split; [repeat constructor; try exact one_handled|split; [cbn [removelast steps_of rel rp_first rp_rest map snd]; repeat (constructor; [discriminate|]); constructor|cbn [last hd steps_of rel rp_first rp_rest map snd]; discriminate]].
Example C53_case : forest sample /\ proper_names sample_names /\ in_document sample 4 /\ in_document sample 9 /\
  good_pattern sample 4 p1 /\ good_pattern sample 9 p2 /\ good_pattern sample 4 p3 /\ good_pattern sample 4 p4 /\ Forall greedy_pattern [p1; p2; p3; p4] /\
  check p4 4 = Ok true /\
  check p1 4 = Ok true /\ check p1 1 = Ok false /\ check p2 9 = Ok true /\ check p2 10 = Ok false /\ check p3 4 = Ok true /\ check p3 7 = Ok false /\
  check (LRelative (rel (pst TText) [])) 5 = Ok true.
Proof.
  split; [exact sample_forest|]. split; [intros x; discriminate|].
  split; [exists 0; split; [vm_compute; reflexivity|right; apply above_up with (p := 3); [vm_compute; reflexivity|]; apply above_up with (p := 1); [vm_compute; reflexivity|]; apply above_parent; vm_compute; reflexivity]|].
  split; [exists 0; split; [vm_compute; reflexivity|right; apply above_up with (p := 3); [vm_compute; reflexivity|]; apply above_up with (p := 1); [vm_compute; reflexivity|]; apply above_parent; vm_compute; reflexivity]|].
  split; [good_steps|]. split; [good_steps|]. split; [good_steps|].
  split; [split; [repeat constructor|]; split; [constructor; [discriminate|constructor]|]; intros _; split; [exists 3; vm_compute; reflexivity|vm_compute; discriminate]|]. split; [repeat constructor|]. repeat apply conj; vm_compute; reflexivity.
Qed.

(** A document with one element in another, four deep; the names are a, b, b, c. *)
Definition nested : store := run empty [New KEntity []; New KElement []; New KElement []; New KElement []; New KElement []; Append 0 1; Append 1 2; Append 2 3; Append 3 4].
Lemma nested_forest : forest nested.
Proof. apply run_forest; [exact forest_empty|]. apply safe_runb_ok. vm_compute. reflexivity. Qed.
Definition nested_names : names := {| nm_ns := fun _ => None; nm_local := fun n => match n with 1 => lit "a" | 2 => lit "b" | 3 => lit "b" | 4 => lit "c" | _ => [] end |}.
Lemma nested_names_proper : proper_names nested_names.
Proof. intros x. discriminate. Qed.
Lemma nested_above x : 0 < x < 5 -> above_or_self (parent_of nested) 0 x.
Proof.
  intros H. assert (above (parent_of nested) 0 1) as H1 by (apply above_parent; vm_compute; reflexivity).
  assert (above (parent_of nested) 0 2) as H2 by (apply above_up with (p := 1); [vm_compute; reflexivity|exact H1]).
  assert (above (parent_of nested) 0 3) as H3 by (apply above_up with (p := 2); [vm_compute; reflexivity|exact H2]).
  assert (above (parent_of nested) 0 4) as H4 by (apply above_up with (p := 3); [vm_compute; reflexivity|exact H3]).
  right. do 5 (destruct x as [|x]; [try lia; assumption|]). lia.
Qed.
Lemma nested_document x : 0 < x < 5 -> in_document nested x.
Proof. intros H. exists 0. split; [vm_compute; reflexivity|now apply nested_above]. Qed.
Definition nested_check := pattern_match no_prefixes nested nested_names 1.
Lemma nested_step n m x : parent_of nested x = Some m -> test_match no_prefixes nested nested_names (TLocal (lit n)) x (Some KElement) = Ok true -> step_from no_prefixes nested nested_names (as_step (named n)) m x.
Proof.
  intros P T. apply (step_ok no_prefixes nested nested_names 1 nested_forest nested_names_proper (named n) {| pt_axis := Some KElement; pt_test := PTest (TLocal (lit n)); pt_ancestor := false |} x m true).
  - reflexivity.
  - split; [exact I|constructor].
  - discriminate.
  - exact P.
  - exact T.
  - reflexivity.
Qed.
(** 'a/b//c' matches the element c, but the matcher stops at the inner b,
    whose parent is not an a. *)
Theorem C53_backtracking_refuted : forest nested /\
  let p := LRelative (rel (named "a") [(Slash, named "b"); (DoubleSlash, named "c")]) in
  good_pattern nested 4 p /\ matches no_prefixes nested nested_names p 4 /\ nested_check p 4 = Ok false.
Proof.
  split; [exact nested_forest|]. cbn zeta. split; [good_steps|]. split; [|vm_compute; reflexivity].
  apply (matches_chain no_prefixes nested nested_names nested_forest) with (r := rel (named "a") [(Slash, named "b"); (DoubleSlash, named "c")]); [reflexivity|apply nested_document; lia|intros; discriminate|].
  cbn [rel rp_first rp_rest rev app chain]. exists 3, 2. split; [apply nested_step; vm_compute; reflexivity|]. split; [|right; apply above_parent; vm_compute; reflexivity].
  exists 1, 1. split; [apply nested_step; vm_compute; reflexivity|]. split; [|reflexivity]. exists 0. split; [apply nested_step; vm_compute; reflexivity|exact I].
Qed.
Print Assumptions C53_backtracking_refuted.
(** With the names a, a, b, '/a//b' matches 3, but the matcher stops at the inner a. *)
Definition nested_names' : names := {| nm_ns := fun _ => None; nm_local := fun n => match n with 1 => lit "a" | 2 => lit "a" | 3 => lit "b" | _ => [] end |}.
Theorem C53_absolute_refuted : forest nested /\
  let p := LAbsolute (rel (named "a") [(DoubleSlash, named "b")]) in
  good_pattern nested 3 p /\ matches no_prefixes nested nested_names' p 3 /\ pattern_match no_prefixes nested nested_names' 1 p 3 = Ok false.
Proof.
  split; [exact nested_forest|]. cbn zeta. split; [good_steps|]. split; [|vm_compute; reflexivity].
  assert (proper_names nested_names') as PN by (intros x; discriminate).
  assert (forall n m x, parent_of nested x = Some m -> test_match no_prefixes nested nested_names' (TLocal (lit n)) x (Some KElement) = Ok true -> step_from no_prefixes nested nested_names' (as_step (named n)) m x) as ST.
  { intros n m x P T. apply (step_ok no_prefixes nested nested_names' 1 nested_forest PN (named n) {| pt_axis := Some KElement; pt_test := PTest (TLocal (lit n)); pt_ancestor := false |} x m true); [reflexivity|split; [exact I|constructor]|discriminate|exact P|exact T|reflexivity]. }
  apply (matches_chain no_prefixes nested nested_names' nested_forest) with (r := rel (named "a") [(DoubleSlash, named "b")]); [reflexivity|apply nested_document; lia|intros; discriminate|].
  cbn [rel rp_first rp_rest rev app chain]. exists 2, 1. split; [apply ST; vm_compute; reflexivity|]. split; [|right; apply above_parent; vm_compute; reflexivity].
  exists 0. split; [apply ST; vm_compute; reflexivity|vm_compute; reflexivity].
Qed.
Print Assumptions C53_absolute_refuted.
(** 'id("i")//c', where 2 has that ID, matches 4, which the matcher denies. *)
Theorem C53_id_refuted : forest nested /\
  let p := LIdKeyPath [2] DoubleSlash (rel (named "c") []) in
  good_pattern nested 4 p /\ matches no_prefixes nested nested_names p 4 /\ nested_check p 4 = Ok false.
Proof.
  split; [exact nested_forest|]. cbn zeta. split; [good_steps|]. split; [|vm_compute; reflexivity].
  apply (matches_chain no_prefixes nested nested_names nested_forest) with (r := rel (named "c") []); [reflexivity|apply nested_document; lia|intros nodes d q [= <- _ _] z [<-|[]]; vm_compute; lia|].
  cbn [rel rp_first rp_rest rev app chain]. exists 3. split; [apply nested_step; vm_compute; reflexivity|]. exists 2. split; [now left|right; apply above_parent; vm_compute; reflexivity].
Qed.
Print Assumptions C53_id_refuted.

(** 'node()', which is child::node(), is said to match the root and attributes, neither
    of which is a child of any node. *)
Theorem C53_node_refuted : forest sample /\ (forall x, kind_of sample x = Some KEntity \/ kind_of sample x = Some KAttr -> ~ matches no_prefixes sample sample_names (LRelative (rel (pst TNode) [])) x) /\
  kind_of sample 0 = Some KEntity /\ check (LRelative (rel (pst TNode) [])) 0 = Ok true /\ kind_of sample 9 = Some KAttr /\ check (LRelative (rel (pst TNode) [])) 9 = Ok true.
Proof.
  split; [exact sample_forest|]. split; [|repeat apply conj; vm_compute; reflexivity].
  intros x K [n [_ [m [E R]]]]. unfold as_steps in R; cbn [lp_steps rel rp_first rp_rest flat_map] in R. inversion R as [|? ? ? k ? R1 R2]; subst. inversion R2; subst. apply step_from_axis in R1. destruct R1 as [[P NA] _]. destruct K as [K|K].
  - pose proof (entity_top sample sample_forest x K) as T. rewrite T in P. discriminate P.
  - exact (NA K).
Qed.
Print Assumptions C53_node_refuted.

(** A document with a processing instruction 2 in the element 1.  The pattern
    processing-instruction() does not match it; it does match the element; with a
    target, asking about an element raises an exception. *)
Definition with_pi : store := run empty [New KEntity []; New KElement []; New KPI []; Append 0 1; Append 1 2].
Lemma with_pi_forest : forest with_pi.
Proof. apply run_forest; [exact forest_empty|]. apply safe_runb_ok. vm_compute. reflexivity. Qed.
Definition pi_names : names := {| nm_ns := fun _ => None; nm_local := fun n => match n with 1 => lit "a" | 2 => lit "t" | _ => [] end |}.
Definition pi_check := pattern_match no_prefixes with_pi pi_names 1.
Theorem C53_processing_instruction_refuted : forest with_pi /\ kind_of with_pi 1 = Some KElement /\ kind_of with_pi 2 = Some KPI /\
  matches no_prefixes with_pi pi_names (LRelative (rel (pst (TPI None)) [])) 2 /\ ~ matches no_prefixes with_pi pi_names (LRelative (rel (pst (TPI None)) [])) 1 /\
  pi_check (LRelative (rel (pst (TPI None)) [])) 2 = Ok false /\ pi_check (LRelative (rel (pst (TPI None)) [])) 1 = Ok true /\
  pi_check (LRelative (rel (pst (TPI (Some (lit "t")))) [])) 1 = Err AttributeError.
Proof.
  split; [exact with_pi_forest|]. split; [vm_compute; reflexivity|]. split; [vm_compute; reflexivity|]. split; [|split; [|repeat apply conj; vm_compute; reflexivity]].
  - exists 1. split; [right; apply above_parent; vm_compute; reflexivity|]. exists 1. split; [reflexivity|]. apply reached_one.
    assert (exists_node with_pi 1) as E by (vm_compute; lia).
    destruct (select_ok with_pi Child 1 with_pi_forest E) as [l [SL [M O]]]; [intros _; exact I|]. vm_compute in SL. injection SL as <-.
    exists [2], [2]. split.
    + intros y. rewrite <- M. cbn. split; [intros [<-|[]]; split; [auto|vm_compute; reflexivity]|intros [[<-|[]] _]; auto].
    + split; [exact O|]. split; [constructor|now left].
  - intros [n [_ [m [E R]]]]. unfold as_steps in R; cbn [lp_steps rel rp_first rp_rest flat_map] in R. inversion R as [|? ? ? k ? R1 R2]; subst. inversion R2; subst. apply step_from_axis in R1. destruct R1 as [_ K]. vm_compute in K. discriminate.
Qed.
Print Assumptions C53_processing_instruction_refuted.
(** A pattern such as '@x[1]', tried on the document element. *)
Theorem C53_attribute_predicate_refuted : forest sample /\ exists_node sample 1 /\
  check (LRelative (rel {| ps_attr := true; ps_test := TLocal (lit "x"); ps_preds := [ELiteral (int_num 1)] |} [])) 1 = Err AttributeError.
Proof. split; [exact sample_forest|]. split; [vm_compute; lia|vm_compute; reflexivity]. Qed.
Print Assumptions C53_attribute_predicate_refuted.
Example C53_total_case : easy_pattern no_prefixes p1 /\ easy_pattern no_prefixes p2 /\ easy_pattern no_prefixes p3.
Proof.
  assert (forall a t, good_test a t -> declared no_prefixes t -> good_test a t /\ declared no_prefixes t /\ evaluable {| ps_attr := a; ps_test := t; ps_preds := [] |} /\ (a = true -> [] = @nil pexpr)) as H.
  { intros a t G D. split; [exact G|]. split; [exact D|]. split; [|reflexivity]. split; [constructor|]. exists []. auto. }
  repeat apply conj; repeat constructor; try (apply H; exact I); cbn; try discriminate.
  all: try (eexists; split; [vm_compute; reflexivity|vm_compute; reflexivity]).
Qed.
