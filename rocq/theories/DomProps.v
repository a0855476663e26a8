(** * Properties C18 - C22 and C26: the DOM tree (amara.tree)

    Statements only; proofs are in DomCells, DomInv, DomOps, DomStep, DomOrder
    and DomIds.  The vocabulary ([forest], [edited], [safe], [before], ...) is in
    DomSpec. *)
From Coq Require Import NArith ZArith String List Bool Lia Arith Sorted.
From Verif Require Import PyStr PyErr DomModel DomSpec DomCells DomInv DomOps DomStep DomOrder DomIds.
Import ListNotations.
Local Open Scope nat_scope.

(** ** C18 *)
(** The full statement, [forall ops, forest (run empty ops)], is false: see the
    refutations below.  It holds for histories without the calls that [safe]
    excludes. *)
Theorem C18_links_consistent_partial : forall ops, safe_run empty ops -> forest (run empty ops).
Proof. intros ops. apply run_forest, forest_empty. Qed.
Print Assumptions C18_links_consistent_partial.

(** From any consistent forest, one call at a time. *)
Theorem C18_step_partial : forall s o, forest s -> safe s o -> forest (fst (step s o)).
Proof. exact step_forest. Qed.
Print Assumptions C18_step_partial.

(** A decidable form of [safe], to check that concrete histories are safe. *)
Definition safeb (s : store) (o : op) : bool :=
  match o with
  | Append p c => negb (match parent_of s c with Some q => q =? p | None => false end)
  | Insert p i c => negb (match parent_of s c with Some q => q =? p | None => false end) ||
      (clamp_index i (length (kids s p)) <? length (kids s p)) && negb (match slot_after s p with Some x => x =? c | None => false end)
  | Replace p o n => (o =? n) ||
      match kind_of s n with Some k => child_kind k | None => false end &&
      match is_ancestor (S (length (s_nodes s))) s n p with Some b => negb b | None => false end &&
      (negb (match parent_of s n with Some q => q =? p | None => false end) || match pos_in (kids s p) o, pos_in (kids s p) n with Some x, Some y => x <? y | _, _ => false end)
  | _ => true
  end.
Lemma safeb_safe s o : safeb s o = true -> safe s o.
Proof.
  destruct o as [k d|p c|p i c|p c|p o n|p|p d|p]; cbn [safe safeb]; try (intros _; exact I).
  - intros H E. rewrite E, Nat.eqb_refl in H. discriminate.
  - intros H E. rewrite E, Nat.eqb_refl in H. cbn in H. apply andb_true_iff in H. destruct H as [H1 H2]. split; [now apply Nat.ltb_lt|].
    intros X. rewrite X, Nat.eqb_refl in H2. discriminate.
  - intros H. apply orb_true_iff in H. destruct H as [H|H]; [left; now apply Nat.eqb_eq|right]. apply andb_true_iff in H. destruct H as [H H3]. apply andb_true_iff in H. destruct H as [H1 H2].
    split; [intros k K; now rewrite K in H1|]. split.
    + destruct (is_ancestor _ s n p) as [[|]|] eqn:E; try discriminate. eapply is_ancestor_false; eauto.
    + intros P. rewrite P, Nat.eqb_refl in H3. cbn in H3. destruct (pos_in (kids s p) o) as [x|]; [|discriminate]. destruct (pos_in (kids s p) n) as [y|]; [|discriminate].
      exists x, y. split; [reflexivity|]. split; [reflexivity|]. now apply Nat.ltb_lt.
Qed.
Fixpoint safe_runb (s : store) (ops : list op) : bool := match ops with [] => true | o :: ops' => safeb s o && safe_runb (fst (step s o)) ops' end.
Lemma safe_runb_ok : forall ops s, safe_runb s ops = true -> safe_run s ops.
Proof. induction ops as [|o ops IH]; intros s; cbn; [auto|]. intros H. apply andb_true_iff in H. destruct H. split; [now apply safeb_safe|auto]. Qed.

(** A document 0 with an element 1 that has the text 2, the element 3 and the
    texts 4 and 5; attributes 6 and 7 of 1; and a comment 8 without parent.  The
    history moves nodes within and between parents, replaces, and parses. *)
Definition history : list op :=
  [New KEntity []; New KElement []; New KText (lit "a"); New KElement []; New KText (lit "b"); New KText (lit "c");
   AddAttr 1 (lit "x"); AddAttr 1 (lit "y"); New KComment (lit "d");
   Append 0 1; Append 1 5; Append 1 3; Freeze 1; Insert 1 0 2; Insert 1 (-1) 4; Append 3 4; Insert 1 1 5; Append 1 4;
   Remove 1 5; Append 1 5; Replace 1 2 8; Replace 1 8 2; Remove 0 8; Insert 1 2 4; Insert 1 5 8; Remove 1 8].
Example C18_case : safe_run empty history /\ kids (run empty history) 1 = [2; 3; 4; 5] /\ kids (run empty history) 0 = [1] /\ attrs_of (run empty history) 1 = [6; 7] /\
  parent_of (run empty history) 3 = Some 1 /\ parent_of (run empty history) 8 = None.
Proof. split; [apply safe_runb_ok; vm_compute; reflexivity|vm_compute; auto]. Qed.
Lemma history_forest : forest (run empty history).
Proof. apply C18_links_consistent_partial, C18_case. Qed.

(** What the calls that [safe] excludes do to a consistent forest (element 0 with
    the texts 1, 2, 3). *)
Definition three : list op := [New KElement []; New KText (lit "a"); New KText (lit "b"); New KText (lit "c"); Append 0 1; Append 0 2; Append 0 3].
Example three_safe : safe_run empty three /\ kids (run empty three) 0 = [1; 2; 3].
Proof. split; [apply safe_runb_ok; vm_compute; reflexivity|vm_compute; reflexivity]. Qed.
Lemma three_forest : forest (run empty three).
Proof. apply C18_links_consistent_partial, three_safe. Qed.
Definition broken (s : store) (o : op) : Prop := forest s /\ snd (step s o) = Ok tt /\ ~ forest (fst (step s o)).

(** Appending the last child again: the child array then ends in a slot that was
    never written. *)
Theorem C18_append_own_child_refuted : broken (run empty three) (Append 0 1) /\ get_children (fst (step (run empty three) (Append 0 1))) 0 = Err Garbage.
Proof.
  assert (get_children (fst (step (run empty three) (Append 0 1))) 0 = Err Garbage) as E by (vm_compute; reflexivity).
  split; [|exact E]. split; [exact three_forest|]. split; [vm_compute; reflexivity|]. intros F. pose proof (f_read _ F 0) as R. rewrite E in R. specialize (R ltac:(vm_compute; lia)). discriminate.
Qed.
Print Assumptions C18_append_own_child_refuted.
(** Inserting a child at the end of its own parent. *)
Theorem C18_insert_at_end_refuted : broken (run empty three) (Insert 0 3 1).
Proof.
  assert (get_children (fst (step (run empty three) (Insert 0 3 1))) 0 = Err Garbage) as E by (vm_compute; reflexivity).
  split; [exact three_forest|]. split; [vm_compute; reflexivity|]. intros F. pose proof (f_read _ F 0) as R. rewrite E in R. specialize (R ltac:(vm_compute; lia)). discriminate.
Qed.
Print Assumptions C18_insert_at_end_refuted.
(** Inserting a child in its own parent when an unused slot still points to it. *)
Definition stale : list op := three ++ [Remove 0 3; Remove 0 2; Insert 0 0 3].
Theorem C18_stale_slot_refuted : safe_run empty stale /\ broken (run empty stale) (Insert 0 1 3) /\ kids (fst (step (run empty stale) (Insert 0 1 3))) 0 = [3; 3].
Proof.
  assert (safe_run empty stale) as S by (apply safe_runb_ok; vm_compute; reflexivity).
  assert (kids (fst (step (run empty stale) (Insert 0 1 3))) 0 = [3; 3]) as E by (vm_compute; reflexivity).
  split; [exact S|]. split; [|exact E]. split; [now apply C18_links_consistent_partial|]. split; [vm_compute; reflexivity|].
  intros F. pose proof (f_nodup _ F 0) as D. rewrite E in D. inversion D as [|x l N _]. apply N. left. reflexivity.
Qed.
Print Assumptions C18_stale_slot_refuted.
(** Replacing a child by one of its earlier siblings: the wrong node goes away. *)
Theorem C18_replace_by_earlier_refuted : broken (run empty three) (Replace 0 3 1).
Proof.
  split; [exact three_forest|]. split; [vm_compute; reflexivity|]. intros F.
  assert (In 1 (kids (fst (step (run empty three) (Replace 0 3 1))) 0)) as I by (apply (f_link _ F); vm_compute; split; [reflexivity|discriminate]).
  vm_compute in I. repeat (destruct I as [I|I]; [discriminate|]). exact I.
Qed.
Print Assumptions C18_replace_by_earlier_refuted.
(** Replacing a child by an ancestor makes a cycle. *)
Definition nested : list op := [New KElement []; New KElement []; New KText []; Append 0 1; Append 1 2].
Theorem C18_replace_by_ancestor_refuted : broken (run empty nested) (Replace 1 2 0).
Proof.
  split; [apply C18_links_consistent_partial, safe_runb_ok; vm_compute; reflexivity|]. split; [vm_compute; reflexivity|]. intros F.
  apply (f_acyclic _ F 0). apply above_up with (p := 1); [vm_compute; reflexivity|]. apply above_parent. vm_compute. reflexivity.
Qed.
Print Assumptions C18_replace_by_ancestor_refuted.
(** Replacing a child by a whole document is accepted. *)
Definition docs : list op := [New KEntity []; New KElement []; New KText []; New KEntity []; Append 0 1; Append 1 2].
Theorem C18_replace_by_document_refuted : broken (run empty docs) (Replace 1 2 3).
Proof.
  split; [apply C18_links_consistent_partial, safe_runb_ok; vm_compute; reflexivity|]. split; [vm_compute; reflexivity|]. intros F.
  destruct (f_kind _ F 1 3) as [k [K C]]; [vm_compute; left; reflexivity|]. vm_compute in K. injection K as <-. discriminate.
Qed.
Print Assumptions C18_replace_by_document_refuted.

(** ** C19 *)
(** [c] may become a child of [p]: it is an element, text, comment or processing
    instruction and does not contain [p]. *)
Definition container (s : store) (p : nat) : Prop := exists k, kind_of s p = Some k /\ is_container k = true.
Definition allowed (s : store) (p c : nat) : Prop := (exists k, kind_of s c = Some k /\ child_kind k = true) /\ ~ above_or_self (parent_of s) c p.

Lemma c_exists s p : container s p -> exists_node s p.
Proof. intros [k [K _]]. eapply kind_exists; eauto. Qed.
Lemma hierarchy s p c : forest s -> exists_node s p -> exists_node s c -> (allowed s p c /\ ensure_hierarchy s p c = Ok tt) \/ (~ allowed s p c /\ ensure_hierarchy s p c = Err ValueError).
Proof.
  intros F Hp Hc. destruct (ensure_hierarchy_ok s p c F Hp Hc) as [[E [K A]]|[E X]]; [left|right].
  - split; [split; assumption|exact E].
  - split; [|exact E]. intros [[k [K C]] A]. destruct X as [[k' [K' C']]|X]; [congruence|contradiction].
Qed.
Lemma method1 s p c m : container s p -> exists_node s c -> on_container s p [c] m = m.
Proof. intros [k [K C]] Hc. rewrite (on_container_cases s p _ _ k K), C, args1 by exact Hc. reflexivity. Qed.
Lemma method2 s p c d m : container s p -> exists_node s c -> exists_node s d -> on_container s p [c; d] m = m.
Proof. intros [k [K C]] Hc Hd. rewrite (on_container_cases s p _ _ k K), C, args2 by assumption. reflexivity. Qed.

(** xml_append: the child list of [p] becomes L ++ [c]; [c] leaves its former
    parent; nothing else changes.  Or ValueError and nothing changes. *)
Theorem C19_append_partial : forall s p c, forest s -> container s p -> exists_node s c -> parent_of s c <> Some p ->
  (allowed s p c -> exists s', step s (Append p c) = (s', Ok tt) /\ forest s' /\
     edited s s' (fun q => if q =? p then kids s p ++ [c] else without c (kids s q)) (set_par (parent_of s) c (Some p))) /\
  (~ allowed s p c -> step s (Append p c) = (s, Err ValueError)).
Proof.
  intros s p c F C Hc P. pose proof (c_exists s p C) as Hp. cbn [step]. rewrite method1 by assumption.
  destruct (hierarchy s p c F Hp Hc) as [[A E]|[A E]]; (split; intros A'; [|]); try contradiction.
  - destruct (append_edited s p c F Hp Hc E P) as [s' [X Y]]. exists s'. split; [exact X|]. split; [|exact Y].
    pose proof (step_forest s (Append p c) F P) as Z. cbn [step] in Z. rewrite method1, X in Z by assumption. exact Z.
  - unfold container_append. now rewrite E.
Qed.
Print Assumptions C19_append_partial.

(** xml_insert: [c] is first removed from its parent, then inserted at the index,
    counted as Python's list.insert does. *)
Theorem C19_insert_partial : forall s p i c, forest s -> container s p -> exists_node s c -> safe s (Insert p i c) ->
  (allowed s p c -> exists s', step s (Insert p i c) = (s', Ok tt) /\ forest s' /\
     edited s s' (fun q => if q =? p then insert_at (py_index i (length (kids s p))) c (without c (kids s p)) else without c (kids s q)) (set_par (parent_of s) c (Some p))) /\
  (~ allowed s p c -> step s (Insert p i c) = (s, Err ValueError)).
Proof.
  intros s p i c F C Hc P. pose proof (c_exists s p C) as Hp. cbn [step]. rewrite method1 by assumption.
  destruct (hierarchy s p c F Hp Hc) as [[A E]|[A E]]; (split; intros A'; [|]); try contradiction.
  - destruct (insert_edited s p i c F Hp Hc E P) as [s' [X Y]]. exists s'. split; [exact X|]. split; [|exact Y].
    pose proof (step_forest s (Insert p i c) F P) as Z. cbn [step] in Z. rewrite method1, X in Z by assumption. exact Z.
  - unfold container_insert. now rewrite E.
Qed.
Print Assumptions C19_insert_partial.

(** xml_remove, without exception. *)
Theorem C19_remove : forall s p c, forest s -> container s p -> exists_node s c ->
  (In c (kids s p) -> exists s', step s (Remove p c) = (s', Ok tt) /\ forest s' /\ edited s s' (fun q => without c (kids s q)) (set_par (parent_of s) c None)) /\
  (~ In c (kids s p) -> step s (Remove p c) = (s, Err ValueError)).
Proof.
  intros s p c F C Hc. pose proof (c_exists s p C) as Hp. cbn [step]. rewrite method1 by assumption. split; intros I.
  - destruct (remove_edited s p c F I) as [s' [X Y]]. exists s'. split; [exact X|]. split; [|exact Y].
    pose proof (step_forest s (Remove p c) F Logic.I) as Z. cbn [step] in Z. rewrite method1, X in Z by assumption. exact Z.
  - now apply remove_absent.
Qed.
Print Assumptions C19_remove.

(** xml_replace(new, old). *)
Theorem C19_replace_partial : forall s p o n, forest s -> container s p -> exists_node s o -> exists_node s n -> safe s (Replace p o n) ->
  (In o (kids s p) -> o <> n -> exists s', step s (Replace p o n) = (s', Ok tt) /\ forest s' /\
     edited s s' (fun q => if q =? p then substitute o n (without n (kids s p)) else without n (kids s q)) (set_par (set_par (parent_of s) o None) n (Some p))) /\
  (In o (kids s p) -> o = n -> step s (Replace p o n) = (s, Ok tt)) /\
  (~ In o (kids s p) -> step s (Replace p o n) = (s, Err ValueError)).
Proof.
  intros s p o n F C Ho Hn S. pose proof (c_exists s p C) as Hp. cbn [step]. rewrite method2 by assumption. split; [|split].
  - intros I N. destruct (replace_edited s p o n F Hp Hn I N S) as [s' [X Y]]. exists s'. split; [exact X|]. split; [|exact Y].
    pose proof (step_forest s (Replace p o n) F S) as Z. cbn [step] in Z. rewrite method2, X in Z by assumption. exact Z.
  - intros I ->. now apply replace_self.
  - intros I. now apply replace_absent.
Qed.
Print Assumptions C19_replace_partial.

(** A call that raises changes nothing; this needs no safety condition. *)
Theorem C19_failed_call_changes_nothing : forall s o s' e, forest s -> step s o = (s', Err e) -> s' = s.
Proof. exact failed_unchanged. Qed.
Print Assumptions C19_failed_call_changes_nothing.

Example C19_case : let s := run empty history in
  forest s /\ container s 1 /\ allowed s 1 8 /\ parent_of s 8 <> Some 1 /\ ~ allowed s 3 1 /\
  safe s (Insert 1 1 5) /\ allowed s 1 5 /\ insert_at (py_index 1 4) 5 (without 5 (kids s 1)) = [2; 5; 3; 4] /\ insert_at (py_index (-1) 4) 2 (without 2 [2; 3; 4; 5]) = [3; 4; 5; 2] /\
  kids (fst (step s (Insert 1 1 5))) 1 = [2; 5; 3; 4] /\
  safe s (Replace 1 2 4) /\ substitute 2 4 (without 4 (kids s 1)) = [4; 3; 5] /\ kids (fst (step s (Replace 1 2 4))) 1 = [4; 3; 5] /\
  step s (Append 3 1) = (s, Err ValueError) /\ step s (Append 3 6) = (s, Err ValueError).
Proof.
  assert (forall p c, match kind_of (run empty history) c with Some k => child_kind k | None => false end = true -> is_ancestor 10 (run empty history) c p = Some false -> allowed (run empty history) p c) as AL.
  { intros p c K A. split; [destruct (kind_of (run empty history) c) as [k|]; [eauto|discriminate]|eapply is_ancestor_false; exact A]. }
  cbv zeta. split; [exact history_forest|]. split; [exists KElement; vm_compute; auto|]. split; [apply AL; vm_compute; reflexivity|]. split; [vm_compute; discriminate|].
  split. { intros [_ A]. apply A. right. apply above_parent. vm_compute. reflexivity. }
  split; [apply safeb_safe; vm_compute; reflexivity|]. split; [apply AL; vm_compute; reflexivity|]. split; [vm_compute; reflexivity|]. split; [vm_compute; reflexivity|]. split; [vm_compute; reflexivity|].
  split; [apply safeb_safe; vm_compute; reflexivity|]. repeat apply conj; vm_compute; reflexivity.
Qed.

(** ** C20 *)
(** For any two nodes of one tree that are not both attributes of one element. *)
Theorem C20_document_order_partial : forall s a b, forest s -> exists_node s a -> exists_node s b -> same_tree s a b -> ~ fellow_attributes s a b ->
  (node_lt s a b = true <-> before s a b) /\ (node_eq s a b = true <-> a = b).
Proof.
  intros s a b F Ea Eb T NF. unfold node_lt, node_eq. destruct (Nat.eq_dec a b) as [->|Hab].
  - unfold compare_nodes. rewrite Nat.eqb_refl. split; [|now split].
    split; [discriminate|]. intros X. exfalso. exact (before_irrefl s b F X).
  - destruct (compare_spec s a b F Ea Eb T Hab) as [x [y [-> [M1 [M2 M3]]]]]. destruct (Z.lt_trichotomy x y) as [L|[L|L]].
    + rewrite (proj2 (Z.ltb_lt _ _)), (proj2 (Z.eqb_neq _ _)) by lia. split; [tauto|]. split; [discriminate|contradiction].
    + exfalso. apply NF, M3, L.
    + rewrite (proj2 (Z.ltb_ge _ _)), (proj2 (Z.eqb_neq _ _)) by lia. split; [|split; [discriminate|contradiction]].
      split; [discriminate|]. intros X. exfalso. exact (before_asym s a b F X (M2 L)).
Qed.
Print Assumptions C20_document_order_partial.

(** [before] is a strict total order on the nodes of a tree. *)
Lemma fellow_before s a b : fellow_attributes s a b -> before s a b \/ before s b a.
Proof.
  intros [N [p [A B]]]. apply In_nth_error in A, B. destruct A as [i A], B as [j B]. destruct (Nat.lt_trichotomy i j) as [L|[->|L]].
  - left. destruct (nth_split2 _ _ _ _ _ L A B) as [l1 [l2 [l3 E]]]. eapply before_attrs; eauto.
  - congruence.
  - right. destruct (nth_split2 _ _ _ _ _ L B A) as [l1 [l2 [l3 E]]]. eapply before_attrs; eauto.
Qed.
Lemma before_same_tree s a b : forest s -> before s a b -> same_tree s a b.
Proof.
  intros F [H|p x y l1 l2 l3 K HX HY|p y I J HY|p l1 l2 l3 K].
  - exists a. split; [left; reflexivity|right; exact H].
  - exists p. assert (parent_of s x = Some p) by (apply kids_parent; [exact F|rewrite K; apply in_or_app; right; left; reflexivity]).
    assert (parent_of s y = Some p) by (apply kids_parent; [exact F|rewrite K; apply in_or_app; right; right; apply in_or_app; right; left; reflexivity]).
    split; right; [apply (above_aos _ p x a); [now apply above_parent|exact HX]|apply (above_aos _ p y b); [now apply above_parent|exact HY]].
  - exists p. apply (f_alink s F) in I. split; [right; apply above_parent; tauto|right]. eapply above_aos; [apply above_parent; apply kids_parent; [exact F|exact J]|exact HY].
  - exists p. split; right; apply above_parent; apply (f_alink s F); rewrite K; apply in_or_app; right; [left; reflexivity|right; apply in_or_app; right; left; reflexivity].
Qed.
Lemma before_total s a b : forest s -> exists_node s a -> exists_node s b -> same_tree s a b -> a = b \/ before s a b \/ before s b a.
Proof.
  intros F Ea Eb T. destruct (Nat.eq_dec a b) as [->|N]; [auto|]. destruct (compare_spec s a b F Ea Eb T N) as [x [y [_ [M1 [M2 M3]]]]].
  destruct (Z.lt_trichotomy x y) as [L|[L|L]]; [auto| |auto]. right. now apply fellow_before, M3.
Qed.
Lemma top_above s r a b : parent_of s r = None -> above_or_self (parent_of s) r a -> above_or_self (parent_of s) b a -> above_or_self (parent_of s) r b.
Proof.
  intros R [->|H1] H2.
  - destruct H2 as [->|H2]; [left; reflexivity|]. exfalso. inversion H2; congruence.
  - induction H1 as [a P|a p P H1 IH].
    + destruct H2 as [->|H2]; [right; now apply above_parent|]. apply (aos_parent _ _ _ P) in H2. destruct H2 as [->|H2]; [left; reflexivity|]. exfalso. inversion H2; congruence.
    + destruct H2 as [->|H2]; [right; eapply above_up; eauto|]. apply IH. exact (aos_parent _ _ _ P _ H2).
Qed.
Lemma same_tree_trans s a b c : forest s -> exists_node s b -> same_tree s a b -> same_tree s b c -> same_tree s a c.
Proof.
  intros F Eb [r [R1 R2]] [t [T1 T2]]. destruct (top_ex s b F Eb) as [z [d TZ]]. apply top_spec in TZ. destruct TZ as [U RZ]. pose proof (up_aos _ _ _ _ U) as ZB.
  exists z. split; [eapply aos_trans; [exact (top_above s z b r RZ ZB R2)|exact R1]|eapply aos_trans; [exact (top_above s z b t RZ ZB T1)|exact T2]].
Qed.
Theorem C20_order_is_total : forall s, forest s ->
  (forall a, ~ before s a a) /\ (forall a b c, before s a b -> before s b c -> before s a c) /\
  (forall a b, exists_node s a -> exists_node s b -> same_tree s a b -> a = b \/ before s a b \/ before s b a).
Proof.
  intros s F. split; [intros a; now apply before_irrefl|]. split; [|intros a b; now apply before_total].
  intros a b c H1 H2. destruct (before_exists s a b F H1) as [Ea Eb]. destruct (before_exists s b c F H2) as [_ Ec].
  destruct (addr_ex s a F Ea) as [la A]. destruct (addr_ex s b F Eb) as [lb B]. destruct (addr_ex s c F Ec) as [lc C].
  assert (lex la lc) as L by (eapply lex_trans; [exact (before_lex s a b la lb F H1 A B)|exact (before_lex s b c lb lc F H2 B C)]).
  destruct (before_total s a c F Ea Ec) as [->|[X|X]].
  - eapply same_tree_trans; [exact F|exact Eb|now apply before_same_tree|now apply before_same_tree].
  - exfalso. rewrite (addr_fun s F _ _ A _ C) in L. exact (lex_irrefl _ L).
  - exact X.
  - exfalso. apply (lex_irrefl la). eapply lex_trans; [exact L|exact (before_lex s c a lc la F X C A)].
Qed.
Print Assumptions C20_order_is_total.

(** Hence a list that is sorted for the operator < is in document order. *)
Theorem C20_sorting_partial : forall s l, forest s -> (forall a, In a l -> exists_node s a) -> (forall a b, In a l -> In b l -> same_tree s a b /\ ~ fellow_attributes s a b) ->
  StronglySorted (fun a b => node_lt s b a = false) l -> StronglySorted (fun a b => a = b \/ before s a b) l.
Proof.
  intros s l F E T H. induction H as [|a l H IH HA]; [constructor|]. constructor.
  - apply IH; [intros x X; apply E; now right|intros x y X Y; apply T; now right].
  - rewrite Forall_forall in *. intros b B. specialize (HA b B).
    destruct (T b a ltac:(now right) ltac:(now left)) as [T1 T2]. destruct (C20_document_order_partial s b a F (E b ltac:(now right)) (E a ltac:(now left)) T1 T2) as [O _].
    destruct (before_total s b a F (E b ltac:(now right)) (E a ltac:(now left)) T1) as [->|[X|X]]; [auto| |auto]. apply O in X. congruence.
Qed.
Print Assumptions C20_sorting_partial.

(** Two attributes of one element compare equal. *)
Theorem C20_attributes_refuted : let s := run empty history in
  forest s /\ fellow_attributes s 6 7 /\ before s 6 7 /\ node_eq s 6 7 = true /\ node_lt s 6 7 = false.
Proof.
  cbv zeta. split; [exact history_forest|]. split; [split; [discriminate|exists 1; vm_compute; auto]|]. split; [apply (before_attrs _ 6 7 1 [] [] []); vm_compute; reflexivity|].
  split; vm_compute; reflexivity.
Qed.
Print Assumptions C20_attributes_refuted.
Example C20_case : let s := run empty history in
  same_tree s 6 4 /\ ~ fellow_attributes s 6 4 /\ before s 6 4 /\ before s 0 7 /\ before s 2 4 /\ node_lt s 6 4 = true /\ node_lt s 4 2 = false /\ node_lt s 0 7 = true.
Proof.
  cbv zeta. assert (parent_of (run empty history) 4 = Some 1 /\ parent_of (run empty history) 6 = Some 1 /\ parent_of (run empty history) 7 = Some 1 /\ parent_of (run empty history) 1 = Some 0) as [P4 [P6 [P7 P1]]] by (vm_compute; auto).
  split; [exists 1; split; right; now apply above_parent|]. split. { intros [_ [p [_ I]]]. apply (f_alink _ history_forest) in I. vm_compute in I. destruct I as [_ I]. discriminate. }
  split; [apply (before_attr _ 6 4 1 4); [vm_compute; auto|vm_compute; auto|left; reflexivity]|].
  split; [apply before_above; eapply above_up; [exact P7|]; now apply above_parent|].
  split; [apply (before_kids _ 2 4 1 2 4 [] [3] [5]); [vm_compute; reflexivity|left; reflexivity|left; reflexivity]|]. repeat apply conj; vm_compute; reflexivity.
Qed.

(** ** C21 *)
Theorem C21_siblings_partial : forall s p i c, forest s -> nth_error (kids s p) i = Some c ->
  get_following_sibling s c = Ok (nth_error (kids s p) (S i)) /\
  get_preceding_sibling s c = Ok (match i with O => None | S j => nth_error (kids s p) j end).
Proof. intros s p i c F E. split; [now apply following_ok|now apply preceding_ok]. Qed.
Print Assumptions C21_siblings_partial.

(** A node without parent has no siblings. *)
Theorem C21_no_parent : forall s c, parent_of s c = None -> get_following_sibling s c = Ok None /\ get_preceding_sibling s c = Ok None.
Proof. intros s c P. unfold get_following_sibling, get_preceding_sibling. now rewrite P. Qed.
Print Assumptions C21_no_parent.

Theorem C21_inverse : forall s c d, forest s -> get_following_sibling s c = Ok (Some d) <-> get_preceding_sibling s d = Ok (Some c).
Proof.
  assert (forall s c, forest s -> (parent_of s c = None) \/ (exists p i, nth_error (kids s p) i = Some c) \/ (exists p, parent_of s c = Some p /\ ~ In c (kids s p))) as CASES.
  { intros s c F. destruct (parent_of s c) as [p|] eqn:P; [right|auto]. destruct (in_dec Nat.eq_dec c (kids s p)) as [I|N]; [left|right; eauto]. apply In_nth_error in I. destruct I as [i I]. eauto. }
  assert (forall s c p, forest s -> parent_of s c = Some p -> ~ In c (kids s p) -> get_following_sibling s c = Err InvalidStateErr /\ get_preceding_sibling s c = Err InvalidStateErr) as LOST.
  { intros s c p F P N. destruct (sibling_get s p c F P) as [n [G [C H]]]. unfold get_following_sibling, get_preceding_sibling. rewrite P, G, C, lfind_absent by assumption. auto. }
  intros s c d F. split; intros H.
  - destruct (CASES s c F) as [P|[[p [i E]]|[p [P N]]]].
    + destruct (C21_no_parent s c P) as [X _]. congruence.
    + destruct (C21_siblings_partial s p i c F E) as [X _]. rewrite X in H. injection H as H. destruct (C21_siblings_partial s p (S i) d F H) as [_ Y]. rewrite Y. congruence.
    + destruct (LOST s c p F P N). congruence.
  - destruct (CASES s d F) as [P|[[p [i E]]|[p [P N]]]].
    + destruct (C21_no_parent s d P) as [_ X]. congruence.
    + destruct (C21_siblings_partial s p i d F E) as [_ X]. rewrite X in H. destruct i as [|j]; [discriminate|]. injection H as H. destruct (C21_siblings_partial s p j c F H) as [Y _]. rewrite Y. congruence.
    + destruct (LOST s d p F P N). congruence.
Qed.
Print Assumptions C21_inverse.

(** Following [next] from a node, at most [n] nodes. *)
Fixpoint walk (next : nat -> result (option nat)) (n : nat) (c : nat) : list nat :=
  match n with O => [] | S n' => c :: match next c with Ok (Some d) => walk next n' d | _ => [] end end.
Theorem C21_iteration : forall s p, forest s ->
  (forall c l n, kids s p = c :: l -> length (kids s p) <= n -> walk (get_following_sibling s) n c = kids s p) /\
  (forall c l n, kids s p = l ++ [c] -> length (kids s p) <= n -> walk (get_preceding_sibling s) n c = rev (kids s p)).
Proof.
  intros s p F. split.
  - assert (forall n pre c l, kids s p = pre ++ c :: l -> length l < n -> walk (get_following_sibling s) n c = c :: l) as W.
    { induction n as [|n IH]; intros pre c l E Hn; [lia|]. cbn [walk]. f_equal.
      assert (nth_error (kids s p) (length pre) = Some c) as N by (rewrite E; now rewrite nth_error_mid, Nat.ltb_irrefl, Nat.eqb_refl).
      rewrite (following_ok s p _ c F N). rewrite E, nth_error_app2 by lia. replace (S (length pre) - length pre) with 1 by lia. cbn [nth_error]. destruct l as [|d l]; [reflexivity|].
      apply (IH (pre ++ [c])); [rewrite E, <- app_assoc; reflexivity|cbn in Hn; lia]. }
    intros c l n E Hn. rewrite E in Hn |- *. apply (W n []); [exact E|cbn in Hn; lia].
  - assert (forall n pre c l, kids s p = pre ++ c :: l -> length pre < n -> walk (get_preceding_sibling s) n c = c :: rev pre) as W.
    { induction n as [|n IH]; intros pre c l E Hn; [lia|]. cbn [walk]. f_equal.
      assert (nth_error (kids s p) (length pre) = Some c) as N by (rewrite E; now rewrite nth_error_mid, Nat.ltb_irrefl, Nat.eqb_refl).
      rewrite (preceding_ok s p _ c F N). destruct pre as [|x pre] using rev_ind; [reflexivity|]. rewrite app_length, Nat.add_comm in *. cbn [length Nat.add] in *.
      rewrite E, <- app_assoc. cbn [app]. rewrite nth_error_mid, Nat.ltb_irrefl, Nat.eqb_refl, rev_app_distr. cbn [rev app].
      apply (IH pre x (c :: l)); [rewrite E, <- app_assoc; reflexivity|lia]. }
    intros c l n E Hn. rewrite E in Hn |- *. rewrite rev_app_distr. cbn. apply (W n l c []); [exact E|rewrite app_length in Hn; cbn in Hn; lia].
Qed.
Print Assumptions C21_iteration.
Example C21_case : let s := run empty history in forest s /\ kids s 1 = [2; 3; 4; 5] /\ walk (get_following_sibling s) 4 2 = [2; 3; 4; 5] /\ walk (get_preceding_sibling s) 9 5 = [5; 4; 3; 2].
Proof. cbv zeta. split; [exact history_forest|]. repeat apply conj; vm_compute; reflexivity. Qed.
(** On an attribute, which has a parent but is no child, both raise. *)
Theorem C21_attribute_refuted : let s := run empty history in forest s /\ parent_of s 6 = Some 1 /\ get_following_sibling s 6 = Err InvalidStateErr /\ get_preceding_sibling s 6 = Err InvalidStateErr.
Proof. cbv zeta. split; [exact history_forest|]. repeat apply conj; vm_compute; reflexivity. Qed.
Print Assumptions C21_attribute_refuted.

(** ** C22 *)
Theorem C22_normalize : forall s p, forest s -> container s p -> exists s',
  step s (Normalize p) = (s', Ok tt) /\ forest s' /\
  (forall q v, text_of s q v -> text_of s' q v) /\
  no_adjacent (is_text s') (kids s' p) /\
  flat s' (kids s' p) = flat s (kids s p) /\
  (forall q, q <> p -> kids s' q = kids s q) /\ incl (kids s' p) (kids s p).
Proof.
  intros s p F C. pose proof (c_exists s p C) as Hp. destruct (normalize_ok s p F Hp) as [s' [l' [E [T [I [FL NA]]]]]].
  exists s'. assert (kids s' p = l') as K by (rewrite (t_kids _ _ _ _ T), Nat.eqb_refl; reflexivity). rewrite K.
  split. { cbn [step]. destruct C as [k [K1 K2]]. rewrite (on_container_cases s p _ _ k K1), K2. exact E. }
  split; [exact (t_forest _ _ _ _ T)|]. split; [intros q v; now apply (normalize_text s s' p l')|]. split.
  { eapply na_ext; [|exact NA]. intros x. rewrite !is_text_kind, (t_kind _ _ _ _ T). reflexivity. }
  split; [exact FL|]. split; [|exact I]. intros q Hq. rewrite (t_kids _ _ _ _ T). apply Nat.eqb_neq in Hq. now rewrite Hq.
Qed.
Print Assumptions C22_normalize.
Example C22_case : let s := run empty history in forest s /\ container s 1 /\ kids (fst (step s (Normalize 1))) 1 = [2; 3; 4] /\ data_of (fst (step s (Normalize 1))) 4 = lit "bc" /\ text_of s 1 (lit "abc").
Proof.
  cbv zeta. split; [exact history_forest|]. split; [exists KElement; vm_compute; auto|]. split; [vm_compute; reflexivity|]. split; [vm_compute; reflexivity|].
  apply text_container with (k := KElement); [vm_compute; reflexivity|reflexivity|]. replace (kids (run empty history) 1) with [2; 3; 4; 5] by (vm_compute; reflexivity).
  assert (forall i x v, kind_of (run empty history) i = Some KText -> data_of (run empty history) i = x -> forall l, texts_of (run empty history) l v -> texts_of (run empty history) (i :: l) (x ++ v)) as T by (intros i x v K <- l; now apply texts_text).
  apply (T 2 (lit "a") (lit "bc")); [vm_compute; reflexivity|vm_compute; reflexivity|]. apply (texts_inner _ 3 _ [] (lit "bc")).
  - apply text_container with (k := KElement); [vm_compute; reflexivity|reflexivity|]. replace (kids (run empty history) 3) with (@nil nat) by (vm_compute; reflexivity). constructor.
  - apply (T 4 (lit "b") (lit "c")); [vm_compute; reflexivity|vm_compute; reflexivity|]. apply (T 5 (lit "c") []); [vm_compute; reflexivity|vm_compute; reflexivity|constructor].
Qed.

(** ** C26 *)
(** [addr] gives the address of the objects, different for different objects.
    Partial: namespace nodes are not in this model. *)
Theorem C26_ids_unique_partial : forall addr s i j, forest s -> (forall i j, addr i = addr j -> i = j) -> exists_node s i -> exists_node s j ->
  (exists v, get_id addr s i = Ok v) /\ (get_id addr s i = get_id addr s j -> i = j).
Proof.
  intros addr s i j F A Hi Hj. split; [destruct (get_id_ok addr s i F Hi) as [l [E _]]; eauto|]. now apply get_id_inj.
Qed.
Print Assumptions C26_ids_unique_partial.
Example C26_case : let s := run empty history in let addr := N.of_nat in forest s /\ (forall i j, addr i = addr j -> i = j) /\
  get_id addr s 4 = Ok (lit "r1e0t2") /\ get_id addr s 7 = Ok (lit "r1e0a2") /\ get_id addr s 8 = Ok (lit "c8").
Proof. cbv zeta. split; [exact history_forest|]. split; [exact Nnat.Nat2N.inj|]. repeat apply conj; vm_compute; reflexivity. Qed.
