(** * C61: xsl:number counts the right nodes

    level="single" gives one plus the number of preceding siblings, of the nearest
    ancestor-or-self that matches count, that match count; "multiple" does this for all the
    ancestors-or-self that match; both look only below the nearest ancestor that matches
    from.  "any" counts the nodes before in the document, since the last that matches from.
    If there is no such node the list of numbers is empty, and nothing is written. *)
From Coq Require Import NArith ZArith String List Bool Lia Arith Sorted.
From Verif Require Import PyStr PyErr DomModel DomSpec DomInv DomStep DomOrder DomProps XpModel XpSpec XpTree XpAxes XpOrder XpProps XpPath XpPathEval XtNumber XtCount XtCountSpec XtCountProofs.
Import ListNotations.
Local Open Scope nat_scope.

(** One number if there is one; the error if there is none is refuted below. *)
Definition written (f : formatter) (alphabetic grouped : bool) (values : list N) : result str :=
  match values with [] => Err TypeError | v :: _ => format_one f (Some v) alphabetic grouped end.
Lemma format_none : forall f a g, format_one f None a g = Err TypeError.
Proof. intros f a g. unfold format_one, format_number. destruct ((is_token (hd [] (toks f)) 73 || is_token (hd [] (toks f)) 105) && negb a); [reflexivity|]. destruct (is_token (hd [] (toks f)) 65 || is_token (hd [] (toks f)) 97); reflexivity. Qed.
Lemma written_nonzero : forall f a g v, format_one f (nonzero v) a g = written f a g (if (v =? 0)%N then [] else [v]).
Proof. intros f a g v. unfold nonzero. destruct (v =? 0)%N; [apply format_none|reflexivity]. Qed.

(** Every node but an attribute; without from, count must not match the document node. *)
Theorem C61_single_partial : forall s nm f alphabetic grouped n (count : pat) (from : option pat), forest s -> exists_node s n -> ~ attribute s n ->
  (from = None -> forall r, kind_of s r = Some KEntity -> on_axis s Ancestor n r -> count r = false) ->
  exists values, single_list s (fun x => count x = true) (from_of from) n values /\
    number_text s nm Single (Some count) from f alphabetic grouped n = written f alphabetic grouped values.
Proof.
  intros s nm f a g n count from F E A H. destruct (single_ok s F n count from E A H) as (v & V1 & V2). eexists. split; [exact V2|].
  cbn [number_text]. destruct from; rewrite V1; cbn [bind]; apply written_nonzero.
Qed.
Print Assumptions C61_single_partial.
(** Without count and from, for elements. *)
Theorem C61_simple_partial : forall s nm f alphabetic grouped n, forest s -> kind_of s n = Some KElement ->
  exists v, single_list s (fun x => kind_of s x = kind_of s n /\ nm_ns nm x = nm_ns nm n /\ nm_local nm x = nm_local nm n) (fun _ => False) n [v] /\
    number_text s nm Single None None f alphabetic grouped n = format_one f (Some v) alphabetic grouped.
Proof.
  intros s nm f a g n F K. assert (E : exists_node s n) by (eapply kind_exists; eauto).
  destruct (simple_ok s nm F n E K) as (v & V1 & V2). exists v. split; [|cbn [number_text]; rewrite V1; reflexivity].
  assert (D : forall x, holds_of (default_count s nm n) x <-> kind_of s x = kind_of s n /\ nm_ns nm x = nm_ns nm n /\ nm_local nm x = nm_local nm n).
  { intros x. unfold holds_of, default_count. assert (is_element s n = true) as ->. { unfold is_element, has_kind. unfold kind_of in K. destruct (get s n) as [m|]; [|discriminate]. cbn in K. injection K as K. rewrite K. reflexivity. }
    cbn [orb]. unfold same_kind, same_name. rewrite !andb_true_iff. unfold kind_of in *. destruct (get s n) as [m|]; [|discriminate]. destruct (get s x) as [k|]; cbn [option_map].
    - assert (kind_eqb (n_kind k) (n_kind m) = true <-> Some (n_kind k) = Some (n_kind m)) as -> by (destruct (n_kind k), (n_kind m); cbn; split; congruence).
      rewrite str_eqb_eq. assert (match nm_ns nm x with Some u => match nm_ns nm n with Some v0 => str_eqb u v0 | None => false end | None => match nm_ns nm n with Some _ => false | None => true end end = true <-> nm_ns nm x = nm_ns nm n) as ->; [|tauto].
      destruct (nm_ns nm x) as [u|], (nm_ns nm n) as [w|]; try (split; congruence). rewrite str_eqb_eq. split; congruence.
    - split; [intros [? _]; discriminate|intros [? _]; discriminate]. }
  left. exists n, v. split; [|split; [|reflexivity]].
  - split; [split; [now left|intros y _ []]|]. split; [auto|]. intros y [Y _] _. exact Y.
  - destruct V2 as (l & L1 & L2 & L3). exists l. split; [exact L1|]. split; [|exact L3]. intros y. rewrite L2, D. reflexivity.
Qed.
Print Assumptions C61_simple_partial.
(** All nodes but attributes, any patterns. *)
Theorem C61_multiple_partial : forall s nm f alphabetic grouped n (count from : option pat), forest s -> exists_node s n -> ~ attribute s n ->
  exists values, multiple_list s (fun x => count_or_default s nm count n x = true) (from_of from) n values /\
    number_text s nm Multiple count from f alphabetic grouped n = format_many f values alphabetic grouped.
Proof.
  intros s nm f a g n count from F E A. destruct (top_of s F n E) as (r & d & T0).
  destruct (multiple_ok s F (count_or_default s nm count n) from (bound s) n r d [] T0 E A) as (l & vs & E1 & SS & M & F2).
  exists vs. split.
  - exists l. split; [exact SS|]. split; [|exact F2]. intros x. rewrite M. unfold searched. rewrite aos_axis. cbn [on_axis]. tauto.
  - cbn [number_text]. unfold multiple_values. rewrite E1, app_nil_r. reflexivity.
Qed.
Print Assumptions C61_multiple_partial.
(** All nodes but attributes that do not match from themselves. *)
Theorem C61_any_partial : forall s nm f alphabetic grouped n (count from : option pat), forest s -> exists_node s n -> ~ attribute s n -> ~ from_of from n ->
  exists v, any_number s (fun x => count_or_default s nm count n x = true) (from_of from) n v /\
    number_text s nm Any count from f alphabetic grouped n = written f alphabetic grouped (if (v =? 0)%N then [] else [v]).
Proof.
  intros s nm f a g n count from F E A H.
  destruct (any_ok s F n (count_or_default s nm count n) from E A) as (v & V1 & V2).
  { unfold fromb, from_of in *. destruct from as [fr|]; [|reflexivity]. destruct (fr n); [exfalso; now apply H|reflexivity]. }
  exists v. split; [exact V2|]. cbn [number_text]. unfold any_value. rewrite V1. cbn [bind]. apply written_nonzero.
Qed.
Print Assumptions C61_any_partial.
(** The default of count: the nodes of the same type and, for elements and attributes, of
    the same name. *)
Theorem C61_default_text : forall s nm n x, kind_of s n = Some KText \/ kind_of s n = Some KComment ->
  (count_or_default s nm None n x = true <-> kind_of s x = kind_of s n).
Proof.
  intros s nm n x K. cbn [count_or_default]. unfold default_count, is_element, has_kind. unfold kind_of in *. destruct (get s n) as [m|] eqn:GN; [|destruct K; discriminate]. cbn [option_map] in K.
  assert (kind_eqb (n_kind m) KElement || kind_eqb (n_kind m) KAttr = false) as ->. { destruct K as [[= ->]|[= ->]]; reflexivity. }
  unfold same_kind. rewrite GN. destruct (get s x) as [k|].
  - cbn [option_map]. destruct (n_kind k), (n_kind m); cbn; split; congruence.
  - cbn [option_map]. split; discriminate.
Qed.
Print Assumptions C61_default_text.

(** ** What is wrong *)
(** A processing instruction has an expanded-name, its target, but the default of count
    takes all processing instructions. *)
Theorem C61_target_refuted : forall s nm n x, kind_of s n = Some KPI -> kind_of s x = Some KPI -> count_or_default s nm None n x = true.
Proof.
  intros s nm n x K X. cbn [count_or_default]. unfold default_count, is_element, has_kind. unfold kind_of in *. destruct (get s n) as [m|] eqn:GN; [|discriminate]. destruct (get s x) as [k|] eqn:GX; [|discriminate].
  cbn in K, X. injection K as K. injection X as X. rewrite K. cbn [kind_eqb orb]. unfold same_kind. rewrite GN, GX, K, X. reflexivity.
Qed.
Print Assumptions C61_target_refuted.
(** No node matches: instead of writing nothing the transformation stops. *)
Theorem C61_empty_refuted : forall s nm f alphabetic grouped n (count : pat) (from : option pat), forest s -> exists_node s n -> ~ attribute s n ->
  (forall x, count x = false) ->
  number_text s nm Single (Some count) from f alphabetic grouped n = Err TypeError /\
  (~ from_of from n -> number_text s nm Any (Some count) from f alphabetic grouped n = Err TypeError).
Proof.
  intros s nm f a g n count from F E A H. split.
  - destruct (C61_single_partial s nm f a g n count from F E A (fun _ r _ _ => H r)) as (vs & [(x & v & (_ & C & _) & _)|[_ ->]] & EQ); [rewrite H in C; discriminate|exact EQ].
  - intros NF. destruct (C61_any_partial s nm f a g n (Some count) from F E A NF) as (v & (l & _ & L2 & ->) & EQ). destruct l as [|x l]; [exact EQ|].
    destruct (proj1 (L2 x) (or_introl eq_refl)) as (_ & C & _). cbn in C. rewrite H in C. discriminate.
Qed.
Print Assumptions C61_empty_refuted.
Definition no_names : names := {| nm_ns := fun _ => None; nm_local := fun _ => lit "e" |}.
Definition plain : formatter := new_formatter (fun _ => true) (lit "1").
(** count="/" from the element 4 of the sample: the number is 1. *)
Theorem C61_document_refuted : single_list sample (fun x => (x =? 0) = true) (from_of None) 4 [1%N] /\
  number_text sample no_names Single (Some (fun x => x =? 0)) None plain false false 4 = Err TypeError.
Proof.
  split; [|vm_compute; reflexivity]. left. exists 0, 1%N.
  assert (above (parent_of sample) 0 4) as A0. { apply above_up with 3; [vm_compute; reflexivity|]. apply above_up with 1; [vm_compute; reflexivity|]. apply above_parent. vm_compute. reflexivity. }
  split; [|split; [|reflexivity]].
  - split; [split; [right; exact A0|intros y _ []]|]. split; [reflexivity|]. intros y _ Y. apply Nat.eqb_eq in Y. subst y. now left.
  - exists []. split; [constructor|]. split; [|reflexivity]. intros y. split; [intros []|]. intros [[(p & P & _) _] _]. vm_compute in P. discriminate.
Qed.
Print Assumptions C61_document_refuted.
(** level="any" at a node that matches from itself: the element 3 of the sample is the
    second element, and no node before it matches from. *)
Theorem C61_from_refuted : let elements := fun x => (x =? 1) || (x =? 3) || (x =? 4) || (x =? 7) in
  any_number sample (fun x => elements x = true) (from_of (Some (fun x => x =? 3))) 3 2 /\
  number_text sample no_names Any (Some elements) (Some (fun x => x =? 3)) plain false false 3 = Err TypeError.
Proof.
  cbn zeta. split; [|vm_compute; reflexivity]. set (elements := fun x => (x =? 1) || (x =? 3) || (x =? 4) || (x =? 7)).
  destruct (any_ok sample sample_forest 3 elements None) as (v & V1 & l & L1 & L2 & L3); [vm_compute; lia|vm_compute; discriminate|reflexivity|].
  assert (v = 2%N) as -> by (vm_compute in V1; congruence). exists l. split; [exact L1|]. split; [|exact L3]. intros x. rewrite L2. unfold holds_of. split.
  - intros (H1 & H2 & _). split; [exact H1|]. split; [exact H2|]. intros y _ N Y. cbn in Y. apply Nat.eqb_eq in Y. contradiction.
  - intros (H1 & H2 & _). split; [exact H1|]. split; [exact H2|]. intros y _ _ [].
Qed.
Print Assumptions C61_from_refuted.
(** level="single" with from and without count, or without both at a text, is not
    implemented: the names used are not defined. *)
Theorem C61_default_refuted : (forall s nm f alphabetic grouped n from, kind_of s n = Some KElement ->
    number_text s nm Single None (Some from) f alphabetic grouped n = Err NameError) /\
  number_text sample no_names Single None None plain false false 2 = Err AttributeError.
Proof.
  split; [|vm_compute; reflexivity]. intros s nm f a g n from K. cbn [number_text single_value default_single bind]. unfold default_single, is_element, has_kind. unfold kind_of in K.
  destruct (get s n) as [m|]; [|discriminate]. cbn in K. injection K as ->. reflexivity.
Qed.
Print Assumptions C61_default_refuted.
(** Attributes have no place among the children. *)
Theorem C61_attribute_refuted : attribute sample 9 /\ number_text sample no_names Single (Some (fun x => x =? 9)) None plain false false 9 = Err InvalidStateErr /\
  number_text sample no_names Any None None plain false false 9 = Err InvalidStateErr.
Proof. repeat apply conj; vm_compute; reflexivity. Qed.
Print Assumptions C61_attribute_refuted.

(** ** A case: elements of the sample, from the element 4 and the text 8 *)
Example C61_case : let elements := fun x => (x =? 1) || (x =? 3) || (x =? 4) || (x =? 7) in
  forest sample /\ exists_node sample 8 /\ ~ attribute sample 8 /\
  number_text sample no_names Single (Some elements) None plain false false 8 = Ok (lit "2") /\
  number_text sample no_names Multiple (Some elements) None plain false false 8 = Ok (lit "1.2") /\
  number_text sample no_names Multiple (Some elements) (Some (fun x => x =? 1)) plain false false 8 = Ok (lit "2") /\
  number_text sample no_names Any (Some elements) None plain false false 8 = Ok (lit "4") /\
  number_text sample no_names Any (Some elements) (Some (fun x => x =? 3)) plain false false 8 = Ok (lit "2") /\
  number_text sample no_names Single None None plain false false 7 = Ok (lit "2").
Proof. cbn zeta. split; [exact sample_forest|]. split; [vm_compute; lia|]. split; [vm_compute; discriminate|]. repeat apply conj; vm_compute; reflexivity. Qed.
