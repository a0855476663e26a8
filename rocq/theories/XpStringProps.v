(** * Properties C45, C46 and C48: string values, conversions of location paths, and
    the functions of node-sets

    Proofs are in XpStringProofs.  The vocabulary is in XpStringSpec ([string_value],
    [of_first_node], [in_order], [cardinality], [name_is] ...), XpPathSpec
    ([denotes], [document_order], [handled]), XpFuncSpec ([string_number]) and
    DomSpec ([forest], [before]). *)
From Coq Require Import NArith ZArith QArith String List Bool Lia Arith Sorted Permutation.
From Verif Require Import PyStr PyErr DomModel DomSpec DomCells DomInv DomOps DomStep DomOrder DomProps XpModel XpSpec XpTree XpAxes XpOrder XpSelect XpProps XpPath XpPathSpec XpPathSteps XpPathOrder XpPathEval XpPathProps XpNum XpNumSpec XpNumLemmas XpFuncs XpFuncSpec XpFuncNum XpFuncCmp XpFuncProps XpString XpStringSpec XpStringProofs.
Import ListNotations.
Local Open Scope nat_scope.

(** ** C45 *)
(** Every node has a string value, which is what the code computes. *)
Theorem C45_string_value : forall s n, forest s -> exists_node s n ->
  exists v, string_value s n v /\ node_to_string s n = Ok v.
Proof. intros s n F E. destruct (node_string_ok s n F E) as [v [H V]]. eauto. Qed.
Print Assumptions C45_string_value.
(** There is only one. *)
Theorem C45_determined : forall s n v w, forest s -> string_value s n v -> string_value s n w -> v = w.
Proof. intros s n v w F. now apply string_value_fun. Qed.
Print Assumptions C45_determined.

(** An element 0 around a text of 150 characters, an element 2 around the text 'b',
    the comment 4, a processing instruction 5 and the text 'c': the buffer of 100
    characters has to grow. *)
Definition long_text : str := List.concat (repeat (lit "0123456789") 15).
Definition mixed_ops : list op :=
  [New KElement []; New KText long_text; New KElement []; New KText (lit "b"); New KComment (lit "no"); New KPI (lit "pi"); New KText (lit "c");
   Append 0 1; Append 0 2; Append 2 3; Append 0 4; Append 0 5; Append 0 6].
Definition mixed : store := run empty mixed_ops.
Example C45_case : forest mixed /\ exists_node mixed 0 /\ node_to_string mixed 0 = Ok (long_text ++ lit "bc") /\ node_to_string mixed 2 = Ok (lit "b") /\
  node_to_string mixed 4 = Ok (lit "no") /\ node_to_string mixed 5 = Ok (lit "pi") /\ node_to_string sample 0 = Ok (lit "abd") /\ node_to_string sample 9 = Ok (lit "x").
Proof.
  split; [apply run_forest; [exact forest_empty|]; apply safe_runb_ok; vm_compute; reflexivity|]. split; [vm_compute; lia|]. repeat apply conj; vm_compute; reflexivity.
Qed.

(** ** C46 *)
(** boolean(p) is true iff the path selects a node. *)
Theorem C46_boolean : forall namespaces s nm size p node b, forest s -> exists_node s node ->
  Forall (fun st => Forall handled (ls_preds st)) (lp_steps p) ->
  path_boolean namespaces s nm size p node = Ok b -> (b = true <-> exists x, denotes namespaces s nm p node x).
Proof.
  intros namespaces s nm size p node b F E HH. unfold path_boolean. destruct (path_iterable namespaces s nm size p node) as [l|] eqn:R; cbn [bind]; [|discriminate]. intros [= <-].
  destruct (path_iterable_ok namespaces s nm size F p node l E HH R) as [M _]. destruct l as [|x l].
  - split; [discriminate|]. intros [x X]. apply M in X. destruct X.
  - split; [intros _; exists x; apply M; now left|reflexivity].
Qed.
Print Assumptions C46_boolean.
(** string(p) is the string value of the node that is first in document order, or
    the empty string: for paths [in_order].  Missing: other paths, see below. *)
Theorem C46_string_partial : forall namespaces s nm size p node v, forest s -> exists_node s node ->
  Forall (fun st => Forall handled (ls_preds st)) (lp_steps p) -> in_order (lp_steps p) ->
  path_string namespaces s nm size p node = Ok v ->
  of_first_node s (denotes namespaces s nm p node) (string_value s) [] v.
Proof.
  intros namespaces s nm size p node v F E HH O. unfold path_string. destruct (path_first namespaces s nm size p node) as [r|] eqn:R; cbn [bind]; [|discriminate].
  pose proof (path_first_ok namespaces s nm size F p node r E HH O R) as H. destruct r as [x|].
  - destruct H as [H EX]. intros V. left. exists x. split; [exact H|]. destruct (node_string_ok s x F EX) as [w [W S]]. rewrite W in V. now injection V as <-.
  - intros [= <-]. right. auto.
Qed.
Print Assumptions C46_string_partial.
(** number(p), likewise. *)
Theorem C46_number_partial : forall namespaces s nm size p node n, forest s -> exists_node s node ->
  Forall (fun st => Forall handled (ls_preds st)) (lp_steps p) -> in_order (lp_steps p) ->
  path_number namespaces s nm size p node = Ok n ->
  of_first_node s (denotes namespaces s nm p node) (fun x n => exists v, string_value s x v /\ string_number v n) NNaN n.
Proof.
  intros namespaces s nm size p node n F E HH O. unfold path_number. destruct (path_first namespaces s nm size p node) as [r|] eqn:R; cbn [bind]; [|discriminate].
  pose proof (path_first_ok namespaces s nm size F p node r E HH O R) as H. destruct r as [x|].
  - destruct H as [H EX]. destruct (node_string_ok s x F EX) as [w [W S]]. rewrite W. cbn [bind]. intros V. left. exists x. split; [exact H|]. exists w. split; [exact S|]. exact (to_number_ok (VStr w) n V).
  - intros [= <-]. right. auto.
Qed.
Print Assumptions C46_number_partial.
(** string(p | q ...), for any paths. *)
Theorem C46_union : forall keys namespaces s nm size ps node v, forest s -> exists_node s node ->
  (forall args, NoDup (keys args) /\ forall x, In x (keys args) <-> In x args) ->
  Forall (fun p => Forall (fun st => Forall handled (ls_preds st)) (lp_steps p)) ps ->
  union_string keys namespaces s nm size ps node = Ok v ->
  of_first_node s (fun x => exists p, In p ps /\ denotes namespaces s nm p node x) (string_value s) [] v.
Proof.
  intros keys namespaces s nm size ps node v F E HK HH. unfold union_string. destruct (iterate_all namespaces s nm size ps node) as [ls|] eqn:IA; cbn [bind]; [|discriminate].
  destruct (union_iter_ok keys namespaces s nm size F ps node ls E HK HH IA) as [M [O SS]]. pose proof (head_first s _ _ M SS) as H. destruct (union_iter keys s ls) as [|x l].
  - intros [= <-]. right. auto.
  - intros V. left. exists x. split; [exact H|]. destruct (node_string_ok s x F (O x (or_introl eq_refl))) as [w [W S]]. rewrite W in V. now injection V as <-.
Qed.
Print Assumptions C46_union.

(** <a><a><b>1</b></a><b>2</b></a>: 0 is the document, 1 and 2 are the elements a, 3
    and 5 the elements b with the texts 4 and 6. *)
Definition nested_ops : list op :=
  [New KEntity []; New KElement []; New KElement []; New KElement []; New KText (lit "1"); New KElement []; New KText (lit "2");
   Append 0 1; Append 1 2; Append 2 3; Append 3 4; Append 1 5; Append 5 6].
Definition nested : store := run empty nested_ops.
Definition nested_names : names :=
  {| nm_ns := fun _ => None; nm_local := fun n => match n with 1 | 2 => lit "a" | 3 | 5 => lit "b" | _ => [] end |}.
Lemma nested_forest : forest nested.
Proof. apply run_forest; [exact forest_empty|]. apply safe_runb_ok. vm_compute. reflexivity. Qed.
Definition a_b : location_path := abbreviated_absolute [plain Child (TLocal (lit "a")); plain Child (TLocal (lit "b"))].
Example C46_case :
  path_string no_prefixes nested nested_names 1 (relative [plain Child (TLocal (lit "a")); plain Child (TLocal (lit "b"))]) 1 = Ok (lit "1") /\
  in_order (lp_steps (relative [plain Child (TLocal (lit "a")); plain Child (TLocal (lit "b"))])) /\
  path_string no_prefixes nested nested_names 1 (relative [plain Ancestor TNode]) 3 = Ok (lit "12") /\ in_order [plain Ancestor TNode] /\
  path_string no_prefixes nested nested_names 1 (absolute [plain Child TPrincipal; plain Descendant TText]) 3 = Ok (lit "1") /\ in_order [plain Child TPrincipal; plain Descendant TText] /\
  path_string no_prefixes nested nested_names 1 (relative [plain Child (TLocal (lit "c"))]) 1 = Ok [] /\
  (exists n, path_number no_prefixes nested nested_names 1 (relative [plain Preceding (TLocal (lit "b"))]) 6 = Ok n /\ same_number n (NFin 1)) /\
  path_boolean no_prefixes nested nested_names 1 a_b 0 = Ok true /\
  union_string (nodup Nat.eq_dec) no_prefixes nested nested_names 1 [a_b; relative [plain Self TNode]] 5 = Ok (lit "1").
Proof.
  split; [vm_compute; reflexivity|]. split; [exists [plain Child (TLocal (lit "a"))], (plain Child (TLocal (lit "b"))); split; [reflexivity|split; [repeat constructor|exact I]]|].
  split; [vm_compute; reflexivity|]. split; [exact I|]. split; [vm_compute; reflexivity|]. split; [exists [plain Child TPrincipal], (plain Descendant TText); split; [reflexivity|split; [repeat constructor|exact I]]|].
  split; [vm_compute; reflexivity|]. split; [eexists; split; vm_compute; reflexivity|].
  repeat apply conj; vm_compute; reflexivity.
Qed.
(** string(//a/b) is '2' and not '1', number(//a/b) likewise: the children of the
    outer element come first. *)
Theorem C46_string_refuted : forest nested /\ exists_node nested 0 /\
  path_string no_prefixes nested nested_names 1 a_b 0 = Ok (lit "2") /\ (exists n, path_number no_prefixes nested nested_names 1 a_b 0 = Ok n /\ same_number n (NFin 2)) /\
  of_first_node nested (denotes no_prefixes nested nested_names a_b 0) (string_value nested) [] (lit "1").
Proof.
  assert (exists_node nested 0) as E by (vm_compute; lia). split; [exact nested_forest|]. split; [exact E|]. split; [vm_compute; reflexivity|]. split; [eexists; split; vm_compute; reflexivity|].
  left. exists 3. split.
  - destruct (C30_nodes_partial no_prefixes nested nested_names 1 a_b 0 [3; 5] nested_forest E ltac:(repeat constructor) ltac:(vm_compute; reflexivity)) as [M SS]. exact (head_first nested _ _ M SS).
  - destruct (node_string_ok nested 3 nested_forest ltac:(vm_compute; lia)) as [v [V S]]. assert (node_to_string nested 3 = Ok (lit "1")) as W by (vm_compute; reflexivity). rewrite W in V. injection V as <-. exact S.
Qed.
Print Assumptions C46_string_refuted.

(** ** C48 *)
(** count(p): the number of nodes that the path selects, for paths that reach no
    node twice; duplicates are counted (C30). *)
Theorem C48_count_partial : forall namespaces s nm size p node l, forest s -> exists_node s node ->
  Forall (fun st => Forall handled (ls_preds st)) (lp_steps p) -> no_overlap false (lp_steps p) ->
  path_nodeset namespaces s nm size p node = Ok l -> (Z.of_nat (length l) <= 2 ^ 53)%Z ->
  exists k, cardinality (denotes namespaces s nm p node) k /\ same_number (count_function l) (NFin (inject_Z (Z.of_nat k))).
Proof.
  intros namespaces s nm size p node l F E HH NO R B. destruct (C30_no_duplicates_partial namespaces s nm size p node l F E HH NO R) as [M [ND _]].
  exists (length l). split; [exists l; auto|]. apply same_number_new, rnd_int. lia.
Qed.
Print Assumptions C48_count_partial.
(** name(p), local-name(p) and namespace-uri(p): of the first node in document
    order, whatever the path. *)
Theorem C48_names : forall namespaces s nm qname size p node l, forest s -> exists_node s node ->
  Forall (fun st => Forall handled (ls_preds st)) (lp_steps p) ->
  path_nodeset namespaces s nm size p node = Ok l ->
  of_first_node s (denotes namespaces s nm p node) (name_is s nm qname) [] (of_first (name_of s nm qname) l) /\
  of_first_node s (denotes namespaces s nm p node) (local_name_is s nm) [] (of_first (local_name_of s nm) l) /\
  of_first_node s (denotes namespaces s nm p node) (namespace_uri_is s nm) [] (of_first (namespace_uri_of s nm) l).
Proof.
  intros namespaces s nm qname size p node l F E HH R. destruct (C30_nodes_partial namespaces s nm size p node l F E HH R) as [M SS]. pose proof (head_first s _ _ M SS) as H.
  destruct l as [|x l]; cbn [of_first]; [repeat split; right; auto|]. destruct (names_ok s nm qname x) as [N1 [N2 N3]]. repeat split; left; exists x; auto.
Qed.
Print Assumptions C48_names.
Example C48_case : of_first (local_name_of nested nested_names) [3; 5] = lit "b" /\ path_nodeset no_prefixes nested nested_names 1 a_b 0 = Ok [3; 5] /\
  same_number (count_function [3; 5]) (NFin 2) /\ no_overlap false (lp_steps a_b).
Proof. split; [reflexivity|]. split; [vm_compute; reflexivity|]. split; [vm_compute; reflexivity|vm_compute; auto]. Qed.
(** count(//node()/..) is 8 in a document in which 5 nodes have children or
    attributes. *)
Theorem C48_count_refuted : forest sample /\ exists_node sample 0 /\
  (exists l, eval (abbreviated_absolute [plain Child TNode; plain Parent TNode]) 0 = Ok l /\ same_number (count_function l) (NFin 8)) /\
  cardinality (denotes no_prefixes sample sample_names (abbreviated_absolute [plain Child TNode; plain Parent TNode]) 0) 5.
Proof.
  assert (exists_node sample 0) as E by (vm_compute; lia). assert (eval (abbreviated_absolute [plain Child TNode; plain Parent TNode]) 0 = Ok [0; 1; 1; 1; 3; 3; 4; 7]) as V by (vm_compute; reflexivity).
  split; [exact sample_forest|]. split; [exact E|]. split; [exists [0; 1; 1; 1; 3; 3; 4; 7]; split; [exact V|vm_compute; reflexivity]|].
  assert (Forall (fun st => Forall handled (ls_preds st)) (lp_steps (abbreviated_absolute [plain Child TNode; plain Parent TNode]))) as HH by (repeat constructor).
  destruct (C30_nodes_partial no_prefixes sample sample_names 1 _ 0 _ sample_forest E HH V) as [M _].
  exists [0; 1; 3; 4; 7]. split; [|split; [|reflexivity]].
  - repeat constructor; cbn; intuition discriminate.
  - intros x. rewrite <- M. cbn. tauto.
Qed.
Print Assumptions C48_count_refuted.
