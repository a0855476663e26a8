(** * Property C25: namespaces follow lexical scoping

    Statements only; proofs are in NsLookup, the vocabulary in NsSpec.  An
    element is given by the declarations made on it and on its ancestors, the
    element's first, in the order they were made ([chain]); [hash] is any hash
    function of the namespace maps. *)
From Coq Require Import NArith ZArith String List Bool Lia Arith.
From Verif Require Import PyStr PyErr HashModel HashSpec HashMap HashProps NsModel NsSpec NsLookup.
Import ListNotations.
Local Open Scope nat_scope.

Notation maps hash chain := (map (declare hash) chain).
Notation scope chain := (in_scope (map latest chain)).

(** Setting xml_prefix gives the element the namespace of the prefix; an
    undeclared prefix is a ValueError; no prefix without a default namespace is
    the null namespace. *)
Theorem C25_prefix_lookup : forall hash chain e p, legal_chain chain ->
  set_prefix (maps hash chain) e p =
  match p, scope chain p with
  | Some q, Some u => Ok {| n_local := n_local e; n_qname := q ++ lit ":" ++ n_local e; n_ns := Some u |}
  | Some _, None => Err ValueError
  | None, o => Ok {| n_local := n_local e; n_qname := n_local e; n_ns := o |}
  end.
Proof.
  intros hash chain e p L. unfold set_prefix. rewrite lookup_namespace_spec by assumption. destruct p as [q|].
  - destruct (scope chain (Some q)) as [u|] eqn:E; [reflexivity|]. destruct (nearest (map latest chain) (Some q)) as [w|] eqn:N; [|reflexivity]. rewrite (nearest_legal chain q w L N) in E. discriminate.
  - destruct (scope chain None); reflexivity.
Qed.
Print Assumptions C25_prefix_lookup.

(** Setting xml_namespace: the full statement would have the prefix found resolve
    to the namespace.  It does if no declaration of that namespace in the chain
    is shadowed; and then the assignment fails only if no prefix is bound to it. *)
Definition unshadowed (chain : list decls) (u : str) : Prop := forall ds p, In ds chain -> latest ds p = Some u -> scope chain p = Some u.
Theorem C25_namespace_lookup_partial : forall hash chain e u, legal_chain chain -> unshadowed chain u ->
  match set_namespace (maps hash chain) e (Some u) with
  | Ok e' => exists p, scope chain p = Some u /\ e' = {| n_local := n_local e; n_qname := qname_of p (n_local e); n_ns := Some u |}
  | Err x => x = ValueError /\ forall p, scope chain p <> Some u
  end.
Proof.
  intros hash chain e u L U. unfold set_namespace. destruct u as [|c u'].
  - rewrite (lookup_prefix_empty hash chain L). split; [reflexivity|]. intros p. apply in_scope_nonempty.
  - set (u := c :: u') in *. pose proof (lookup_prefix_spec hash u ltac:(discriminate) chain) as S. destruct (lookup_prefix _ _) as [p|x]; cbn [bind].
    + exists p. split; [|reflexivity]. destruct S as [[ds [I E]]|[-> [E _]]]; [now apply (U ds)|]. rewrite E. now apply xml_in_scope.
    + destruct S as [-> [N S]]. split; [reflexivity|]. intros p H. destruct (in_scope_in chain p u H) as [[ds [I E]]|[_ E]]; [now apply (S ds p)|contradiction].
Qed.
Print Assumptions C25_namespace_lookup_partial.

(** The same for the prefix of a new attribute; it also fails if the binding
    found first is that of the default namespace. *)
Theorem C25_attribute_prefix_partial : forall hash chain u local q, legal_chain chain -> unshadowed chain u ->
  attribute_qname (maps hash chain) (Some u) local = Ok q -> exists p, scope chain (Some p) = Some u /\ q = p ++ lit ":" ++ local.
Proof.
  intros hash chain u local q L U H. pose proof (C25_namespace_lookup_partial hash chain {| n_local := local; n_qname := []; n_ns := None |} u L U) as S. unfold set_namespace in S. unfold attribute_qname in H.
  destruct (lookup_prefix (maps hash chain) (Some u)) as [[p|]|x]; cbn [bind] in H; [|discriminate|discriminate]. cbn [bind] in S. injection H as <-. exists p. split; [|reflexivity].
  destruct S as [p' [S1 S2]]. injection S2 as E. destruct p' as [p'|]; cbn [qname_of n_local] in E; unfold build_qname in E; [|exfalso; apply (f_equal (@length N)) in E; rewrite !app_length in E; cbn in E; lia].
  apply app_inv_tail in E. now subst.
Qed.
Print Assumptions C25_attribute_prefix_partial.

(** xml_namespaces: exactly the namespaces in scope, if no [xmlns=""] hides an
    outer default namespace. *)
Theorem C25_inscope_partial : forall hash chain, legal_chain chain -> no_hidden_default (map latest chain) ->
  exists m, inscope_namespaces hash (maps hash chain) = Ok m /\ (forall p, get_node prefix_eqb hash m p = Ok (scope chain p)) /\ lists (iterate m) (scope chain).
Proof.
  intros hash chain L NH. destruct (inscope_ok hash chain L) as [m [E S]]. exists m. split; [exact E|].
  apply (shows_ext hash m _ (scope chain)) in S; [|intros p; now apply skipping_in_scope]. split; [intros p; now apply shows_get|].
  destruct S as [G [F C]]. split; [now apply (findable_nodup prefix_eqb hash)|exact C].
Qed.
Print Assumptions C25_inscope_partial.

(** Every prefix but the default is always right. *)
Theorem C25_inscope_prefixes : forall hash chain, legal_chain chain ->
  exists m, inscope_namespaces hash (maps hash chain) = Ok m /\ forall p, get_node prefix_eqb hash m (Some p) = Ok (scope chain (Some p)).
Proof.
  intros hash chain L. destruct (inscope_ok hash chain L) as [m [E S]]. exists m. split; [exact E|]. intros p. rewrite (shows_get hash m _ (Some p) S). f_equal.
  rewrite skipping_spec. unfold only_xml, put, no_keys. destruct (prefix_dec (Some p) (Some xml_string)) as [X|N].
  - rewrite X. symmetry. now apply xml_in_scope.
  - assert (nearest (map nonempty (map latest chain)) (Some p) = nearest (map latest chain) (Some p)) as ->.
    { clear E S N. induction chain as [|ds chain IH]; [reflexivity|]. cbn. rewrite IH by (intros ds' d I; apply L; now right). unfold nonempty at 1. destruct (latest ds (Some p)) as [[|c u]|] eqn:X; [|reflexivity|reflexivity].
      exfalso. apply latest_in in X. destruct (L ds _ (or_introl eq_refl) X) as [Y _]. cbn in Y. specialize (Y eq_refl). discriminate. }
    destruct (nearest (map latest chain) (Some p)) as [w|] eqn:X.
    + symmetry. now apply nearest_legal.
    + unfold in_scope. rewrite X. destruct (str_eqb p (lit "xml")) eqn:Q; [|reflexivity]. apply str_eqb_eq in Q. subst. now elim N.
Qed.
Print Assumptions C25_inscope_prefixes.

(** ** Where the full statement fails *)
Definition P (s : string) : option str := Some (lit s).
Definition elem : names := {| n_local := lit "e"; n_qname := lit "e"; n_ns := None |}.
Ltac legal_tac := intros ds d I1 I2; cbn in I1; repeat (destruct I1 as [<-|I1]; [cbn in I2; repeat (destruct I2 as [<-|I2]; [split; [discriminate || reflexivity|split; [split; discriminate|discriminate]]|]); destruct I2|]); destruct I1.

Definition plain_hash (_ : option str) : N := 0%N.
(** <a xmlns:p="u"> <b xmlns:p="v"> : the prefix of u at b is p, which is v
    there. *)
Definition shadowing : list decls := [[(P "p", lit "v")]; [(P "p", lit "u")]].
Theorem C25_shadowing_refuted : legal_chain shadowing /\
  set_namespace (maps plain_hash shadowing) elem (Some (lit "u")) = Ok {| n_local := lit "e"; n_qname := lit "p:e"; n_ns := Some (lit "u") |} /\
  scope shadowing (P "p") = Some (lit "v").
Proof. split; [legal_tac|]. split; vm_compute; reflexivity. Qed.
Print Assumptions C25_shadowing_refuted.
(** <a xmlns="u"> : no namespace at a gives no prefix, which is u there. *)
Theorem C25_null_namespace_refuted : legal_chain [[(None, lit "u")]] /\
  set_namespace (maps plain_hash [[(None, lit "u")]]) elem None = Ok {| n_local := lit "e"; n_qname := lit "e"; n_ns := None |} /\
  scope [[(None, lit "u")]] None = Some (lit "u").
Proof. split; [legal_tac|]. split; vm_compute; reflexivity. Qed.
Print Assumptions C25_null_namespace_refuted.
(** <a xmlns="u"> <b xmlns=""> : xml_namespaces at b has the default
    namespace u. *)
Definition hiding : list decls := [[(None, [])]; [(None, lit "u")]].
Theorem C25_undeclared_default_refuted : legal_chain hiding /\ scope hiding None = None /\
  exists m, inscope_namespaces plain_hash (maps plain_hash hiding) = Ok m /\ get_node prefix_eqb plain_hash m None = Ok (P "u").
Proof. split; [legal_tac|]. split; [reflexivity|]. eexists. split; vm_compute; reflexivity. Qed.
Print Assumptions C25_undeclared_default_refuted.
(** <a xmlns="u" xmlns:p="u"> : a new attribute in u is refused although p is
    bound to u. *)
Theorem C25_attribute_default_refuted : legal_chain [[(None, lit "u"); (P "p", lit "u")]] /\ scope [[(None, lit "u"); (P "p", lit "u")]] (P "p") = Some (lit "u") /\
  attribute_qname (maps plain_hash [[(None, lit "u"); (P "p", lit "u")]]) (Some (lit "u")) (lit "x") = Err ValueError.
Proof. split; [legal_tac|]. split; vm_compute; reflexivity. Qed.
Print Assumptions C25_attribute_default_refuted.

(** ** A case that meets the hypotheses *)
Definition nested : list decls := [[(P "p", lit "v"); (P "q", lit "w")]; []; [(None, []); (P "r", lit "u")]; [(P "p", lit "x"); (P "s", lit "y")]].
Example C25_case : legal_chain nested /\ unshadowed nested (lit "y") /\ no_hidden_default (map latest nested) /\
  scope nested (P "p") = Some (lit "v") /\ scope nested (P "s") = Some (lit "y") /\ scope nested (P "xml") = Some xml_namespace /\ scope nested None = None /\
  set_namespace (maps plain_hash nested) elem (Some (lit "y")) = Ok {| n_local := lit "e"; n_qname := lit "s:e"; n_ns := Some (lit "y") |}.
Proof.
  split; [legal_tac|]. split.
  - intros ds p I H. apply latest_in in H. cbn in I. repeat (destruct I as [<-|I]; [cbn in H; repeat (destruct H as [H|H]; [first [discriminate H|injection H as <-; vm_compute; reflexivity]|]); destruct H|]). destruct I.
  - split; [cbn; repeat split; intros; try discriminate; reflexivity|]. repeat apply conj; vm_compute; reflexivity.
Qed.
