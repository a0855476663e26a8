(** * Specification of key() (XSLT 1.0, section 12.2) *)
From Coq Require Import NArith ZArith QArith String List Bool Lia Arith Sorted Permutation.
From Verif Require Import PyStr PyErr DomModel DomSpec XpModel XpPath XpPathSpec XtPattern XtPatternSpec XtKey.
Import ListNotations.
Local Open Scope nat_scope.

Section Spec.
Variables (s : store) (nm : names) (all : list xsl_key) (name : key_name).
(** "The xsl:key element with the name attribute equal to the name of the key, whose
    match pattern matches the node [x], and whose use expression gives the value [v]": the
    node [x] of the document with this root has a key with this name and this value. *)
Definition has_key (root : nat) (v : str) (x : nat) : Prop :=
  above_or_self (parent_of s) root x /\
  exists k p vs, In k all /\ xk_name k = name /\ In p (xk_match k) /\ matches (xk_ns k) s nm p x /\ xk_use k x = Ok vs /\ In v vs.
(** The values that are looked up: "when the second argument is of type node-set, the
    result is the union of the result of applying the key function to the string value
    of each of the nodes in the argument node-set". *)
Definition looked_up (arg : key_arg) (v : str) : Prop := match arg with ASet vs => In v vs | AValue w => v = w end.

(** ** What the code handles *)
(** Not an id() or key() pattern; the steps as in C53, and none with node(). *)
Definition key_pattern (p : lpattern) : Prop :=
  match p with
  | LIdKey _ | LIdKeyPath _ _ _ => False
  | LRoot => True
  | LAbsolute r | LAnywhere r | LRelative r => Forall good_step (steps_of r) /\ Forall (fun q => ps_test q <> TNode) (steps_of r) /\ greedy_pattern p
  end.
Definition key_patterns : Prop := forall k p, In k all -> xk_name k = name -> In p (xk_match k) -> key_pattern p.
End Spec.
(** The listing of a set. *)
Definition lists_set (pyset : list nat -> list nat) : Prop := forall l, NoDup (pyset l) /\ forall x, In x (pyset l) <-> In x l.
