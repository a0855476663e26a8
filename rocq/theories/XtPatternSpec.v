(** * Specification of XSLT patterns (XSLT 1.0, section 5.2)

    "A node matches a pattern if the node is a member of the result of evaluating
    the pattern as an expression with respect to some possible context; the possible
    contexts are those whose context node is the node being matched or one of its
    ancestors."  The result of an expression is that of XpPathSpec. *)
From Coq Require Import NArith ZArith QArith String List Bool Lia Arith.
From Verif Require Import PyStr PyErr DomModel DomSpec XpModel XpSpec XpPath XpPathSpec XtPattern.
Import ListNotations.
Local Open Scope nat_scope.

(** The location path that a pattern is; '//' is '/descendant-or-self::node()/'. *)
Definition as_step (p : pstep) : lstep := {| ls_axis := if ps_attr p then Attribute else Child; ls_test := ps_test p; ls_preds := ps_preds p |}.
Definition any_depth : lstep := {| ls_axis := DescendantOrSelf; ls_test := TNode; ls_preds := [] |}.
Definition joined (d : sep) (l : list lstep) : list lstep := match d with Slash => l | DoubleSlash => any_depth :: l end.
Definition as_steps (r : relpath) : list lstep := as_step (rp_first r) :: flat_map (fun dp => joined (fst dp) [as_step (snd dp)]) (rp_rest r).

(** [x] is in the result of the pattern, as an expression, in the context [n]. *)
Definition in_result (namespaces : str -> option str) (s : store) (nm : names) (p : lpattern) (n x : nat) : Prop :=
  match p with
  | LRoot => denotes namespaces s nm {| lp_absolute := true; lp_steps := [] |} n x
  | LAbsolute r => denotes namespaces s nm {| lp_absolute := true; lp_steps := as_steps r |} n x
  | LAnywhere r => denotes namespaces s nm {| lp_absolute := true; lp_steps := any_depth :: as_steps r |} n x
  | LRelative r => denotes namespaces s nm {| lp_absolute := false; lp_steps := as_steps r |} n x
  | LIdKey nodes => In x nodes
  | LIdKeyPath nodes d r => exists m, In m nodes /\ reached namespaces s nm (joined d (as_steps r)) m x
  end.
Definition matches (namespaces : str -> option str) (s : store) (nm : names) (p : lpattern) (x : nat) : Prop :=
  exists n, above_or_self (parent_of s) n x /\ in_result namespaces s nm p n x.

(** ** What the code handles *)
(** The node is in a document. *)
Definition in_document (s : store) (x : nat) : Prop := exists r, kind_of s r = Some KEntity /\ above_or_self (parent_of s) r x.
(** No namespace name is empty. *)
Definition proper_names (nm : names) : Prop := forall x, nm_ns nm x <> Some [].
(** Node tests other than processing-instruction(); on the attribute axis only name
    tests. *)
Definition good_test (attr : bool) (t : ntest) : Prop :=
  match t with
  | TPrincipal | TLocal _ | TPrefix _ | TQName _ _ => True
  | TNode | TComment | TText => attr = false
  | TPI _ => False
  end.
Definition good_step (p : pstep) : Prop := good_test (ps_attr p) (ps_test p) /\ Forall handled (ps_preds p).
Definition path_of (p : lpattern) : option relpath :=
  match p with LRoot | LIdKey _ => None | LAbsolute r | LIdKeyPath _ _ r | LAnywhere r | LRelative r => Some r end.
Definition steps_of (r : relpath) : list pstep := rp_first r :: map snd (rp_rest r).
(** [x] is a child of a node. *)
Definition is_child (s : store) (x : nat) : Prop := (exists m, parent_of s x = Some m) /\ kind_of s x <> Some KAttr.
(** node() occurs only as the last step, and only children of nodes are matched
    with it. *)
Definition node_last (s : store) (x : nat) (l : list pstep) : Prop :=
  Forall (fun p => ps_test p <> TNode) (removelast l) /\ (ps_test (last l (hd {| ps_attr := false; ps_test := TNode; ps_preds := [] |} l)) = TNode -> is_child s x).
Definition good_pattern (s : store) (x : nat) (p : lpattern) : Prop :=
  match path_of p with None => True | Some r => Forall good_step (steps_of r) /\ node_last s x (steps_of r) end.
(** No '/' comes before a '//', where the leading '/' of an absolute pattern counts. *)
Fixpoint no_slash_before (slashed : bool) (l : list (sep * pstep)) : Prop :=
  match l with
  | [] => True
  | (Slash, _) :: l' => no_slash_before true l'
  | (DoubleSlash, _) :: l' => slashed = false /\ no_slash_before slashed l'
  end.
Definition greedy_pattern (p : lpattern) : Prop :=
  match p with
  | LRoot | LIdKey _ => True
  | LAbsolute r => no_slash_before true (rp_rest r)
  | LIdKeyPath _ d r => d = Slash /\ no_slash_before true (rp_rest r)
  | LAnywhere r | LRelative r => no_slash_before false (rp_rest r)
  end.
(** Every prefix is declared, and every predicate is one that can be built and
    evaluated. *)
Definition declared (namespaces : str -> option str) (t : ntest) : Prop :=
  match t with TPrefix p | TQName p _ => exists u, namespaces p = Some u | _ => True end.
Definition evaluable (p : pstep) : Prop :=
  Forall never_fails (ps_preds p) /\ exists l, init_all (ps_preds p) = Ok l /\ forallb callable l = true.
