(** * Specification of xsl:sort (XSLT 1.0, section 10) *)
From Coq Require Import NArith ZArith QArith String List Bool Lia Arith Sorted Permutation.
From Verif Require Import PyStr PyErr XpNum XpNumSpec XtSort.
Import ListNotations.
Local Open Scope nat_scope.

(** Strings by code points: where they first differ, or a proper prefix first. *)
Definition str_before (a b : str) : Prop :=
  exists p a' b', a = p ++ a' /\ b = p ++ b' /\ match a', b' with [], _ :: _ => True | x :: _, y :: _ => (x < y)%N | _, _ => False end.
(** Numbers by value, NaN before all others. *)
Definition num_before (a b : num) : Prop := (a = NNaN /\ b <> NNaN) \/ num_lt a b.

Section Spec.
Variables (select : context -> result (list nat)) (keys : list sort_key) (c : context) (nodes : list nat).
(** The value of a sort key: "instantiated with that node as the current node and with
    the list of nodes in unsorted order as the current node list". *)
Definition focus_of (x : nat) (d : context) : Prop :=
  exists i, nth_error nodes i = Some x /\
  d = {| c_node := x; c_position := S i; c_size := length nodes; c_current := x; c_template := c_template c |}.
Definition text_of (k : sort_key) (x : nat) (v : str) : Prop := exists d, focus_of x d /\ sk_string k d = Ok v.
Definition number_of (k : sort_key) (x : nat) (v : num) : Prop := exists d, focus_of x d /\ sk_number k d = Ok v.
(** How [x] and [y] compare in the ascending order of a key. *)
Definition less (k : sort_key) (x y : nat) : Prop :=
  if sk_numeric k then exists m n, number_of k x m /\ number_of k y n /\ num_before m n
  else exists u v, text_of k x u /\ text_of k y v /\ str_before u v.
Definition same (k : sort_key) (x y : nat) : Prop :=
  if sk_numeric k then exists m n, number_of k x m /\ number_of k y n /\ same_number m n
  else exists u, text_of k x u /\ text_of k y u.
Definition before (k : sort_key) (x y : nat) : Prop := if sk_descending k then less k y x else less k x y.
(** [x] occurs before [y] in the list. *)
Definition earlier (l : list nat) (x y : nat) : Prop := exists l1 l2 l3, l = l1 ++ x :: l2 ++ y :: l3.
(** The first key that distinguishes the nodes decides; if none does, they stay in
    document order. *)
Fixpoint precedes (ks : list sort_key) (x y : nat) : Prop :=
  match ks with [] => earlier nodes x y | k :: r => before k x y \/ (same k x y /\ precedes r x y) end.
Definition sorted_result (r : list nat) : Prop := Permutation r nodes /\ forall x y, earlier r x y -> precedes keys x y.
End Spec.

(** ** What is assumed of list.sort *)
(** Python promises something only for an order. *)
Definition consistent {A} (cmp : A -> A -> comparison) : Prop :=
  (forall a b, cmp b a = CompOpp (cmp a b)) /\ (forall a b d, cmp a b <> Gt -> cmp b d <> Gt -> cmp a d <> Gt).
(** The elements are ascending, or descending, and equal ones keep their order. *)
Definition stable_sort {A} (sort : (A -> A -> comparison) -> bool -> list A -> list A) : Prop := forall cmp reverse l, consistent cmp ->
  Permutation (sort cmp reverse l) l /\
  StronglySorted (fun a b => if reverse then cmp b a <> Gt else cmp a b <> Gt) (sort cmp reverse l) /\
  forall a, filter (fun b => match cmp a b with Eq => true | _ => false end) (sort cmp reverse l) = filter (fun b => match cmp a b with Eq => true | _ => false end) l.

(** ** What is assumed of case *)
(** Of two letters that differ only in case one is an upper case letter, with the
    lower code point (as in ASCII). *)
Definition cased (lower : N -> N) (isupper : N -> bool) : Prop := forall c d, lower c = lower d -> (c < d)%N -> isupper c = true /\ isupper d = false.
(** case-order="lower-first" is left out, as is "upper-first" where case is not like
    that; it means nothing for numbers. *)
Definition good_key (lower : N -> N) (isupper : N -> bool) (k : sort_key) : Prop :=
  match sk_case k with Some LowerFirst => sk_numeric k = true | Some UpperFirst => sk_numeric k = true \/ cased lower isupper | None => True end.
(** All keys can be evaluated. *)
Definition evaluates (c : context) (nodes : list nat) (k : sort_key) : Prop :=
  forall x d, focus_of c nodes x d -> if sk_numeric k then exists v, sk_number k d = Ok v else exists v, sk_string k d = Ok v.

(** ** xsl:for-each *)
(** Running an instruction on the nodes in turn, each with itself as the context node
    and the current node, its place in the list as the position, and the length of
    the list as the size. *)
Definition run_each (children : context -> result (str * context)) (nodes : list nat) (out : str) : Prop :=
  exists outs, length outs = length nodes /\ out = concat outs /\
  forall i x o, nth_error nodes i = Some x -> nth_error outs i = Some o ->
  exists d, children {| c_node := x; c_position := S i; c_size := length nodes; c_current := x; c_template := None |} = Ok (o, d).
(** Instructions that leave the size and the template as they are. *)
Definition restores (children : context -> result (str * context)) : Prop :=
  forall d o d', children d = Ok (o, d') -> c_size d' = c_size d /\ c_template d' = c_template d.
