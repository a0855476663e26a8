(** * Model of the XPath axes: lib/xpath/locationpaths/axisspecifiers.py and
      lib/xpath/src/axes.c

    The axes work on the store of DomModel.  An axis is an iterator; it is
    modelled as the list of the nodes it yields, and an exception raised while
    iterating as an error.  The C types of _axes replace the Python methods where
    they exist (ancestor, ancestor-or-self, attribute, child, descendant,
    descendant-or-self, following-sibling).  Every loop has fuel; running out of it
    is the error [Diverges].  The conditions [while node:] and [if child:] test
    for None: no node type of amara.tree defines a length or a truth value
    (tp_as_number, tp_as_sequence and tp_as_mapping are 0 in node.c:939-941,
    container.c:796-798, element.c:962-964, entity.c:414-416).  Not modelled: the
    namespace axis (see NsModel for the in-scope namespaces), and changes to the
    tree during an iteration. *)
From Coq Require Import NArith ZArith String List Bool Lia Arith.
From Verif Require Import PyStr PyErr DomModel.
Import ListNotations.
Local Open Scope nat_scope.

Definition Diverges : exn := OtherError 3.

(** Enough for every loop over the nodes of a store. *)
Definition bound (s : store) : nat := S (length (s_nodes s)).

(** Element_Check and Entity_Check. *)
Definition has_kind (s : store) (k : kind) (i : nat) : bool := match get s i with Some n => kind_eqb (n_kind n) k | None => false end.
Definition is_element (s : store) (i : nat) : bool := has_kind s KElement i.
Definition is_entity (s : store) (i : nat) : bool := has_kind s KEntity i.

(** ancestor_axis_next, axes.c:53-64: [self->node] is the argument. *)
Fixpoint ancestors (fuel : nat) (s : store) (node : option nat) : result (list nat) :=
  match node with
  | None => Ok []
  | Some x =>
    match fuel with
    | O => Err Diverges
    | S f => do r <- ancestors f s (parent_of s x) ; Ok (x :: r)
    end
  end.
(** ancestor_axis_new, axes.c:26-45. *)
Definition ancestor_axis (s : store) (node : nat) : result (list nat) := ancestors (bound s) s (parent_of s node).
(** ancestor_self_axis_new, axes.c:111-129. *)
Definition ancestor_or_self_axis (s : store) (node : nat) : result (list nat) := ancestors (bound s) s (Some node).

(** attribute_axis_new and attribute_axis_next, axes.c:182-224.  Simplification:
    AttributeMap_Next yields the nodes of the map in the order of [n_attrs]. *)
Definition attribute_axis (s : store) (node : nat) : result (list nat) :=
  Ok (if is_element s node then match get s node with Some n => n_attrs n | None => [] end else []).

(** A child_axis object: its node (NULL when done) and its index, axes.c:271-275. *)
Definition child_iter := (option nat * nat)%type.
(** child_axis_init, axes.c:277-286, and get_child_axis, axes.c:373-380. *)
Definition child_axis_init (s : store) (node : nat) : child_iter :=
  ((if is_element s node || is_entity s node then Some node else None), 0).
(** child_axis_next, axes.c:312-328. *)
Definition child_axis_next (s : store) (it : child_iter) : result (option (nat * child_iter)) :=
  match it with
  | (None, _) => Ok None
  | (Some node, index) =>
    match get s node with
    | None => Err TypeError
    | Some n =>
      if index <? n_count n then
        match nth_error (n_cells n) index with
        | Some (Some c) => Ok (Some (c, (Some node, S index)))
        | _ => Err Garbage
        end
      else Ok None
    end
  end.
Fixpoint drain_children (fuel : nat) (s : store) (it : child_iter) : result (list nat) :=
  match fuel with
  | O => Err Diverges
  | S f =>
    do r <- child_axis_next s it ;
    match r with
    | None => Ok []
    | Some (c, it') => do l <- drain_children f s it' ; Ok (c :: l)
    end
  end.
(** child_axis, axes.c:288-328. *)
Definition child_axis (s : store) (node : nat) : result (list nat) := drain_children (bound s) s (child_axis_init s node).

(** descendant_axis_next, axes.c:426-463.  The stack is kept with its top
    ([stack[depth]]) first; the entries above [depth], which are replaced before
    they are read again, are dropped. *)
Fixpoint descendant_axis_next (s : store) (stack : list child_iter) : result (option (nat * list child_iter)) :=
  match stack with
  | [] => Ok None
  | it :: below =>
    do r <- child_axis_next s it ;
    match r with
    | None => descendant_axis_next s below
    | Some (c, it') => Ok (Some (c, if is_element s c then child_axis_init s c :: it' :: below else it' :: below))
    end
  end.
Fixpoint drain_descendants (fuel : nat) (s : store) (stack : list child_iter) : result (list nat) :=
  match fuel with
  | O => Err Diverges
  | S f =>
    do r <- descendant_axis_next s stack ;
    match r with
    | None => Ok []
    | Some (c, stack') => do l <- drain_descendants f s stack' ; Ok (c :: l)
    end
  end.
(** descendant_axis, axes.c:390-463. *)
Definition descendant_axis (s : store) (node : nat) : result (list nat) := drain_descendants (bound s) s [child_axis_init s node].
(** descendant_self_axis, axes.c:510-548. *)
Definition descendant_or_self_axis (s : store) (node : nat) : result (list nat) := do l <- descendant_axis s node ; Ok (node :: l).

(** The inner loop of following_axis.select, axisspecifiers.py:149-152. *)
Fixpoint following_loop (fuel : nat) (s : store) (sibling : option nat) : result (list nat) :=
  match sibling with
  | None => Ok []
  | Some x =>
    match fuel with
    | O => Err Diverges
    | S f =>
      do d <- descendant_axis s x ;
      do n <- get_following_sibling s x ;
      do r <- following_loop f s n ;
      Ok (x :: d ++ r)
    end
  end.
(** following_axis.select, axisspecifiers.py:141-154. *)
Fixpoint following_from (fuel : nat) (s : store) (node : option nat) : result (list nat) :=
  match node with
  | None => Ok []
  | Some x =>
    match fuel with
    | O => Err Diverges
    | S f =>
      do n <- get_following_sibling s x ;
      do l <- following_loop (bound s) s n ;
      do r <- following_from f s (parent_of s x) ;
      Ok (l ++ r)
    end
  end.
Definition following_axis (s : store) (node : nat) : result (list nat) := following_from (bound s) s (Some node).

(** followingsibling_axis_new and followingsibling_axis_next, axes.c:602-651: the
    children of the parent from the index after the node's on; if the node is not
    among them the index is the count. *)
Fixpoint cells_from (cells : list (option nat)) (index left : nat) : result (list nat) :=
  match left with
  | O => Ok []
  | S k =>
    match nth_error cells index with
    | Some (Some c) => do r <- cells_from cells (S index) k ; Ok (c :: r)
    | _ => Err Garbage
    end
  end.
Definition following_sibling_axis (s : store) (node : nat) : result (list nat) :=
  match parent_of s node with
  | None => Ok []
  | Some p =>
    match get s p with
    | None => Err TypeError
    | Some n =>
      let index := match lfind (n_cells n) node 0 (n_count n) with Some i => S i | None => n_count n end in
      cells_from (n_cells n) index (n_count n - index)
    end
  end.

(** parent_axis.select, axisspecifiers.py:188-193. *)
Definition parent_axis (s : store) (node : nat) : result (list nat) := Ok (match parent_of s node with Some p => [p] | None => [] end).

(** get_last_child (xml_last_child), container.c:731-741. *)
Definition get_last_child (s : store) (self : nat) : result (option nat) :=
  match get s self with
  | None => Err TypeError
  | Some n =>
    match n_count n with
    | O => Ok None
    | S k => match nth_error (n_cells n) k with Some (Some c) => Ok (Some c) | _ => Err Garbage end
    end
  end.
(** The generator preceding() in preceding_axis.select, axisspecifiers.py:210-218. *)
Fixpoint preceding_gen (fuel : nat) (s : store) (node : option nat) : result (list nat) :=
  match node with
  | None => Ok []
  | Some x =>
    match fuel with
    | O => Err Diverges
    | S f =>
      do inner <- (if is_element s x then do c <- get_last_child s x ; preceding_gen f s c else Ok []) ;
      do n <- get_preceding_sibling s x ;
      do r <- preceding_gen f s n ;
      Ok (inner ++ x :: r)
    end
  end.
(** preceding_axis.select, axisspecifiers.py:204-223. *)
Fixpoint preceding_from (fuel : nat) (s : store) (node : option nat) : result (list nat) :=
  match node with
  | None => Ok []
  | Some x =>
    match fuel with
    | O => Err Diverges
    | S f =>
      do n <- get_preceding_sibling s x ;
      do l <- preceding_gen (bound s) s n ;
      do r <- preceding_from f s (parent_of s x) ;
      Ok (l ++ r)
    end
  end.
Definition preceding_axis (s : store) (node : nat) : result (list nat) := preceding_from (bound s) s (Some node).

(** preceding_sibling_axis.select, axisspecifiers.py:229-235. *)
Fixpoint preceding_siblings (fuel : nat) (s : store) (sibling : option nat) : result (list nat) :=
  match sibling with
  | None => Ok []
  | Some x =>
    match fuel with
    | O => Err Diverges
    | S f => do n <- get_preceding_sibling s x ; do r <- preceding_siblings f s n ; Ok (x :: r)
    end
  end.
Definition preceding_sibling_axis (s : store) (node : nat) : result (list nat) :=
  do n <- get_preceding_sibling s node ; preceding_siblings (bound s) s n.

(** self_axis.select, axisspecifiers.py:240-242. *)
Definition self_axis (s : store) (node : nat) : result (list nat) := Ok [node].

(** The axis specifiers and their [reverse] flags, axisspecifiers.py:52-242. *)
Inductive axis :=
| Ancestor | AncestorOrSelf | Attribute | Child | Descendant | DescendantOrSelf | Following | FollowingSibling
| Parent | Preceding | PrecedingSibling | Self.
Definition select (a : axis) : store -> nat -> result (list nat) :=
  match a with
  | Ancestor => ancestor_axis | AncestorOrSelf => ancestor_or_self_axis | Attribute => attribute_axis
  | Child => child_axis | Descendant => descendant_axis | DescendantOrSelf => descendant_or_self_axis
  | Following => following_axis | FollowingSibling => following_sibling_axis
  | Parent => parent_axis | Preceding => preceding_axis | PrecedingSibling => preceding_sibling_axis | Self => self_axis
  end.
Definition reverse (a : axis) : bool :=
  match a with Ancestor | AncestorOrSelf | Parent | Preceding | PrecedingSibling => true | _ => false end.
