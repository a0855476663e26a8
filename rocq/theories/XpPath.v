(** * Model of location paths: lib/xpath/locationpaths/__init__.py, nodetests.py and
      predicates.py, lib/xpath/src/nodetests.c and paths.c, and the node-set
      constructor of lib/xpath/src/datatypes.c

    The iterators of the code are lazy; they are modelled as the lists they yield.
    Simplification: an exception raised while iterating makes the whole evaluation
    an error (the C iterators do not look for an exception left by an inner
    iterator, and stepiter_next may go on to the next context node).  The expressions inside
    predicates are universally quantified functions of the node, its position and
    context.size; context.size is the size given to the evaluation except where a
    predicate sets it.  Simplification: in the code the size set by one predicate
    is still seen by the predicates evaluated after it.  Not modelled: the
    namespace axis, and changes to the tree during an evaluation. *)
From Coq Require Import NArith ZArith QArith String List Bool Lia Arith.
From Verif Require Import PyStr PyErr DomModel XpModel.
Import ListNotations.
Local Open Scope nat_scope.

Definition UndefinedPrefix : exn := OtherError 7.
Definition OverflowError : exn := OtherError 6.

(** The names of the nodes: namespace and local name of elements and attributes;
    the target of a processing instruction is its local name. *)
Record names := { nm_ns : nat -> option str; nm_local : nat -> str }.

(** ** Node tests *)
(** node(), comment(), text(), processing-instruction(t), '*', 'name', 'p:*' and
    'p:name': nodetests.py:63-218. *)
Inductive ntest :=
| TNode | TComment | TText | TPI (target : option str)
| TPrincipal | TLocal (name : str) | TPrefix (prefix : str) | TQName (prefix name : str).

(** A nodefilter object, nodetests.c:132-138: its type and, if [nametest] is not
    NULL, its namespace and name (None for NULL). *)
Record nodefilter := { nf_kind : kind; nf_name : option (option str * option str) }.

(** axis_specifier.principal_type, axisspecifiers.py: tree.element, except
    tree.attribute for the attribute axis. *)
Definition principal_type (a : axis) : kind := match a with Attribute => KAttr | _ => KElement end.

(** get_filter of the classes of nodetests.py:36-218 with nodefilter_new,
    nodetests.c:181-260. *)
Definition get_filter (namespaces : str -> option str) (principal : kind) (t : ntest) : result (option nodefilter) :=
  match t with
  | TNode => Ok None
  | TComment => Ok (Some {| nf_kind := KComment; nf_name := None |})
  | TText => Ok (Some {| nf_kind := KText; nf_name := None |})
  | TPI target => Ok (Some {| nf_kind := KPI; nf_name := Some (None, target) |})
  | TPrincipal => Ok (Some {| nf_kind := principal; nf_name := None |})
  | TLocal name => Ok (Some {| nf_kind := principal; nf_name := Some (None, Some name) |})
  | TPrefix prefix =>
    match namespaces prefix with
    | None => Err UndefinedPrefix
    | Some ns => Ok (Some {| nf_kind := principal; nf_name := Some (Some ns, None) |})
    end
  | TQName prefix name =>
    match namespaces prefix with
    | None => Err UndefinedPrefix
    | Some ns => Ok (Some {| nf_kind := principal; nf_name := Some (Some ns, Some name) |})
    end
  end.

(** node_nametest, nodetests.c:140-157. *)
Definition node_nametest (fns fname : option str) (namespace : option str) (name : str) : bool :=
  match (match fns with
         | None => match namespace with None => true | Some _ => false end
         | Some u => match namespace with Some v => str_eqb u v | None => false end
         end) with
  | false => false
  | true => match fname with None => true | Some n => str_eqb n name end
  end.
(** element_nametest, attr_nametest, pi_nametest, nodetests.c:159-179. *)
Definition nametest (nm : names) (k : kind) (fns fname : option str) (x : nat) : bool :=
  node_nametest fns fname (match k with KPI => None | _ => nm_ns nm x end) (nm_local nm x).
(** The loop of nodefilter_next, nodetests.c:283-319. *)
Definition filter_accepts (s : store) (nm : names) (f : nodefilter) (x : nat) : bool :=
  if has_kind s (nf_kind f) x then match nf_name f with None => true | Some (u, n) => nametest nm (nf_kind f) u n x end else false.
Definition apply_filter (s : store) (nm : names) (f : option nodefilter) (nodes : list nat) : list nat :=
  match f with None => nodes | Some f => filter (filter_accepts s nm f) nodes end.

(** ** Predicates *)
(** The value of an XPath number (an IEEE double). *)
Inductive xnum := NaN | PosInf | NegInf | Fin (q : Q).
(** Comparison of a Python integer with a number. *)
Definition int_gt (p : Z) (k : xnum) : bool := match k with NaN => false | PosInf => false | NegInf => true | Fin q => negb (Qle_bool (inject_Z p) q) end.
Definition int_eq (p : Z) (k : xnum) : bool := match k with Fin q => Qeq_bool (inject_Z p) q | _ => false end.

(** The result of an expression: a number, or the truth value of anything else. *)
Inductive xvalue := VNumber (k : xnum) | VOther (truth : bool).
(** An expression as a function of context.node, context.position and context.size. *)
Definition evaluator (A : Type) := nat -> Z -> nat -> result A.

(** The expression of a predicate, as far as predicate.__init__ looks at it
    (predicates.py:55-126).  A literal is given by its value as a number, a string
    literal also by whether it is not empty; string literals are literals too
    (basics.py:11-58).  [EPositionGt] and [EPositionGe] are
    'position() > e' and 'position() >= e' with [e] a literal or a variable, given
    by its value; [EConstantFirst] is any other relational expression with a
    literal or a variable on its left; the last three are all other expressions by
    their static type: number, another type, unknown (datatypes.xpathobject). *)
Inductive pexpr :=
| ELiteral (k : xnum) | EString (nonempty : bool) (k : xnum)
| EPositionEqLiteral (k : xnum) | EPositionEq (e : evaluator xnum)
| ELiteralEqPosition (k : xnum) | EEqPosition (e : evaluator xnum)
| EPositionGt (k : xnum) | EPositionGe (k : xnum)
| EConstantFirst (e : evaluator bool)
| ENumber (e : evaluator xnum) | EBoolean (e : evaluator bool) | EUnknown (e : evaluator xvalue).

(** The attribute [select] of a predicate object. *)
Inductive selector :=
| SPositionFilter (position : Z)
| SEmptyIzip
| SSlice (first : Z) (start : xnum)
| SNumber (provide_size : bool) (e : evaluator xnum)
| SBoolean (e : evaluator bool)
| SSelect (e : evaluator xvalue).

(** int(const), and the test "index == const and index >= 1", predicates.py:61-68;
    positionfilter_new, nodetests.c:381-405, takes a C int. *)
Definition literal_select (k : xnum) : result selector :=
  match k with
  | NaN => Err ValueError
  | PosInf | NegInf => Err OverflowError
  | Fin q =>
    let index := Z.quot (Qnum q) (Zpos (Qden q)) in
    if Qeq_bool (inject_Z index) q && (1 <=? index)%Z then
      if (index <=? 2147483647)%Z then Ok (SPositionFilter index) else Err OverflowError
    else Ok SEmptyIzip
  end.
(** predicate.__init__, predicates.py:55-126; the name Position in line 114 is not
    defined. *)
Definition predicate_init (e : pexpr) : result selector :=
  match e with
  | ELiteral k => literal_select k
  | EString _ k => literal_select k
  | EPositionEqLiteral k => literal_select k
  | EPositionEq e => Ok (SNumber true e)
  | ELiteralEqPosition k => literal_select k
  | EEqPosition e => Ok (SNumber false e)
  | EPositionGt k => Ok (SSlice 1 k)
  | EPositionGe k => Ok (SSlice 0 k)
  | EConstantFirst _ => Err NameError
  | ENumber e => Ok (SNumber false e)
  | EBoolean e => Ok (SBoolean e)
  | EUnknown e => Ok (SSelect e)
  end.

(** positionfilter_next, nodetests.c:407-429: after the one result the filter is
    exhausted. *)
Fixpoint skip_nodes (n : nat) (nodes : list nat) : list nat :=
  match n with
  | O => nodes
  | S k => match nodes with [] => [] | _ :: rest => skip_nodes k rest end
  end.
Definition position_filter (position : Z) (nodes : list nat) : list nat :=
  match skip_nodes (Z.to_nat (position - 1)) nodes with [] => [] | x :: _ => [x] end.
(** predicate._slice, predicates.py:128-139; [first] is int(self._position). *)
Fixpoint slice_loop (position : Z) (start : xnum) (nodes : list nat) : list nat :=
  match nodes with
  | [] => []
  | _ :: rest => if int_gt position start then rest else slice_loop (position + 1) start rest
  end.
Definition slice (first : Z) (start : xnum) (nodes : list nat) : list nat :=
  if int_gt first start then nodes else slice_loop (first + 1) start nodes.
(** predicate._number, predicates.py:141-153. *)
Fixpoint number_loop (e : evaluator xnum) (size : nat) (position : Z) (nodes : list nat) : result (list nat) :=
  match nodes with
  | [] => Ok []
  | x :: rest =>
    do v <- e x position size ;
    do r <- number_loop e size (position + 1) rest ;
    Ok (if int_eq position v then x :: r else r)
  end.
(** predicate._boolean, predicates.py:155-164. *)
Fixpoint boolean_loop (e : evaluator bool) (size : nat) (position : Z) (nodes : list nat) : result (list nat) :=
  match nodes with
  | [] => Ok []
  | x :: rest =>
    do v <- e x position size ;
    do r <- boolean_loop e size (position + 1) rest ;
    Ok (if v then x :: r else r)
  end.
(** predicate.select, predicates.py:166-181. *)
Fixpoint select_loop (e : evaluator xvalue) (size : nat) (position : Z) (nodes : list nat) : result (list nat) :=
  match nodes with
  | [] => Ok []
  | x :: rest =>
    do v <- e x position size ;
    do r <- select_loop e size (position + 1) rest ;
    Ok (if (match v with VNumber k => int_eq position k | VOther b => b end) then x :: r else r)
  end.
(** Calling [select]; [size] is context.size before the call.  An izip object
    cannot be called. *)
Definition apply_selector (size : nat) (p : selector) (nodes : list nat) : result (list nat) :=
  match p with
  | SPositionFilter position => Ok (position_filter position nodes)
  | SEmptyIzip => Err TypeError
  | SSlice first start => Ok (slice first start nodes)
  | SNumber true e => number_loop e (length nodes) 1 nodes
  | SNumber false e => number_loop e size 1 nodes
  | SBoolean e => boolean_loop e size 1 nodes
  | SSelect e => select_loop e size 1 nodes
  end.
(** Also pathiter_call, paths.c:402-443, on the predicates of a filter expression. *)
Fixpoint apply_selectors (size : nat) (ps : list selector) (nodes : list nat) : result (list nat) :=
  match ps with
  | [] => Ok nodes
  | p :: ps' => do l <- apply_selector size p nodes ; apply_selectors size ps' l
  end.

(** ** Steps *)
(** location_step, __init__.py:149-159. *)
Record lstep := { ls_axis : axis; ls_test : ntest; ls_preds : list pexpr }.
(** A stepiter object, paths.c:119-128. *)
Record stepiter := { si_axis : axis; si_filter : option nodefilter; si_preds : list selector }.

(** The list [pred1, ...] of predicate objects that the parser builds. *)
Fixpoint init_all (es : list pexpr) : result (list selector) :=
  match es with
  | [] => Ok []
  | e :: es' => do p <- predicate_init e ; do ps <- init_all es' ; Ok (p :: ps)
  end.
Definition callable (p : selector) : bool := match p with SEmptyIzip => false | _ => true end.
(** The loop over the steps in location_path.compile_iterable, __init__.py:31-44,
    with stepiter_new, paths.c:275-331. *)
Definition compile_step (namespaces : str -> option str) (st : lstep) : result stepiter :=
  do ps <- init_all (ls_preds st) ;
  do f <- get_filter namespaces (principal_type (ls_axis st)) (ls_test st) ;
  if forallb callable ps then Ok {| si_axis := ls_axis st; si_filter := f; si_preds := ps |} else Err ValueError.
Fixpoint compile_steps (namespaces : str -> option str) (sts : list lstep) : result (list stepiter) :=
  match sts with
  | [] => Ok []
  | st :: sts' => do c <- compile_step namespaces st ; do cs <- compile_steps namespaces sts' ; Ok (c :: cs)
  end.

(** The nodes that stepiter_next, paths.c:193-273, yields for one context node. *)
Definition step_node (s : store) (nm : names) (size : nat) (st : stepiter) (node : nat) : result (list nat) :=
  do nodes <- select (si_axis st) s node ;
  do nodes <- apply_selectors size (si_preds st) (apply_filter s nm (si_filter st) nodes) ;
  Ok (if reverse (si_axis st) then rev nodes else nodes).
(** stepiter_next until it is exhausted. *)
Fixpoint step_nodes (s : store) (nm : names) (size : nat) (st : stepiter) (context_nodes : list nat) : result (list nat) :=
  match context_nodes with
  | [] => Ok []
  | node :: rest => do l <- step_node s nm size st node ; do r <- step_nodes s nm size st rest ; Ok (l ++ r)
  end.
Fixpoint iterate (s : store) (nm : names) (size : nat) (sts : list stepiter) (nodes : list nat) : result (list nat) :=
  match sts with
  | [] => Ok nodes
  | st :: sts' => do l <- step_nodes s nm size st nodes ; iterate s nm size sts' l
  end.

(** ** Paths *)
(** The constructors of __init__.py:73-147: absolute_location_path (with and
    without a relative path), relative_location_path, and the abbreviated forms
    '//p' and 'p//step'. *)
Record location_path := { lp_absolute : bool; lp_steps : list lstep }.
Definition descendant_or_self_node : lstep := {| ls_axis := DescendantOrSelf; ls_test := TNode; ls_preds := [] |}.
Definition no_predicates (st : lstep) : bool := match ls_preds st with [] => true | _ => false end.
Definition is_child_axis (a : axis) : bool := match a with Child => true | _ => false end.
(** abbreviated_absolute_location_path.__init__, __init__.py:109-123. *)
Definition abbreviated_absolute (steps : list lstep) : location_path :=
  {| lp_absolute := true;
     lp_steps := match steps with
                 | [] => []
                 | st :: rest =>
                   if no_predicates st && is_child_axis (ls_axis st) then {| ls_axis := Descendant; ls_test := ls_test st; ls_preds := [] |} :: rest
                   else descendant_or_self_node :: steps
                 end |}.
(** abbreviated_relative_location_path.__init__, __init__.py:131-146. *)
Definition abbreviated_relative (steps : list lstep) (st : lstep) : location_path :=
  {| lp_absolute := false;
     lp_steps := if no_predicates st && is_child_axis (ls_axis st) then steps ++ [{| ls_axis := Descendant; ls_test := ls_test st; ls_preds := [] |}]
                 else steps ++ [descendant_or_self_node; st] |}.

(** get_root (xml_root), node.c:420-432 and entity.c:291-295. *)
Fixpoint get_root (fuel : nat) (s : store) (node : nat) : option nat :=
  match fuel with
  | O => None
  | S f => if is_entity s node then Some node else match parent_of s node with None => None | Some p => get_root f s p end
  end.
(** location_path.compile_iterable, __init__.py:19-54, on the context node.
    Simplification: an absolute path in a tree without a root entity, where the
    context node becomes None, is a TypeError. *)
Definition path_iterable (namespaces : str -> option str) (s : store) (nm : names) (size : nat) (p : location_path) (node : nat) : result (list nat) :=
  do sts <- compile_steps namespaces (lp_steps p) ;
  if lp_absolute p then
    match get_root (bound s) s node with
    | None => Err TypeError
    | Some root => iterate s nm size sts [root]
    end
  else iterate s nm size sts [node].

(** PyList_Sort with the operator < of nodes: a stable sort; the binary insertion
    sort that CPython uses for short lists. *)
Fixpoint insert_node (s : store) (x : nat) (l : list nat) : list nat :=
  match l with
  | [] => [x]
  | y :: r => if node_lt s x y then x :: l else y :: insert_node s x r
  end.
Definition py_sort (s : store) (l : list nat) : list nat := fold_left (fun acc x => insert_node s x acc) l [].
(** nodeset_new, datatypes.c:1315-1346, on an iterator. *)
Definition nodeset_new (s : store) (l : list nat) : list nat := py_sort s l.
(** nodeset_expression.compile_as_nodeset, nodesets.py:99-110: the value of the
    expression. *)
Definition path_nodeset (namespaces : str -> option str) (s : store) (nm : names) (size : nat) (p : location_path) (node : nat) : result (list nat) :=
  do l <- path_iterable namespaces s nm size p node ; Ok (nodeset_new s l).

(** UnionIter, paths.c:518-561.  [keys] is PyDict_Keys of the dictionary filled
    with the given nodes one after the other: the hash of a node is its address, so
    the order of the keys is arbitrary. *)
Definition union_iter (keys : list nat -> list nat) (s : store) (args : list (list nat)) : list nat :=
  py_sort s (keys (concat (rev args))).
Fixpoint iterate_all (namespaces : str -> option str) (s : store) (nm : names) (size : nat) (ps : list location_path) (node : nat) : result (list (list nat)) :=
  match ps with
  | [] => Ok []
  | p :: ps' => do l <- path_iterable namespaces s nm size p node ; do r <- iterate_all namespaces s nm size ps' node ; Ok (l :: r)
  end.
(** union_expr.compile_iterable, nodesets.py:132-150, and compile_as_nodeset. *)
Definition union_nodeset (keys : list nat -> list nat) (namespaces : str -> option str) (s : store) (nm : names) (size : nat) (ps : list location_path) (node : nat) : result (list nat) :=
  do ls <- iterate_all namespaces s nm size ps node ; Ok (nodeset_new s (union_iter keys s ls)).

(** nodeset_expression.compile_as_boolean and the first node that compile_as_string
    and compile_as_number convert, nodesets.py:43-97: the first node the iterator
    yields. *)
Definition path_boolean (namespaces : str -> option str) (s : store) (nm : names) (size : nat) (p : location_path) (node : nat) : result bool :=
  do l <- path_iterable namespaces s nm size p node ; Ok (match l with [] => false | _ => true end).
Definition path_first (namespaces : str -> option str) (s : store) (nm : names) (size : nat) (p : location_path) (node : nat) : result (option nat) :=
  do l <- path_iterable namespaces s nm size p node ; Ok (hd_error l).
