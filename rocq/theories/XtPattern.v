(** * Model of XSLT patterns: lib/xslt/xpatterns/__init__.py, the actions of
      lib/xslt/xpatterns/xpattern.bgen (parser.c) and the [match] methods of
      lib/xpath/locationpaths/nodetests.py

    The nodes are those of DomModel, their names those of XpPath, the predicates
    and their evaluators those of XpPath (with its simplifications).  The value of a
    call of id() or key() is a universally quantified list of nodes.  An exception
    raised by one of several alternatives is the result of the whole.  The lexer and
    the LALR tables are not modelled: a pattern is its parse tree. *)
From Coq Require Import NArith ZArith QArith String List Bool Lia Arith.
From Verif Require Import PyStr PyErr DomModel XpModel XpPath.
Import ListNotations.
Local Open Scope nat_scope.

(** ** The parse tree, xpattern.bgen:43-393 *)
Inductive sep := Slash | DoubleSlash.
(** StepPattern, bgen:308-347: the axis specifier, the node test, the predicates. *)
Record pstep := { ps_attr : bool; ps_test : ntest; ps_preds : list pexpr }.
(** RelativePathPattern, bgen:234-305: a step and the steps after it. *)
Record relpath := { rp_first : pstep; rp_rest : list (sep * pstep) }.
(** LocationPathPattern, bgen:79-190: '/', '/' R, id(..), id(..)/R, id(..)//R, '//' R and R. *)
Inductive lpattern :=
| LRoot | LAbsolute (r : relpath) | LIdKey (nodes : list nat) | LIdKeyPath (nodes : list nat) (d : sep) (r : relpath)
| LAnywhere (r : relpath) | LRelative (r : relpath).

(** ** The objects the parser builds *)
(** A node test, predicated_test, document_test or id_key_test object. *)
Inductive ptest := PTest (t : ntest) | PPredicated (t : ntest) (ps : list selector) | PDocument | PIdKey (nodes : list nat).
(** The tuple (axis_type, node_test, ancestor); axis_type is tree.element,
    tree.attribute or 0, here None. *)
Record ptuple := { pt_axis : option kind; pt_test : ptest; pt_ancestor : bool }.

(** The actions of StepPattern, bgen:308-347. *)
Definition step_tuple (p : pstep) : result ptuple :=
  let axis := Some (if ps_attr p then KAttr else KElement) in
  match ps_preds p with
  | [] => Ok {| pt_axis := axis; pt_test := PTest (ps_test p); pt_ancestor := false |}
  | es => do ps <- init_all es ; Ok {| pt_axis := axis; pt_test := PPredicated (ps_test p) ps; pt_ancestor := false |}
  end.
Definition flag (t : ptuple) : ptuple := {| pt_axis := pt_axis t; pt_test := pt_test t; pt_ancestor := true |}.
(** [PyTuple_SetItem(step, 2, 1)] on the last tuple of the list. *)
Fixpoint flag_last (l : list ptuple) : list ptuple :=
  match l with
  | [] => []
  | [t] => [flag t]
  | t :: l' => t :: flag_last l'
  end.
(** The actions of RelativePathPattern, bgen:234-305. *)
Fixpoint append_steps (l : list ptuple) (rest : list (sep * pstep)) : result (list ptuple) :=
  match rest with
  | [] => Ok l
  | (d, p) :: rest' =>
    do t <- step_tuple p ;
    append_steps ((match d with Slash => l | DoubleSlash => flag_last l end) ++ [t]) rest'
  end.
Definition relative_tuples (r : relpath) : result (list ptuple) := do t <- step_tuple (rp_first r) ; append_steps [t] (rp_rest r).
Definition document_tuple : ptuple := {| pt_axis := None; pt_test := PDocument; pt_ancestor := false |}.
(** The C action of IdKeyPattern DOUBLE_SLASH RelativePathPattern, bgen:154-175, sets
    the flag to 0, like the one for '/'. *)
Definition idkey_tuple (nodes : list nat) : ptuple := {| pt_axis := None; pt_test := PIdKey nodes; pt_ancestor := false |}.
(** The actions of LocationPathPattern, bgen:79-190. *)
Definition location_tuples (p : lpattern) : result (list ptuple) :=
  match p with
  | LRoot => Ok [document_tuple]
  | LAbsolute r => do l <- relative_tuples r ; Ok (document_tuple :: l)
  | LIdKey nodes => Ok [idkey_tuple nodes]
  | LIdKeyPath nodes _ r => do l <- relative_tuples r ; Ok (idkey_tuple nodes :: l)
  | LAnywhere r | LRelative r => relative_tuples r
  end.
(** PyList_Reverse and pattern.__init__, bgen:43-76, __init__.py:36-51: [self.steps]. *)
Definition pattern_steps (p : lpattern) : result (list ptuple) := do l <- location_tuples p ; Ok (rev l).

Section Match.
Variables (namespaces : str -> option str) (s : store) (nm : names) (size : nat).

(** isinstance(node, principal_type); a principal type of 0 is not used by a node
    test. *)
Definition is_principal (principal : option kind) (x : nat) : bool := match principal with Some k => has_kind s k x | None => false end.
Definition falsy_ns (u : option str) : bool := match u with None => true | Some v => match v with [] => true | _ => false end end.
(** The [match] methods, nodetests.py:51-52 (node(), comment(), text()), 98-104, 135-136,
    153-158, 177-183 and 205-212.  [node.target] is not an attribute of elements and
    attributes. *)
Definition test_match (t : ntest) (x : nat) (principal : option kind) : result bool :=
  match t with
  | TNode => Ok true
  | TComment => Ok (has_kind s KComment x)
  | TText => Ok (has_kind s KText x)
  | TPI target =>
    if is_principal principal x then match target with Some (_ :: _) => Err AttributeError | _ => Ok true end else Ok false
  | TPrincipal => Ok (is_principal principal x)
  | TLocal name => Ok (if is_principal principal x && falsy_ns (nm_ns nm x) then str_eqb (nm_local nm x) name else false)
  | TPrefix prefix =>
    if is_principal principal x then
      match namespaces prefix with
      | None => Err UndefinedPrefix
      | Some u => Ok (match nm_ns nm x with Some v => str_eqb v u | None => false end)
      end
    else Ok false
  | TQName prefix name =>
    if is_principal principal x && str_eqb (nm_local nm x) name then
      match namespaces prefix with
      | None => Err UndefinedPrefix
      | Some u => Ok (match nm_ns nm x with Some v => str_eqb v u | None => false end)
      end
    else Ok false
  end.

(** The generator expression of predicated_test.match, __init__.py:110-112. *)
Fixpoint test_filter (t : ntest) (principal : option kind) (nodes : list nat) : result (list nat) :=
  match nodes with
  | [] => Ok []
  | x :: rest => do b <- test_match t x principal ; do r <- test_filter t principal rest ; Ok (if b then x :: r else r)
  end.
(** predicates.filter, predicates.py:24-34: each predicate yields a node-set. *)
Fixpoint predicates_filter (ps : list selector) (nodes : list nat) : result (list nat) :=
  match ps with
  | [] => Ok nodes
  | p :: ps' => do l <- apply_selector size p nodes ; predicates_filter ps' (nodeset_new s l)
  end.
Definition memb (x : nat) (l : list nat) : bool := existsb (Nat.eqb x) l.
(** predicated_test.match, __init__.py:99-116; iterating over a node that is not a
    container is a TypeError; only elements have xml_attributes. *)
Definition predicated_match (t : ntest) (ps : list selector) (x : nat) (principal : option kind) : result bool :=
  match principal with
  | Some KAttr =>
    match parent_of s x with
    | None => Err AttributeError
    | Some p =>
      if is_element s p then
        do nodes <- attribute_axis s p ;
        do nodes <- test_filter t principal nodes ;
        do nodes <- predicates_filter ps nodes ;
        Ok (memb x nodes)
      else Err AttributeError
    end
  | _ =>
    match parent_of s x with
    | None => Ok false
    | Some p =>
      do nodes <- get_children s p ;
      do nodes <- test_filter t principal nodes ;
      do nodes <- predicates_filter ps nodes ;
      Ok (memb x nodes)
    end
  end.
(** The [match] methods of the four classes; document_test and id_key_test,
    __init__.py:122-143. *)
Definition ptest_match (t : ptest) (x : nat) (principal : option kind) : result bool :=
  match t with
  | PTest t => test_match t x principal
  | PPredicated t ps => predicated_match t ps x principal
  | PDocument => Ok (is_entity s x)
  | PIdKey nodes => Ok (memb x nodes)
  end.

(** The loop [while node: ...], __init__.py:61-67. *)
Fixpoint climb (fuel : nat) (t : ptuple) (node : option nat) : result (option nat) :=
  match node with
  | None => Ok None
  | Some x =>
    match fuel with
    | O => Err Diverges
    | S f => do b <- ptest_match (pt_test t) x (pt_axis t) ; if b then Ok (Some x) else climb f t (parent_of s x)
    end
  end.
(** The loop over self.steps[1:], __init__.py:57-71. *)
Fixpoint match_rest (steps : list ptuple) (x : nat) : result bool :=
  match steps with
  | [] => Ok true
  | t :: rest =>
    if pt_ancestor t then
      do r <- climb (bound s) t (parent_of s x) ;
      match r with None => Ok false | Some y => match_rest rest y end
    else
      match parent_of s x with
      | None => Ok false
      | Some y => do b <- ptest_match (pt_test t) y (pt_axis t) ; if b then match_rest rest y else Ok false
      end
  end.
(** pattern.match, __init__.py:53-71. *)
Definition steps_match (steps : list ptuple) (x : nat) : result bool :=
  match steps with
  | [] => Err IndexError
  | t :: rest => do b <- ptest_match (pt_test t) x (pt_axis t) ; if b then match_rest rest x else Ok false
  end.
Definition pattern_match (p : lpattern) (x : nat) : result bool := do steps <- pattern_steps p ; steps_match steps x.
(** patterns.match, __init__.py:16-20. *)
Fixpoint patterns_match (ps : list lpattern) (x : nat) : result bool :=
  match ps with
  | [] => Ok false
  | p :: ps' => do b <- pattern_match p x ; if b then Ok true else patterns_match ps' x
  end.
End Match.
