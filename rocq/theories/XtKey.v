(** * Model of xsl:key and the function key(): the class _key_dispatch_table and the
      xsl:key part of transform_element.setup of lib/xslt/tree/transform_element.py,
      and key_function of lib/xslt/functions/__init__.py

    The dispatch tables of _key_dispatch_table.__init__ (transform_element.py:61-107) are
    built as those of the template rules (XtDispatch), without modes and without the
    final sort; the tuples are the entries of XtDispatch, and the attribute [use] of the
    xsl:key is found by the place of the key, [en_pos].  A dictionary filled by append
    is the sequence of what was appended.  The names of keys are expanded names; how
    key() expands its first argument is not modelled.  What a use expression gives for
    a node is the universally quantified [xk_use]: the string values of the nodes, or one
    string. *)
From Coq Require Import NArith ZArith QArith String List Bool Lia Arith.
From Verif Require Import PyStr PyErr DomModel DomSpec XpModel XpPath XtPattern XtDispatch.
Import ListNotations.
Local Open Scope nat_scope.

Notation key_name := (option str * str)%type.
(** An xsl:key element: [_name], [_match], [namespaces] and [_use],
    transform_element.py:58, 290. *)
Record xsl_key := { xk_name : key_name; xk_match : list lpattern; xk_ns : str -> option str; xk_use : nat -> result (list str) }.
(** What the dispatch tables need of it. *)
Definition key_rule (k : xsl_key) : template := {| tm_match := xk_match k; tm_mode := None; tm_priority := None; tm_prec := 0; tm_ns := xk_ns k |}.
Definition name_eqb (a b : key_name) : bool :=
  match fst a, fst b with None, None => str_eqb (snd a) (snd b) | Some u, Some v => str_eqb u v && str_eqb (snd a) (snd b) | _, _ => false end.
(** Grouping by name, transform_element.py:287-294.  The stable sort by name keeps the
    order within a group; list.sort and itertools.groupby are not modelled. *)
Definition keys_named (name : key_name) (keys : list xsl_key) : list xsl_key := filter (fun k => name_eqb (xk_name k) name) keys.

Section Key.
Variables (late_type : option kind -> bool) (late_name : option str * str -> bool).
Variables (s : store) (nm : names) (size : nat).

(** _key_dispatch_table.__init__, transform_element.py:61-87. *)
Definition key_entries (keys : list xsl_key) : result (list entry) := enumerate_entries 0 (map key_rule keys).
(** transform_element.py:107. *)
Definition matches_attribute (es : list entry) : bool := existsb (kind_is (Some KAttr)) es.
(** The patterns tried for a node, transform_element.py:88-106, 117-131. *)
Definition key_rules (es : list entry) (x : nat) : list entry := rules_for (fun l => l) late_type late_name s nm es None x.
(** The loop over them, transform_element.py:133-149. *)
Fixpoint entry_items (keys : list xsl_key) (l : list entry) (x : nat) : result (list (str * nat)) :=
  match l with
  | [] => Ok []
  | e :: l' =>
    do b <- entry_match s nm size e x ;
    do own <- (if b then match nth_error keys (en_pos e) with Some k => do vs <- xk_use k x ; Ok (map (fun v => (v, x)) vs) | None => Err IndexError end else Ok []) ;
    do rest <- entry_items keys l' x ;
    Ok (own ++ rest)
  end.
(** _match_nodes, transform_element.py:109-162.  The generator as the list of what it
    yields. *)
Fixpoint over (f : nat -> result (list (str * nat))) (l : list nat) : result (list (str * nat)) :=
  match l with [] => Ok [] | x :: l' => do a <- f x ; do b <- over f l' ; Ok (a ++ b) end.
Fixpoint match_node (fuel : nat) (keys : list xsl_key) (es : list entry) (x : nat) : result (list (str * nat)) :=
  match fuel with
  | O => Err Diverges
  | S f =>
    do own <- entry_items keys (key_rules es x) x ;
    do below <-
      (if is_element s x then
         do l <- get_children s x ; do a <- over (match_node f keys es) l ;
         if matches_attribute es then do b <- over (match_node f keys es) (attrs_of s x) ; Ok (a ++ b) else Ok a
       else if is_entity s x then do l <- get_children s x ; over (match_node f keys es) l
       else Ok []) ;
    Ok (own ++ below)
  end.
(** __missing__, transform_element.py:164-174: the pairs of the whole document. *)
Definition key_items (keys : list xsl_key) (root : nat) : result (list (str * nat)) :=
  do es <- key_entries keys ; if is_entity s root then match_node (bound s) keys es root else Err AssertionError.

(** [pyset] lists a set of nodes; its order depends on addresses. *)
Variable pyset : list nat -> list nat.
(** values[value], transform_element.py:166-173; the empty list if the value is no key of
    the dictionary. *)
Definition key_values (items : list (str * nat)) (v : str) : list nat :=
  nodeset_new s (pyset (map snd (filter (fun p => str_eqb (fst p) v) items))).
(** The second argument: a node-set (the string values of its nodes) or anything else
    (its string value). *)
Inductive key_arg := ASet (vs : list str) | AValue (v : str).
(** key_function.evaluate_as_nodeset, functions/__init__.py:79-108. *)
Definition key_function (all : list xsl_key) (name : key_name) (arg : key_arg) (node : nat) : result (list nat) :=
  match keys_named name all with
  | [] => Ok []
  | keys =>
    match get_root (bound s) s node with
    | None => Err AssertionError
    | Some root =>
      do items <- key_items keys root ;
      Ok (nodeset_new s (match arg with ASet vs => flat_map (key_values items) vs | AValue v => key_values items v end))
    end
  end.
End Key.
