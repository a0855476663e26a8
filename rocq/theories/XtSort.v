(** * Model of xsl:sort and xsl:for-each: lib/xslt/expressions/__init__.py
      (sorted_expression), lib/xslt/tree/sort_element.py and
      lib/xslt/tree/for_each_element.py

    The attributes of xsl:sort are constants (value templates without braces).  The
    select expressions are universally quantified functions of the context.  [sort]
    stands for list.sort, which is not part of /repo; [lower], [islower] and [isupper]
    stand for the methods of unicode objects of one character. *)
From Coq Require Import NArith ZArith QArith String List Bool Lia Arith.
From Verif Require Import PyStr PyErr XpNum.
Import ListNotations.
Local Open Scope nat_scope.

(** What these functions use of the context: the focus, [current_node] and
    [template]. *)
Record context := { c_node : nat; c_position : nat; c_size : nat; c_current : nat; c_template : option nat }.

(** ** Comparison functions, sort_element.py:75-104 *)
(** cmp() of two unicode objects, by code points. *)
Fixpoint cmp_str (a b : str) : comparison :=
  match a, b with
  | [], [] => Eq
  | [], _ => Lt
  | _, [] => Gt
  | x :: a', y :: b' => match (x ?= y)%N with Eq => cmp_str a' b' | r => r end
  end.
(** _number_compare, 75-82; cmp() asks for ==, then <. *)
Definition number_compare (a b : num) : comparison :=
  match a, b with
  | NNaN, NNaN => Eq
  | NNaN, _ => Lt
  | _, NNaN => Gt
  | _, _ => if num_eqb a b then Eq else if num_ltb a b then Lt else Gt
  end.
Section Case.
Variables (lower : N -> N) (islower isupper : N -> bool).
(** a.lower() == b.lower() *)
Definition same_letters (a b : str) : bool := str_eqb (map lower a) (map lower b).
(** The loops of 87-91 and 98-102; [first] decides at the first difference.  b is as
    long as a. *)
Fixpoint first_difference (first : N -> bool) (a b : str) : comparison :=
  match a, b with
  | x :: a', y :: b' => if (x =? y)%N then first_difference first a' b' else if first x then Lt else Gt
  | _, _ => Eq
  end.
Definition lower_first_compare (a b : str) : comparison := if same_letters a b then first_difference islower a b else cmp_str a b.
Definition upper_first_compare (a b : str) : comparison := if same_letters a b then first_difference isupper a b else cmp_str a b.

(** ** Sort keys *)
Inductive case_order := UpperFirst | LowerFirst.
(** sort_element.py:10-37: select as a string and as a number, data-type="number",
    order="descending", case-order. *)
Record sort_key := { sk_string : context -> result str; sk_number : context -> result num; sk_numeric : bool; sk_descending : bool; sk_case : option case_order }.
Inductive value := VText (v : str) | VNumber (n : num).
(** get_key, 62-70. *)
Definition get_key (c : context) (k : sort_key) : result value :=
  if sk_numeric k then do n <- sk_number k c ; Ok (VNumber n) else do v <- sk_string k c ; Ok (VText v).
(** _get_compare, 39-50.  A key with data-type="number" yields only numbers, any other
    only strings. *)
Definition as_text (v : value) : str := match v with VText v => v | VNumber _ => [] end.
Definition as_number (v : value) : num := match v with VNumber n => n | VText _ => NNaN end.
Definition get_compare (k : sort_key) (a b : value) : comparison :=
  if sk_numeric k then number_compare (as_number a) (as_number b)
  else match sk_case k with
       | Some LowerFirst => lower_first_compare (as_text a) (as_text b)
       | Some UpperFirst => upper_first_compare (as_text a) (as_text b)
       | None => cmp_str (as_text a) (as_text b)
       end.

(** ** sorted_expression *)
(** An element of [decorated]: the node and the values of the keys. *)
Definition decorated := (nat * list value)%type.
Fixpoint get_keys (c : context) (ks : list sort_key) : result (list value) :=
  match ks with [] => Ok [] | k :: r => do v <- get_key c k ; do l <- get_keys c r ; Ok (v :: l) end.
(** The loop of expressions/__init__.py:44-49; it leaves the last node in [current_node]. *)
Fixpoint decorate (c : context) (ks : list sort_key) (position : nat) (nodes : list nat) : result (list decorated * context) :=
  match nodes with
  | [] => Ok ([], c)
  | x :: r =>
    let c' := {| c_node := x; c_position := S position; c_size := c_size c; c_current := x; c_template := c_template c |} in
    do vs <- get_keys c' ks ;
    do z <- decorate c' ks (S position) r ;
    Ok ((x, vs) :: fst z, snd z)
  end.
Definition set_focus (c : context) (node position size : nat) : context :=
  {| c_node := node; c_position := position; c_size := size; c_current := c_current c; c_template := c_template c |}.
Variable sort : (decorated -> decorated -> comparison) -> bool -> list decorated -> list decorated.
(** [operator.itemgetter(index)]; the node is element 0, so that the first value has
    the index 1. *)
Definition item (index : nat) (d : decorated) : value := nth (index - 1) (snd d) (VText []).
(** 53-58 *)
Fixpoint sort_by (index : nat) (ks : list sort_key) (l : list decorated) : list decorated :=
  match ks with
  | [] => l
  | k :: r => sort_by (S index) r (sort (fun a b => get_compare k (item index a) (item index b)) (sk_descending k) l)
  end.
(** sorted_expression, 24-59. *)
Definition sorted_nodes (select : context -> result (list nat)) (keys : list sort_key) (c : context) : result (list nat * context) :=
  let ks := rev keys in
  do nodes <- select c ;
  do z <- decorate (set_focus c (c_node c) (c_position c) (length nodes)) ks 0 nodes ;
  let c' := set_focus (snd z) (c_node c) (c_position c) (c_size c) in
  Ok (map fst (sort_by 1 ks (fst z)), c').

(** ** xsl:for-each *)
(** The children of an instruction: what they write and the context afterwards. *)
Variable children : context -> result (str * context).
(** for_each_element.py:55-59 *)
Fixpoint each (c : context) (position : nat) (nodes : list nat) : result (str * context) :=
  match nodes with
  | [] => Ok ([], c)
  | x :: r =>
    do z <- children {| c_node := x; c_position := position; c_size := c_size c; c_current := x; c_template := c_template c |} ;
    do y <- each (snd z) (S position) r ;
    Ok (fst z ++ fst y, snd y)
  end.
(** for_each_element.py:24-63: without sort keys the select expression is evaluated
    directly.  It leaves the context as it is. *)
Definition for_each (select : context -> result (list nat)) (keys : list sort_key) (c : context) : result (str * context) :=
  do z <- match keys with [] => do l <- select c ; Ok (l, c) | _ => sorted_nodes select keys c end ;
  let '(nodes, saved) := z : list nat * context in
  do y <- each {| c_node := c_node saved; c_position := c_position saved; c_size := length nodes; c_current := c_current saved; c_template := None |} 1 nodes ;
  Ok (fst y, saved).
End Case.

(** ** Finding the sort keys of a for-each *)
(** The children of xsl:for-each in the stylesheet tree. *)
Inductive child := SortChild (k : sort_key) | VariableChild | OtherChild | PushVariables | PopVariables.
Definition is_variable (c : child) : bool := match c with VariableChild => true | _ => false end.
(** endElementNS, reader/__init__.py:548-556: the nodes that save and restore the variables
    are put around the children, before for_each_element.setup is called
    (xslt_node.c:91-110, when the element is appended to its parent). *)
Definition read_children (l : list child) : list child := if existsb is_variable l then PushVariables :: l ++ [PopVariables] else l.
(** for_each_element.setup, for_each_element.py:24-34. *)
Fixpoint leading_keys (l : list child) : list sort_key := match l with SortChild k :: l' => k :: leading_keys l' | _ => [] end.
Definition for_each_keys (l : list child) : list sort_key := leading_keys (read_children l).
