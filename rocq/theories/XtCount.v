(** * Model of the counting of nodes by xsl:number: lib/xslt/tree/number_element.py

    The nodes are those of DomModel, their names those of XpPath.  A pattern is the
    predicate its match method computes; patterns that raise an exception or change the
    context are not modelled.  Every loop has fuel; running out of it is the error
    [Diverges]. *)
From Coq Require Import NArith ZArith String List Bool Lia Arith.
From Verif Require Import PyStr PyErr DomModel XpModel XpPath XtNumber.
Import ListNotations.
Local Open Scope nat_scope.

Definition pat := nat -> bool.

Section Count.
Variables (s : store) (nm : names).

(** ** _single_value, 131-157 *)
(** The loop 140-142. *)
Fixpoint find_start (fuel : nat) (from : pat) (start : option nat) : result (option nat) :=
  match start with
  | None => Ok None
  | Some x =>
    match fuel with
    | O => Err Diverges
    | S f => if from x then Ok (Some x) else find_start f from (parent_of s x)
    end
  end.
(** The loop 146-149: None is [return 0]. *)
Fixpoint find_node (fuel : nat) (count : pat) (start : option nat) (node : nat) : result (option nat) :=
  match fuel with
  | O => Err Diverges
  | S f =>
    if count node then Ok (Some node) else
    match parent_of s node with
    | None => Ok None
    | Some p => if match start with Some x => p =? x | None => false end then Ok None else find_node f count start p
    end
  end.
(** The loop 155-156. *)
Fixpoint skip_siblings (fuel : nat) (count : pat) (node : option nat) : result (option nat) :=
  match node with
  | None => Ok None
  | Some x =>
    match fuel with
    | O => Err Diverges
    | S f => if count x then Ok (Some x) else do n <- get_preceding_sibling s x ; skip_siblings f count n
    end
  end.
(** The loop 152-156. *)
Fixpoint count_siblings (fuel : nat) (count : pat) (node : option nat) : result N :=
  match node with
  | None => Ok 0%N
  | Some x =>
    match fuel with
    | O => Err Diverges
    | S f =>
      do n <- get_preceding_sibling s x ;
      do n' <- skip_siblings (bound s) count n ;
      do v <- count_siblings f count n' ;
      Ok (1 + v)%N
    end
  end.
(** Text, comments and processing instructions have no xml_local; NameTest is not defined
    in the module (133-137). *)
Definition default_single (node : nat) : exn := if is_element s node || has_kind s KAttr node then NameError else AttributeError.
Definition single_value (node : nat) (count from : option pat) : result N :=
  match count with
  | None => Err (default_single node)
  | Some c =>
    do start <- match from with
                | Some f => find_start (bound s) f (parent_of s node)
                | None => Ok (get_root (bound s) s node)
                end ;
    do n <- find_node (bound s) c start node ;
    match n with
    | None => Ok 0%N
    | Some x => count_siblings (bound s) c (Some x)
    end
  end.

(** ** type_pattern and name_pattern, 203-220, as made in 161-165 and 179-183 *)
Definition same_kind (a b : nat) : bool :=
  match get s a, get s b with Some x, Some y => kind_eqb (n_kind x) (n_kind y) | _, _ => false end.
Definition same_name (a b : nat) : bool :=
  match nm_ns nm a, nm_ns nm b with None, None => true | Some u, Some v => str_eqb u v | _, _ => false end && str_eqb (nm_local nm a) (nm_local nm b).
Definition default_count (node : nat) : pat :=
  if is_element s node || has_kind s KAttr node then (fun x => same_kind x node && same_name x node) else (fun x => same_kind x node).
Definition count_or_default (count : option pat) (node : nat) : pat := match count with Some c => c | None => default_count node end.

(** ** _multiple_values, 159-175 *)
Fixpoint multiple_loop (fuel : nat) (count : pat) (from : option pat) (node : option nat) (values : list N) : result (list N) :=
  match node with
  | None => Ok values
  | Some x =>
    match fuel with
    | O => Err Diverges
    | S f =>
      do values' <- (if count x then do v <- single_value x (Some count) None ; Ok (v :: values) else Ok values) ;
      match parent_of s x with
      | None => Ok values'
      | Some p => if match from with Some fr => fr p | None => false end then Ok values' else multiple_loop f count from (Some p) values'
      end
    end
  end.
Definition multiple_values (node : nat) (count from : option pat) : result (list N) :=
  multiple_loop (bound s) (count_or_default count node) from (Some node) [].

(** ** _any_value, 177-200 *)
(** getattr(node, 'xml_last_child', None). *)
Definition last_child (node : nat) : result (option nat) := if is_element s node || is_entity s node then get_last_child s node else Ok None.
(** The loop 196-199. *)
Fixpoint deepest (fuel : nat) (node : nat) : result nat :=
  match fuel with
  | O => Err Diverges
  | S f => do n <- last_child node ; match n with None => Ok node | Some x => deepest f x end
  end.
(** 191-199. *)
Definition step_back (node : nat) : result (option nat) :=
  do n <- get_preceding_sibling s node ;
  match n with
  | None => Ok (parent_of s node)
  | Some x => do d <- deepest (bound s) x ; Ok (Some d)
  end.
Fixpoint any_loop (fuel : nat) (count : pat) (from : option pat) (node : option nat) (value : N) : result N :=
  match node with
  | None => Ok value
  | Some x =>
    match fuel with
    | O => Err Diverges
    | S f =>
      if match from with Some fr => fr x | None => false end then Ok value else
      do n <- step_back x ;
      any_loop f count from n (if count x then value + 1 else value)%N
    end
  end.
Definition any_value (node : nat) (count from : option pat) : result N :=
  any_loop (bound s) (count_or_default count node) from (Some node) 0.

(** ** 'single' without count or from, 116-124 *)
Fixpoint simple_loop (fuel : nat) (node : nat) (prev : option nat) (value : N) : result N :=
  match prev with
  | None => Ok value
  | Some x =>
    match fuel with
    | O => Err Diverges
    | S f => do n <- get_preceding_sibling s x ; simple_loop f node n (if same_kind x node && same_name x node then value + 1 else value)%N
    end
  end.
Definition simple_value (node : nat) : result N :=
  do prev <- get_preceding_sibling s node ;
  if is_element s node || has_kind s KAttr node then simple_loop (bound s) node prev 1 else Err AttributeError.

(** ** instantiate without value, 95-128, with the levels of setup, 39-48 *)
Inductive level := Single | Multiple | Any.
Definition nonzero (v : N) : option N := if (v =? 0)%N then None else Some v.
Definition number_text (lv : level) (count from : option pat) (f : formatter) (alphabetic grouped : bool) (node : nat) : result str :=
  match lv with
  | Single =>
    match count, from with
    | None, None => do v <- simple_value node ; format_one f (Some v) alphabetic grouped
    | _, _ => do v <- single_value node count from ; format_one f (nonzero v) alphabetic grouped
    end
  | Multiple => do vs <- multiple_values node count from ; format_many f vs alphabetic grouped
  | Any => do v <- any_value node count from ; format_one f (nonzero v) alphabetic grouped
  end.
End Count.
