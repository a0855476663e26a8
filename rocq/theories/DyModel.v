(** * Model of the EXSLT functions dyn:map, dyn:closure and dyn:sum for expressions that give node-sets

    /repo/lib/xslt/exslt/dynamic.py.  Nodes are numbers in document order.  The expression is a function of the position, the size and the node; it has
    been parsed, gives a node-set and raises nothing.  Numbers are integers. *)
From Coq Require Import NArith ZArith List.
Import ListNotations.
Open Scope N_scope.

(** set.update and datatypes.nodeset (xpath/src/datatypes.c:1315-1346), which sorts its argument *)
Fixpoint insert (x : N) (l : list N) : list N :=
  match l with [] => [x] | y :: l' => if x <? y then x :: l else if x =? y then l else y :: insert x l' end.
Definition update (set obj : list N) : list N := fold_right insert set obj.
Section Expr.
Context (expr : N -> N -> N -> list N).
(** _map, dynamic.py:75-116; position is 1 at first *)
Fixpoint map_loop (size position : N) (nodes result : list N) : list N :=
  match nodes with [] => result | x :: l => map_loop size (position + 1) l (update result (expr position size x)) end.
Definition map_ (nodeset : list N) : list N := map_loop (N.of_nat (length nodeset)) 1 nodeset [].
(** closure_function, dynamic.py:38-42, with at most n rounds *)
Fixpoint closure_loop (n : nat) (nodeset result : list N) : option (list N) :=
  match nodeset with
  | [] => Some result
  | _ :: _ => match n with O => None | S n => closure_loop n (map_ nodeset) (result ++ map_ nodeset) end
  end.
Definition closure (n : nat) (nodeset : list N) : option (list N) := closure_loop n nodeset [].
(** sum_function, dynamic.py:199; [number] is the number of a node *)
Definition sum_ (number : N -> Z) (nodeset : list N) : Z := fold_left Z.add (map number (map_ nodeset)) 0%Z.
End Expr.
