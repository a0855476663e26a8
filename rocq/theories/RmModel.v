(** * Model of regexp:match

    /repo/lib/xslt/exslt/regular_expressions.py, match_function.  The search of the module re is a parameter: where the first match at
    or after a position begins and ends, and what its groups are.  The elements of the result are their texts. *)
From Coq Require Import NArith String List.
From Verif Require Import PyStr.
Import ListNotations.

Record found := { m_start : nat; m_end : nat; m_groups : list (option str) }.
Section Search.
Context (search : str -> nat -> option found).
(** match.group() *)
Definition group (source : str) (m : found) : str := firstn (m_end m - m_start m) (skipn (m_start m) source).
(** The loop with 'g', regular_expressions.py:48-54, with at most n rounds *)
Fixpoint global_loop (n : nat) (source : str) (m : option found) : option (list str) :=
  match m with
  | None => Some []
  | Some m => match n with O => None | S n => match global_loop n source (search source (m_end m)) with Some l => Some (group source m :: l) | None => None end end
  end.
(** Otherwise, regular_expressions.py:56-63; a group that did not take part has no text *)
Definition single (source : str) (m : found) : list str := group source m :: map (fun g => match g with Some t => t | None => [] end) (m_groups m).
(** 'g' in flags is a search for the character 103.  The flag 'i' is passed to re.compile and belongs to the parameter.
    match_function, regular_expressions.py:12-67 *)
Definition match_function (n : nat) (source flags : str) : option (list str) :=
  match search source 0 with
  | None => Some []
  | Some m => if existsb (N.eqb 103) flags then global_loop n source (Some m) else Some (single source m)
  end.
End Search.
