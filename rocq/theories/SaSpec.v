(** * A list of attributes as a map *)
From Coq Require Import NArith String List Permutation.
From Verif Require Import PyStr PyErr SaModel.
Import ListNotations.

(** No two attributes have the same expanded name. *)
Definition distinct (l : list attribute) : Prop := NoDup (map a_name l).
(** [removes l c l' e]: the change makes [l'] of [l], with the error [e] if any. *)
Inductive removes : list attribute -> change -> list attribute -> option exn -> Prop :=
| removes_one : forall l1 a l2, removes (l1 ++ a :: l2) (Del (a_name a)) (l1 ++ l2) None
| removes_none : forall l k, ~ In k (map a_name l) -> removes l (Del k) l (Some KeyError)
| removes_set : forall l k v, removes l (Set_ k v) l (Some TypeError).
Inductive removes_all : list attribute -> list change -> list attribute -> list (option exn) -> Prop :=
| all_none : forall l, removes_all l [] l []
| all_one : forall l c l' e cs l'' es, removes l c l' e -> removes_all l' cs l'' es -> removes_all l (c :: cs) l'' (e :: es).
(** [shows s l]: every question about [s], except for its length, is answered from the attributes [l]. *)
Record shows (s : attributes) (l : list attribute) : Prop := {
  shows_value : forall k v, get_value s k = Ok v <-> exists a, In a l /\ a_name a = k /\ a_value a = v;
  shows_no_value : forall k, get_value s k = Err KeyError <-> ~ In k (map a_name l);
  shows_qname : forall k q, get_qname s k = Ok q <-> exists a, In a l /\ a_name a = k /\ a_qname a = q;
  shows_no_qname : forall k, get_qname s k = Err KeyError <-> ~ In k (map a_name l);
  shows_has : forall k, has_key s k = true <-> In k (map a_name l);
  shows_get : forall k alt, get s k alt = match get_value s k with Ok v => Some v | Err _ => alt end;
  shows_items : forall order, (forall d, Permutation (order d) d) ->
    Permutation (items order s) (map (fun a => (a_name a, a_value a)) l) /\
    combine (keys order s) (values order s) = items order s /\ NoDup (keys order s)
}.
