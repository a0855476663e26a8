(** * Model of the attributes of SAX events

    /repo/lib/src/expat/attributes.c.  A dictionary is a list of keys and values in which each key
    is found once; the order in which Python walks through a dictionary is a parameter.  The free list and reference counts are left out. *)
From Coq Require Import NArith String List Bool.
From Verif Require Import PyStr PyErr.
Import ListNotations.
Open Scope N_scope.

(** (namespaceURI, localName) *)
Definition key := (option str * str)%type.
Definition key_eqb (a b : key) : bool :=
  match fst a, fst b with Some x, Some y => str_eqb x y | None, None => true | _, _ => false end && str_eqb (snd a) (snd b).
Definition dict := list (key * str).
(** PyDict_GetItem, PyDict_SetItem, PyDict_DelItem *)
Fixpoint dget (d : dict) (k : key) : option str :=
  match d with [] => None | (q, v) :: d' => if key_eqb q k then Some v else dget d' k end.
Fixpoint dset (d : dict) (k : key) (v : str) : dict :=
  match d with [] => [(k, v)] | (q, w) :: d' => if key_eqb q k then (q, v) :: d' else (q, w) :: dset d' k v end.
Fixpoint ddel (d : dict) (k : key) : result dict :=
  match d with [] => Err KeyError | (q, w) :: d' => if key_eqb q k then Ok d' else do r <- ddel d' k ; Ok ((q, w) :: r) end.
(** ExpatAttribute *)
Record attribute := { a_name : key; a_qname : str; a_value : str }.
(** AttributesObject, attributes.c:5-10 *)
Record attributes := { at_values : dict; at_qnames : dict; at_length : nat }.

(** Attributes_New, attributes.c:330-373 *)
Fixpoint fill (l : list attribute) (values qnames : dict) : dict * dict :=
  match l with [] => (values, qnames) | a :: l' => fill l' (dset values (a_name a) (a_value a)) (dset qnames (a_name a) (a_qname a)) end.
Definition attributes_new (l : list attribute) : attributes :=
  {| at_values := fst (fill l [] []); at_qnames := snd (fill l [] []); at_length := length l |}.
(** Attributes_SetItem, attributes.c:375-405 *)
Definition attributes_set_item (s : attributes) (a : attribute) : attributes :=
  {| at_values := dset (at_values s) (a_name a) (a_value a); at_qnames := dset (at_qnames s) (a_name a) (a_qname a);
     at_length := match dget (at_values s) (a_name a) with Some _ => at_length s + 1 | None => at_length s end |}.
Definition found (o : option str) : result str := match o with Some v => Ok v | None => Err KeyError end.
(** attributes_get_value, attributes.c:23-37, and attributes_subscript, 179-188 *)
Definition get_value (s : attributes) (k : key) : result str := found (dget (at_values s) k).
(** attributes_get_qname, attributes.c:43-57 *)
Definition get_qname (s : attributes) (k : key) : result str := found (dget (at_qnames s) k).
(** attributes_has_key, attributes.c:63-74, and attributes_contains, 159-162 *)
Definition has_key (s : attributes) (k : key) : bool := match dget (at_values s) k with Some _ => true | None => false end.
(** attributes_get, attributes.c:81-95 *)
Definition get (s : attributes) (k : key) (alternative : option str) : option str := match dget (at_values s) k with Some v => Some v | None => alternative end.
Section Order.
Variable order : dict -> dict.
(** attributes_keys, items, values, attributes.c:101-131, and attributes_iter, 275-278 *)
Definition keys (s : attributes) : list key := map fst (order (at_values s)).
Definition items (s : attributes) : list (key * str) := order (at_values s).
Definition values (s : attributes) : list str := map snd (order (at_values s)).
End Order.
(** attributes_length, attributes.c:154-157 *)
Definition len (s : attributes) : nat := at_length s.
(** attributes_ass_subscript, attributes.c:190-207: del s[k], where a failure between the two deletions leaves the first one done; s[k] = v *)
Definition del_item (s : attributes) (k : key) : attributes * option exn :=
  match ddel (at_values s) k with
  | Err e => (s, Some e)
  | Ok values =>
    match ddel (at_qnames s) k with
    | Err e => ({| at_values := values; at_qnames := at_qnames s; at_length := at_length s |}, Some e)
    | Ok qnames => ({| at_values := values; at_qnames := qnames; at_length := at_length s |}, None)
    end
  end.
Definition set_item (s : attributes) (k : key) (v : str) : attributes * option exn := (s, Some TypeError).
Inductive change := Del (k : key) | Set_ (k : key) (v : str).
Definition apply (s : attributes) (c : change) : attributes * option exn :=
  match c with Del k => del_item s k | Set_ k v => set_item s k v end.
Fixpoint apply_all (s : attributes) (l : list change) : attributes * list (option exn) :=
  match l with [] => (s, []) | c :: l' => let '(s1, e) := apply s c in let '(s2, es) := apply_all s1 l' in (s2, e :: es) end.
