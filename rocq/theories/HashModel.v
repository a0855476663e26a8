(** * Model of the attribute and namespace maps
      (lib/src/domlette/attributemap.c and namespacemap.c)

    Both are open-addressing hash tables with the same code, up to the key: an
    expanded name (namespace, local name) for attributes, a prefix or None for
    namespaces.  The key type, its equality and its hash are parameters here;
    the two instances are at the end.

    Simplifications: a node in a table is its key and its value; the hash stored
    in a node is the hash of its key (attr.c:25, nodes never change their name);
    memory allocation does not fail; [AttributeMap]'s events
    (Node_DispatchEvent), reference counts and owners are left out.  size_t
    arithmetic in the probe loop is unbounded here: the wrap-around at 2^64 does
    not change [i & mask] for tables of at most 2^64 slots (lemma [wrap] in
    HashProbe). *)
From Coq Require Import NArith ZArith String List Bool Lia Arith.
From Verif Require Import PyStr PyErr.
Import ListNotations.
Local Open Scope nat_scope.

(** The C code would not come back, or would read outside the table. *)
Definition Diverges : exn := OtherError 3.
Definition OutOfTable : exn := OtherError 4.

Fixpoint set_slot {A} (l : list A) (i : nat) (x : A) : list A :=
  match l, i with
  | [], _ => []
  | _ :: l', O => x :: l'
  | a :: l', S i' => a :: set_slot l' i' x
  end.

Section Table.
Context {K V : Type}.
Variable eqb : K -> K -> bool.
Variable hash : K -> N.

Definition table := list (option (K * V)).
(** nm_used and nm_table; nm_mask is the number of slots minus one. *)
Record hmap := { m_used : nat; m_table : table }.
Definition mask (t : table) : N := (N.of_nat (length t) - 1)%N.

(** The loop shared by get_entry and set_entry, attributemap.c:86-119,
    namespacemap.c:49-80: [entry = i & mask;] until [stop table[entry]], then
    [i = (i << 2) + i + perturb + 1; perturb >>= 5;].  The fuel is enough
    (theorems C24). *)
Fixpoint probe (fuel : nat) (stop : option (K * V) -> bool) (t : table) (i perturb : N) : option nat :=
  match fuel with
  | O => None
  | S f =>
    let entry := N.to_nat (N.land i (mask t)) in
    if stop (nth entry t None) then Some entry
    else probe f stop t (N.shiftl i 2 + i + perturb + 1)%N (N.shiftr perturb 5)
  end.
Definition enough (t : table) (h : N) : nat := S (N.size_nat h + length t).

(** get_entry: stops at an empty slot or at the key.  key_eq compares object
    identity, or hash and name; for nodes whose hash is the hash of their name
    this is equality of keys. *)
Definition at_key (k : K) (o : option (K * V)) : bool := match o with None => true | Some (k', _) => eqb k' k end.
Definition get_entry (t : table) (k : K) : option nat := probe (enough t (hash k)) (at_key k) t (N.land (hash k) (mask t)) (hash k).
(** set_entry: stops at an empty slot. *)
Definition at_empty (o : option (K * V)) : bool := match o with None => true | Some _ => false end.
Definition set_entry (t : table) (k : K) (v : V) : result table :=
  match probe (enough t (hash k)) at_empty t (N.land (hash k) (mask t)) (hash k) with
  | Some e => Ok (set_slot t e (Some (k, v)))
  | None => Err Diverges
  end.

(** The copy loop of resize_table, attributemap.c:169-176:
    [for (i = 0, size = nm_used; size > 0; i++)]. *)
Fixpoint copy (used : nat) (old new : table) : result table :=
  match old with
  | [] => match used with O => Ok new | S _ => Err OutOfTable end
  | o :: old' =>
    match used with
    | O => Ok new
    | S u => match o with
             | Some (k, v) => do new' <- set_entry new k v ; copy u old' new'
             | None => copy used old' new
             end
    end
  end.
(** AttributeMap_MINSIZE, NamespaceMap_MINSIZE: attributemap.h:20,
    namespacemap.h:20. *)
Definition MINSIZE : nat := 8.
(** resize_table, attributemap.c:142-181, namespacemap.c:104-143.  A table of
    the minimal size is the one in the object (nm_smalltable). *)
Definition resize_table (m : hmap) : result hmap :=
  let size := 2 * length (m_table m) in
  if size <=? MINSIZE then
    if length (m_table m) =? MINSIZE then Ok m
    else do t <- copy (m_used m) (m_table m) (repeat None MINSIZE) ; Ok {| m_used := m_used m; m_table := t |}
  else do t <- copy (m_used m) (m_table m) (repeat None size) ; Ok {| m_used := m_used m; m_table := t |}.

(** AttributeMap_New, NamespaceMap_New: INIT_MINSIZE. *)
Definition new_map : hmap := {| m_used := 0; m_table := repeat None MINSIZE |}.

(** AttributeMap_GetNode, attributemap.c:260-295; NamespaceMap_GetNode,
    namespacemap.c:226-252. *)
Definition get_node (m : hmap) (k : K) : result (option V) :=
  match get_entry (m_table m) k with
  | Some e => Ok (option_map snd (nth e (m_table m) None))
  | None => Err Diverges
  end.

(** AttributeMap_SetNode, attributemap.c:297-346; NamespaceMap_SetNode,
    namespacemap.c:254-295. *)
Definition set_node (m : hmap) (k : K) (v : V) : result hmap :=
  match get_entry (m_table m) k with
  | Some e =>
    let used := match nth e (m_table m) None with None => S (m_used m) | Some _ => m_used m end in
    let m' := {| m_used := used; m_table := set_slot (m_table m) e (Some (k, v)) |} in
    if length (m_table m') * 2 <=? used * 3 then resize_table m' else Ok m'
  | None => Err Diverges
  end.

(** AttributeMap_DelNode, attributemap.c:348-401: the slot is emptied. *)
Definition del_node (m : hmap) (k : K) : result hmap :=
  match get_entry (m_table m) k with
  | Some e =>
    match nth e (m_table m) None with
    | None => Err AttributeError
    | Some _ => Ok {| m_used := m_used m - 1; m_table := set_slot (m_table m) e None |}
    end
  | None => Err Diverges
  end.

(** M[k] = v, attributemap_ass_subscript, attributemap.c:686-735, and
    namespacemap_ass_subscript, namespacemap.c:569-619: the value of
    the node that is there is changed (Attr_SetValue), or a node is added
    (Element_AddAttribute, element.c:279-346).  Simplification: the namespace,
    if there is one, has a prefix in scope, else Element_AddAttribute raises. *)
Definition set_item (m : hmap) (k : K) (v : V) : result hmap :=
  match get_entry (m_table m) k with
  | Some e =>
    match nth e (m_table m) None with
    | Some (k', _) => Ok {| m_used := m_used m; m_table := set_slot (m_table m) e (Some (k', v)) |}
    | None => set_node m k v
    end
  | None => Err Diverges
  end.

(** keys, values, items and copy, attributemap.c:487-605:
    [for (i = 0, ptr = nm_table; i < nm_used; ptr++)]. *)
Fixpoint collect (n : nat) (t : table) : result (list (K * V)) :=
  match t with
  | [] => match n with O => Ok [] | S _ => Err OutOfTable end
  | o :: t' =>
    match n with
    | O => Ok []
    | S n' => match o with
              | Some kv => do r <- collect n' t' ; Ok (kv :: r)
              | None => collect n t'
              end
    end
  end.
Definition items (m : hmap) : result (list (K * V)) := collect (m_used m) (m_table m).

(** next_entry, attributemap.c:121-135, and the iterators that call it until it
    gives NULL, attributemap.c:975-1094: all filled slots. *)
Definition iterate (m : hmap) : list (K * V) := flat_map (fun o => match o with Some kv => [kv] | None => [] end) (m_table m).
(** len(M), attributemap.c:659-663. *)
Definition len (m : hmap) : nat := m_used m.
(** k in M, attributemap.c:743-781, for a key that is not a node. *)
Definition contains (m : hmap) (k : K) : result bool := rmap (fun o => match o with Some _ => true | None => false end) (get_node m k).

(** The mutating calls of the API. *)
Inductive mop := SetItem (k : K) (v : V) | SetNode (k : K) (v : V) | DelItem (k : K).
Definition mstep (m : hmap) (o : mop) : result hmap :=
  match o with SetItem k v => set_item m k v | SetNode k v => set_node m k v | DelItem k => del_node m k end.
(** A call that raises leaves the map as it was. *)
Definition mrun (m : hmap) (ops : list mop) : hmap := fold_left (fun m o => match mstep m o with Ok m' => m' | Err _ => m end) ops m.
End Table.
Arguments table : clear implicits.
Arguments hmap : clear implicits.
Arguments mop : clear implicits.

(** ** The two instances *)
Definition opt_eqb (a b : option str) : bool := match a, b with Some x, Some y => str_eqb x y | None, None => true | _, _ => false end.
(** Attributes: (namespace, local name); NAME_EQ and NAMESPACE_EQ,
    attributemap.c:66-73. *)
Definition expanded := (option str * str)%type.
Definition expanded_eqb (a b : expanded) : bool := opt_eqb (fst a) (fst b) && str_eqb (snd a) (snd b).
(** Namespaces: a prefix or None; NAME_EQ, namespacemap.c:22-27.  Simplification:
    comparing None with an empty prefix, whose hashes agree, reads the None object
    as a string; here they are different keys. *)
Definition prefix_eqb : option str -> option str -> bool := opt_eqb.

(** get_hash, attributemap.c:40-64, and the hash of a Python 2 unicode string
    (64 bits), as numbers below 2^64; used for concrete cases only. *)
Definition two64 : N := 18446744073709551616%N.
Definition py_hash (s : str) : N :=
  match s with
  | [] => 0%N
  | c :: _ =>
    let x := N.lxor (fold_left (fun x c => N.lxor (1000003 * x mod two64) c) s (N.shiftl c 7)) (N.of_nat (length s)) in
    if (x =? two64 - 1)%N then (two64 - 2)%N else x
  end.
Definition attr_hash (k : expanded) : N :=
  let x := match fst k with None => 0%N | Some u => py_hash u end in
  let h := (N.lxor 3430008 x * 1000003 mod two64)%N in
  let h := (N.lxor h (py_hash (snd k)) * 1082523 mod two64)%N in
  let h := ((h + 97531) mod two64)%N in
  if (h =? two64 - 1)%N then (two64 - 2)%N else h.
