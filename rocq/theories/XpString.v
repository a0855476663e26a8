(** * Converting nodes, paths and numbers to strings

    The string value of a node, the conversions of a location path to a string, a
    number and a boolean, the functions count(), name(), local-name() and
    namespace-uri(), and the conversion of a number to a string. *)
From Coq Require Import NArith ZArith QArith String List Bool Lia Arith.
From Verif Require Import PyStr PyErr DomModel XpModel XpPath XpNum XpFuncs.
Import ListNotations.
Local Open Scope nat_scope.

(** ** The string value of a node *)
(** A unicode object under construction: its characters; [None] is memory that
    has not been written yet. *)
Definition buffer := list (option N).
(** PyUnicode_Resize: the characters that fit are kept. *)
Definition resize (b : buffer) (n : nat) : buffer := firstn n b ++ repeat None (n - List.length b).
(** Py_UNICODE_COPY to the given offset; writing beyond the end of the object is
    memory corruption. *)
Definition copy_to (b : buffer) (offset : nat) (value : str) : result buffer :=
  if List.length b <? offset + List.length value then Err Garbage
  else Ok (firstn offset b ++ map Some value ++ skipn (offset + List.length value) b).
(** datatypes.c:93-101: the allocated size is doubled until it is big enough.  The
    model has no limit on sizes, so the overflow check of 97-98 is left out. *)
Fixpoint doubled (fuel new_used allocated : nat) : result nat :=
  if new_used <=? allocated then Ok allocated
  else match fuel with 0 => Err Diverges | S f => doubled f new_used (2 * allocated) end.
(** datatypes.c:85-109: one text node is appended. *)
Definition append_text (st : buffer * nat) (value : str) : result (buffer * nat) :=
  let '(b, used) := st in
  let new_used := used + List.length value in
  do b1 <- (if List.length b <? new_used then do n <- doubled new_used new_used (List.length b) ; Ok (resize b n) else Ok b) ;
  do b2 <- copy_to b1 used value ;
  Ok (b2, new_used).
(** The loop of join_descendants; [join] handles an element. *)
Fixpoint join_children (join : nat -> buffer * nat -> result (buffer * nat)) (s : store) (children : list nat) (st : buffer * nat) : result (buffer * nat) :=
  match children with
  | [] => Ok st
  | c :: r =>
    do st1 <- (if is_element s c then join c st else if has_kind s KText c then append_text st (data_of s c) else Ok st) ;
    join_children join s r st1
  end.
(** datatypes.c:75-118 join_descendants; [fuel] bounds the depth. *)
Fixpoint join_descendants (fuel : nat) (s : store) (node : nat) (st : buffer * nat) : result (buffer * nat) :=
  match fuel with
  | 0 => Err Diverges
  | S f => do children <- get_children s node ; join_children (join_descendants f s) s children st
  end.
(** The characters of a finished unicode object. *)
Fixpoint contents (b : buffer) : result str :=
  match b with
  | [] => Ok []
  | None :: _ => Err Garbage
  | Some c :: r => do v <- contents r ; Ok (c :: v)
  end.
(** datatypes.c:120-162 node_to_string; namespace nodes are not modelled. *)
Definition node_to_string (s : store) (node : nat) : result str :=
  if is_element s node || is_entity s node then
    do st <- join_descendants (bound s) s node (resize [] 100, 0) ;
    contents (resize (fst st) (snd st))
  else if has_kind s KAttr node then Ok (data_of s node)
  else if has_kind s KText node || has_kind s KComment node then Ok (data_of s node)
  else if has_kind s KPI node then Ok (data_of s node)
  else Ok [].

(** ** Conversions of location paths *)
(** nodeset_expression.compile_as_string, nodesets.py:91-97 with _make_loop 43-71:
    the first node the iterator yields is converted.  The iterator is lazy; the
    model evaluates it to the end, so that it reports an exception the code may
    not reach. *)
Definition path_string (namespaces : str -> option str) (s : store) (nm : names) (size : nat) (p : location_path) (node : nat) : result str :=
  do x <- path_first namespaces s nm size p node ;
  match x with None => Ok [] | Some x => node_to_string s x end.
(** nodeset_expression.compile_as_number, nodesets.py:80-89; Number_New of a node,
    datatypes.c:359-367. *)
Definition path_number (namespaces : str -> option str) (s : store) (nm : names) (size : nat) (p : location_path) (node : nat) : result num :=
  do x <- path_first namespaces s nm size p node ;
  match x with None => Ok NNaN | Some x => do v <- node_to_string s x ; to_number (VStr v) end.
(** The same for a union, nodesets.py:132-150: its iterator is sorted. *)
Definition union_string (keys : list nat -> list nat) (namespaces : str -> option str) (s : store) (nm : names) (size : nat) (ps : list location_path) (node : nat) : result str :=
  do ls <- iterate_all namespaces s nm size ps node ;
  match union_iter keys s ls with [] => Ok [] | x :: _ => node_to_string s x end.

(** ** Functions of node-sets *)
(** count_function, functions/nodesets.py:39-49; number_new is applied to the length. *)
Definition count_function (l : list nat) : num := number_new (num_of_Z (Z.of_nat (List.length l))).
(** name_function.evaluate_as_string, functions/nodesets.py:99-116; [qname] is the
    attribute xml_qname; [None] stands for a call without an argument, where the
    context node is used. *)
Definition name_of (s : store) (nm : names) (qname : nat -> str) (node : nat) : str :=
  if is_element s node || has_kind s KAttr node then qname node
  else if has_kind s KPI node then nm_local nm node
  else [].
(** local_name_function.evaluate_as_string, functions/nodesets.py:126-143. *)
Definition local_name_of (s : store) (nm : names) (node : nat) : str :=
  if is_element s node || has_kind s KAttr node then nm_local nm node
  else if has_kind s KPI node then nm_local nm node
  else [].
(** namespace_uri_function.evaluate_as_string, functions/nodesets.py:153-172: only
    elements and attributes have the attribute xml_namespace. *)
Definition namespace_uri_of (s : store) (nm : names) (node : nat) : str :=
  if is_element s node || has_kind s KAttr node then match nm_ns nm node with Some u => u | None => [] end else [].
(** What the three functions have in common, with an argument (104-107). *)
Definition of_first (f : nat -> str) (l : list nat) : str := match l with [] => [] | x :: _ => f x end.
