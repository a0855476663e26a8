(** * Model of the DOM node store: /repo/lib/src/domlette/container.c and node.c

    A node object is a number; the store maps it to its C structure.  The
    [nodes] array of a container is modelled with all its allocated slots, and
    a slot whose content is indeterminate is [None].  Not modelled: reference
    counts, memory errors, and the methods xml_child_inserted and
    xml_child_removed of user subclasses (the built-in ones do nothing,
    container.c:663-676). *)
From Coq Require Import NArith ZArith String List Bool Lia Arith.
From Verif Require Import PyStr PyErr.
Import ListNotations.
Local Open Scope nat_scope.

(** The node types: entity.c, element.c, text.c, comment.c,
    processinginstruction.c, attr.c. *)
Inductive kind := KEntity | KElement | KText | KComment | KPI | KAttr.

(** NodeObject / ContainerObject (lib/include/domlette): parent, nodes,
    allocated (the length of [cells]), count and frozen (container.h:12-17); the value of a text node; the
    attribute nodes of an element in map order; Entity_GET_INDEX. *)
Record node := {
  n_kind : kind;
  n_parent : option nat;
  n_count : nat;
  n_cells : list (option nat);
  n_frozen : bool;
  n_data : str;
  n_attrs : list nat;
  n_index : N
}.

(** The node objects, and creation_counter (entity.c:6). *)
Record store := { s_nodes : list node; s_counter : N }.
Definition get (s : store) (i : nat) : option node := nth_error (s_nodes s) i.
Fixpoint set_nth {A} (l : list A) (i : nat) (x : A) : list A :=
  match l, i with
  | [], _ => []
  | _ :: l', O => x :: l'
  | y :: l', S i' => y :: set_nth l' i' x
  end.
Definition put (s : store) (i : nat) (n : node) : store := {| s_nodes := set_nth (s_nodes s) i n; s_counter := s_counter s |}.

Definition set_parent (n : node) (p : option nat) : node :=
  {| n_kind := n_kind n; n_parent := p; n_count := n_count n; n_cells := n_cells n; n_frozen := n_frozen n; n_data := n_data n; n_attrs := n_attrs n; n_index := n_index n |}.
Definition set_count (n : node) (c : nat) : node :=
  {| n_kind := n_kind n; n_parent := n_parent n; n_count := c; n_cells := n_cells n; n_frozen := n_frozen n; n_data := n_data n; n_attrs := n_attrs n; n_index := n_index n |}.
Definition set_cells (n : node) (c : list (option nat)) : node :=
  {| n_kind := n_kind n; n_parent := n_parent n; n_count := n_count n; n_cells := c; n_frozen := n_frozen n; n_data := n_data n; n_attrs := n_attrs n; n_index := n_index n |}.
Definition set_data (n : node) (d : str) : node :=
  {| n_kind := n_kind n; n_parent := n_parent n; n_count := n_count n; n_cells := n_cells n; n_frozen := n_frozen n; n_data := d; n_attrs := n_attrs n; n_index := n_index n |}.
Definition set_attrs (n : node) (a : list nat) : node :=
  {| n_kind := n_kind n; n_parent := n_parent n; n_count := n_count n; n_cells := n_cells n; n_frozen := n_frozen n; n_data := n_data n; n_attrs := a; n_index := n_index n |}.
Definition freeze_node (n : node) : node :=
  {| n_kind := n_kind n; n_parent := n_parent n; n_count := n_count n; n_cells := firstn (n_count n) (n_cells n); n_frozen := true; n_data := n_data n; n_attrs := n_attrs n; n_index := n_index n |}.
Definition upd (s : store) (i : nat) (f : node -> node) : store :=
  match get s i with Some n => put s i (f n) | None => s end.

(** A call: the store after it, and its result or exception. *)
Definition call (A : Type) := (store * result A)%type.

(** Reading an indeterminate slot; not an exception but undefined behaviour. *)
Definition Garbage : exn := OtherError 1.
(** DOMException_InvalidStateErr, exceptions.c. *)
Definition InvalidStateErr : exn := OtherError 2.

Definition is_container (k : kind) : bool := match k with KEntity | KElement => true | _ => false end.
Definition child_kind (k : kind) : bool := match k with KElement | KText | KComment | KPI => true | _ => false end.
Definition kind_eqb (a b : kind) : bool :=
  match a, b with
  | KEntity, KEntity | KElement, KElement | KText, KText | KComment, KComment | KPI, KPI | KAttr, KAttr => true
  | _, _ => false
  end.

(** container_resize, container.c:35-77. *)
Definition container_resize (n : node) (newsize : nat) : node :=
  let allocated := length (n_cells n) in
  if (newsize <=? allocated) && ((allocated / 2 <=? newsize) || negb (n_frozen n)) then set_count n newsize
  else
    let new_allocated := if newsize =? 0 then 0 else newsize / 8 + (if newsize <? 9 then 3 else 6) + newsize in
    set_count (set_cells n (firstn new_allocated (n_cells n) ++ repeat None (new_allocated - allocated))) newsize.

(** The ancestor loop of ensure_hierarchy, container.c:105-111: is [child] an
    ancestor of [self] or [self]?  The loop has no bound in the code; the fuel
    is the number of nodes plus one. *)
Fixpoint is_ancestor (fuel : nat) (s : store) (child self : nat) : option bool :=
  match fuel with
  | O => None
  | S f =>
    if Nat.eqb child self then Some true
    else match get s self with
         | Some n => match n_parent n with
                     | Some p => is_ancestor f s child p
                     | None => Some false
                     end
         | None => Some false
         end
  end.

(** ensure_hierarchy, container.c:91-114. *)
Definition ensure_hierarchy (s : store) (self child : nat) : result unit :=
  match get s child with
  | None => Err TypeError
  | Some c =>
    if child_kind (n_kind c) then
      match is_ancestor (S (length (s_nodes s))) s child self with
      | Some false => Ok tt
      | Some true => Err ValueError
      | None => Err Garbage
      end
    else Err ValueError
  end.

(** [for (index = count; --index >= 0;) if (nodes[index] == child) break;]. *)
Fixpoint rfind (cells : list (option nat)) (child : nat) (count : nat) : option nat :=
  match count with
  | O => None
  | S k => match nth_error cells k with
           | Some (Some c) => if Nat.eqb c child then Some k else rfind cells child k
           | _ => rfind cells child k
           end
  end.
(** [for (index = 0; index < count; index++) if (nodes[index] == child) ...]:
    the first index from [i]; [left] slots remain. *)
Fixpoint lfind (cells : list (option nat)) (child : nat) (i left : nat) : option nat :=
  match left with
  | O => None
  | S k => match nth_error cells i with
           | Some (Some c) => if Nat.eqb c child then Some i else lfind cells child (S i) k
           | _ => lfind cells child (S i) k
           end
  end.

(** memmove(&nodes[index], &nodes[index+1], count - (index+1)),
    container.c:343-344: the last slot keeps its value. *)
Definition shift_down (cells : list (option nat)) (index count : nat) : list (option nat) :=
  firstn index cells ++ firstn (count - S index) (skipn (S index) cells) ++ skipn (count - 1) cells.

(** Container_Remove, container.c:312-351. *)
Definition container_remove (s : store) (self child : nat) : call unit :=
  match get s self with
  | None => (s, Err TypeError)
  | Some n =>
    match rfind (n_cells n) child (n_count n) with
    | None => (s, Err ValueError)
    | Some index =>
      let s1 := upd s child (fun c => set_parent c None) in
      let s2 := upd s1 self (fun m => container_resize (set_cells m (shift_down (n_cells m) index (n_count m))) (n_count m - 1)) in
      (s2, Ok tt)
    end
  end.

Definition parent_of (s : store) (i : nat) : option nat := match get s i with Some n => n_parent n | None => None end.

(** Detach [child] from its previous parent, container.c:366-373, 408-415,
    469-474. *)
Definition detach (s : store) (child : nat) : call unit :=
  match parent_of s child with
  | None => (s, Ok tt)
  | Some p => container_remove s p child
  end.

(** Container_Append, container.c:353-385. *)
Definition container_append (s : store) (self child : nat) : call unit :=
  match ensure_hierarchy s self child with
  | Err e => (s, Err e)
  | Ok _ =>
    match get s self with
    | None => (s, Err TypeError)
    | Some n =>
      let count := n_count n in
      let s1 := upd s self (fun n => container_resize n (count + 1)) in
      match detach s1 child with
      | (s2, Err e) => (upd s2 self (fun n => set_count n count), Err e)
      | (s2, Ok _) =>
        let s3 := upd s2 self (fun n => set_cells n (set_nth (n_cells n) count (Some child))) in
        (upd s3 child (fun c => set_parent c (Some self)), Ok tt)
      end
    end
  end.

(** Index clamping, container.c:417-422. *)
Definition clamp_index (where_ : Z) (count : nat) : nat :=
  if (where_ <? 0)%Z then Z.to_nat (Z.max 0 (where_ + Z.of_nat count))
  else if (where_ >? Z.of_nat count)%Z then count else Z.to_nat where_.

(** The loop [for (i = count; --i >= where;) nodes[i+1] = nodes[i];],
    container.c:427-428: [left] is i. *)
Fixpoint shift_up (cells : list (option nat)) (w left : nat) : list (option nat) :=
  match left with
  | O => cells
  | S i => if w <=? i then shift_up (set_nth cells (S i) (nth i cells None)) w i else cells
  end.

(** Container_Insert, container.c:387-439.  The PY_SSIZE_T_MAX test cannot
    succeed. *)
Definition container_insert (s : store) (self : nat) (where_ : Z) (child : nat) : call unit :=
  match ensure_hierarchy s self child with
  | Err e => (s, Err e)
  | Ok _ =>
    match get s self with
    | None => (s, Err TypeError)
    | Some n =>
      let count := n_count n in
      let s1 := upd s self (fun n => container_resize n (count + 1)) in
      match detach s1 child with
      | (s2, Err e) => (upd s2 self (fun n => set_count n count), Err e)
      | (s2, Ok _) =>
        let w := clamp_index where_ count in
        let s3 := upd s2 self (fun n => set_cells n (set_nth (shift_up (n_cells n) w count) w (Some child))) in
        (upd s3 child (fun c => set_parent c (Some self)), Ok tt)
      end
    end
  end.

(** Container_Replace, container.c:441-494. *)
Definition container_replace (s : store) (self old new : nat) : call unit :=
  match get s self with
  | None => (s, Err TypeError)
  | Some n =>
    match rfind (n_cells n) old (n_count n) with
    | None => (s, Err ValueError)
    | Some index =>
      if Nat.eqb old new then (s, Ok tt)
      else
        match detach s new with
        | (s1, Err e) => (s1, Err e)
        | (s1, Ok _) =>
          let s2 := upd s1 old (fun c => set_parent c None) in
          let s3 := upd s2 self (fun m => set_cells m (set_nth (n_cells m) index (Some new))) in
          (upd s3 new (fun c => set_parent c (Some self)), Ok tt)
        end
    end
  end.

Definition is_text (s : store) (i : nat) : bool := match get s i with Some n => kind_eqb (n_kind n) KText | None => false end.
Definition data_of (s : store) (i : nat) : str := match get s i with Some n => n_data n | None => [] end.
Definition child_at (s : store) (self i : nat) : result nat :=
  match get s self with
  | Some n => match nth_error (n_cells n) i with Some (Some c) => Ok c | _ => Err Garbage end
  | None => Err TypeError
  end.

(** The inner loop of xml_normalize, container.c:533-557: [i] fixed, [count]
    going down.  Returns the count. *)
Fixpoint merge_texts (s : store) (self current i count fuel : nat) : call nat :=
  match fuel with
  | O => (s, Ok count)
  | S f =>
    if i <? count then
      match child_at s self i with
      | Err e => (s, Err e)
      | Ok next =>
        if is_text s next then
          let s1 := upd s current (fun c => set_data c (n_data c ++ data_of s next)) in
          match container_remove s1 self next with
          | (s2, Err e) => (s2, Err e)
          | (s2, Ok _) => merge_texts s2 self current i (count - 1) f
          end
        else (s, Ok count)
      end
    else (s, Ok count)
  end.

(** xml_normalize, container.c:512-563. *)
Fixpoint normalize_loop (s : store) (self i count fuel : nat) : call unit :=
  match fuel with
  | O => (s, Ok tt)
  | S f =>
    if i <? count then
      match child_at s self i with
      | Err e => (s, Err e)
      | Ok current =>
        if is_text s current then
          match merge_texts s self current (S i) count count with
          | (s1, Err e) => (s1, Err e)
          | (s1, Ok count1) => normalize_loop s1 self (S (S i)) count1 f
          end
        else normalize_loop s self (S i) count f
      end
    else (s, Ok tt)
  end.
Definition normalize (s : store) (self : nat) : call unit :=
  match get s self with
  | None => (s, Err TypeError)
  | Some n => if n_count n <? 2 then (s, Ok tt) else normalize_loop s self 0 (n_count n) (n_count n)
  end.

(** get_children (xml_children), container.c:702-718. *)
Fixpoint read_cells (count : nat) (cells : list (option nat)) : result (list nat) :=
  match count, cells with
  | O, _ => Ok []
  | S k, Some c :: l => do r <- read_cells k l ; Ok (c :: r)
  | S _, _ => Err Garbage
  end.
Definition get_children (s : store) (self : nat) : result (list nat) :=
  match get s self with
  | Some n => read_cells (n_count n) (n_cells n)
  | None => Err TypeError
  end.

(** get_preceding_sibling and get_following_sibling, node.c:512-572. *)
Definition get_preceding_sibling (s : store) (self : nat) : result (option nat) :=
  match parent_of s self with
  | None => Ok None
  | Some p =>
    match get s p with
    | None => Err TypeError
    | Some n =>
      match lfind (n_cells n) self 0 (n_count n) with
      | None => Err InvalidStateErr
      | Some O => Ok None
      | Some (S i) => match nth_error (n_cells n) i with Some (Some c) => Ok (Some c) | _ => Err Garbage end
      end
    end
  end.
Definition get_following_sibling (s : store) (self : nat) : result (option nat) :=
  match parent_of s self with
  | None => Ok None
  | Some p =>
    match get s p with
    | None => Err TypeError
    | Some n =>
      match lfind (n_cells n) self 0 (n_count n) with
      | None => Err InvalidStateErr
      | Some i =>
        if Nat.eqb (S i) (n_count n) then Ok None
        else match nth_error (n_cells n) (S i) with Some (Some c) => Ok (Some c) | _ => Err Garbage end
      end
    end
  end.

(** ** Node creation: Entity_New and entity_init (entity.c:8-58, 102-111), Element_New (element.c:219-230) etc.: a fresh
       object without parent or children. *)
Definition new_node (s : store) (k : kind) (d : str) : store * nat :=
  let idx := if kind_eqb k KEntity then (s_counter s + 1)%N else 0%N in
  ({| s_nodes := s_nodes s ++ [{| n_kind := k; n_parent := None; n_count := 0; n_cells := []; n_frozen := false; n_data := d; n_attrs := []; n_index := idx |}];
      s_counter := if kind_eqb k KEntity then (s_counter s + 1)%N else s_counter s |},
   length (s_nodes s)).

(** Adding a new attribute to an element: Element_AddAttribute,
    element.c:279-346, for a new name.  Simplification: the attribute map is the
    list of its nodes (see HashModel for the map). *)
Definition add_attr (s : store) (self : nat) (d : str) : call unit :=
  match get s self with
  | Some n =>
    if kind_eqb (n_kind n) KElement then
      let '(s1, a) := new_node s KAttr d in
      let s2 := upd s1 a (fun x => set_parent x (Some self)) in
      (upd s2 self (fun x => set_attrs x (n_attrs x ++ [a])), Ok tt)
    else (s, Err AttributeError)
  | None => (s, Err TypeError)
  end.

(** _Container_FreezeChildren, container.c:199-227, called by the tree builder
    when a parsed container is complete (builder.c:386, 537).  Containers made
    through the Python API are never frozen (_Node_New zeroes the object,
    node.c:19-31).  Simplification: during parsing the children are added by
    _Container_FastAppend (container.c:282-310) to an array shared with the
    builder; the copy made here holds exactly the [n_count] visible slots, as
    after [Append]s. *)
Definition container_freeze (s : store) (self : nat) : call unit := (upd s self freeze_node, Ok tt).

(** ** The mutation calls of the Python API, and the end of parsing of a
       container *)
Inductive op :=
| New (k : kind) (d : str)
| Append (self child : nat)
| Insert (self : nat) (i : Z) (child : nat)
| Remove (self child : nat)
| Replace (self old new : nat)
| Normalize (self : nat)
| AddAttr (self : nat) (d : str)
| Freeze (self : nat).

(** Only entities and elements have the container methods
    (container_methods, container.c:681-692); arguments must be nodes. *)
Definition on_container (s : store) (self : nat) (args : list nat) (c : call unit) : call unit :=
  match get s self with
  | None => (s, Err NameError)
  | Some n =>
    if is_container (n_kind n) then
      if forallb (fun a => a <? length (s_nodes s)) args then c else (s, Err TypeError)
    else (s, Err AttributeError)
  end.

Definition step (s : store) (o : op) : call unit :=
  match o with
  | New k d => if kind_eqb k KAttr then (s, Err TypeError) else (fst (new_node s k d), Ok tt)
  | Append self c => on_container s self [c] (container_append s self c)
  | Insert self i c => on_container s self [c] (container_insert s self i c)
  | Remove self c => on_container s self [c] (container_remove s self c)
  | Replace self o n => on_container s self [o; n] (container_replace s self o n)
  | Normalize self => on_container s self [] (normalize s self)
  | AddAttr self d => add_attr s self d
  | Freeze self => on_container s self [] (container_freeze s self)
  end.
Definition empty : store := {| s_nodes := []; s_counter := 0%N |}.
Definition run (s : store) (ops : list op) : store := fold_left (fun s o => fst (step s o)) ops s.

(** ** node_richcompare, node.c:771-897 *)

(** The top of the tree and the depth, node.c:802-814. *)
Fixpoint top (fuel : nat) (s : store) (i : nat) : option (nat * nat) :=
  match fuel with
  | O => None
  | S f => match parent_of s i with
           | None => Some (i, 0)
           | Some p => option_map (fun r => (fst r, S (snd r))) (top f s p)
           end
  end.
(** [for (i = depth_a; i > depth_b; i--) a = Node_GET_PARENT(a);] *)
Fixpoint up (s : store) (k i : nat) : option nat :=
  match k with
  | O => Some i
  | S k' => match parent_of s i with Some p => up s k' p | None => None end
  end.
(** [while (parent_a != parent_b) ...], node.c:845-852: the two children of the
    common parent, and the parent. *)
Fixpoint meet (fuel : nat) (s : store) (a b : nat) : option (nat * nat * nat) :=
  match fuel with
  | O => None
  | S f =>
    match parent_of s a, parent_of s b with
    | Some pa, Some pb => if Nat.eqb pa pb then Some (a, b, pa) else meet f s pa pb
    | _, _ => None
    end
  end.
(** Positions in the child list, node.c:855-863; -1 if absent. *)
Fixpoint positions (cells : list (option nat)) (a b : nat) (i left : nat) (da db : Z) : Z * Z :=
  match left with
  | O => (da, db)
  | S k =>
    match nth_error cells i with
    | Some (Some c) =>
      if Nat.eqb c a then positions cells a b (S i) k (Z.of_nat i) db
      else if Nat.eqb c b then positions cells a b (S i) k da (Z.of_nat i)
      else positions cells a b (S i) k da db
    | _ => positions cells a b (S i) k da db
    end
  end.

(** Result of a comparison of two distinct nodes: the two numbers compared, or
    the entity indices, or NotImplemented (then Python compares addresses). *)
Inductive cmp := Cmp (a b : Z) | CmpDoc (a b : option N) | NotImpl | CmpStuck.
Definition doc_index (s : store) (i : nat) : option N :=
  match get s i with Some n => if kind_eqb (n_kind n) KEntity then Some (n_index n) else None | None => None end.
Definition oN_eqb (a b : option N) : bool :=
  match a, b with Some x, Some y => N.eqb x y | None, None => true | _, _ => false end.
Definition compare_nodes (s : store) (a b : nat) : cmp :=
  let fuel := S (length (s_nodes s)) in
  if Nat.eqb a b then Cmp 0 0
  else
    match top fuel s a, top fuel s b with
    | Some (ra, da), Some (rb, db) =>
      if negb (oN_eqb (doc_index s ra) (doc_index s rb)) then CmpDoc (doc_index s ra) (doc_index s rb)
      else if negb (Nat.eqb ra rb) then NotImpl
      else if (0 <? da) && (0 <? db) then
        match up s (da - db) a, up s (db - da) b with
        | Some a', Some b' =>
          if Nat.eqb a' b' then Cmp (Z.of_nat da) (Z.of_nat db)
          else
            match meet fuel s a' b' with
            | Some (a2, b2, p) =>
              match get s p with
              | Some n => let '(x, y) := positions (n_cells n) a2 b2 0 (n_count n) (-1) (-1) in Cmp x y
              | None => CmpStuck
              end
            | None => CmpStuck
            end
        | _, _ => CmpStuck
        end
      else Cmp (Z.of_nat da) (Z.of_nat db)
    | _, _ => CmpStuck
    end.
(** The operators <, == on nodes of one tree. *)
Definition node_lt (s : store) (a b : nat) : bool := match compare_nodes s a b with Cmp x y => (x <? y)%Z | _ => false end.
Definition node_eq (s : store) (a b : nat) : bool := match compare_nodes s a b with Cmp x y => (x =? y)%Z | _ => false end.

(** ** generate_id and get_id, node.c:574-708 *)
Definition typecode (k : kind) : N :=
  match k with KEntity => 114 | KElement => 101 | KText => 116 | KComment => 99 | KPI => 112 | KAttr => 97 end%N.
Fixpoint dec_loop (fuel : nat) (n : N) (acc : str) : str :=
  match fuel with
  | O => acc
  | S f => let acc' := (48 + n mod 10)%N :: acc in
           if (n <? 10)%N then acc' else dec_loop f (n / 10)%N acc'
  end.
Definition dec_str (n : N) : str := dec_loop (S (N.size_nat n)) n [].
Fixpoint index_of (l : list nat) (a : nat) (i : nat) : option nat :=
  match l with [] => None | x :: l' => if Nat.eqb x a then Some i else index_of l' a (S i) end.
(** [addr] gives the object's address (PyLong_FromVoidPtr).  The position of an
    attribute is the loop variable of AttributeMap_Next, which is one more than
    its slot. *)
Fixpoint generate_id (fuel : nat) (addr : nat -> N) (s : store) (i : nat) : result str :=
  match fuel with
  | O => Err Garbage
  | S f =>
    match get s i with
    | None => Err TypeError
    | Some n =>
      match n_parent n with
      | Some p =>
        do pre <- generate_id f addr s p ;
        match get s p with
        | None => Err TypeError
        | Some pn =>
          let pos := if kind_eqb (n_kind pn) KElement && kind_eqb (n_kind n) KAttr then option_map S (index_of (n_attrs pn) i 0)
                     else lfind (n_cells pn) i 0 (n_count pn) in
          match pos with
          | Some k => Ok (pre ++ typecode (n_kind n) :: dec_str (N.of_nat k))
          | None => Err ValueError
          end
        end
      | None => Ok (typecode (n_kind n) :: dec_str (if kind_eqb (n_kind n) KEntity then n_index n else addr i))
      end
    end
  end.
Definition get_id (addr : nat -> N) (s : store) (i : nat) : result str := generate_id (S (length (s_nodes s))) addr s i.
