(** * Model of the XUpdate commands: /repo/lib/xupdate/commands.py

    The commands work on the node store of DomModel through the methods of
    container.c; beside the store goes the expanded name of every node, which
    the store does not hold.

    Simplifications:
    - the nodes that the [select] expression gives are an argument: a list of
      nodes (evaluate_as_nodeset is XPath, see C45 and following);
    - so is what the content instantiates to: for every target, the trees the
      tree writer holds at the end, or the string of the string writer, or an
      exception (instructions.py; the tree writer is C69);
    - an attribute map is the list of the attribute nodes, without its hash
      table (that is C23), and a namespace map is left out;
    - the loops [while x.xml_first_child] get fuel. *)
From Coq Require Import NArith ZArith String List Bool Lia Arith.
From Verif Require Import PyStr PyErr DomModel.
Import ListNotations.
Local Open Scope nat_scope.

(** XUpdateError.INVALID_SELECT, /repo/lib/xupdate/__init__.py:24. *)
Definition InvalidSelect : exn := OtherError 121.
Definition NeverEnds : exn := OtherError 3.

(** An expanded name; the name of a processing instruction is its target. *)
Definition ename : Type := (option str * str)%type.
Definition ename_eqb (a b : ename) : bool :=
  match fst a, fst b with
  | Some x, Some y => str_eqb x y && str_eqb (snd a) (snd b)
  | None, None => str_eqb (snd a) (snd b)
  | _, _ => false
  end.
Record doc := { d_store : store; d_name : nat -> ename }.
Definition dcall (A : Type) := (doc * result A)%type.
Definition andthen {A B} (x : dcall A) (k : doc -> A -> dcall B) : dcall B :=
  match x with (d, Ok a) => k d a | (d, Err e) => (d, Err e) end.

(** A method of container.c on the document. *)
Definition on (d : doc) (o : op) : dcall unit :=
  let '(s, r) := step (d_store d) o in ({| d_store := s; d_name := d_name d |}, r).
(** A new node without parent: tree.element(...), tree.processing_instruction(...),
    and the nodes the tree writer makes. *)
Definition create (d : doc) (k : kind) (nm : ename) (x : str) : doc * nat :=
  let c := length (s_nodes (d_store d)) in
  ({| d_store := fst (new_node (d_store d) k x); d_name := fun i => if i =? c then nm else d_name d i |}, c).
(** A new attribute node: Element_AddAttribute, element.c:279-346, for a name the
    element does not have. *)
Definition new_attr (d : doc) (p : nat) (a : ename * str) : doc :=
  let c := length (s_nodes (d_store d)) in
  match add_attr (d_store d) p (snd a) with
  | (s, Ok _) => {| d_store := s; d_name := fun i => if i =? c then fst a else d_name d i |}
  | (s, Err _) => {| d_store := s; d_name := d_name d |}
  end.
(** attributemap_ass_subscript with a value, attributemap.c:685-735: the value of
    the attribute of that name is replaced, or an attribute is added. *)
Definition attr_list (s : store) (p : nat) : list nat := match get s p with Some n => n_attrs n | None => [] end.
Definition set_data_of (d : doc) (i : nat) (x : str) : doc :=
  {| d_store := upd (d_store d) i (fun n => set_data n x); d_name := d_name d |}.
Definition set_attribute (d : doc) (p : nat) (a : ename * str) : doc :=
  match find (fun i => ename_eqb (d_name d i) (fst a)) (attr_list (d_store d) p) with
  | Some i => set_data_of d i (snd a)
  | None => new_attr d p a
  end.
(** [del parent.xml_attributes[target]]: AttributeMap_DelNode, attributemap.c:348-401. *)
Definition del_attribute (d : doc) (p i : nat) : doc :=
  {| d_store := upd (upd (d_store d) i (fun n => set_parent n None)) p (fun n => set_attrs n (filter (fun x => negb (x =? i)) (n_attrs n)));
     d_name := d_name d |}.

(** ** What the tree writer leaves *)
Inductive dtree := DT (k : kind) (nm : ename) (x : str) (atts : list (ename * str)) (ts : list dtree).
Fixpoint build (t : dtree) (p : nat) (d : doc) : dcall unit :=
  match t with
  | DT k nm x atts ts =>
    let '(d1, c) := create d k nm x in
    let d2 := fold_left (fun d a => new_attr d c a) atts d1 in
    andthen (on d2 (Append p c)) (fun d3 _ =>
      (fix go (ts : list dtree) (d : doc) : dcall unit :=
         match ts with
         | [] => (d, Ok tt)
         | t :: ts' => andthen (build t c d) (fun d' _ => go ts' d')
         end) ts d3)
  end.
Fixpoint build_all (ts : list dtree) (p : nat) (d : doc) : dcall unit :=
  match ts with [] => (d, Ok tt) | t :: ts' => andthen (build t p d) (fun d' _ => build_all ts' p d') end.
(** push_tree_writer, the content, pop_writer, get_result: a new entity with the
    trees as its children (/repo/lib/xpath/__init__.py, and treewriter.c). *)
Definition fragment (d : doc) (content : result (list dtree)) : dcall nat :=
  match content with
  | Err e => (d, Err e)
  | Ok ts => let '(d1, r) := create d KEntity (None, []) [] in andthen (build_all ts r d1) (fun d2 _ => (d2, Ok r))
  end.

(** ** Reading the store *)
(** get_first_child, container.c:720-729. *)
Definition first_child (s : store) (i : nat) : result (option nat) :=
  match get s i with
  | None => Err NameError
  | Some n =>
    if is_container (n_kind n) then
      if n_count n =? 0 then Ok None else rmap Some (child_at s i 0)
    else Err AttributeError
  end.
(** xml_index, container.c:641-656. *)
Definition xml_index (s : store) (p c : nat) : result nat :=
  match get s p with
  | None => Err NameError
  | Some n =>
    if is_container (n_kind n) then
      match lfind (n_cells n) c 0 (n_count n) with Some i => Ok i | None => Err ValueError end
    else Err AttributeError
  end.
Definition type_of (s : store) (i : nat) : option kind := option_map n_kind (get s i).

(** [while r.xml_first_child: place(r.xml_first_child)] *)
Fixpoint move_all (place : doc -> nat -> dcall unit) (fuel : nat) (d : doc) (r : nat) : dcall unit :=
  match fuel with
  | O => (d, Err NeverEnds)
  | S f =>
    match first_child (d_store d) r with
    | Err e => (d, Err e)
    | Ok None => (d, Ok tt)
    | Ok (Some c) => andthen (place d c) (fun d' _ => move_all place f d' r)
    end
  end.
Definition fuel_of (d : doc) : nat := S (length (s_nodes (d_store d))).
(** [offset = p.xml_index(t); p.xml_insert(offset, c)], or [p.xml_append(c)]; [p]
    may be None. *)
Definition insert_before_node (p : option nat) (t : nat) (d : doc) (c : nat) : dcall unit :=
  match p with
  | None => (d, Err AttributeError)
  | Some p =>
    match xml_index (d_store d) p t with
    | Err e => (d, Err e)
    | Ok i => on d (Insert p (Z.of_nat i) c)
    end
  end.
Definition append_node (p : option nat) (d : doc) (c : nat) : dcall unit :=
  match p with None => (d, Err AttributeError) | Some p => on d (Append p c) end.
Definition place_at (p : option nat) (ref : option nat) : doc -> nat -> dcall unit :=
  match ref with Some t => insert_before_node p t | None => append_node p end.

(** for target in targets *)
Fixpoint for_each (f : doc -> nat -> dcall unit) (ts : list nat) (d : doc) : dcall unit :=
  match ts with [] => (d, Ok tt) | t :: ts' => andthen (f d t) (fun d' _ => for_each f ts' d') end.

(** ** The commands *)
(** insert_before_command.instantiate, commands.py:161-173. *)
Definition insert_before_one (content : nat -> result (list dtree)) (d : doc) (t : nat) : dcall unit :=
  andthen (fragment d (content t)) (fun d1 r =>
    move_all (place_at (parent_of (d_store d1) t) (Some t)) (fuel_of d1) d1 r).
Definition insert_before (content : nat -> result (list dtree)) (ts : list nat) (d : doc) : dcall unit :=
  for_each (insert_before_one content) ts d.

(** insert_after_command.instantiate, 189-205. *)
Definition insert_after_one (content : nat -> result (list dtree)) (d : doc) (t : nat) : dcall unit :=
  andthen (fragment d (content t)) (fun d1 r =>
    let p := parent_of (d_store d1) t in
    match get_following_sibling (d_store d1) t with
    | Err e => (d1, Err e)
    | Ok ref => move_all (place_at p ref) (fuel_of d1) d1 r
    end).
Definition insert_after (content : nat -> result (list dtree)) (ts : list nat) (d : doc) : dcall unit :=
  for_each (insert_after_one content) ts d.

(** append_command.instantiate, 64-96.  [child] gives, for every target, the
    number [int(self.child.evaluate_as_number(context))]. *)
Definition py_item {A} (l : list A) (i : Z) : result A :=
  let j := if (i <? 0)%Z then (i + Z.of_nat (length l))%Z else i in
  if (j <? 0)%Z then Err IndexError
  else match nth_error l (Z.to_nat j) with Some x => Ok x | None => Err IndexError end.
Definition xml_children (s : store) (t : nat) : result (list nat) :=
  match get s t with
  | None => Err NameError
  | Some n => if is_container (n_kind n) then get_children s t else Err AttributeError
  end.
Definition append_ref (child : option (nat -> result Z)) (s : store) (t : nat) : result (option nat) :=
  match child with
  | None => Ok None
  | Some f =>
    do l <- xml_children s t ;
    do i <- f t ;
    if (i <? Z.of_nat (length l))%Z then rmap Some (py_item l i) else Ok None
  end.
Definition append_one (content : nat -> result (list dtree)) (child : option (nat -> result Z)) (d : doc) (t : nat) : dcall unit :=
  andthen (fragment d (content t)) (fun d1 r =>
    match append_ref child (d_store d1) t with
    | Err e => (d1, Err e)
    | Ok ref => move_all (place_at (Some t) ref) (fuel_of d1) d1 r
    end).
Definition append (content : nat -> result (list dtree)) (child : option (nat -> result Z)) (ts : list nat) (d : doc) : dcall unit :=
  match ts with [] => (d, Err InvalidSelect) | _ => for_each (append_one content child) ts d end.

(** update_command.instantiate, 221-250.  A processing instruction has no
    xml_value to set (processinginstruction.c:90-93, node.c:710-717). *)
Definition remove_node (p : option nat) (d : doc) (c : nat) : dcall unit :=
  match p with None => (d, Err AttributeError) | Some p => on d (Remove p c) end.
Definition update_one (content : nat -> result (list dtree)) (value : nat -> result str) (d : doc) (t : nat) : dcall unit :=
  match type_of (d_store d) t with
  | None => (d, Err NameError)
  | Some KElement =>
    andthen (fragment d (content t)) (fun d1 r =>
      andthen (move_all (remove_node (Some t)) (fuel_of d1) d1 t) (fun d2 _ =>
        move_all (append_node (Some t)) (fuel_of d2) d2 r))
  | Some KEntity => (d, Ok tt)
  | Some k =>
    match value t with
    | Err e => (d, Err e)
    | Ok v =>
      match v, k with
      | [], KText => remove_node (parent_of (d_store d) t) d t
      | _, KPI => (d, Err AttributeError)
      | _, _ => (set_data_of d t v, Ok tt)
      end
    end
  end.
Definition update (content : nat -> result (list dtree)) (value : nat -> result str) (ts : list nat) (d : doc) : dcall unit :=
  match ts with [] => (d, Err InvalidSelect) | _ => for_each (update_one content value) ts d end.

(** remove_command.instantiate, 266-275. *)
Definition remove_one (d : doc) (t : nat) : dcall unit :=
  match parent_of (d_store d) t with
  | None => (d, Ok tt)
  | Some p =>
    match type_of (d_store d) t with
    | Some KAttr => (del_attribute d p t, Ok tt)
    | _ => on d (Remove p t)
    end
  end.
Definition remove (ts : list nat) (d : doc) : dcall unit := for_each remove_one ts d.

(** rename_command.instantiate, 111-145; [nm] is the new name, with the namespace
    of its prefix.  [parent.xml_replace-child(pi, target)] is a subtraction:
    [child] is not defined.  Setting an attribute of an element without a parent
    raises AttributeError, as does xml_replace of None. *)
Definition rename_one (nm : ename) (d : doc) (t : nat) : dcall unit :=
  let p := parent_of (d_store d) t in
  match type_of (d_store d) t with
  | None => (d, Err NameError)
  | Some KAttr =>
    match p with
    | None => (d, Err AttributeError)
    | Some p => (set_attribute d p (nm, data_of (d_store d) t), Ok tt)
    end
  | Some KPI =>
    let '(d1, _) := create d KPI nm (data_of (d_store d) t) in
    (d1, Err match p with None => AttributeError | Some _ => NameError end)
  | Some KElement =>
    let atts := map (fun a => (d_name d a, data_of (d_store d) a)) (attr_list (d_store d) t) in
    let '(d1, e) := create d KElement nm [] in
    let d2 := fold_left (fun d a => set_attribute d e a) atts d1 in
    andthen (move_all (append_node (Some e)) (fuel_of d2) d2 t) (fun d3 _ =>
      match p with
      | None => (d3, Err AttributeError)
      | Some p => on d3 (Replace p t e)
      end)
  | Some _ => (d, Ok tt)
  end.
Definition rename (nm : result ename) (ts : list nat) (d : doc) : dcall unit :=
  match nm with
  | Err e => (d, Err e)
  | Ok nm => match ts with [] => (d, Err InvalidSelect) | _ => for_each (rename_one nm) ts d end
  end.

(** if_command, 306-316, has no instantiate: the one of xupdate_primitive raises
    (/repo/lib/xupdate/__init__.py:69-71). *)
Definition if_command (d : doc) : dcall unit := (d, Err NotImplementedError).

(** ** A list of modifications *)
Inductive command :=
| CInsertBefore (ts : doc -> result (list nat)) (content : nat -> result (list dtree))
| CInsertAfter (ts : doc -> result (list nat)) (content : nat -> result (list dtree))
| CAppend (ts : doc -> result (list nat)) (content : nat -> result (list dtree)) (child : option (nat -> result Z))
| CUpdate (ts : doc -> result (list nat)) (content : nat -> result (list dtree)) (value : nat -> result str)
| CRemove (ts : doc -> result (list nat))
| CRename (nm : result ename) (ts : doc -> result (list nat))
| CIf.
Definition selected (d : doc) (ts : result (list nat)) (f : list nat -> dcall unit) : dcall unit :=
  match ts with Err e => (d, Err e) | Ok l => f l end.
Definition instantiate (c : command) (d : doc) : dcall unit :=
  match c with
  | CInsertBefore ts k => selected d (ts d) (fun l => insert_before k l d)
  | CInsertAfter ts k => selected d (ts d) (fun l => insert_after k l d)
  | CAppend ts k ch => selected d (ts d) (fun l => append k ch l d)
  | CUpdate ts k v => selected d (ts d) (fun l => update k v l d)
  | CRemove ts => selected d (ts d) (fun l => remove l d)
  | CRename (Err e) _ => (d, Err e)
  | CRename nm ts => selected d (ts d) (fun l => rename nm l d)
  | CIf => if_command d
  end.
(** modifications_list.apply_updates, 35-39. *)
Fixpoint apply_updates (l : list command) (d : doc) : dcall unit :=
  match l with [] => (d, Ok tt) | c :: l' => andthen (instantiate c d) (fun d' _ => apply_updates l' d') end.
