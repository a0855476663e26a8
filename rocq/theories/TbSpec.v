(** * Specification of the tree builder *)
From Coq Require Import NArith ZArith String List Bool Lia Arith.
From Verif Require Import PyStr PyErr DomModel DomSpec RdModel RdSpec TbModel.
Import ListNotations.
Local Open Scope nat_scope.

Fixpoint label_of (l : list (nat * label)) (i : nat) : option label :=
  match l with [] => None | (j, x) :: l' => if Nat.eqb i j then Some x else label_of l' i end.

(** [ds] are the namespaces that the declarations [ns] of an element give: for
    every prefix the last declaration, an undeclaration being the empty
    name. *)
Definition declares (ns : list (option str * option str)) (ds : list (option str * str)) : Prop :=
  NoDup (map fst ds) /\
  forall p u, In (p, u) ds <-> exists l1 o l2, ns = l1 ++ (p, o) :: l2 /\ ~ In p (map fst l2) /\ u = match o with Some v => v | None => [] end.

(** [stands s lab i t]: node [i] of the store is the tree [t], with exactly its
    name, namespaces, attributes and children, all in their order.
    [all_stand s lab p l ts]: the nodes [l], whose parent is [p], are the trees
    [ts].  [R] holds of all these nodes. *)
Section Stands.
  Variable R : nat -> Prop.
  Variable s : store.
  Variable lab : list (nat * label).
  Definition attr_stands (e i : nat) (a : xattr) : Prop :=
    R i /\ kind_of s i = Some KAttr /\ parent_of s i = Some e /\ data_of s i = a_value a /\ label_of lab i = Some (LAttr (a_name a)).
  Inductive stands : nat -> tree -> Prop :=
  | stands_elem i n ns atts ct ds : R i -> kind_of s i = Some KElement -> data_of s i = x_qname n ->
      label_of lab i = Some (LElem n ds) -> declares ns ds ->
      Forall2 (attr_stands i) (attrs_of s i) atts ->
      all_stand i (kids s i) ct -> stands i (TElem n ns atts ct)
  | stands_text i d : R i -> kind_of s i = Some KText -> data_of s i = d -> stands i (TText d)
  | stands_instr i t d : R i -> kind_of s i = Some KPI -> data_of s i = d -> label_of lab i = Some (LPI t) -> stands i (TInstr t d)
  | stands_comm i d : R i -> kind_of s i = Some KComment -> data_of s i = d -> stands i (TComm d)
  with all_stand : nat -> list nat -> list tree -> Prop :=
  | all_nil p : all_stand p [] []
  | all_cons p c l t ts : parent_of s c = Some p -> stands c t -> all_stand p l ts -> all_stand p (c :: l) (t :: ts).
End Stands.

(** Nodes that were not there before. *)
Definition newer (s : store) (i : nat) : Prop := ~ exists_node s i.

(** ** Taking elements out while the tree is built *)

(** The names of the open elements, the innermost first, after some events
    (the last one first). *)
Fixpoint open_names (past : list event) : list xname :=
  match past with
  | [] => []
  | EStart n _ :: p => n :: open_names p
  | EEnd _ :: p => tl (open_names p)
  | _ :: p => open_names p
  end.
(** A rule handler that removes an element from its parent as soon as it is
    complete, if [sel] accepts its name and the names of its ancestors. *)
Definition remove_matching (sel : list xname -> bool) : handler :=
  fun past s i =>
    match past with
    | EEnd _ :: earlier =>
      if sel (open_names earlier) then match parent_of s i with Some p => [Remove p i] | None => [] end else []
    | _ => []
    end.

(** The document without the elements that [sel] accepts, and without the
    references that were not read, which have no node. *)
Fixpoint prune (sel : list xname -> bool) (path : list xname) (t : tree) : list tree :=
  match t with
  | TElem n ns atts ct => if sel (n :: path) then [] else [TElem n ns atts (flat_map (prune sel (n :: path)) ct)]
  | TUnread _ => []
  | _ => [t]
  end.
(** The elements taken out, in the order in which they end. *)
Fixpoint taken (sel : list xname -> bool) (path : list xname) (t : tree) : list tree :=
  match t with
  | TElem n ns atts ct => flat_map (taken sel (n :: path)) ct ++
      if sel (n :: path) then [TElem n ns atts (flat_map (prune sel (n :: path)) ct)] else []
  | _ => []
  end.
(** The nodes of a document that a tree has. *)
Definition shown (ts : list tree) : list tree := flat_map (prune (fun _ => false) []) ts.

(** ** Handlers that change the tree *)

(** An operation that makes [i] a child of another node. *)
Definition moves (i : nat) (o : op) : Prop :=
  match o with Append _ c | Insert _ _ c | Replace _ _ c => c = i | _ => False end.
(** An operation that gives children to [i]. *)
Definition fills (i : nat) (o : op) : Prop :=
  match o with Append p _ | Insert p _ _ => p = i | _ => False end.
(** The operations of the Python API. *)
Definition api (o : op) : Prop := match o with Freeze _ => False | _ => True end.

(** The operations a handler makes at one callback, in a store with the nodes
    [open] under construction: each is one that the tree handles correctly
    (C18), none moves a node under construction. *)
Definition gentle (s : store) (open : list nat) (ops : list op) : Prop :=
  safe_run s ops /\ Forall api ops /\ forall i o, In i open -> In o ops -> ~ moves i o.
(** A new container is not given children before it is under construction. *)
Definition lets_be (i : nat) (ops : list op) : Prop := forall o, In o ops -> ~ moves i o /\ ~ fills i o.

(** The moment in an event at which the handler is called: the state, and the
    node it is called with. *)
Definition asks (b : builder) (e : event) : option (builder * nat) :=
  match e with
  | EStart n atts => Some (element_made (received b e) n atts)
  | EEnd _ => match element_done (received b e) with Ok r => Some r | Err _ => None end
  | EPI t d => match new_leaf (received b e) KPI d [LPI t] with Ok r => Some r | Err _ => None end
  | _ => None
  end.
Definition is_start (e : event) : Prop := match e with EStart _ _ => True | _ => False end.
(** At every callback the handler makes gentle operations, and leaves a new
    element alone. *)
Fixpoint well_behaved (h : handler) (b : builder) (l : list event) : Prop :=
  match l with
  | [] => True
  | e :: l' =>
    (forall b1 i, asks b e = Some (b1, i) ->
       gentle (b_store b1) (b_open b1) (h (b_past b1) (b_store b1) i) /\
       (is_start e -> lets_be i (h (b_past b1) (b_store b1) i))) /\
    (forall b', on_event h b e = Ok b' -> well_behaved h b' l')
  end.
(** The same for the callback at the start of the document. *)
Definition well_begun (h : handler) (s : store) : Prop :=
  let '(s1, d) := new_node s KEntity [] in gentle s1 [] (h [] s1 d) /\ lets_be d (h [] s1 d).
