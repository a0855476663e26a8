(** * Model of the tree builder: /repo/lib/src/domlette/builder.c

    The handler functions that turn the calls of the reader ([RdModel.event])
    into nodes of the store ([DomModel.store]), with the working arrays that
    the builder lends to the containers it is filling, and with the callbacks
    of a rule handler (rulematch.c), which may change the tree while it is
    being built.  Not modelled: the factories of an entity class of the user,
    attribute types, DTD events, fragments (builder_Attribute), reference
    counts and memory errors. *)
From Coq Require Import NArith ZArith String List Bool Lia Arith.
From Verif Require Import PyStr PyErr DomModel RdModel.
Import ListNotations.
Local Open Scope nat_scope.

(** What the store of [DomModel] does not keep of a node, fixed when it is
    created: the name and the namespace nodes of an element (element.c:219-253),
    the name of an attribute, the target of a processing instruction. *)
Inductive label :=
| LElem (n : xname) (ns : list (option str * str))
| LAttr (n : xname)
| LPI (target : str).

(** ParserState, builder.c:19-35: the store; the nodes of the active contexts,
    the innermost first; the working arrays of the free contexts (an active
    context's array is the one its node holds); new_namespaces; the labels;
    and the calls received so far, the last one first. *)
Record builder := {
  b_store : store;
  b_open : list nat;
  b_free : list (list (option nat));
  b_ns : list (option str * str);
  b_labels : list (nat * label);
  b_past : list event
}.

(** A rule handler: the tree operations it makes, given the calls so far, the
    last of which is the one it is called for (none for startDocument), the
    store and the node it is called with.  Every deterministic handler,
    whatever state it keeps, is such a function. *)
Definition handler := list event -> store -> nat -> list op.
(** rule_handler=None. *)
Definition no_handler : handler := fun _ _ _ => [].

(** _Container_SetWorkingChildren, container.c:181-188: the count is not
    changed. *)
Definition set_working (cells : list (option nat)) (n : node) : node :=
  {| n_kind := n_kind n; n_parent := n_parent n; n_count := n_count n; n_cells := cells; n_frozen := false; n_data := n_data n; n_attrs := n_attrs n; n_index := n_index n |}.

(** _Container_FastAppend, container.c:282-310. *)
Definition fast_append_node (child : nat) (n : node) : node :=
  let allocated := length (n_cells n) in
  let newsize := n_count n + 1 in
  let cells := if allocated <=? newsize
               then firstn (2 * newsize) (n_cells n) ++ repeat None (2 * newsize - allocated)
               else n_cells n in
  set_count (set_cells n (set_nth cells (newsize - 1) (Some child))) newsize.
Definition fast_append (s : store) (self child : nat) : store :=
  upd (upd s self (fast_append_node child)) child (fun c => set_parent c (Some self)).

Definition set_store (b : builder) (s : store) : builder :=
  {| b_store := s; b_open := b_open b; b_free := b_free b; b_ns := b_ns b; b_labels := b_labels b; b_past := b_past b |}.

(** ParserState_AddContext, builder.c:236-258, and Context_New, 132-160. *)
Definition initial_children : nat := 4.
Definition add_context (b : builder) (i : nat) : builder :=
  match b_free b with
  | cells :: fr =>
    {| b_store := upd (b_store b) i (set_working cells); b_open := i :: b_open b; b_free := fr; b_ns := b_ns b; b_labels := b_labels b; b_past := b_past b |}
  | [] =>
    {| b_store := upd (b_store b) i (set_working (repeat None initial_children)); b_open := i :: b_open b; b_free := []; b_ns := b_ns b; b_labels := b_labels b; b_past := b_past b |}
  end.

(** The common part of builder_EndDocument (builder.c:372-398) and
    builder_EndElement (533-549): the working array goes back to the context
    (_Container_GetWorkingChildren, container.c:190-193), the node keeps a copy
    (_Container_FreezeChildren, 199-227), the context becomes free
    (ParserState_FreeContext, builder.c:260-275).  Without a context the code
    would follow a null pointer. *)
Definition close_context (b : builder) : result (builder * nat) :=
  match b_open b with
  | [] => Err Garbage
  | i :: op =>
    match get (b_store b) i with
    | None => Err Garbage
    | Some n => Ok ({| b_store := upd (b_store b) i freeze_node; b_open := op; b_free := n_cells n :: b_free b; b_ns := b_ns b; b_labels := b_labels b; b_past := b_past b |}, i)
    end
  end.

(** ParserState_AddNode, builder.c:277-290: PyErr_BadInternalCall without a
    context. *)
Definition SystemErr : exn := OtherError 5.
Definition add_node (b : builder) (i : nat) : result builder :=
  match b_open b with
  | [] => Err SystemErr
  | p :: _ => Ok (set_store b (fast_append (b_store b) p i))
  end.

(** A callback: RuleMatch_StartDocument and the others, rulematch.c:106-186. *)
Definition call_back (h : handler) (b : builder) (i : nat) : builder :=
  set_store b (run (b_store b) (h (b_past b) (b_store b) i)).

(** builder_StartDocument, builder.c:307-370. *)
Definition start_document (h : handler) (b : builder) : builder * nat :=
  let '(s1, d) := new_node (b_store b) KEntity [] in
  (add_context (call_back h (set_store b s1) d) d, d).

(** builder_NamespaceDecl, builder.c:400-419: PyDict_SetItem. *)
Fixpoint ns_set (d : list (option str * str)) (p : option str) (u : str) : list (option str * str) :=
  match d with
  | [] => [(p, u)]
  | (q, v) :: d' => if ostr_eqb p q then (q, u) :: d' else (q, v) :: ns_set d' p u
  end.
Definition namespace_decl (b : builder) (p u : option str) : builder :=
  {| b_store := b_store b; b_open := b_open b; b_free := b_free b; b_ns := ns_set (b_ns b) p (match u with Some v => v | None => [] end); b_labels := b_labels b; b_past := b_past b |}.

(** The attribute loop of builder_StartElement, builder.c:486-497.
    Simplification: the names are different, as XML requires, so that no
    attribute replaces another; and the attributes are a list, where the code
    has a hash table (see HashModel), whose order means nothing. *)
Definition add_attribute (b : builder) (e : nat) (a : xattr) : builder :=
  let i := length (s_nodes (b_store b)) in
  let '(s1, _) := add_attr (b_store b) e (a_value a) in
  {| b_store := s1; b_open := b_open b; b_free := b_free b; b_ns := b_ns b; b_labels := (i, LAttr (a_name a)) :: b_labels b; b_past := b_past b |}.

(** builder_StartElement, builder.c:421-515, up to the callback (502).  The
    namespace nodes are those of the dictionary, in some order. *)
Definition element_made (b : builder) (n : xname) (atts : list xattr) : builder * nat :=
  let '(s1, e) := new_node (b_store b) KElement (x_qname n) in
  let b1 := {| b_store := s1; b_open := b_open b; b_free := b_free b; b_ns := []; b_labels := (e, LElem n (b_ns b)) :: b_labels b; b_past := b_past b |} in
  (fold_left (fun b a => add_attribute b e a) atts b1, e).
(** The rest of it. *)
Definition start_element (h : handler) (b : builder) (n : xname) (atts : list xattr) : builder :=
  let '(b2, e) := element_made b n atts in
  add_context (call_back h b2 e) e.

(** builder_EndElement, builder.c:517-562, up to the callback (556), and the
    rest of it. *)
Definition element_done (b : builder) : result (builder * nat) :=
  do r <- close_context b ;
  do b2 <- add_node (fst r) (snd r) ;
  Ok (b2, snd r).
Definition end_element (h : handler) (b : builder) : result builder :=
  do r <- element_done b ;
  Ok (call_back h (fst r) (snd r)).

(** builder_Characters, builder.c:592-628, builder_Comment, 679-715, and
    builder_ProcessingInstruction, 630-677. *)
Definition new_leaf (b : builder) (k : kind) (d : str) (l : list label) : result (builder * nat) :=
  let '(s1, i) := new_node (b_store b) k d in
  do b2 <- add_node {| b_store := s1; b_open := b_open b; b_free := b_free b; b_ns := b_ns b; b_labels := map (fun x => (i, x)) l ++ b_labels b; b_past := b_past b |} i ;
  Ok (b2, i).
Definition characters (b : builder) (s : str) : result builder := do r <- new_leaf b KText s [] ; Ok (fst r).
Definition comment (b : builder) (s : str) : result builder := do r <- new_leaf b KComment s [] ; Ok (fst r).
Definition processing_instruction (h : handler) (b : builder) (t d : str) : result builder :=
  do r <- new_leaf b KPI d [LPI t] ; Ok (call_back h (fst r) (snd r)).

(** builder_handlers, builder.c:771-790: the other events have no function.  An
    event for which there is one is recorded for the handler. *)
Definition received (b : builder) (e : event) : builder :=
  {| b_store := b_store b; b_open := b_open b; b_free := b_free b; b_ns := b_ns b; b_labels := b_labels b; b_past := e :: b_past b |}.
Definition on_event (h : handler) (b : builder) (e : event) : result builder :=
  match e with
  | EStart n atts => Ok (start_element h (received b e) n atts)
  | EEnd _ => end_element h (received b e)
  | EText s => characters (received b e) s
  | EPI t d => processing_instruction h (received b e) t d
  | EComment s => comment (received b e) s
  | ENsStart p u => Ok (namespace_decl (received b e) p u)
  | ENsEnd _ | ECdataStart | ECdataEnd | ESkipped _ => Ok b
  end.
Fixpoint on_events (h : handler) (b : builder) (l : list event) : result builder :=
  match l with
  | [] => Ok b
  | e :: l' => do b1 <- on_event h b e ; on_events h b1 l'
  end.

(** ParserState_New, builder.c:193-213. *)
Definition new_builder (s : store) : builder :=
  {| b_store := s; b_open := []; b_free := []; b_ns := []; b_labels := []; b_past := [] |}.

(** builder_parse, builder.c:810-886, for a parse that makes the calls [l] and
    ends without an error of its own: the document node, and the state. *)
Definition build (h : handler) (s : store) (l : list event) : result (nat * builder) :=
  let '(b0, d) := start_document h (new_builder s) in
  do b1 <- on_events h b0 l ;
  do r <- close_context b1 ;
  Ok (d, fst r).
