(** * Model of the tree writer: result tree fragments

    /repo/lib/writers/src/treewriter.c: the writer xsl:variable, xsl:param and
    xsl:with-param put in place of the output while their content is
    instantiated (/repo/lib/xslt/tree/variable_elements.py:28-43,
    /repo/lib/xpath/__init__.py:157-175).  Calls are those of XwModel. *)
From Coq Require Import NArith String List Bool Lia Arith.
From Verif Require Import PyStr PyErr XsModel SerModel XwModel.
Import ListNotations.
Open Scope N_scope.

Definition RuntimeError : exn := OtherError 111.
Definition SystemError : exn := OtherError 5.
Definition Garbage : exn := OtherError 1.

(** An open element.  Simplification: the code appends an element to its parent
    when it starts, here it is appended when it ends; nothing looks at it before.
    [e_kids] has the last child first. *)
Record open_elem := {
  e_ns : option str; e_name : str;
  e_decls : list (option str * str);
  e_atts : list attr;
  e_kids : list node
}.
(** [d_kids]: the children of the document, the last first; [d_open]: from
    current_node up to the document; [d_buf]: buffer; [d_ended]: current_node is
    NULL.  Simplification: escape_output is always true. *)
Record treewriter := {
  d_kids : list node;
  d_open : list open_elem;
  d_buf : str;
  d_ended : bool
}.
(** treewriter_init, 571-612. *)
Definition tw_new : treewriter := {| d_kids := []; d_open := []; d_buf := []; d_ended := false |}.

(** Container_Append(self->current_node, node) *)
Definition append (n : node) (w : treewriter) : treewriter :=
  match d_open w with
  | [] => {| d_kids := n :: d_kids w; d_open := []; d_buf := d_buf w; d_ended := d_ended w |}
  | f :: l => {| d_kids := d_kids w; d_buf := d_buf w; d_ended := d_ended w;
      d_open := {| e_ns := e_ns f; e_name := e_name f; e_decls := e_decls f; e_atts := e_atts f; e_kids := n :: e_kids f |} :: l |}
  end.
(** if (self->buffer_size) complete_text(self), 93-119. *)
Definition complete_text (w : treewriter) : treewriter :=
  match d_buf w with
  | [] => w
  | s => append (NText s) {| d_kids := d_kids w; d_open := d_open w; d_buf := []; d_ended := d_ended w |}
  end.
Definition with_open (w : treewriter) (o : list open_elem) : treewriter :=
  {| d_kids := d_kids w; d_open := o; d_buf := d_buf w; d_ended := d_ended w |}.

(** Element_AddNamespace for the entries of the dictionary, 232-241; a namespace
    that is no string is refused (/repo/lib/src/domlette/namespace.c:12-16).  The
    map has one entry per prefix; its order is not modelled. *)
Fixpoint dset_ns (d : list (option str * str)) (k : option str) (u : str) : list (option str * str) :=
  match d with [] => [(k, u)] | (k', u') :: d' => if okey_eqb k' k then (k', u) :: d' else (k', u') :: dset_ns d' k u end.
Fixpoint add_namespaces (nss : wdict) (d : list (option str * str)) : result (list (option str * str)) :=
  match nss with
  | [] => Ok d
  | (k, Some u) :: l => add_namespaces l (dset_ns d k u)
  | (_, None) :: _ => Err SystemError
  end.
(** treewriter_start_element, 164-247.  [attributes] is looked at only to see
    whether it is a dictionary (190-193). *)
Definition tw_start_element (name : str) (ns : option str) (nss : wdict) (attributes : list ((str * option str) * str)) (w : treewriter) : result treewriter :=
  if d_ended w then Err RuntimeError
  else
    let w := complete_text w in
    match ns, fst (XsModel.split_qname name) with
    | None, Some _ => Err ValueError
    | _, _ =>
      do d <- add_namespaces nss [] ;
      Ok (with_open w ({| e_ns := ns; e_name := name; e_decls := d; e_atts := []; e_kids := [] |} :: d_open w))
    end.
(** treewriter_end_element, 249-310.  The callers give the namespace of the start,
    so that comparison (289-303) is left out.  Outside an element the document is
    taken for one: its fields are garbage. *)
Definition tw_end_element (name : str) (w : treewriter) : result treewriter :=
  if d_ended w then Err RuntimeError
  else
    let w := complete_text w in
    match d_open w with
    | [] => Err Garbage
    | f :: l =>
      if str_eqb (e_name f) name
      then Ok (append (NElem (e_ns f) (e_name f) (e_decls f) (e_atts f) (rev (e_kids f))) (with_open w l))
      else Err RuntimeError
    end.
(** Element_AddAttribute: the map has one entry per namespace and local name
    (/repo/lib/src/domlette/attributemap.c:296-346); its order is not modelled,
    the entry set last is put at the end. *)
Definition same_key (a b : attr) : bool := okey_eqb (a_ns a) (a_ns b) && str_eqb (snd (XsModel.split_qname (a_qname a))) (snd (XsModel.split_qname (a_qname b))).
Definition set_attr (atts : list attr) (a : attr) : list attr := filter (fun b => negb (same_key b a)) atts ++ [a].
(** treewriter_attribute, 312-382: ignored unless the current node is an element
    without children; text in the buffer is not yet a child. *)
Definition tw_attribute (name value : str) (ns : option str) (w : treewriter) : result treewriter :=
  if d_ended w then Err RuntimeError
  else
    match d_open w with
    | f :: l =>
      match e_kids f with
      | [] =>
        match ns, fst (XsModel.split_qname name) with
        | None, Some _ => Err ValueError
        | _, _ =>
          Ok (with_open w ({| e_ns := e_ns f; e_name := e_name f; e_decls := e_decls f;
                              e_atts := set_attr (e_atts f) {| a_ns := ns; a_qname := name; a_value := value |}; e_kids := [] |} :: l))
        end
      | _ => Ok w
      end
    | [] => Ok w
    end.
(** treewriter_text, 384-444. *)
Definition tw_text (data : str) (w : treewriter) : result treewriter :=
  if d_ended w then Err RuntimeError
  else Ok {| d_kids := d_kids w; d_open := d_open w; d_buf := d_buf w ++ data; d_ended := false |}.
(** treewriter_processing_instruction, 446-488; treewriter_comment, 490-525. *)
Definition tw_leaf (n : node) (w : treewriter) : result treewriter :=
  if d_ended w then Err RuntimeError else Ok (append n (complete_text w)).
(** There is no treewriter_namespace: the inherited method does nothing
    (/repo/lib/writers/__init__.py:203-212). *)
Definition tw_call (c : call) (w : treewriter) : result treewriter :=
  match c with
  | StartElement n u d a => tw_start_element n u d a w
  | Attribute n v u => tw_attribute n v u w
  | Namespace _ _ => Ok w
  | EndElement n => tw_end_element n w
  | Text s => tw_text s w
  | Comment s => tw_leaf (NComment s) w
  | PI t d => tw_leaf (NPI t d) w
  end.
Fixpoint tw_run (l : list call) (w : treewriter) : result treewriter :=
  match l with [] => Ok w | c :: l' => do w' <- tw_call c w ; tw_run l' w' end.
(** treewriter_end_document, 145-162. *)
Definition tw_end (w : treewriter) : result treewriter :=
  if d_ended w then Err RuntimeError
  else
    let w := complete_text w in
    match d_open w with
    | [] => Ok {| d_kids := d_kids w; d_open := []; d_buf := d_buf w; d_ended := true |}
    | _ => Err RuntimeError
    end.
(** treewriter_get_result, 126-136: the children of the document. *)
Definition tw_result (w : treewriter) : result (list node) := if d_ended w then Ok (rev (d_kids w)) else Err RuntimeError.
(** push_tree_writer, the calls, pop_writer, get_result. *)
Definition fragment (l : list call) : result (list node) := do w <- tw_run l tw_new ; do w' <- tw_end w ; tw_result w'.
