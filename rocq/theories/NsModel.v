(** * Model of namespace lookup on elements (lib/src/domlette/element.c)

    An element is seen with the declarations on it and on its ancestors: a chain
    of namespace maps, the element's first, up to the outermost element (the loops
    [do ... while (current && Element_Check(current))] go up to the first parent
    that is not an element).  An element without a map has an empty one. *)
From Coq Require Import NArith ZArith String List Bool Lia Arith.
From Verif Require Import PyStr PyErr HashModel.
Import ListNotations.
Local Open Scope nat_scope.

Definition xml_string : str := lit "xml".
(** lib/namespaces.py:17 *)
Definition xml_namespace : str := lit "http://www.w3.org/XML/1998/namespace".

Definition nsmap := hmap (option str) str.
Definition is_empty (s : str) : bool := match s with [] => true | _ => false end.

(** The inner loop of lookup_namespace, element.c:104-126, on the nodes of one
    map in the order of NamespaceMap_Next. *)
Fixpoint find_prefix (nodes : list (option str * str)) (prefix : option str) : option (option str) :=
  match nodes with
  | [] => None
  | (name, ns) :: rest =>
    if is_empty ns then
      match name with
      | None => match prefix with None => Some None | Some _ => find_prefix rest prefix end
      | Some _ => find_prefix rest prefix
      end
    else if opt_eqb prefix name then Some (Some ns)
    else find_prefix rest prefix
  end.
(** lookup_namespace, element.c:92-148. *)
Fixpoint lookup_namespace (chain : list nsmap) (prefix : option str) : result (option str) :=
  match chain with
  | m :: chain' => match find_prefix (iterate m) prefix with Some r => Ok r | None => lookup_namespace chain' prefix end
  | [] =>
    match prefix with
    | None => Ok None
    | Some p => if str_eqb xml_string p then Ok (Some xml_namespace) else Err ValueError
    end
  end.

(** The inner loop of lookup_prefix, element.c:47-70; the namespace may be None. *)
Fixpoint find_namespace (nodes : list (option str * str)) (namespace : option str) : option (option str) :=
  match nodes with
  | [] => None
  | (name, value) :: rest =>
    if is_empty value && match name with None => true | Some _ => false end then find_namespace rest namespace
    else if opt_eqb namespace (Some value) then Some name
    else find_namespace rest namespace
  end.
(** lookup_prefix, element.c:36-90. *)
Fixpoint lookup_prefix (chain : list nsmap) (namespace : option str) : result (option str) :=
  match chain with
  | m :: chain' => match find_namespace (iterate m) namespace with Some r => Ok r | None => lookup_prefix chain' namespace end
  | [] =>
    match namespace with
    | None => Ok None
    | Some u => if str_eqb xml_namespace u then Ok (Some xml_string) else Err ValueError
    end
  end.

(** build_qname, element.c:194-216. *)
Definition build_qname (prefix local : str) : str := prefix ++ lit ":" ++ local.
Definition qname_of (prefix : option str) (local : str) : str := match prefix with None => local | Some p => build_qname p local end.

(** The names of an element: xml_local, xml_qname, xml_namespace. *)
Record names := { n_local : str; n_qname : str; n_ns : option str }.

(** e.xml_prefix = v, set_prefix, element.c:690-721. *)
Definition set_prefix (chain : list nsmap) (e : names) (prefix : option str) : result names :=
  do ns <- lookup_namespace chain prefix ; Ok {| n_local := n_local e; n_qname := qname_of prefix (n_local e); n_ns := ns |}.
(** e.xml_namespace = v, set_namespace, element.c:779-807. *)
Definition set_namespace (chain : list nsmap) (e : names) (ns : option str) : result names :=
  do prefix <- lookup_prefix chain ns ; Ok {| n_local := n_local e; n_qname := qname_of prefix (n_local e); n_ns := ns |}.
(** e.xml_attributes[ns, local] = v for a new attribute: the qualified name that
    Element_AddAttribute gives it, element.c:287-304. *)
Definition attribute_qname (chain : list nsmap) (ns : option str) (local : str) : result str :=
  match ns with
  | None => Ok local
  | Some _ =>
    do prefix <- lookup_prefix chain ns ;
    match prefix with None => Err ValueError | Some p => Ok (build_qname p local) end
  end.

Section Inscope.
Variable hash : option str -> N.
(** Element_AddNamespace, element.c:235-255: the map after declarations. *)
Definition declare (decls : list (option str * str)) : nsmap := mrun prefix_eqb hash new_map (map (fun d => SetNode (fst d) (snd d)) decls).

(** The loop of Element_InscopeNamespaces on one map, element.c:415-437. *)
Fixpoint add_inscope (nodes : list (option str * str)) (m : nsmap) : result nsmap :=
  match nodes with
  | [] => Ok m
  | (name, value) :: rest =>
    if is_empty value && match name with None => true | Some _ => false end then add_inscope rest m
    else
      do old <- get_node prefix_eqb hash m name ;
      match old with
      | None => do m' <- set_node prefix_eqb hash m name value ; add_inscope rest m'
      | Some _ => add_inscope rest m
      end
  end.
Fixpoint add_chain (chain : list nsmap) (m : nsmap) : result nsmap :=
  match chain with [] => Ok m | c :: chain' => do m' <- add_inscope (iterate c) m ; add_chain chain' m' end.
(** e.xml_namespaces: Element_InscopeNamespaces, element.c:390-445.
    Simplification: the new owner that SetNode gives to a node is left out. *)
Definition inscope_namespaces (chain : list nsmap) : result nsmap :=
  do m <- set_node prefix_eqb hash new_map (Some xml_string) xml_namespace ; add_chain chain m.
End Inscope.
