(** * Model of SAX events from a tree

    /repo/lib/src/expat/sax_handler.c: a SAX parser whose dom-node property is set
    walks over that tree (ParseDOM, domwalker_visit).  Handlers that raise
    exceptions are not modelled. *)
From Coq Require Import NArith ZArith String List Bool.
From Verif Require Import PyStr PyErr.
Import ListNotations.
Open Scope N_scope.

(** An attribute of an element: namespace, qualified name, local name, value. *)
Record attribute := { a_ns : option str; a_qname : str; a_local : str; a_value : str }.
(** Nodes of a tree, element.h:11-25.  [attributes] is NULL until the first
    attribute is set or asked for (element.c:31, 307-310, 357-360);
    [xmlns] are the namespace nodes.  Comments and processing instructions: [Other]. *)
Inductive node :=
| Elem (ns : option str) (qname localname : str) (attributes : option (list attribute)) (xmlns : list (option str * str)) (children : list node)
| Text (s : str)
| Other.
(** The calls of the content handler. *)
Inductive event :=
| StartDocument | EndDocument
| StartMapping (prefix : option str) (uri : str) | EndMapping (prefix : option str)
| StartElement (ns : option str) (localname qname : str) (attrs : list attribute)
| EndElement (ns : option str) (localname qname : str)
| Characters (s : str).
(** A null pointer is read. *)
Definition crash : exn := OtherError 173.
(** PyDict_Next over Element_ATTRIBUTES, 954: the object is an AttributeMap
    (attributemap.c), not a dictionary, and PyDict_Next gives nothing for any other
    type; its type is read through the pointer. *)
Definition dict_next (attributes : option (list attribute)) : result (list attribute) :=
  match attributes with None => Err crash | Some _ => Ok [] end.
(** get_prefix, 912-926 *)
Fixpoint get_prefix (nodeName : str) : option str :=
  match nodeName with
  | [] => None
  | c :: s => if c =? 58 then Some [] else option_map (cons c) (get_prefix s)
  end.
Definition peqb (a b : option str) : bool :=
  match a, b with None, None => true | Some x, Some y => str_eqb x y | _, _ => false end.
(** Dictionaries from prefixes to namespaces: PyDict_GetItem and PyDict_SetItem. *)
Fixpoint ns_get (d : list (option str * str)) (p : option str) : option str :=
  match d with [] => None | (q, u) :: d' => if peqb p q then Some u else ns_get d' p end.
Fixpoint ns_set (d : list (option str * str)) (p : option str) (u : str) : list (option str * str) :=
  match d with [] => [(p, u)] | (q, v) :: d' => if peqb p q then (q, u) :: d' else (q, v) :: ns_set d' p u end.
Definition xmlns_namespace : str := lit "http://www.w3.org/2000/xmlns/".
(** The loop over the attributes, 953-1005: the namespaces and the attributes. *)
Fixpoint collect (l : list attribute) (nss : list (option str * str)) (attrs : list attribute) : list (option str * str) * list attribute :=
  match l with
  | [] => (nss, attrs)
  | a :: l' =>
    match a_ns a with
    | Some u =>
      if str_eqb u xmlns_namespace then
        collect l' (ns_set nss (if nth 5 (a_qname a) 0 =? 58 then Some (a_local a) else None) (a_value a)) attrs
      else collect l' (ns_set nss (get_prefix (a_qname a)) u) (attrs ++ [a])
    | None => collect l' nss (attrs ++ [a])
    end
  end.
(** The loop over the new namespaces, 1041-1064: those in force and the events, with the prefixes. *)
Fixpoint declare (new current : list (option str * str)) : list (option str * str) * list (option str * str) :=
  match new with
  | [] => (current, [])
  | (p, u) :: new' =>
    match ns_get current p with
    | Some v => if str_eqb v u then declare new' current
                else let '(c, ds) := declare new' (ns_set current p u) in (c, (p, u) :: ds)
    | None => let '(c, ds) := declare new' (ns_set current p u) in (c, (p, u) :: ds)
    end
  end.
(** domwalker_visit, 928-1155; preserve_whitespace is always 1. *)
Fixpoint visit (n : node) (current : list (option str * str)) : result (list event) :=
  match n with
  | Elem ns q l attributes xmlns children =>
    do items <- dict_next attributes ;
    let '(nss, attrs) := collect items [] [] in
    let nss := match ns with Some u => ns_set nss (get_prefix q) u | None => nss end in
    let '(current, ds) := declare nss current in
    do body <- (fix visits (ns : list node) : result (list event) :=
                  match ns with
                  | [] => Ok []
                  | n :: ns' => do a <- visit n current ; do b <- visits ns' ; Ok (a ++ b)
                  end) children ;
    Ok (map (fun d => StartMapping (fst d) (snd d)) ds ++ StartElement ns l q attrs :: body ++
        EndElement ns l q :: map (fun d => EndMapping (fst d)) ds)
  | Text s => Ok [Characters s]
  | Other => Ok []
  end.
Fixpoint visit_all (l : list node) (current : list (option str * str)) : result (list event) :=
  match l with
  | [] => Ok []
  | n :: l' => do a <- visit n current ; do b <- visit_all l' current ; Ok (a ++ b)
  end.
(** ParseDOM, 1157-1181 *)
Definition parse_dom (children : list node) : result (list event) :=
  do body <- visit_all children [] ; Ok (StartDocument :: body ++ [EndDocument]).
