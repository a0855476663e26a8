(** * Model of copying: xsl:copy-of, xsl:copy and the identity transformation

    /repo/lib/xpath/__init__.py (context.copy_nodes and copy_node, 177-206),
    /repo/lib/xslt/tree/copy_of_element.py (19-30) and
    /repo/lib/xslt/tree/copy_element.py (20-63).  What is modelled is the list
    of calls made on the current writer (XwModel.call). *)
From Coq Require Import NArith String List Bool Lia Arith.
From Verif Require Import PyStr PyErr SerModel XwModel.
Import ListNotations.
Open Scope N_scope.

(** The nodes of a source document that can be selected: the tree nodes of
    SerModel, attribute nodes, namespace nodes and the document.  A namespace
    node has xml_name and xml_value only
    (/repo/lib/src/domlette/namespace.c:63-67). *)
Inductive item :=
| INode (n : node)
| IAttr (a : attr)
| INs (name : option str) (value : str)
| IDoc (kids : list node).

(** node.xmlns_attributes.copy(): a dictionary with the declarations of the
    element itself (/repo/lib/src/domlette/namespacemap.c:467-489).  The order
    of its entries is that of [decls]; XwModel takes every order. *)
Definition own_declarations (decls : list (option str * str)) : wdict := map (fun d => (fst d, Some (snd d))) decls.

(** self.attribute(attr.xml_qname, attr.xml_value, attr.xml_namespace),
    xpath/__init__.py:187, 192; copy_element.py:49-50. *)
Definition copy_attribute (a : attr) : call := Attribute (a_qname a) (a_value a) (a_ns a).

(** context.copy_node, xpath/__init__.py:182-206.  Simplification: all text is
    written with escaping (text.xsltOutputEscaping is True unless a result tree
    fragment was built with disable-output-escaping). *)
Fixpoint copy_node (n : node) : list call :=
  match n with
  | NElem ns qname decls attrs kids =>
    StartElement qname ns (own_declarations decls) [] :: map copy_attribute attrs ++ flat_map copy_node kids ++ [EndElement qname]
  | NText s => [Text s]
  | NPI t d => [PI t d]
  | NComment s => [Comment s]
  end.
Definition copy_item (i : item) : list call :=
  match i with
  | INode n => copy_node n
  | IAttr a => [copy_attribute a]
  | IDoc kids => flat_map copy_node kids
  | INs name value => [Namespace name (Some value)]
  end.
(** context.copy_nodes, 177-180. *)
Definition copy_nodes (l : list item) : list call := flat_map copy_item l.

(** xsl:copy-of, copy_of_element.py:19-30, by the kind of the value of its
    select expression; for a value that is no node set, its string. *)
Inductive selected := SNode (i : item) | SNodeset (l : list item) | SString (s : str).
Definition copy_of (v : selected) : list call :=
  match v with
  | SNode i => copy_item i
  | SNodeset l => copy_nodes l
  | SString s => [Text s]
  end.

(** xsl:copy, copy_element.py:20-63, without use-attribute-sets; [body]: the
    calls made by its content (process_children). *)
Definition xsl_copy (body : result (list call)) (i : item) : result (list call) :=
  match i with
  | INode (NElem ns qname decls _ _) => do b <- body ; Ok (StartElement qname ns (own_declarations decls) [] :: b ++ [EndElement qname])
  | INode (NText s) | INode (NComment s) => Ok [Text s]
  | IDoc _ => body
  | IAttr a => Ok [copy_attribute a]
  | INode (NPI t d) => Ok [PI t d]
  | INs _ _ => Err AttributeError (* node.xml_qname: a namespace node has none *)
  end.

(** The identity transformation:
    [<xsl:template match="@*|node()"><xsl:copy><xsl:apply-templates select="@*|node()"/></xsl:copy></xsl:template>].
    apply_templates (transform_element.py:577-660) takes the selected nodes in
    document order: attributes, then children. *)
Fixpoint concat_results (l : list (result (list call))) : result (list call) :=
  match l with
  | [] => Ok []
  | r :: l' => do a <- r ; do b <- concat_results l' ; Ok (a ++ b)
  end.
Fixpoint identity (n : node) : result (list call) :=
  xsl_copy (match n with
            | NElem _ _ _ attrs kids => concat_results (map (fun a => xsl_copy (Ok []) (IAttr a)) attrs ++ map identity kids)
            | _ => Ok []
            end) (INode n).
(** The built-in rule for the document: apply templates to its children. *)
Definition identity_document (kids : list node) : result (list call) := concat_results (map identity kids).
