(** * Specification: what a user of the XML writer asks for

    A tree of nodes with expanded names; the calls that ask for it; the tree
    that a reader must find in the output.  None of the writer's own functions
    is used: the calls are data, and reading is SerSpec's. *)
From Coq Require Import NArith String List Bool Lia Arith.
From Verif Require Import PyStr SerSpec SerTree XwModel.
Import ListNotations.
Open Scope N_scope.

(** An attribute: suggested prefix, local name, namespace, value. *)
Record watt := { t_prefix : option str; t_local : str; t_ns : option str; t_value : str }.
(** An element: prefix, local name, namespace, further namespace bindings,
    attributes given to start_element, attributes added by attribute(), content. *)
Inductive wnode :=
| WElem (prefix : option str) (loc : str) (ns : option str) (nss : list (option str * option str))
        (atts more : list watt) (kids : list wnode)
| WText (s : str)
| WComment (s : str)
| WPI (target data : str).

(** ** The calls *)
Definition qn (prefix : option str) (loc : str) : str :=
  match prefix with Some p => p ++ 58 :: loc | None => loc end.
Fixpoint calls (n : wnode) : list call :=
  match n with
  | WElem p l ns nss atts more kids =>
    StartElement (qn p l) ns nss (map (fun a => ((qn (t_prefix a) (t_local a), t_ns a), t_value a)) atts)
    :: map (fun a => Attribute (qn (t_prefix a) (t_local a)) (t_value a) (t_ns a)) more
    ++ flat_map calls kids ++ [EndElement (qn p l)]
  | WText s => [Text s]
  | WComment s => [Comment s]
  | WPI t d => [PI t d]
  end.

(** ** The tree meant *)
Definition ename (a : watt) : option str * str := (t_ns a, t_local a).
(** Of attributes with the same expanded name the last one counts. *)
Fixpoint last_wins (l : list watt) : list watt :=
  match l with
  | [] => []
  | a :: l' => if existsb (fun b => ename_eqb (ename a) (ename b)) l' then last_wins l' else a :: last_wins l'
  end.
(** Leading and trailing white space of processing instruction data is not kept. *)
Definition trim (s : str) : str := rev (skip_ws (rev (skip_ws s))).
(** [n] followed by [rest], adjacent text merged. *)
Fixpoint meant (n : wnode) (rest : list xnode) : list xnode :=
  match n with
  | WElem _ l ns _ atts more kids =>
    XElem ns l (map (fun a => (ename a, t_value a)) (last_wins (atts ++ more))) (fold_right meant [] kids) :: rest
  | WText s => xadd_text s rest
  | WComment s => XComment s :: rest
  | WPI t d => XPI t (trim d) :: rest
  end.

(** ** Permitted use *)
(** A namespace name a prefix other than xml and xmlns, or the default, can be bound to. *)
Definition uri (u : str) : Prop := chars u /\ u <> [] /\ u <> xmlns_uri.
Definition binding (k v : option str) : Prop :=
  match k, v with
  | None, None => True
  | None, Some u => chars u /\ u <> xml_uri /\ u <> xmlns_uri
  | Some p, Some u => ncname p /\ p <> lit "xmlns" /\ uri u /\ (p = lit "xml" <-> u = xml_uri)
  | Some _, None => False
  end.
(** Any prefix may be suggested for an attribute; a name without namespace is
    not [xmlns]. *)
Definition proper_att (a : watt) : Prop :=
  (forall p, t_prefix a = Some p -> ncname p) /\ ncname (t_local a) /\ chars (t_value a) /\
  match t_ns a with Some u => uri u | None => t_local a <> lit "xmlns" end.
Inductive proper (canon : bool) : wnode -> Prop :=
| pr_text : forall s, chars s -> (canon = true -> contains [13; 10] s = false) -> proper canon (WText s)
| pr_comment : forall s, legal_comment s -> proper canon (WComment s)
| pr_pi : forall t d, legal_pi t (trim d) -> proper canon (WPI t d)
| pr_elem : forall p l ns nss atts more kids,
    ncname l -> binding p ns -> ns <> Some [] ->
    NoDup (map fst nss) -> Forall (fun b => binding (fst b) (snd b)) nss ->
    Forall proper_att (atts ++ more) -> Forall (proper canon) kids ->
    proper canon (WElem p l ns nss atts more kids).
(** The strings that are written without escaping. *)
Definition okey_strings (k : option str) : list str := match k with Some p => [p] | None => [] end.
Fixpoint names_of (n : wnode) : list str :=
  match n with
  | WText _ => []
  | WComment s => [s]
  | WPI t d => [t; trim d]
  | WElem p l _ nss atts more kids =>
    okey_strings p ++ l :: flat_map (fun b => okey_strings (fst b)) nss
    ++ flat_map (fun a => t_local a :: okey_strings (t_prefix a)) (atts ++ more)
    ++ flat_map names_of kids
  end.

(** ** The bindings asked for are in scope in the output *)
Definition elements (l : list rnode) : list rnode := filter is_elem l.
Definition welement (n : wnode) : bool := match n with WElem _ _ _ _ _ _ _ => true | _ => false end.
(** An empty namespace name means none. *)
Definition named (v : option str) : option str := match v with Some (c :: u) => Some (c :: u) | _ => None end.
Inductive bindings_kept : scope -> rnode -> wnode -> Prop :=
| bk : forall sc sc' q ratts rkids p l ns nss atts more kids,
    q = qn p l -> declare sc ratts = Some sc' ->
    (forall k v, In (k, v) nss -> k <> p -> sc' k = named v) ->
    Forall2 (bindings_kept sc') (elements rkids) (filter welement kids) ->
    bindings_kept sc (RElem q ratts rkids) (WElem p l ns nss atts more kids).
