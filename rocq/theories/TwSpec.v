(** * Specification: the tree that was asked for, as a document fragment *)
From Coq Require Import NArith String List Bool Lia Arith.
From Verif Require Import PyStr SerModel SerSpec SerTree XwModel XwSpec.
Import ListNotations.
Open Scope N_scope.

(** The text nodes of a document are not empty, and not next to each other. *)
Definition add_node (n : node) (rest : list node) : list node :=
  match n, rest with
  | NText [], _ => rest
  | NText s, NText s' :: rest' => NText (s ++ s') :: rest'
  | _, _ => n :: rest
  end.
Definition merge_text (l : list node) : list node := fold_right add_node [] l.
Definition declarations (nss : list (option str * option str)) : list (option str * str) :=
  flat_map (fun b => match snd b with Some u => [(fst b, u)] | None => [] end) nss.
Definition attribute_node (a : watt) : attr := {| a_ns := t_ns a; a_qname := qn (t_prefix a) (t_local a); a_value := t_value a |}.
(** Of attributes with the same expanded name the last counts. *)
Fixpoint tree_of (n : wnode) : node :=
  match n with
  | WElem p l ns nss atts more kids =>
    NElem ns (qn p l) (declarations nss) (map attribute_node (last_wins (atts ++ more))) (merge_text (map tree_of kids))
  | WText s => NText s
  | WComment s => NComment s
  | WPI t d => NPI t d
  end.
(** The text of the nodes. *)
Fixpoint text_in (n : wnode) : str :=
  match n with
  | WElem _ _ _ _ _ _ kids => flat_map text_in kids
  | WText s => s
  | _ => []
  end.
Fixpoint node_text (n : node) : str :=
  match n with
  | NElem _ _ _ _ kids => flat_map node_text kids
  | NText s => s
  | _ => []
  end.
(** What XSLT asks of a writer: names with a prefix have a namespace, attributes
    come by attribute() only; no namespace is undeclared. *)
Definition no_colon (s : str) : Prop := ~ In 58 s.
Definition plain_att (a : watt) : Prop := no_colon (t_local a) /\ (forall p, t_prefix a = Some p -> no_colon p /\ t_ns a <> None).
Inductive askable : wnode -> Prop :=
| as_text : forall s, askable (WText s)
| as_comment : forall s, askable (WComment s)
| as_pi : forall t d, askable (WPI t d)
| as_elem : forall p l ns nss more kids,
    no_colon l -> (forall q, p = Some q -> no_colon q /\ ns <> None) ->
    NoDup (map fst nss) -> (forall k v, In (k, v) nss -> v <> None) ->
    Forall plain_att more -> Forall askable kids -> askable (WElem p l ns nss [] more kids).

(** Processing instruction data without white space at its ends, which a document cannot keep. *)
Fixpoint trimmed (n : wnode) : Prop :=
  match n with
  | WElem _ _ _ _ _ _ kids => (fix all l := match l with [] => True | k :: l' => trimmed k /\ all l' end) kids
  | WPI _ d => trim d = d
  | _ => True
  end.
(** The text that is asked for by calls. *)
Definition text_called (l : list call) : str := flat_map (fun c => match c with Text s => s | _ => [] end) l.
(** [nested l]: every start has its end, with the same name, in the right order. *)
Inductive nested : list call -> Prop :=
| ne_nil : nested []
| ne_elem : forall n u d a l l', nested l -> nested l' -> nested (StartElement n u d a :: l ++ EndElement n :: l')
| ne_other : forall c l, (forall n u d a, c <> StartElement n u d a) -> (forall n, c <> EndElement n) -> nested l -> nested (c :: l).
