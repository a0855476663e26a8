(** * What a pattern selects, and what the streaming matcher should report

    The node tests and location paths are those of XPath 1.0 (2.1-2.5) restricted to
    the child, descendant and attribute axes; a pattern that is a relative path selects
    a node when it does so from some ancestor. *)
From Coq Require Import NArith ZArith String List Bool Lia Arith.
From Verif Require Import PyStr PyErr PtModel.
Import ListNotations.
Open Scope nat_scope.

(** A node, by what a node test can see of it. *)
Inductive kind := KElem (nm : name) | KAttr (nm : name) | KPi (target : str).

(** A node test whose prefix has been expanded. *)
Inductive xtest := XAny | XNs (u : str) | XName (ns : option str) (l : str) | XPi (t : option str).
Definition expand (n : nsmap) (t : nodetest) : option xtest :=
  match t with
  | Wild => Some XAny
  | LocalName l => Some (XName None l)
  | QName p l => match ns_lookup n p with Ok u => Some (XName (Some u) l) | Err _ => None end
  | NsWild p => match ns_lookup n p with Ok u => Some (XNs u) | Err _ => None end
  | PiTest t => Some (XPi t)
  | OtherTest => None
  end.
(** A name test holds of an expanded name. *)
Definition name_holds (x : xtest) (nm : name) : Prop :=
  match x with
  | XAny => True
  | XNs u => fst nm = Some u
  | XName ns l => nm = (ns, l)
  | XPi _ => False
  end.
(** The step's axis leads to nodes of this kind, and the node test holds. *)
Definition step_selects (n : nsmap) (s : step) (k : kind) : Prop :=
  match expand n (nt s), ax s, k with
  | Some x, (Child | Descendant), KElem nm => name_holds x nm
  | Some x, Attribute, KAttr nm => name_holds x nm
  | Some (XPi None), (Child | Descendant), KPi _ => True
  | Some (XPi (Some t)), (Child | Descendant), KPi t' => t' = t
  | _, _, _ => False
  end.
(** A list of steps, from a node, selects the node at the end of the chain of nodes
    below it. *)
Fixpoint steps_select (n : nsmap) (l : list step) (chain : list kind) : Prop :=
  match l with
  | [] => chain = []
  | s :: r => exists gap k rest, chain = gap ++ k :: rest /\ (gap = [] \/ ax s = Descendant) /\ step_selects n s k /\ steps_select n r rest
  end.
(** The chain is that of the ancestors of the node, from the document's child down to
    the node itself. *)
Definition path_selects (n : nsmap) (p : path) (chain : list kind) : Prop :=
  match p with
  | Relative l => exists above below, chain = above ++ below /\ steps_select n l below
  | Absolute l | Anywhere l => steps_select n l chain
  | OtherPath => False
  end.
Definition pattern_selects (n : nsmap) (e : pattern) (chain : list kind) : Prop := exists p, In p e /\ path_selects n p chain.

(** The calls to make: [sel i chain] says whether pattern [i] selects the node. *)
Section calls.
  Variable sel : nat -> list kind -> bool.
  Variable count : nat.
  Definition selecting (chain : list kind) : list nat := filter (fun i => sel i chain) (seq 0 count).
  Fixpoint expected (above : list kind) (i : item) : list call :=
    match i with
    | Elem id nm attrs kids =>
      let here := above ++ [KElem nm] in
      map (fun l => CStart l id) (selecting here)
      ++ flat_map (fun a => map (fun l => CAttr l id a) (selecting (here ++ [KAttr a]))) attrs
      ++ flat_map (expected here) kids
      ++ map (fun l => CEnd l id) (rev (selecting here))
    | PI id t => map (fun l => CPi l id) (selecting (above ++ [KPi t]))
    end.
  Definition expected_calls (doc : list item) : list call := flat_map (expected []) doc.
End calls.
(** [sel] is right about the patterns. *)
Definition decides (n : nsmap) (l : list pattern) (sel : nat -> list kind -> bool) : Prop :=
  forall i chain, sel i chain = true <-> exists e, nth_error l i = Some e /\ pattern_selects n e chain.

(** ** The patterns the theorem covers *)
Definition name_step (s : step) : Prop := match nt s with PiTest _ | OtherTest => False | _ => True end.
Definition covered_step (n : nsmap) (s : step) : Prop :=
  preds s = false /\ expand n (nt s) <> None /\ nt s <> PiTest None /\ (ax s = Attribute -> name_step s).
(** '//' is allowed at the beginning of a path, and anywhere in an absolute one; the
    step after it, like the first step of a relative path, is one for elements. *)
Definition covered_path (n : nsmap) (p : path) : Prop :=
  match p with
  | Relative [] | Anywhere [] | OtherPath => False
  | Relative (s :: r) => (ax s = Child \/ ax s = Descendant) /\ name_step s /\ covered_step n s /\
      Forall (fun s => (ax s = Child \/ ax s = Attribute) /\ covered_step n s) r
  | Anywhere (s :: r) => ax s = Descendant /\ name_step s /\ covered_step n s /\
      Forall (fun s => (ax s = Child \/ ax s = Attribute) /\ covered_step n s) r
  | Absolute l => Forall (fun s => (ax s = Child \/ ax s = Descendant /\ name_step s) /\ covered_step n s) l
  end.
Definition covered (n : nsmap) (l : list pattern) : Prop := l <> [] /\ forall e, In e l -> e <> [] /\ forall p, In p e -> covered_path n p.

Definition path_steps (p : path) : list step := match p with Relative l | Absolute l | Anywhere l => l | OtherPath => [] end.
Definition all_steps (l : list pattern) : list step := flat_map (flat_map path_steps) l.
(** The nodes of a document. *)
Fixpoint item_kinds (i : item) : list kind :=
  match i with
  | Elem _ nm attrs kids => KElem nm :: map KAttr attrs ++ flat_map item_kinds kids
  | PI _ t => [KPi t]
  end.
Definition doc_kinds (doc : list item) : list kind := flat_map item_kinds doc.
(** No two different node tests select the same node of the document. *)
Definition unambiguous (n : nsmap) (l : list pattern) (doc : list item) : Prop :=
  forall k s s', In k (doc_kinds doc) -> In s (all_steps l) -> In s' (all_steps l) ->
    step_selects n s k -> step_selects n s' k -> expand n (nt s) = expand n (nt s').
(** No element or attribute that is in a namespace has the local name of an unprefixed
    test. *)
Definition unprefixed_in_no_namespace (l : list pattern) (doc : list item) : Prop :=
  forall s nm, In s (all_steps l) -> nt s = LocalName (snd nm) -> In (KElem nm) (doc_kinds doc) \/ In (KAttr nm) (doc_kinds doc) -> fst nm = None.

(** The element or processing instruction [id] is in the document, below the nodes of
    [above]; [chain] ends with it. *)
Inductive located : list kind -> list item -> nat -> list kind -> Prop :=
| loc_elem : forall above items id nm attrs kids, In (Elem id nm attrs kids) items -> located above items id (above ++ [KElem nm])
| loc_pi : forall above items id t, In (PI id t) items -> located above items id (above ++ [KPi t])
| loc_kid : forall above items i nm attrs kids id chain, In (Elem i nm attrs kids) items -> located (above ++ [KElem nm]) kids id chain -> located above items id chain.
(** The element [id] has the attribute [a]. *)
Inductive located_attr : list kind -> list item -> nat -> name -> list kind -> Prop :=
| loc_attr : forall above items id nm attrs kids a, In (Elem id nm attrs kids) items -> In a attrs -> located_attr above items id a ((above ++ [KElem nm]) ++ [KAttr a])
| loc_attr_kid : forall above items i nm attrs kids id a chain, In (Elem i nm attrs kids) items -> located_attr (above ++ [KElem nm]) kids id a chain -> located_attr above items id a chain.
