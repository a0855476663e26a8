(** * Specification of copying: which trees, and what a copy must be *)
From Coq Require Import NArith String List Bool Lia Arith.
From Verif Require Import PyStr SerModel SerSpec SerTree XwModel XwSpec.
Import ListNotations.
Open Scope N_scope.

(** Source trees as a namespace-aware parser builds them, or a program that
    respects Namespaces in XML: each name is prefix:local or local, with its
    namespace, which the declarations of the tree need not mention. *)
Definition source_att (a : attr) : Prop :=
  exists p l, a_qname a = qn p l /\ (forall q, p = Some q -> ncname q) /\ ncname l /\ chars (a_value a) /\
    match a_ns a with Some u => uri u | None => l <> lit "xmlns" end.
Definition att_name (a : attr) : option str * str := (a_ns a, local (a_qname a)).
Inductive source (canon : bool) : node -> Prop :=
| so_text : forall s, chars s -> (canon = true -> contains [13; 10] s = false) -> source canon (NText s)
| so_comment : forall s, legal_comment s -> source canon (NComment s)
| so_pi : forall t d, legal_pi t d -> trim d = d -> source canon (NPI t d)
| so_elem : forall p l ns decls attrs kids,
    ncname l -> binding p ns -> ns <> Some [] -> legal_decls decls ->
    Forall source_att attrs -> NoDup (map att_name attrs) -> Forall (source canon) kids ->
    source canon (NElem ns (qn p l) decls attrs kids).

(** [declarations_kept sc r n]: every binding declared in [n], at any depth,
    holds in the scope of the element of [r] at the same place.  (The element's
    own prefix is left out: its namespace is part of the name.) *)
Definition nelement (n : node) : bool := match n with NElem _ _ _ _ _ => true | _ => false end.
Inductive declarations_kept : scope -> rnode -> node -> Prop :=
| dk : forall sc sc' q ratts rkids ns decls attrs kids,
    declare sc ratts = Some sc' ->
    (forall k u, In (k, u) decls -> k <> SerModel.prefix_of q -> sc' k = named (Some u)) ->
    Forall2 (declarations_kept sc') (elements rkids) (filter nelement kids) ->
    declarations_kept sc (RElem q ratts rkids) (NElem ns q decls attrs kids).

(** The tree with every comment replaced by a text node of the same data. *)
Fixpoint comments_as_text (n : node) : node :=
  match n with
  | NElem ns q decls attrs kids => NElem ns q decls attrs (map comments_as_text kids)
  | NComment s => NText s
  | _ => n
  end.
Fixpoint no_comments (n : node) : Prop :=
  match n with
  | NComment _ => False
  | NElem _ _ _ _ kids => (fix all l := match l with [] => True | k :: l' => no_comments k /\ all l' end) kids
  | _ => True
  end.
