(** * Specification of location paths (XPath 1.0, sections 2 and 3.3) *)
From Coq Require Import NArith ZArith QArith String List Bool Lia Arith Sorted.
From Verif Require Import PyStr PyErr DomModel DomSpec XpModel XpSpec XpPath.
Import ListNotations.
Local Open Scope nat_scope.

(** ** Node tests (2.3) *)
(** The principal node type of an axis. *)
Definition principal_kind (a : axis) : kind := match a with Attribute => KAttr | _ => KElement end.
Definition passes (namespaces : str -> option str) (s : store) (nm : names) (a : axis) (t : ntest) (x : nat) : Prop :=
  match t with
  | TNode => True
  | TComment => kind_of s x = Some KComment
  | TText => kind_of s x = Some KText
  | TPI None => kind_of s x = Some KPI
  | TPI (Some target) => kind_of s x = Some KPI /\ nm_local nm x = target
  | TPrincipal => kind_of s x = Some (principal_kind a)
  | TLocal name => kind_of s x = Some (principal_kind a) /\ nm_ns nm x = None /\ nm_local nm x = name
  | TPrefix prefix => kind_of s x = Some (principal_kind a) /\ exists u, namespaces prefix = Some u /\ nm_ns nm x = Some u
  | TQName prefix name => kind_of s x = Some (principal_kind a) /\ (exists u, namespaces prefix = Some u /\ nm_ns nm x = Some u) /\ nm_local nm x = name
  end.

(** ** Predicates (2.4) *)
Definition num_eq (p : Z) (k : xnum) : Prop := match k with Fin q => (inject_Z p == q)%Q | _ => False end.
Definition num_gt (p : Z) (k : xnum) : Prop := match k with Fin q => (q < inject_Z p)%Q | NegInf => True | _ => False end.
Definition num_ge (p : Z) (k : xnum) : Prop := match k with Fin q => (q <= inject_Z p)%Q | NegInf => True | _ => False end.

(** Whether the predicate is true of a node at the given position, among [size]
    nodes: a number is compared with the position, anything else is converted to a
    boolean. *)
Definition holds (e : pexpr) (node : nat) (position : Z) (size : nat) : Prop :=
  match e with
  | ELiteral k | EPositionEqLiteral k | ELiteralEqPosition k => num_eq position k
  | EString nonempty _ => nonempty = true
  | EPositionEq e | EEqPosition e | ENumber e => exists k, e node position size = Ok k /\ num_eq position k
  | EPositionGt k => num_gt position k
  | EPositionGe k => num_ge position k
  | EConstantFirst e | EBoolean e => e node position size = Ok true
  | EUnknown e => exists v, e node position size = Ok v /\ match v with VNumber k => num_eq position k | VOther b => b = true end
  end.

(** [kept P p l r]: [r] is what remains of [l] when the node at each position,
    counted from [p], is dropped unless [P] holds of it. *)
Inductive kept (P : nat -> Z -> Prop) : Z -> list nat -> list nat -> Prop :=
| kept_nil p : kept P p [] []
| kept_yes p x l r : P x p -> kept P (p + 1) l r -> kept P p (x :: l) (x :: r)
| kept_no p x l r : ~ P x p -> kept P (p + 1) l r -> kept P p (x :: l) r.
(** Each predicate filters what the predicates before it have left. *)
Inductive filtered : list pexpr -> list nat -> list nat -> Prop :=
| filtered_none l : filtered [] l l
| filtered_some e es l m r : kept (fun x p => holds e x p (length l)) 1 l m -> filtered es m r -> filtered (e :: es) l r.

(** ** Steps and paths (2.1) *)
(** [x] is selected by a step from the node [n]: it is among what the predicates
    leave of the nodes on the axis that pass the node test, in axis order. *)
Definition step_from (namespaces : str -> option str) (s : store) (nm : names) (st : lstep) (n x : nat) : Prop :=
  exists l r,
    (forall y, In y l <-> on_axis s (ls_axis st) n y /\ passes namespaces s nm (ls_axis st) (ls_test st) y) /\
    in_axis_order s (ls_axis st) l /\ filtered (ls_preds st) l r /\ In x r.
(** [x] is reached from the node [n] by the steps. *)
Inductive reached (namespaces : str -> option str) (s : store) (nm : names) : list lstep -> nat -> nat -> Prop :=
| reached_here n : reached namespaces s nm [] n n
| reached_step st sts n m x : step_from namespaces s nm st n m -> reached namespaces s nm sts m x -> reached namespaces s nm (st :: sts) n x.
(** A location path starts at the context node, or at the root of its tree. *)
Definition start (s : store) (p : location_path) (n m : nat) : Prop :=
  if lp_absolute p then kind_of s m = Some KEntity /\ above_or_self (parent_of s) m n else m = n.
Definition denotes (namespaces : str -> option str) (s : store) (nm : names) (p : location_path) (n x : nat) : Prop :=
  exists m, start s p n m /\ reached namespaces s nm (lp_steps p) m x.

(** In document order; XPath leaves the order of the attributes of one element to
    the implementation (section 5). *)
Definition document_order (s : store) (x y : nat) : Prop := before s x y \/ fellow_attributes s x y.

(** ** What the code handles *)
(** The value does not depend on context.size. *)
Definition sizeless {A} (e : evaluator A) : Prop := forall n p a b, e n p a = e n p b.
(** Excluded: a string literal; 'position() >= k' with k at least 0; and
    expressions that use last(), except in 'position() = e'. *)
Definition handled (e : pexpr) : Prop :=
  match e with
  | EString _ _ => False
  | EPositionGe k => k = NaN \/ k = PosInf \/ num_gt 0 k
  | EEqPosition e | ENumber e => sizeless e
  | EConstantFirst e | EBoolean e => sizeless e
  | EUnknown e => sizeless e
  | _ => True
  end.

(** Two evaluations select the same nodes, or both raise an exception. *)
Definition same_selection (a b : result (list nat)) : Prop :=
  match a, b with
  | Ok l, Ok r => forall x, In x l <-> In x r
  | Err _, Err _ => True
  | _, _ => False
  end.
(** An expression that never raises an exception. *)
Definition never_fails (e : pexpr) : Prop :=
  match e with
  | EPositionEq e | EEqPosition e | ENumber e => forall n p z, exists v, e n p z = Ok v
  | EConstantFirst e | EBoolean e => forall n p z, exists v, e n p z = Ok v
  | EUnknown e => forall n p z, exists v, e n p z = Ok v
  | _ => True
  end.
(** Paths that cannot reach a node in two ways: after at most one step to
    descendants, only steps to self, children and attributes. *)
Fixpoint no_overlap (descended : bool) (sts : list lstep) : Prop :=
  match sts with
  | [] => True
  | st :: sts' =>
    match ls_axis st with
    | Self | Child | Attribute => no_overlap descended sts'
    | Descendant | DescendantOrSelf => descended = false /\ no_overlap true sts'
    | _ => False
    end
  end.
