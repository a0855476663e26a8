(** * What the XUpdate commands should do to a document

    In terms of what a user sees of every node: its kind, its name, its data,
    its attributes, its children and its parent. *)
From Coq Require Import NArith ZArith String List Bool Lia Arith.
From Verif Require Import PyStr PyErr DomModel DomSpec XuModel.
Import ListNotations.
Local Open Scope nat_scope.

(** ** Observations *)
Definition node_in (d : doc) (i : nat) : Prop := exists_node (d_store d) i.
Definition dkind (d : doc) (i : nat) : option kind := kind_of (d_store d) i.
Definition ddata (d : doc) (i : nat) : str := data_of (d_store d) i.
Definition dkids (d : doc) (i : nat) : list nat := kids (d_store d) i.
Definition dattrs (d : doc) (i : nat) : list nat := attrs_of (d_store d) i.
Definition dparent (d : doc) (i : nat) : option nat := parent_of (d_store d) i.
Definition attributes (d : doc) (i : nat) : list (ename * str) := map (fun a => (d_name d a, ddata d a)) (dattrs d i).

(** The node [n] and all below it are the tree [t]. *)
Fixpoint shows (d : doc) (n : nat) (t : dtree) : Prop :=
  match t with
  | DT k nm x atts ts =>
    dkind d n = Some k /\ d_name d n = nm /\ ddata d n = x /\ attributes d n = atts /\
    (fix all (l : list nat) (ts : list dtree) {struct ts} : Prop :=
       match l, ts with
       | [], [] => True
       | c :: l', t :: ts' => shows d c t /\ all l' ts'
       | _, _ => False
       end) (dkids d n) ts
  end.

(** The trees that a tree writer can hold: children and attributes are only below
    elements. *)
Fixpoint proper (t : dtree) : Prop :=
  match t with
  | DT k nm x atts ts =>
    child_kind k = true /\ (k <> KElement -> atts = [] /\ ts = []) /\
    (fix all (ts : list dtree) : Prop := match ts with [] => True | t :: ts' => proper t /\ all ts' end) ts
  end.

(** The nodes of [d] are in [d'], with the same kind and name; and what is [same]
    about them. *)
Definition kept (d d' : doc) : Prop := forall i, node_in d i -> node_in d' i /\ dkind d' i = dkind d i /\ d_name d' i = d_name d i.
Definition same_data (d d' : doc) : Prop := forall i, node_in d i -> ddata d' i = ddata d i.
Definition same_attrs (d d' : doc) : Prop := forall i, node_in d i -> dattrs d' i = dattrs d i.
Definition same_parents (d d' : doc) : Prop := forall i, node_in d i -> dparent d' i = dparent d i.

(** [d'] is [d] with new trees put in: for every target [t] the nodes [put t] show
    the content [content t], other nodes get nothing, and the child list of every
    node of [d] is as [expected] says. *)
Record grown (d d' : doc) (ts : list nat) (content : nat -> list dtree) (put : nat -> list nat) (expected : nat -> list nat) : Prop := {
  g_forest : forest (d_store d');
  g_kept : kept d d';
  g_data : same_data d d';
  g_attrs : same_attrs d d';
  g_parents : same_parents d d';
  g_shows : forall t, In t ts -> Forall2 (shows d') (put t) (content t);
  g_new : forall t n, In n (put t) -> ~ node_in d n;
  g_none : forall t, ~ In t ts -> put t = [];
  g_kids : forall p, node_in d p -> dkids d' p = expected p
}.
(** The places of the new trees. *)
Definition before_each (put : nat -> list nat) (l : list nat) : list nat := flat_map (fun c => put c ++ [c]) l.
Definition after_each (put : nat -> list nat) (l : list nat) : list nat := flat_map (fun c => c :: put c) l.
Definition at_position (k : nat) (new l : list nat) : list nat := firstn k l ++ new ++ skipn k l.

(** A list of nodes of the document, without repetition: what a location path
    selects. *)
Definition selection (d : doc) (ts : list nat) : Prop := NoDup ts /\ forall t, In t ts -> node_in d t.
Definition is_member (ts : list nat) (x : nat) : bool := existsb (Nat.eqb x) ts.
Definition is_kind (d : doc) (k : kind) (i : nat) : bool := match dkind d i with Some k' => kind_eqb k k' | None => false end.

(** ** remove *)
(** [d'] is [d] with the nodes [ts] taken out of the child and attribute lists. *)
Record taken_out (d d' : doc) (ts : list nat) : Prop := {
  t_forest : forest (d_store d');
  t_kept : kept d d';
  t_none : forall i, node_in d' i -> node_in d i;
  t_data : same_data d d';
  t_kids : forall p, node_in d p -> dkids d' p = filter (fun c => negb (is_member ts c)) (dkids d p);
  t_attrs : forall p, node_in d p -> dattrs d' p = filter (fun a => negb (is_member ts a)) (dattrs d p);
  t_parents : forall i, node_in d i -> dparent d' i = if is_member ts i then None else dparent d i
}.

(** ** update *)
(** A text node whose new value is empty goes away. *)
Definition emptied (d : doc) (ts : list nat) (value : nat -> str) (i : nat) : bool :=
  is_member ts i && is_kind d KText i && match value i with [] => true | _ => false end.
(** An element gets the new content for all its children; an attribute, comment or
    other text node gets the new value. *)
Definition refilled (d : doc) (ts : list nat) (i : nat) : bool := is_member ts i && is_kind d KElement i.
Definition revalued (d : doc) (ts : list nat) (value : nat -> str) (i : nat) : bool :=
  is_member ts i && (is_kind d KAttr i || is_kind d KComment i || (is_kind d KText i && negb (emptied d ts value i))).
Record updated (d d' : doc) (ts : list nat) (content : nat -> list dtree) (value : nat -> str) (put : nat -> list nat) : Prop := {
  p_forest : forest (d_store d');
  p_kept : kept d d';
  p_attrs : same_attrs d d';
  p_data : forall i, node_in d i -> ddata d' i = if revalued d ts value i then value i else ddata d i;
  p_kids : forall p, node_in d p -> dkids d' p = if refilled d ts p then put p else filter (fun c => negb (emptied d ts value c)) (dkids d p);
  p_shows : forall t, refilled d ts t = true -> Forall2 (shows d') (put t) (content t);
  p_new : forall t n, refilled d ts t = true -> In n (put t) -> ~ node_in d n;
  p_parents : forall i, node_in d i -> dparent d' i =
    if emptied d ts value i then None
    else match dparent d i with
         | Some p => if refilled d ts p && negb (is_kind d KAttr i) then None else Some p
         | None => None
         end
}.

(** ** rename *)
(** Every element of [ts] is replaced by a new element [new t] that has the name
    [nm], the attributes of [t] and, renamed themselves where that applies, the
    children of [t]. *)
Definition called (d : doc) (ts : list nat) (new : nat -> nat) (i : nat) : nat := if refilled d ts i then new i else i.
Record renamed (d d' : doc) (nm : ename) (ts : list nat) (new : nat -> nat) : Prop := {
  rn_forest : forest (d_store d');
  rn_kept : kept d d';
  rn_data : same_data d d';
  rn_attrs : same_attrs d d';
  rn_new : forall t, refilled d ts t = true -> ~ node_in d (new t) /\ dkind d' (new t) = Some KElement /\ d_name d' (new t) = nm /\ attributes d' (new t) = attributes d t;
  rn_apart : forall t u, refilled d ts t = true -> refilled d ts u = true -> new t = new u -> t = u;
  rn_kids : forall p, node_in d p -> dkids d' (called d ts new p) = map (called d ts new) (dkids d p);
  rn_parents : forall i, node_in d i -> dkind d i <> Some KAttr -> dparent d' (called d ts new i) = option_map (called d ts new) (dparent d i);
  rn_old : forall t, refilled d ts t = true -> dkids d' t = [] /\ dparent d' t = None
}.
