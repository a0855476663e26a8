(** * Specification of the DOM tree

    What a user sees of a store is, for every node object, its kind, its
    xml_parent, its xml_children, its text and its attributes.  The properties
    are stated with these observations only. *)
From Coq Require Import NArith ZArith String List Bool Lia Arith.
From Verif Require Import PyStr PyErr DomModel.
Import ListNotations.
Local Open Scope nat_scope.

(** ** Observations *)
Definition exists_node (s : store) (i : nat) : Prop := i < length (s_nodes s).
Definition kind_of (s : store) (i : nat) : option kind := option_map n_kind (get s i).
Definition attrs_of (s : store) (i : nat) : list nat := match get s i with Some n => n_attrs n | None => [] end.
Definition index_of_entity (s : store) (i : nat) : option N := doc_index s i.
Definition kids (s : store) (i : nat) : list nat := match get_children s i with Ok l => l | Err _ => [] end.

(** [above par a b]: [a] is a proper ancestor of [b]. *)
Inductive above (par : nat -> option nat) (a : nat) : nat -> Prop :=
| above_parent b : par b = Some a -> above par a b
| above_up b p : par b = Some p -> above par a p -> above par a b.
Definition above_or_self (par : nat -> option nat) (a b : nat) : Prop := a = b \/ above par a b.

(** A consistent forest: every child list can be read; it has no repetition;
    the children of [p] are exactly the nodes, attributes apart, that name [p]
    as their parent, and the attributes of [p] exactly the attribute nodes that
    do; children are of the kinds allowed; no node is its own ancestor; and the
    entities have distinct numbers. *)
Record forest (s : store) : Prop := {
  f_read : forall p, exists_node s p -> get_children s p = Ok (kids s p);
  f_nodup : forall p, NoDup (kids s p);
  f_link : forall p c, In c (kids s p) <-> parent_of s c = Some p /\ kind_of s c <> Some KAttr;
  f_anodup : forall p, NoDup (attrs_of s p);
  f_alink : forall p a, In a (attrs_of s p) <-> parent_of s a = Some p /\ kind_of s a = Some KAttr;
  f_parent : forall p c, parent_of s c = Some p -> exists k, kind_of s p = Some k /\ is_container k = true;
  f_aparent : forall p a, In a (attrs_of s p) -> kind_of s p = Some KElement;
  f_kind : forall p c, In c (kids s p) -> exists k, kind_of s c = Some k /\ child_kind k = true;
  f_acyclic : forall n, ~ above (parent_of s) n n;
  f_index : forall a b i, index_of_entity s a = Some i -> index_of_entity s b = Some i -> a = b;
  f_counter : forall a i, index_of_entity s a = Some i -> (i <= s_counter s)%N
}.

(** ** The documented effect on child lists *)
Definition without (c : nat) (l : list nat) : list nat := filter (fun x => negb (Nat.eqb x c)) l.
Definition insert_at (w : nat) (c : nat) (l : list nat) : list nat := firstn w l ++ c :: skipn w l.
(** Python's index convention for insertion, as list.insert has it. *)
Definition py_index (i : Z) (n : nat) : nat := Z.to_nat (Z.max 0 (Z.min (Z.of_nat n) (if (i <? 0)%Z then i + Z.of_nat n else i))).
Definition substitute (o n : nat) (l : list nat) : list nat := map (fun x => if Nat.eqb x o then n else x) l.

(** [s'] has the nodes of [s], with the given child lists and parents. *)
Record edited (s s' : store) (kid : nat -> list nat) (par : nat -> option nat) : Prop := {
  e_len : length (s_nodes s') = length (s_nodes s);
  e_kind : forall i, kind_of s' i = kind_of s i;
  e_data : forall i, data_of s' i = data_of s i;
  e_attrs : forall i, attrs_of s' i = attrs_of s i;
  e_index : forall i, index_of_entity s' i = index_of_entity s i;
  e_counter : s_counter s' = s_counter s;
  e_kids : forall p, exists_node s p -> get_children s' p = Ok (kid p);
  e_par : forall i, parent_of s' i = par i
}.

(** The parent function after one change. *)
Definition set_par (par : nat -> option nat) (c : nat) (v : option nat) (i : nat) : option nat := if Nat.eqb i c then v else par i.

(** ** Calls that the code handles correctly

    The slot after the last child may still hold a pointer to a former child. *)
Definition slot_after (s : store) (p : nat) : option nat :=
  match get s p with Some n => nth (n_count n) (n_cells n) None | None => None end.
Definition pos_in (l : list nat) (c : nat) : option nat := index_of l c 0.

(** - append: not to the node's own parent;
    - insert within the node's own parent: not at the end, and only if the slot
      after the last child does not point to the node;
    - replace: by the node itself, or by a node of a kind allowed as a child
      that does not contain the container and is not an earlier sibling. *)
Definition safe (s : store) (o : op) : Prop :=
  match o with
  | Append p c => parent_of s c <> Some p
  | Insert p i c => parent_of s c = Some p -> clamp_index i (length (kids s p)) < length (kids s p) /\ slot_after s p <> Some c
  | Replace p o n =>
      o = n \/
      ((forall k, kind_of s n = Some k -> child_kind k = true) /\
       ~ above_or_self (parent_of s) n p /\
       (parent_of s n = Some p -> exists x y, pos_in (kids s p) o = Some x /\ pos_in (kids s p) n = Some y /\ x < y))
  | _ => True
  end.
Fixpoint safe_run (s : store) (ops : list op) : Prop :=
  match ops with
  | [] => True
  | o :: ops' => safe s o /\ safe_run (fst (step s o)) ops'
  end.

(** ** Text *)
(** The content of a child list: characters and other nodes. *)
Definition flat (s : store) (l : list nat) : list (N + nat) := flat_map (fun c => if is_text s c then map inl (data_of s c) else [inr c]) l.
(** No two neighbours are both text. *)
Fixpoint no_adjacent (txt : nat -> bool) (l : list nat) : Prop :=
  match l with
  | x :: (y :: _) as l' => ~ (txt x = true /\ txt y = true) /\ no_adjacent txt l'
  | _ => True
  end.

(** [s'] is [s] with the child list of [p] reduced to [l']. *)
Record trimmed (s s' : store) (p : nat) (l' : list nat) : Prop := {
  t_forest : forest s';
  t_len : length (s_nodes s') = length (s_nodes s);
  t_kind : forall i, kind_of s' i = kind_of s i;
  t_kids : forall q, kids s' q = if q =? p then l' else kids s q;
  t_par : forall i, parent_of s' i = parent_of s i \/ (parent_of s' i = None /\ In i (kids s p) /\ ~ In i l');
  t_data : forall i, ~ In i (kids s p) \/ is_text s i = false -> data_of s' i = data_of s i;
  t_attrs : forall i, attrs_of s' i = attrs_of s i
}.

(** The string-value of a container: the text of its descendants, in order. *)
Inductive text_of (s : store) : nat -> str -> Prop :=
| text_container p k v : kind_of s p = Some k -> is_container k = true -> texts_of s (kids s p) v -> text_of s p v
with texts_of (s : store) : list nat -> str -> Prop :=
| texts_nil : texts_of s [] []
| texts_text x l v : kind_of s x = Some KText -> texts_of s l v -> texts_of s (x :: l) (data_of s x ++ v)
| texts_inner x l u v : text_of s x u -> texts_of s l v -> texts_of s (x :: l) (u ++ v)
| texts_other x k l v : kind_of s x = Some k -> is_container k = false -> k <> KText -> texts_of s l v -> texts_of s (x :: l) v.

(** ** Document order

    [a] comes before [b] if [a] is an ancestor of [b], or if [a] and [b] lie
    under children of one node of which the first comes earlier; the attributes
    of an element come after it, in the order of its attribute map, and before
    its children (XPath 1.0, section 5). *)
Inductive before (s : store) (a b : nat) : Prop :=
| before_above : above (parent_of s) a b -> before s a b
| before_kids p x y l1 l2 l3 : kids s p = l1 ++ x :: l2 ++ y :: l3 -> above_or_self (parent_of s) x a -> above_or_self (parent_of s) y b -> before s a b
| before_attr p y : In a (attrs_of s p) -> In y (kids s p) -> above_or_self (parent_of s) y b -> before s a b
| before_attrs p l1 l2 l3 : attrs_of s p = l1 ++ a :: l2 ++ b :: l3 -> before s a b.

Definition same_tree (s : store) (a b : nat) : Prop := exists r, above_or_self (parent_of s) r a /\ above_or_self (parent_of s) r b.
(** Two different attributes of one element. *)
Definition fellow_attributes (s : store) (a b : nat) : Prop := a <> b /\ exists p, In a (attrs_of s p) /\ In b (attrs_of s p).
