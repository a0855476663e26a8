(** * Specification of C55: import precedence

    XSLT 1.0, 2.6: the modules of a stylesheet form a tree; an included module counts
    as part of the module that includes it, and what it imports as imported by that
    module after its own imports.  Precedence grows along a post-order walk of the
    tree. *)
From Coq Require Import NArith String List Bool Lia Arith.
From Verif Require Import PyStr PyErr XtImport.
Import ListNotations.
Local Open Scope nat_scope.

(** ** Reading a stylesheet from its modules *)
Definition refers {E} (world : str -> option (list (written E))) (u v : str) : Prop :=
  exists doc b, world u = Some doc /\ In (Refer b v) doc.
Inductive reaches {E} (world : str -> option (list (written E))) (u : str) : str -> Prop :=
| reaches_here : reaches world u u
| reaches_on : forall v w, reaches world u v -> refers world v w -> reaches world u w.
(** A module that refers to itself directly or through other modules. *)
Definition circular {E} (world : str -> option (list (written E))) (v : str) : Prop :=
  exists w, refers world v w /\ reaches world w v.
(** [s] is the module at [u] with the modules it refers to put in place of the
    references. *)
Inductive unfolds {E} (world : str -> option (list (written E))) : str -> list (item E) -> Prop :=
| unfolds_doc : forall u doc s, world u = Some doc -> unfolds_list world doc s -> unfolds world u s
with unfolds_list {E} (world : str -> option (list (written E))) : list (written E) -> list (item E) -> Prop :=
| unfolds_nil : unfolds_list world [] []
| unfolds_here : forall e doc s, unfolds_list world doc s -> unfolds_list world (Here e :: doc) (Elem e :: s)
| unfolds_refer : forall b v t doc s, unfolds world v t -> unfolds_list world doc s -> unfolds_list world (Refer b v :: doc) (Combine b t :: s).

(** ** The modules of the import tree in post-order: the elements of each module with
       its included modules, and before them those of the modules it imports. *)
Fixpoint own_item {E} (i : item E) : list E :=
  match i with
  | Elem e => [e]
  | Combine true _ => []
  | Combine false s => flat_map own_item s
  end.
Definition own {E} (s : list (item E)) : list E := flat_map own_item s.
Fixpoint imported_item {E} (i : item E) : list (list E) :=
  match i with
  | Elem _ => []
  | Combine true s => flat_map imported_item s ++ [flat_map own_item s]
  | Combine false s => flat_map imported_item s
  end.
Definition imported {E} (s : list (item E)) : list (list E) := flat_map imported_item s.
Definition postorder {E} (s : list (item E)) : list (list E) := imported s ++ [own s].

(** In every module nothing is imported, be it by an included module, after the first
    element that is not an import.  (For the module's own imports XSLT requires
    that.) *)
Inductive imports_first {E} : list (item E) -> Prop :=
| first_sheet : forall s,
    (forall l1 i l2, s = l1 ++ i :: l2 -> own l1 <> [] -> imported_item i = []) ->
    (forall b t, In (Combine b t) s -> imports_first t) ->
    imports_first s.

(** The elements of precedence [k], in order. *)
Definition of_precedence {E} (k : nat) (l : list (E * nat)) : list E := map fst (filter (fun p => snd p =? k) l).

(** ** Among the elements of [l] for which [P] holds, [x] has the highest precedence and
       no other has the same. *)
Definition winner {A} (P : A -> Prop) (prec : A -> nat) (l : list A) (x : A) : Prop :=
  exists l1 l2, l = l1 ++ x :: l2 /\ P x /\ forall y, In y (l1 ++ l2) -> P y -> prec y < prec x.
(** The same, but among several with the highest precedence the last counts. *)
Definition last_winner {A} (P : A -> Prop) (prec : A -> nat) (l : list A) (x : A) : Prop :=
  exists l1 l2, l = l1 ++ x :: l2 /\ P x /\ (forall y, In y l1 -> P y -> prec y <= prec x) /\ (forall y, In y l2 -> P y -> prec y < prec x).
(** Two different elements (at two places) for which [P] holds with the same
    precedence. *)
Definition twice {A} (P : A -> Prop) (prec : A -> nat) (l : list A) : Prop :=
  exists l1 x l2 y l3, l = l1 ++ x :: l2 ++ y :: l3 /\ P x /\ P y /\ prec x = prec y.

(** [t] is a module of the import tree of [s] other than [s] itself. *)
Inductive imports {E} : list (item E) -> list (item E) -> Prop :=
| imports_here : forall s t, In (Combine true t) s -> imports s t
| imports_included : forall s t s', In (Combine false s') s -> imports s' t -> imports s t
| imports_deeper : forall s t s', In (Combine true s') s -> imports s' t -> imports s t.
(** The module reached from [s] by following the first import of each module. *)
Inductive leftmost {E} : list (item E) -> list (item E) -> Prop :=
| leftmost_here : forall s, leftmost s s
| leftmost_import : forall s t t', leftmost t t' -> leftmost (Combine true t :: s) t'.
