(** * Specification of the bindery: what a Python name on a node stands for *)
From Coq Require Import NArith ZArith String List Bool Lia Arith.
From Verif Require Import PyStr PyErr BdModel.
Import ListNotations.
Open Scope N_scope.

(** ** Python identifiers *)
Definition letter (c : N) : bool := ((97 <=? c) && (c <=? 122)) || ((65 <=? c) && (c <=? 90)) || (c =? 95).
Definition digit (c : N) : bool := (48 <=? c) && (c <=? 57).
Definition identifier (s : str) : Prop :=
  match s with [] => False | c :: s' => letter c = true /\ Forall (fun c => letter c || digit c = true) s' end.
(** A local name of XML does not begin with a digit and is not empty. *)
Definition plain_start (local : str) : Prop := match local with [] => False | c :: _ => digit c = false end.

(** ** The children of a name *)
Definition elem_name (n : bnode) : option name := match n with BElem _ nm _ _ _ => Some nm | _ => None end.
Definition positions_of (nm : name) (kids : list bnode) : list nat :=
  filter (fun i => match nth_error kids i with Some k => match elem_name k with Some m => name_eqb m nm | None => false end | None => false end)
    (seq 0 (List.length kids)).
(** What [d] stands for on [obj]: its first child element of that name, the
    value of its attribute, or None. *)
Definition meaning (obj : bnode) (d : descr) : pyval -> Prop :=
  match d with
  | DElem nm => fun v => v = match positions_of nm (kids_of obj) with i :: _ => VChild i | [] => VNone end
  | DAttr nm => fun v =>
    match obj with
    | BElem _ _ _ atts _ =>
      match v with VString s => In (nm, s) atts | VNone => ~ In nm (map fst atts) | VChild _ => False end
    | _ => False
    end
  end.

(** ** The names that occur, class by class *)
Fixpoint used_in (n : bnode) : list (cls * descr) :=
  match n with
  | BElem f nm _ atts kids =>
    map (fun a => (CElem f nm, DAttr (fst a))) atts
    ++ flat_map (fun k => match elem_name k with Some m => [(CElem f nm, DElem m)] | None => [] end) kids
    ++ flat_map used_in kids
  | BDoc f kids =>
    flat_map (fun k => match elem_name k with Some m => [(CDoc f, DElem m)] | None => [] end) kids
    ++ flat_map used_in kids
  | _ => []
  end.
(** The names an operation on [obj] brings in. *)
Definition op_uses (obj : bnode) (o : op) : list (cls * descr) :=
  match o, class_of obj with
  | Insert _ sub, Some c => used_in sub ++ match elem_name sub with Some m => [(c, DElem m)] | None => [] end
  | SetAttr nm _, Some (CElem f m) => [(CElem f m, DAttr nm)]
  | SetItem FElem nm _, Some c => [(c, DElem nm)]
  | SetItem FAttr nm _, Some (CElem f m) | SetItem FNone nm _, Some (CElem f m) => [(CElem f m, DAttr nm)]
  | SetItem FNone nm _, Some (CDoc f) => [(CDoc f, DElem nm)]
  | _, _ => []
  end.
Section Uses.
  Variable exclude : list str.
  Fixpoint uses (prog : list (list nat * op)) (r : registry) (doc : bnode) : list (cls * descr) :=
    match prog with
    | [] => []
    | (p, o) :: prog' =>
      match at_path p doc with Some obj => op_uses obj o | None => [] end
      ++ (let '(r', doc', _) := step exclude p o r doc in uses prog' r' doc')
    end.
  (** All names that occurred in a session. *)
  Definition session_uses (doc : bnode) (prog : list (list nat * op)) : list (cls * descr) :=
    used_in doc ++ match build exclude [] doc with Ok r => uses prog r doc | Err _ => [] end.
  (** In class [c] no two names that occurred have the same Python name. *)
  Definition clash_free (c : cls) (l : list (cls * descr)) : Prop :=
    forall d d', In (c, d) l -> In (c, d') l ->
      py exclude (snd (descr_name d)) = py exclude (snd (descr_name d')) -> d = d'.
End Uses.
(** Names that begin with xml are kept for the library. *)
Definition library_name (p : str) : Prop := exists s, p = lit "xml" ++ s.

(** ** Replacing the container at a path *)
Fixpoint replace_at (p : list nat) (x : bnode) (n : bnode) : bnode :=
  match p with
  | [] => x
  | i :: p' => match nth_error (kids_of n) i with Some k => with_kids n (set_nth i (replace_at p' x k) (kids_of n)) | None => n end
  end.
