(** * The streaming matcher (pushtree)

    Models /repo/lib/pushtree/pushtree_nfa.py and the events it is driven by
    (/repo/lib/src/domlette/builder.c:355-359, 501-507, 556-560, 670-676 and
    rulematch.c).

    Simplifications.  A dictionary keyed by node ids is a function, together with the
    list of its keys.  A set of node ids is a sorted list without repetitions; where
    the code iterates over one, or over a dictionary, the order is that of an arbitrary
    permutation given as an argument.  Handlers are named by their labels (the index of
    their expression, pushtree_nfa.py:632-638), so a call is recorded as the label and
    the node.  CommentTest is left out: to_nfa never creates one. *)
From Coq Require Import NArith ZArith String List Bool Lia Arith.
From Verif Require Import PyStr PyErr.
Import ListNotations.
Open Scope nat_scope.

(** ** Patterns, as the XPath parser builds them *)

(** locationpaths/nodetests.py: local_name_test 142-148, qualified_name_test 190-195,
    namespace_test 163-168, principal_type_test 130, processing_instruction_test 81-92. *)
Inductive nodetest :=
| LocalName (local : str)
| QName (prefix local : str)
| NsWild (prefix : str)
| Wild
| PiTest (target : option str)
| OtherTest.
(** Axes of pushtree_nfa.py:182, 205. *)
Inductive axis := Child | Descendant | Attribute | OtherAxis.
(** locationpaths/__init__.py:149-159, location_step; [preds] says whether there are predicates. *)
Record step := { ax : axis; nt : nodetest; preds : bool }.
(** The classes to_nfa distinguishes; '//a' has the axis of its first step changed to
    descendant (locationpaths/__init__.py:104-123). *)
Inductive path := Relative (l : list step) | Absolute (l : list step) | Anywhere (l : list step) | OtherPath.
(** A pattern: a union of paths (expressions/nodesets.py:119-130). *)
Definition pattern := list path.

(** ** Tests: pushtree_nfa.py:36-74 *)
Inductive test :=
| TAny
| TNode (ns ln : option str) (preds : bool)
| TAttr (ns ln : option str)
| TPi (target : option str).
Inductive mtype := MNode | MAttr | MPi.
Definition match_type (t : test) : mtype := match t with TAny | TNode _ _ _ => MNode | TAttr _ _ => MAttr | TPi _ => MPi end.

(** ** Sets of node ids *)
Fixpoint insert (x : nat) (s : list nat) : list nat :=
  match s with
  | [] => [x]
  | y :: r => if x <? y then x :: s else if x =? y then s else y :: insert x r
  end.
Fixpoint set_eqb (s t : list nat) : bool :=
  match s, t with [], [] => true | x :: s, y :: t => (x =? y) && set_eqb s t | _, _ => false end.
Definition memb (x : nat) (s : list nat) : bool := existsb (Nat.eqb x) s.

(** ** NFA: pushtree_nfa.py:77-135 *)
Definition edge := (nat * test)%type.
Record nfa := {
  start_edges : list edge;
  ids : list nat;                      (* the keys of edges, match_types and labeled_handlers *)
  edges : nat -> list edge;
  match_types : nat -> mtype;
  handlers : nat -> list nat;
  terminal : list nat }.
(** 78-84 *)
Definition empty_nfa : nfa := {| start_edges := []; ids := []; edges := fun _ => []; match_types := fun _ => MNode; handlers := fun _ => []; terminal := [] |}.
Definition upd {A} (f : nat -> A) (k : nat) (v : A) : nat -> A := fun n => if n =? k then v else f n.
Definition join_maps {A} (f : nat -> A) (keys : list nat) (g : nat -> A) : nat -> A := fun n => if memb n keys then g n else f n.
(** 95-98 get_edges and the append of 111, 115 *)
Definition add_edge (m : nfa) (from : option nat) (e : edge) : nfa :=
  match from with
  | None => {| start_edges := start_edges m ++ [e]; ids := ids m; edges := edges m; match_types := match_types m; handlers := handlers m; terminal := terminal m |}
  | Some k => {| start_edges := start_edges m; ids := ids m; edges := upd (edges m) k (edges m k ++ [e]); match_types := match_types m; handlers := handlers m; terminal := terminal m |}
  end.
(** 105-112; [c] is the next value of the counter. *)
Definition new_node (m : nfa) (from : option nat) (t : test) (c : nat) : nfa :=
  add_edge {| start_edges := start_edges m; ids := c :: ids m; edges := upd (edges m) c []; match_types := upd (match_types m) c (match_type t); handlers := upd (handlers m) c []; terminal := terminal m |} from (c, t).
(** 100-102 *)
Definition add_handler (m : nfa) (label : nat) : nfa :=
  {| start_edges := start_edges m; ids := ids m; edges := edges m; match_types := match_types m;
     handlers := fun n => if memb n (terminal m) then handlers m n ++ [label] else handlers m n; terminal := terminal m |}.
(** 117-127; the assertion of 118 is never violated, as the counter only grows. *)
Definition extend (m o : nfa) : nfa :=
  let e := join_maps (edges m) (ids o) (edges o) in
  {| start_edges := match start_edges m with [] => start_edges o | l => l end;
     ids := ids m ++ ids o;
     edges := fun n => if memb n (terminal m) then e n ++ start_edges o else e n;
     match_types := join_maps (match_types m) (ids o) (match_types o);
     handlers := join_maps (handlers m) (ids o) (handlers o);
     terminal := terminal o |}.
(** 129-135 *)
Definition union (m o : nfa) : nfa :=
  {| start_edges := start_edges m ++ start_edges o;
     ids := ids m ++ ids o;
     edges := join_maps (edges m) (ids o) (edges o);
     match_types := join_maps (match_types m) (ids o) (match_types o);
     handlers := join_maps (handlers m) (ids o) (handlers o);
     terminal := terminal m ++ terminal o |}.
(** 156-161 _add_initial_loop *)
Definition add_initial_loop (m : nfa) (c : nat) : nfa :=
  let start := start_edges m in
  let m := new_node m None TAny c in
  let m := fold_left (fun m e => add_edge m (Some c) e) start m in
  add_edge m (Some c) (c, TAny).

(** ** to_nfa: pushtree_nfa.py:163-252 *)

(** The namespaces argument. *)
Definition nsmap := list (str * str).
Fixpoint ns_lookup (n : nsmap) (p : str) : result str :=
  match n with [] => Err KeyError | (q, u) :: r => if str_eqb q p then Ok u else ns_lookup r p end.
Definition is_attribute (a : axis) : bool := match a with Attribute => true | _ => false end.
(** 206-209 and 56-61: AttributeTest asserts that there are no predicates. *)
Definition klass (a : axis) (ns ln : option str) (preds : bool) : result test :=
  if is_attribute a then if preds then Err AssertionError else Ok (TAttr ns ln) else Ok (TNode ns ln preds).
(** 213-234 *)
Definition step_test (n : nsmap) (s : step) : result test :=
  match nt s with
  | LocalName l => klass (ax s) None (Some l) (preds s)
  | NsWild p => do u <- ns_lookup n p ; klass (ax s) (Some u) None (preds s)
  | QName p l => do u <- ns_lookup n p ; klass (ax s) (Some u) (Some l) (preds s)
  | PiTest t => Ok (TPi t)
  | Wild => klass (ax s) None None false
  | OtherTest => Err AssertionError
  end.
(** 198-243: one step *)
Definition step_nfa (n : nsmap) (s : step) (c : nat) : result (nfa * nat) :=
  match ax s with
  | OtherAxis => Err AssertionError
  | _ =>
    do t <- step_test n s ;
    let m := new_node empty_nfa None t c in
    Ok ({| start_edges := start_edges m; ids := ids m; edges := edges m; match_types := match_types m; handlers := handlers m; terminal := [c] |}, S c)
  end.
(** 169-171, 192-194 *)
Fixpoint steps_nfa (n : nsmap) (l : list step) (m : nfa) (c : nat) : result (nfa * nat) :=
  match l with
  | [] => Ok (m, c)
  | s :: r => do x <- step_nfa n s c ; let (o, c) := x : nfa * nat in steps_nfa n r (extend m o) c
  end.
(** 178-187 *)
Fixpoint absolute_nfa (n : nsmap) (l : list step) (m : nfa) (c : nat) : result (nfa * nat) :=
  match l with
  | [] => Ok (m, c)
  | s :: r =>
    match ax s with
    | Child => do x <- step_nfa n s c ; let (o, c) := x : nfa * nat in absolute_nfa n r (extend m o) c
    | Descendant => do x <- step_nfa n s c ; let (o, c) := x : nfa * nat in absolute_nfa n r (extend m (add_initial_loop o c)) (S c)
    | _ => Err AssertionError
    end
  end.
(** 165-196, 252: one path *)
Definition path_nfa (n : nsmap) (p : path) (c : nat) : result (nfa * nat) :=
  match p with
  | Relative l | Anywhere l => do x <- steps_nfa n l empty_nfa c ; let (m, c) := x : nfa * nat in Ok (add_initial_loop m c, S c)
  | Absolute l => absolute_nfa n l empty_nfa c
  | OtherPath => Err AssertionError
  end.
(** 245-250 union_expr, and one path. *)
Fixpoint union_nfas (n : nsmap) (l : list path) (m : nfa) (c : nat) : result (nfa * nat) :=
  match l with
  | [] => Ok (m, c)
  | p :: r => do x <- path_nfa n p c ; let (o, c) := x : nfa * nat in union_nfas n r (union m o) c
  end.
Definition to_nfa (n : nsmap) (e : pattern) (c : nat) : result (nfa * nat) :=
  match e with
  | [] => Err AssertionError
  | p :: r => do x <- path_nfa n p c ; let (m, c) := x : nfa * nat in union_nfas n r m c
  end.
(** PushtreeManager: 626-640; and the union of 618-620.  [i] is the label. *)
Fixpoint manager_nfas (n : nsmap) (l : list pattern) (i : nat) (c : nat) : result (list nfa) :=
  match l with
  | [] => Ok []
  | e :: r => do x <- to_nfa n e c ; let (m, c) := x : nfa * nat in do ms <- manager_nfas n r (S i) c ; Ok (add_handler m i :: ms)
  end.
Definition machine_nfa (n : nsmap) (l : list pattern) (c : nat) : result nfa :=
  do ms <- manager_nfas n l 0 c ;
  match ms with [] => Err IndexError | m :: r => Ok (fold_left union r m) end.

(** ** Decision trees: pushtree_nfa.py:254-380 *)
Inductive tree := Leaf (s : list nat) | Branch (t : test) (if_true if_false : tree).
(** What the intersect functions answer. *)
Inductive answer := AYes | ANo | ATest (t : test).
Definition opt_eqb (a b : option str) : bool := match a, b with None, None => true | Some x, Some y => str_eqb x y | _, _ => false end.
(** 254-281; the assertions are those of 255-259. *)
Definition node_intersect (parent : option test) (child : test) : result (answer * answer) :=
  match parent with Some (TNode _ _ true) => Err AssertionError | _ =>
  match child with
  | TNode _ _ true => Err AssertionError
  | TAttr _ _ | TPi _ => Err AssertionError
  | TAny => match parent with
            | None | Some TAny => Ok (AYes, ANo)
            | Some (TNode _ _ _) => Ok (AYes, AYes)
            | Some _ => Err AssertionError
            end
  | TNode ns ln _ => match parent with
            | None | Some TAny => Ok (ATest child, ANo)
            | Some (TNode ns' ln' _) => if opt_eqb ns' ns && opt_eqb ln' ln then Ok (AYes, ANo) else Ok (ANo, ATest child)
            | Some _ => Err AssertionError
            end
  end end.
(** 283-292 *)
Definition attr_intersect (parent : option test) (child : test) : result (answer * answer) :=
  match child with
  | TAttr ns ln =>
    match parent with
    | None => Ok (ATest child, ANo)
    | Some (TAttr ns' ln') => if opt_eqb ns' ns && opt_eqb ln' ln then Ok (AYes, ANo) else Ok (ANo, ATest child)
    | Some _ => Err AssertionError
    end
  | _ => Err AssertionError
  end.
(** 294-305 *)
Definition pi_intersect (parent : option test) (child : test) : result (answer * answer) :=
  match child with
  | TPi t =>
    match parent with
    | None => Ok (ATest child, ANo)
    | Some (TPi t') => if opt_eqb t' t then Ok (AYes, ANo) else Ok (ANo, ATest child)
    | Some _ => Err AssertionError
    end
  | _ => Err AssertionError
  end.
(** 375-380 *)
Fixpoint add_to_leaves (b : tree) (id : nat) : tree :=
  match b with Leaf s => Leaf (insert id s) | Branch t x y => Branch t (add_to_leaves x id) (add_to_leaves y id) end.
(** 352-373, for one of the two subtrees [b]; [add] is the recursive call for a
    branch. *)
Definition place (a : answer) (b : tree) (id : nat) (add : test -> result tree) : result tree :=
  match a with
  | AYes => Ok (add_to_leaves b id)
  | ANo => Ok b
  | ATest t => match b with Leaf s => Ok (Branch t (Leaf (insert id s)) (Leaf s)) | Branch _ _ _ => add t end
  end.
(** 350-373 _add on a branch below the root. *)
Fixpoint add_branch (intersect : option test -> test -> result (answer * answer)) (b : tree) (t : test) (id : nat) {struct b} : result tree :=
  match b with
  | Leaf s => Ok b
  | Branch p x y =>
    do a <- intersect (Some p) t ;
    let (at_, af) := a : answer * answer in
    do x' <- place at_ x id (fun t => add_branch intersect x t id) ;
    do y' <- place af y id (fun t => add_branch intersect y t id) ;
    Ok (Branch p x' y')
  end.
(** 350-373 _add on the root, whose test is None: [b] is its true side; the false side
    stays empty. *)
Definition add_root (intersect : option test -> test -> result (answer * answer)) (b : tree) (t : test) (id : nat) : result tree :=
  do a <- intersect None t ;
  place (fst a) b id (fun t => add_branch intersect b t id).

(** StateTable: 321-348 *)
Record table := { node_tree : tree; attr_tree : tree; pi_tree : tree }.
Definition empty_table : table := {| node_tree := Leaf []; attr_tree := Leaf []; pi_tree := Leaf [] |}.
Definition table_add (tb : table) (e : edge) : result table :=
  let (id, t) := e in
  match t with
  | TAny | TNode _ _ _ => do x <- add_root node_intersect (node_tree tb) t id ; Ok {| node_tree := x; attr_tree := attr_tree tb; pi_tree := pi_tree tb |}
  | TAttr _ _ => do x <- add_root attr_intersect (attr_tree tb) t id ; Ok {| node_tree := node_tree tb; attr_tree := x; pi_tree := pi_tree tb |}
  | TPi _ => do x <- add_root pi_intersect (pi_tree tb) t id ; Ok {| node_tree := node_tree tb; attr_tree := attr_tree tb; pi_tree := x |}
  end.
Fixpoint table_of (l : list edge) (tb : table) : result table :=
  match l with [] => Ok tb | e :: r => do tb <- table_add tb e ; table_of r tb end.
(** 382-397 get_final_nodes: the leaves that are not empty, each once. *)
Fixpoint leaves (b : tree) : list (list nat) := match b with Leaf s => [s] | Branch _ x y => leaves x ++ leaves y end.
Definition set_mem (s : list nat) (l : list (list nat)) : bool := existsb (set_eqb s) l.
Fixpoint dedup (l : list (list nat)) : list (list nat) :=
  match l with [] => [] | s :: r => let r := dedup r in match s with [] => r | _ => if set_mem s r then r else s :: r end end.
Definition final_nodes (tb : table) : list (list nat) := dedup (leaves (node_tree tb) ++ leaves (attr_tree tb) ++ leaves (pi_tree tb)).

(** ** DFA: pushtree_nfa.py:429-491 *)

(** frozenset([None]), or a set of ids. *)
Inductive dstate := Start | Nodes (s : list nat).
(** 429-444 all_transitions; [ids_order] is the iteration order of the frozenset. *)
Definition all_transitions (ids_order : list nat -> list nat) (m : nfa) (q : dstate) : list edge :=
  match q with
  | Start => start_edges m
  | Nodes s => flat_map (fun i => match match_types m i with MNode => edges m i | _ => [] end) (ids_order s)
  end.
(** 477-481 *)
Fixpoint push_unseen (l : list (list nat)) (todo : list dstate) (seen : list (list nat)) : list dstate * list (list nat) :=
  match l with
  | [] => (todo, seen)
  | s :: r => if set_mem s seen then push_unseen r todo seen else push_unseen r (Nodes s :: todo) (s :: seen)
  end.
(** 455-491: the last element of todo comes first here; [done] is the result, the
    numbering being the position in it. *)
Fixpoint dfa_loop (ids_order : list nat -> list nat) (sets_order : dstate -> list (list nat) -> list (list nat)) (m : nfa)
    (fuel : nat) (todo : list dstate) (seen : list (list nat)) (done : list (dstate * table)) : result (list (dstate * table)) :=
  match todo with
  | [] => Ok done
  | q :: todo =>
    match fuel with
    | O => Err (OtherError 3)
    | S fuel =>
      do tb <- table_of (all_transitions ids_order m q) empty_table ;
      let (todo, seen) := push_unseen (sets_order q (final_nodes tb)) todo seen in
      dfa_loop ids_order sets_order m fuel todo seen (done ++ [(q, tb)])
    end
  end.
Definition nfa_to_dfa ids_order sets_order m fuel := dfa_loop ids_order sets_order m fuel [Start] [] [].

(** ** Machine states: pushtree_nfa.py:505-608 *)

(** numbering[frozenset(s)] *)
Fixpoint number_of (d : list (dstate * table)) (s : list nat) : result nat :=
  match d with
  | [] => Err KeyError
  | (Nodes s', _) :: r => if set_eqb s' s then Ok O else rmap S (number_of r s)
  | (Start, _) :: r => rmap S (number_of r s)
  end.
(** 546-562: the target of one side of a branch: 0, a negative state number, or the
    position at which the subtree is appended. *)
Definition target (d : list (dstate * table)) (b : tree) (len : Z) : result Z :=
  match b with
  | Leaf [] => Ok 0%Z
  | Leaf s => rmap (fun k => (- Z.of_nat k)%Z) (number_of d s)
  | Branch _ _ _ => Ok len
  end.
(** An element of node_ops: still a tree, or done (565). *)
Inductive op := OTree (b : tree) | OOp (ns ln : option str) (if_true if_false : Z) | OShort.
Definition is_branch (b : tree) : bool := match b with Leaf _ => false | _ => true end.
Fixpoint set_nth (l : list op) (i : nat) (x : op) : list op := match l, i with [], _ => [] | _ :: r, O => x :: r | y :: r, S i => y :: set_nth r i x end.
(** 540-570 *)
Fixpoint flatten (d : list (dstate * table)) (fuel : nat) (todo : list nat) (ops : list op) : result (list op) :=
  match todo with
  | [] => Ok ops
  | i :: todo =>
    match fuel with
    | O => Err (OtherError 3)
    | S fuel =>
      match nth_error ops i with
      | Some (OTree (Branch t x y)) =>
        do a <- target d x (Z.of_nat (List.length ops)) ;
        let ops := if is_branch x then ops ++ [OTree x] else ops in
        do b <- target d y (Z.of_nat (List.length ops)) ;
        let ops := if is_branch y then ops ++ [OTree y] else ops in
        match t with
        | TNode ns ln _ =>
          let ops := set_nth ops i (OOp ns ln a b) in
          let todo := if (0 <? b)%Z then Z.to_nat b :: todo else todo in
          let todo := if (0 <? a)%Z then Z.to_nat a :: todo else todo in
          flatten d fuel todo ops
        | _ => Err AttributeError
        end
      | _ => Err AttributeError
      end
    end
  end.
Fixpoint size (b : tree) : nat := match b with Leaf _ => 0 | Branch _ x y => S (size x + size y) end.
(** 531-572; OShort is the tuple of 538, which has four elements. *)
Definition node_ops (d : list (dstate * table)) (b : tree) : result (list op) :=
  match b with
  | Leaf [] => Ok []
  | Leaf s => do _ <- number_of d s ; Ok [OShort]
  | Branch _ _ _ => flatten d (size b) [0] [OTree b]
  end.
(** 574-584 *)
Fixpoint attr_ops (d : list (dstate * table)) (b : tree) : result (list (option str * option str * nat)) :=
  match b with
  | Leaf [] => Ok []
  | Leaf s => do k <- number_of d s ; Ok [(None, None, k)]
  | Branch (TAttr ns ln) (Leaf s) y => do k <- number_of d s ; do r <- attr_ops d y ; Ok ((ns, ln, k) :: r)
  | Branch _ _ _ => Err TypeError
  end.
(** 586-595 *)
Fixpoint pi_ops (d : list (dstate * table)) (b : tree) : result (list (option str * nat)) :=
  match b with
  | Leaf [] => Ok []
  | Leaf s => do k <- number_of d s ; Ok [(None, k)]
  | Branch (TPi t) (Leaf s) y => do k <- number_of d s ; do r <- pi_ops d y ; Ok ((t, k) :: r)
  | Branch _ _ _ => Err TypeError
  end.
(** 516-529: the labels of a state, sorted and without repetitions. *)
Definition state_handlers (m : nfa) (q : dstate) : list nat :=
  match q with Start => [] | Nodes s => fold_left (fun acc i => fold_left (fun acc l => insert l acc) (handlers m i) acc) s [] end.
(** 605 *)
Record mstate := { st_handlers : list nat; st_nodes : list op; st_attrs : list (option str * option str * nat); st_pis : list (option str * nat) }.
Fixpoint build_states (m : nfa) (d : list (dstate * table)) (rest : list (dstate * table)) : result (list mstate) :=
  match rest with
  | [] => Ok []
  | (q, tb) :: r =>
    do n <- node_ops d (node_tree tb) ;
    do a <- attr_ops d (attr_tree tb) ;
    do p <- pi_ops d (pi_tree tb) ;
    do s <- build_states m d r ;
    Ok ({| st_handlers := state_handlers m q; st_nodes := n; st_attrs := a; st_pis := p |} :: s)
  end.
(** 617-622, 642-645 *)
Definition build_machine ids_order sets_order (n : nsmap) (l : list pattern) (c : nat) (fuel : nat) : result (list mstate) :=
  do m <- machine_nfa n l c ;
  do d <- nfa_to_dfa ids_order sets_order m fuel ;
  build_states m d d.

(** ** RuleMachineHandler: pushtree_nfa.py:650-736 *)
Definition name := (option str * str)%type.
(** A parsed document; [id] stands for the node. *)
Inductive item := Elem (id : nat) (nm : name) (attrs : list name) (kids : list item) | PI (id : nat) (target : str).
Inductive call := CStart (label id : nat) | CAttr (label id : nat) (nm : name) | CEnd (label id : nat) | CPi (label id : nat).

(** 678-679, 708-709 *)
Definition test_name (ns ln : option str) (nm : name) : bool :=
  match ns with None => true | Some u => opt_eqb (Some u) (fst nm) end && match ln with None => true | Some l => str_eqb l (snd nm) end.
(** 674-691; [None] is a dead end. *)
Fixpoint run_ops (fuel : nat) (ops : list op) (i : nat) (nm : name) : result (option nat) :=
  match fuel with
  | O => Err (OtherError 3)
  | S fuel =>
    match nth_error ops i with
    | Some (OOp ns ln a b) =>
      let k := if test_name ns ln nm then a else b in
      if (k =? 0)%Z then Ok None
      else if (k <? 0)%Z then Ok (Some (Z.to_nat (- k)))
      else run_ops fuel ops (Z.to_nat k) nm
    | Some OShort => Err ValueError
    | Some (OTree _) => Err TypeError
    | None => Err IndexError
    end
  end.
Definition get_state (ms : list mstate) (k : nat) : result mstate := match nth_error ms k with Some s => Ok s | None => Err IndexError end.
(** 705-716 *)
Fixpoint attr_calls (ms : list mstate) (id : nat) (nm : name) (ops : list (option str * option str * nat)) : result (list call) :=
  match ops with
  | [] => Ok []
  | (ns, ln, k) :: r =>
    do here <- (if test_name ns ln nm then do s <- get_state ms k ; Ok (map (fun l => CAttr l id nm) (st_handlers s)) else Ok []) ;
    do rest <- attr_calls ms id nm r ;
    Ok (here ++ rest)
  end.
Fixpoint attrs_calls (ms : list mstate) (id : nat) (attrs : list name) (ops : list (option str * option str * nat)) : result (list call) :=
  match attrs with
  | [] => Ok []
  | a :: r => do x <- attr_calls ms id a ops ; do y <- attrs_calls ms id r ops ; Ok (x ++ y)
  end.
(** 658-716 startElementNS: from the state on top of the stack ([None] is -1), the
    state pushed and the calls made. *)
Definition start_element (ms : list mstate) (top : option nat) (id : nat) (nm : name) (attrs : list name) : result (option nat * list call) :=
  match top with
  | None => Ok (None, [])
  | Some k =>
    do s <- get_state ms k ;
    match st_nodes s with
    | [] => Ok (None, [])
    | ops =>
      do next <- run_ops (S (List.length ops)) ops 0 nm ;
      match next with
      | None => Ok (None, [])
      | Some j =>
        do s' <- get_state ms j ;
        do a <- attrs_calls ms id attrs (st_attrs s') ;
        Ok (Some j, map (fun l => CStart l id) (st_handlers s') ++ a)
      end
    end
  end.
(** 718-725 endElementNS; [top] is the state popped. *)
Definition end_element (ms : list mstate) (top : option nat) (id : nat) : result (list call) :=
  match top with
  | None => Ok []
  | Some k => do s <- get_state ms k ; Ok (map (fun l => CEnd l id) (rev (st_handlers s)))
  end.
(** 727-736 processingInstruction *)
Fixpoint pi_calls (ms : list mstate) (id : nat) (target : str) (ops : list (option str * nat)) : result (list call) :=
  match ops with
  | [] => Ok []
  | (t, k) :: r =>
    do here <- (if opt_eqb t (Some target) then do s <- get_state ms k ; Ok (map (fun l => CPi l id) (st_handlers s)) else Ok []) ;
    do rest <- pi_calls ms id target r ;
    Ok (here ++ rest)
  end.
Definition processing_instruction (ms : list mstate) (top : option nat) (id : nat) (target : str) : result (list call) :=
  match top with
  | None => Ok []
  | Some k => do s <- get_state ms k ; pi_calls ms id target (st_pis s)
  end.

(** The events, with the stack of states (its top first). *)
Inductive event := EStart (id : nat) (nm : name) (attrs : list name) | EEnd (id : nat) | EPi (id : nat) (target : str).
Definition handle (ms : list mstate) (stack : list (option nat)) (e : event) : result (list (option nat) * list call) :=
  match stack with
  | [] => Err IndexError
  | top :: rest =>
    match e with
    | EStart id nm attrs => do x <- start_element ms top id nm attrs ; let (s, c) := x : option nat * list call in Ok (s :: stack, c)
    | EEnd id => do c <- end_element ms top id ; Ok (rest, c)
    | EPi id t => do c <- processing_instruction ms top id t ; Ok (stack, c)
    end
  end.
Fixpoint handle_all (ms : list mstate) (stack : list (option nat)) (l : list event) : result (list (option nat) * list call) :=
  match l with
  | [] => Ok (stack, [])
  | e :: r =>
    do x <- handle ms stack e ; let (stack, c) := x : list (option nat) * list call in
    do y <- handle_all ms stack r ; let (stack, c') := y : list (option nat) * list call in
    Ok (stack, c ++ c')
  end.
(** The parser's events for a document; builder.c:501-507, 556-560, 670-676. *)
Fixpoint events (i : item) : list event :=
  match i with
  | Elem id nm attrs kids => EStart id nm attrs :: flat_map events kids ++ [EEnd id]
  | PI id t => [EPi id t]
  end.
(** pushtree_nfa.py:654-655 startDocument, then the events. *)
Definition run_machine (ms : list mstate) (doc : list item) : result (list call) :=
  do x <- handle_all ms [Some 0] (flat_map events doc) ; Ok (snd x).
(** Everything: compile the patterns, then run. *)
Definition pushtree ids_order sets_order (n : nsmap) (l : list pattern) (c fuel : nat) (doc : list item) : result (list call) :=
  do ms <- build_machine ids_order sets_order n l c fuel ; run_machine ms doc.
