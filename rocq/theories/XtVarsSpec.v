(** * Specification of C58 and C59: what a stylesheet means when variables are scoped as
      XSLT 1.0, 11.5 says

    There is no context that is changed: an instruction is given the variables in scope
    and the focus, and yields what it writes.  A template sees the global variables and
    its own parameters and variables. *)
From Coq Require Import NArith String List Bool Lia Arith.
From Verif Require Import PyStr PyErr XtVars.
Import ListNotations.
Local Open Scope nat_scope.

Section Spec.
Variables V Nd : Type.
Notation env := (env V).
Notation expr := (expr V Nd).
Notation instr := (instr V Nd).
Notation binding := (binding V Nd).
Notation template := (template V Nd).
Notation focus := (focus Nd).
Variable w : world V Nd.
Variable G : env.

Definition value_of (e : expr) (rho : env) (f : focus) : result V :=
  match all_values rho (reads e) with None => Err UndefinedVariable | Some l => Ok (compute e f l) end.
Fixpoint params_of (ps : list (str * expr)) (rho : env) (f : focus) (acc : env) : result env :=
  match ps with [] => Ok acc | (n, e) :: ps' => do v <- value_of e rho f ; params_of ps' rho f ((n, v) :: acc) end.

Section Bodies.
Variable call : template -> env -> focus -> result (list V).
Variable apply : list Nd -> env -> focus -> result (list V).
Fixpoint each_node {A} (f : A -> nat -> result (list V)) (l : list A) (position : nat) : result (list V) :=
  match l with [] => Ok [] | x :: l' => do o <- f x position ; do o' <- each_node f l' (S position) ; Ok (o ++ o') end.
(** A sequence of instructions: a variable is in scope for what follows it. *)
Fixpoint means (i : instr) (rho : env) (f : focus) {struct i} : result (list V * env) :=
  let all := (fix all (l : list instr) (rho : env) (f : focus) : result (list V) :=
    match l with [] => Ok [] | j :: l' => do x <- means j rho f ; do o <- all l' (snd x) f ; Ok (fst x ++ o) end) in
  let only := rmap (fun o => (o, rho)) in
  match i with
  | Text v => Ok ([v], rho)
  | Value e => do v <- value_of e rho f ; Ok ([v], rho)
  | Element body => only (all body rho f)
  | Var n (Select e) => do v <- value_of e rho f ; Ok ([], (n, v) :: rho)
  | Var n (Content body) => do o <- all body rho f ; Ok ([], (n, tree_of w o) :: rho)
  | Var n Empty => Ok ([], (n, empty_string w) :: rho)
  | If e body => do v <- value_of e rho f ; if truth w v then only (all body rho f) else Ok ([], rho)
  | Choose whens other =>
      (fix choose (l : list (expr * list instr)) : result (list V * env) :=
         match l with
         | [] => only (all other rho f)
         | (e, body) :: l' => do v <- value_of e rho f ; if truth w v then only (all body rho f) else choose l'
         end) whens
  | ForEach e body =>
      do v <- value_of e rho f ;
      let nodes := nodes_of w v in
      only (each_node (fun n position => all body rho (Focus n position (List.length nodes) n)) nodes 1)
  | Call _ n ps =>
      match named w n with
      | None => Err NamedTemplateNotFound
      | Some t => do params <- params_of ps rho f [] ; only (call t params f)
      end
  | Apply e ps =>
      do params <- params_of ps rho f [] ; do v <- value_of e rho f ; only (apply (nodes_of w v) params f)
  end.
Fixpoint means_all (l : list instr) (rho : env) (f : focus) : result (list V) :=
  match l with [] => Ok [] | i :: l' => do x <- means i rho f ; do o <- means_all l' (snd x) f ; Ok (fst x ++ o) end.
(** The parameters: what is given, or else the default. *)
Fixpoint bind_params (ps : list (str * binding)) (given : env) (rho : env) (f : focus) : result env :=
  match ps with
  | [] => Ok rho
  | (n, b) :: ps' =>
      match lookup given n with
      | Some v => bind_params ps' given ((n, v) :: rho) f
      | None => do x <- means (Var n b) rho f ; bind_params ps' given (snd x) f
      end
  end.
End Bodies.

(** Calling a template, and applying templates to nodes; the fuel bounds the depth of
    calls. *)
Fixpoint calls (fuel : nat) (t : template) (given : env) (f : focus) {struct fuel} : result (list V) :=
  match fuel with
  | O => Err OutOfFuel
  | S fuel' =>
      do rho <- bind_params (calls fuel') (applies fuel') (t_params t) given G f ;
      means_all (calls fuel') (applies fuel') (t_body t) rho f
  end
with applies (fuel : nat) (nodes : list Nd) (given : env) (f : focus) {struct fuel} : result (list V) :=
  match fuel with
  | O => Err OutOfFuel
  | S fuel' =>
      each_node (fun n position =>
        match rule w n with
        | Some t => calls fuel' t given (Focus n position (List.length nodes) n)
        | None => do o <- applies fuel' (children w n) [] (Focus n position (List.length nodes) n) ; Ok (string_of w n ++ o)
        end) nodes 1
  end.

(** ** Well-formed stylesheets *)

(** The names of global variables; no local variable or parameter may have one. *)
Variable GN : list str.
(** An expression reads only variables in scope and does not use current(). *)
Definition good_expr (scope : list str) (e : expr) : Prop :=
  incl (reads e) scope /\
  forall n p s c c' l, compute e (Focus n p s c) l = compute e (Focus n p s c') l.
Definition good_params (scope : list str) (ps : list (str * expr)) : Prop := Forall (fun p => good_expr scope (snd p)) ps.
Definition declared (i : instr) : list str := match i with Var n _ => [n] | _ => [] end.
(** [tail] is the template whose own calls may be marked as tail calls here, if any. *)
Fixpoint good (tail : option template) (scope : list str) (i : instr) {struct i} : Prop :=
  let all := (fix all (tail : option template) (scope : list str) (l : list instr) : Prop :=
    match l with
    | [] => True
    | j :: l' => good (match l' with [] => tail | _ => None end) scope j /\ all tail (declared j ++ scope) l'
    end) in
  match i with
  | Text _ => True
  | Value e => good_expr scope e
  | Element body => all None scope body
  | Var n b => ~ In n GN /\ match b with Select e => good_expr scope e | Content body => all None scope body | Empty => True end
  | If e body => good_expr scope e /\ all tail scope body
  | Choose whens other =>
      (fix choose (l : list (expr * list instr)) : Prop :=
         match l with [] => all tail scope other | (e, body) :: l' => good_expr scope e /\ all tail scope body /\ choose l' end) whens
  | ForEach e body => good_expr scope e /\ all None scope body
  | Call marked n ps => good_params scope ps /\ (marked = true -> exists t, tail = Some t /\ named w n = Some t)
  | Apply e ps => good_params scope ps /\ good_expr scope e
  end.
Fixpoint good_all (tail : option template) (scope : list str) (l : list instr) : Prop :=
  match l with
  | [] => True
  | j :: l' => good (match l' with [] => tail | _ => None end) scope j /\ good_all tail (declared j ++ scope) l'
  end.
Fixpoint good_defaults (scope : list str) (ps : list (str * binding)) : Prop :=
  match ps with [] => True | (n, b) :: ps' => good None scope (Var n b) /\ good_defaults (n :: scope) ps' end.
Definition good_template (t : template) : Prop :=
  good_defaults GN (t_params t) /\ good_all (Some t) (rev (map fst (t_params t)) ++ GN) (t_body t).
Definition good_stylesheet : Prop :=
  (forall n t, rule w n = Some t -> good_template t) /\ (forall n t, named w n = Some t -> good_template t).

(** ** Global variables: the values that follow from the definitions, in whatever order they
       are written.  [init] holds the parameters given from outside. *)
Definition global_value (f : focus) (g : global V Nd) (rho : env) : result V :=
  match snd g with
  | Select e => value_of e rho f
  | Content body => rmap (tree_of w) (means_all (fun _ _ _ => Err OutOfFuel) (fun _ _ _ => Err OutOfFuel) body rho f)
  | Empty => Ok (empty_string w)
  end.
(** Content that calls no template, applies none, visits no other node and declares no
    variable of its own. *)
Fixpoint simple (i : instr) : Prop :=
  let all := fix all (l : list instr) : Prop := match l with [] => True | j :: l' => simple j /\ all l' end in
  match i with
  | Text _ | Value _ => True
  | Element body => all body
  | If _ body => all body
  | Choose whens other =>
      (fix choose (l : list (expr * list instr)) : Prop := match l with [] => all other | (_, body) :: l' => all body /\ choose l' end) whens
  | Var _ _ | ForEach _ _ | Call _ _ _ | Apply _ _ => False
  end.
Fixpoint simple_all (l : list instr) : Prop := match l with [] => True | j :: l' => simple j /\ simple_all l' end.
Definition simple_global (g : global V Nd) : Prop := match snd g with Content body => simple_all body | _ => True end.
Variable meaning : global V Nd -> env -> result V.
Inductive derives (elements : list (global V Nd)) (init : env) : str -> V -> Prop :=
| derives_given : forall n v, lookup init n = Some v -> derives elements init n v
| derives_from : forall g rho v, In g elements -> lookup init (fst g) = None ->
    (forall m u, lookup rho m = Some u -> derives elements init m u) -> meaning g rho = Ok v ->
    derives elements init (fst g) v.
End Spec.

Arguments value_of {V Nd}. Arguments params_of {V Nd}. Arguments each_node {V A}. Arguments means {V Nd}. Arguments means_all {V Nd}.
Arguments bind_params {V Nd}. Arguments calls {V Nd}. Arguments applies {V Nd}. Arguments good_expr {V Nd}. Arguments good_params {V Nd}.
Arguments declared {V Nd}. Arguments good {V Nd}. Arguments good_all {V Nd}. Arguments good_defaults {V Nd}. Arguments good_template {V Nd}.
Arguments good_stylesheet {V Nd}. Arguments global_value {V Nd}. Arguments simple {V Nd}. Arguments simple_all {V Nd}. Arguments simple_global {V Nd}.
Arguments derives {V Nd}.
