(** * Model of variables, parameters and the calling of templates: the instantiate
      methods of lib/xslt/tree/*.py with the mutable context they share, the nodes that
      save and restore variables (lib/xslt/reader/__init__.py) and
      transform_element.prime

    Expressions, nodes and values are parameters: an expression has the variables it
    reads and a function of the focus and of their values.  The check that the variables
    exist is made before anything is evaluated (variable_reference.compile,
    basics.py:94-122), so it comes first here; variable references within predicates, which are
    checked later, are not covered.  What is written is a list of values; writers,
    namespaces, context.instruction, context.template and messages are left out.
    Dictionaries are values: no dictionary that was saved is changed before it is restored,
    since what is assigned to is always a copy or the dictionary of global variables.
    [rule] stands for the choice of a template rule (XtDispatch.v) without the modes. *)
From Coq Require Import NArith ZArith String List Bool Lia Arith.
From Verif Require Import PyStr PyErr.
Import ListNotations.
Local Open Scope nat_scope.

Definition UndefinedVariable : exn := OtherError 24.
Definition CircularVariable : exn := OtherError 25.
Definition NamedTemplateNotFound : exn := OtherError 26.
Definition OutOfFuel : exn := OtherError 3.

Section Model.
Variables V Nd : Type.

(** The focus: context.node, position, size and current_node. *)
Record focus := Focus { f_node : Nd; f_position : nat; f_size : nat; f_current : Nd }.
Record expr := Expr { reads : list str; compute : focus -> list V -> V }.
(** A dictionary of variables, newest first. *)
Definition env := list (str * V).
Fixpoint lookup (e : env) (n : str) : option V := match e with [] => None | (m, v) :: e' => if str_eqb m n then Some v else lookup e' n end.

(** xsl:variable and xsl:param: a select attribute, content, or neither
    (variable_elements.py:28-42).  [Call tail] is call-template with [_tail_recursive];
    with-param without select is not modelled. *)
Inductive instr :=
| Text (v : V)
| Value (e : expr)
| Element (body : list instr)
| Var (name : str) (b : binding)
| If (test : expr) (body : list instr)
| Choose (whens : list (expr * list instr)) (otherwise : list instr)
| ForEach (select : expr) (body : list instr)
| Call (tail : bool) (name : str) (params : list (str * expr))
| Apply (select : expr) (params : list (str * expr))
with binding :=
| Select (e : expr)
| Content (body : list instr)
| Empty.
Record template := Template { t_params : list (str * binding); t_body : list instr }.
(** What the stylesheet and the source tree provide: [truth] and [nodes_of] convert values,
    [tree_of] makes a result tree fragment, [string_of] is the text the built-in rule
    writes for a node, [children] what it goes on to. *)
Record world := World {
  truth : V -> bool; nodes_of : V -> list Nd; tree_of : list V -> V; empty_string : V;
  string_of : Nd -> list V; children : Nd -> list Nd;
  rule : Nd -> option template; named : str -> option template }.

(** The context.  [copied] tells whether context.variables is another object than
    context.global_variables shows, which is [s_global]. *)
Record state := State { s_focus : focus; s_vars : env; s_copied : bool; s_global : env; s_rec : option env }.
Definition set_focus (s : state) (f : focus) : state := State f (s_vars s) (s_copied s) (s_global s) (s_rec s).
Definition set_vars (s : state) (v : env) (c : bool) : state := State (s_focus s) v c (s_global s) (s_rec s).
Definition set_rec (s : state) (r : option env) : state := State (s_focus s) (s_vars s) (s_copied s) (s_global s) r.
Definition assign (s : state) (n : str) (v : V) : state :=
  State (s_focus s) ((n, v) :: s_vars s) (s_copied s) (s_global s) (s_rec s).

Inductive outcome := Done (s : state) (out : list V) | Fail (e : exn) (s : state).
Definition andthen (o : outcome) (k : state -> outcome) : outcome :=
  match o with
  | Fail e s => Fail e s
  | Done s out => match k s with Done s' out' => Done s' (out ++ out') | Fail e s' => Fail e s' end
  end.

Section Run.
Variable w : world.

(** variable_reference.compile and evaluation, basics.py:94-122. *)
Fixpoint all_values (e : env) (ns : list str) : option (list V) :=
  match ns with
  | [] => Some []
  | n :: ns' => match lookup e n with
                | None => None
                | Some v => match all_values e ns' with None => None | Some l => Some (v :: l) end
                end
  end.
Definition evaluate (e : expr) (s : state) : option V :=
  match all_values (s_vars s) (reads e) with None => None | Some l => Some (compute e (s_focus s) l) end.
Definition with_value (e : expr) (s : state) (k : V -> outcome) : outcome :=
  match evaluate e s with None => Fail UndefinedVariable s | Some v => k v end.
(** The parameters of call-template and apply-templates,
    call_template_element.py:45-48 and apply_templates_element.py:39-42. *)
Fixpoint with_params (ps : list (str * expr)) (s : state) (acc : env) (k : env -> outcome) : outcome :=
  match ps with
  | [] => k acc
  | (n, e) :: ps' => with_value e s (fun v => with_params ps' s ((n, v) :: acc) k)
  end.

(** endElementNS, reader/__init__.py:548-556: an element with variables among its children
    gets a push_variables_node and a pop_variables_node (28-56). *)
Definition is_var (i : instr) : bool := match i with Var _ _ => true | _ => false end.
Definition declares (body : list instr) : bool := existsb is_var body.

(** The instantiate methods.  [call] is template_element.instantiate, [apply]
    transform_element.apply_templates. *)
Section Bodies.
Variable call : template -> env -> state -> outcome.
Variable apply : list Nd -> env -> state -> outcome.
(** for_each_element.py:53-59. *)
Fixpoint each (run : state -> outcome) (nodes : list Nd) (position size : nat) (s : state) : outcome :=
  match nodes with
  | [] => Done s []
  | n :: nodes' => andthen (run (set_focus s (Focus n position size n))) (each run nodes' (S position) size)
  end.
Fixpoint run (i : instr) (s : state) {struct i} : outcome :=
  (* process_children, xslt_element.c:56-84, with the nodes that save and restore *)
  let process := fun (body : list instr) (s : state) =>
    let all := (fix all (l : list instr) (s : state) : outcome :=
                  match l with [] => Done s [] | j :: l' => andthen (run j s) (all l') end) in
    if declares body
    then match all body (set_vars s (s_vars s) true) with
         | Done s' out => Done (set_vars s' (s_vars s) (s_copied s)) out
         | Fail e s' => Fail e s'
         end
    else all body s in
  match i with
  | Text v => Done s [v]                                                  (* xslt_text *)
  | Value e => with_value e s (fun v => Done s [v])                       (* value_of_element.py *)
  | Element body => process body s                                        (* literal_element.py:67 *)
  | Var n b =>                                                            (* variable_elements.py:28-42 *)
      match b with
      | Select e => with_value e s (fun v => Done (assign s n v) [])
      | Content body => match process body s with Done s' out => Done (assign s' n (tree_of w out)) [] | Fail e s' => Fail e s' end
      | Empty => Done (assign s n (empty_string w)) []
      end
  | If e body => with_value e s (fun v => if truth w v then process body s else Done s [])     (* if_element.py:18-23 *)
  | Choose whens other =>                                                 (* choose_elements.py:43-54 *)
      (fix choose (l : list (expr * list instr)) : outcome :=
         match l with
         | [] => process other s
         | (e, body) :: l' => with_value e s (fun v => if truth w v then process body s else choose l')
         end) whens
  | ForEach e body =>                                                     (* for_each_element.py:36-63 *)
      with_value e s (fun v =>
        match each (process body) (nodes_of w v) 1 (List.length (nodes_of w v)) s with
        | Done s' out => Done (set_focus s' (s_focus s)) out
        | Fail x s' => Fail x s'
        end)
  | Call tail n ps =>                                                     (* call_template_element.py:29-55 *)
      match named w n with
      | None => Fail NamedTemplateNotFound s
      | Some t => with_params ps s [] (fun params => if tail then Done (set_rec s (Some params)) [] else call t params s)
      end
  | Apply e ps =>                                                         (* apply_templates_element.py:38-57 *)
      with_params ps s [] (fun params => with_value e s (fun v => apply (nodes_of w v) params s))
  end.
Fixpoint run_all (l : list instr) (s : state) : outcome :=
  match l with [] => Done s [] | i :: l' => andthen (run i s) (run_all l') end.
Definition process (body : list instr) (s : state) : outcome :=
  if declares body
  then match run_all body (set_vars s (s_vars s) true) with
       | Done s' out => Done (set_vars s' (s_vars s) (s_copied s)) out
       | Fail e s' => Fail e s'
       end
  else run_all body s.
(** template_element.instantiate, template_element.py:95-99. *)
Fixpoint set_params (ps : list (str * binding)) (given : env) (s : state) : outcome :=
  match ps with
  | [] => Done s []
  | (n, b) :: ps' =>
      match lookup given n with
      | Some v => set_params ps' given (assign s n v)
      | None => andthen (run (Var n b) s) (set_params ps' given)
      end
  end.
(** transform_element.apply_templates, transform_element.py:599-677, for one node. *)
Definition apply_one (n : Nd) (params : env) (s : state) : outcome :=
  match rule w n with
  | Some t =>
      match call t params (set_vars s (s_global s) false) with
      | Done s' out => Done (set_vars s' (s_vars s) (s_copied s)) out
      | Fail e s' => Fail e (set_vars s' (s_vars s) (s_copied s))
      end
  | None =>
      match apply (children w n) [] s with
      | Done s' out => Done s' (string_of w n ++ out)
      | Fail e s' => Fail e s'
      end
  end.
Fixpoint apply_each (nodes : list Nd) (params : env) (position size : nat) (s : state) : outcome :=
  match nodes with
  | [] => Done s []
  | n :: nodes' => andthen (apply_one n params (set_focus s (Focus n position size n))) (apply_each nodes' params (S position) size)
  end.
End Bodies.

(** template_element.instantiate, template_element.py:84-112: the loop; one unit of fuel per
    round.  [_instructions] has no nodes that save and restore if there are parameters
    (42-45). *)
Definition body_of (t : template) (c : template -> env -> state -> outcome) (a : list Nd -> env -> state -> outcome) (s : state) : outcome :=
  match t_params t with [] => process c a (t_body t) s | _ => run_all c a (t_body t) s end.
Definition restore_focus (s0 s : state) : state :=
  set_focus s (Focus (f_node (s_focus s0)) (f_position (s_focus s0)) (f_size (s_focus s0)) (f_current (s_focus s))).
(** The code before and after the loop, 88-90 and 110-111. *)
Definition enter (rounds : template -> env -> state -> outcome) (t : template) (params : env) (s : state) : outcome :=
  match t_params t with
  | [] => rounds t params s
  | _ => match rounds t params (set_vars s (s_vars s) true) with
         | Done s' out => Done (set_vars s' (s_vars s) (s_copied s)) out
         | Fail e s' => Fail e s'
         end
  end.
Fixpoint rounds (fuel : nat) (t : template) (params : env) (s : state) {struct fuel} : outcome :=
  match fuel with
  | O => Fail OutOfFuel s
  | S fuel' =>
      andthen (set_params (enter (rounds fuel')) (apply_templates fuel') (t_params t) params (set_rec s None)) (fun s1 =>
      andthen (body_of t (enter (rounds fuel')) (apply_templates fuel') s1) (fun s2 =>
      match s_rec s2 with None => Done s2 [] | Some params' => rounds fuel' t params' s2 end))
  end
(** transform_element.apply_templates, transform_element.py:577-682: context.node, position
    and size are restored, current_node is not. *)
with apply_templates (fuel : nat) (nodes : list Nd) (params : env) (s : state) {struct fuel} : outcome :=
  match fuel with
  | O => Fail OutOfFuel s
  | S fuel' =>
      match apply_each (enter (rounds fuel')) (apply_templates fuel') nodes params 1 (List.length nodes) s with
      | Done s' out => Done (restore_focus s s') out
      | Fail e s' => Fail e s'
      end
  end.
Definition instantiate (fuel : nat) : template -> env -> state -> outcome := enter (rounds fuel).

(** ** Global variables: transform_element.prime, transform_element.py:463-493.
    [processed] is the dictionary context.variables is at first, which is the one
    global_variables shows.  [instantiate_global] is element.instantiate: the value goes to
    context.variables. *)
Definition global := (str * binding)%type.
Definition instantiate_global (fuel : nat) (g : global) (s : state) : outcome :=
  match run (instantiate fuel) (apply_templates fuel) (Var (fst g) (snd g)) s with
  | Fail e s' => Fail e s'
  | Done s' out => Done (if s_copied s' then s' else State (s_focus s') (s_vars s') false (s_vars s') (s_rec s')) out
  end.
(** One pass over the elements: the state and what was deferred.  [deferred == elements] is a comparison of lengths,
    since the one list is a part of the other. *)
Definition is_undefined (e : exn) : bool := match e with OtherError c => N.eqb c 24 | _ => false end.
Fixpoint pass (inst : global -> state -> outcome) (elements : list global) (s : state) : result (state * list global) :=
  match elements with
  | [] => Ok (s, [])
  | g :: l =>
      match lookup (s_global s) (fst g) with
      | Some _ => pass inst l s
      | None =>
          match inst g s with
          | Done s' _ => pass inst l s'
          | Fail e s' => if is_undefined e then do x <- pass inst l s' ; Ok (fst x, g :: snd x) else Err e
          end
      end
  end.
Fixpoint prime (inst : global -> state -> outcome) (passes : nat) (elements : list global) (s : state) : result state :=
  match passes with
  | O => Err OutOfFuel
  | S passes' =>
      do x <- pass inst elements s ;
      match snd x with
      | [] => Ok (fst x)
      | deferred => if List.length deferred =? List.length elements then Err CircularVariable else prime inst passes' deferred (fst x)
      end
  end.
End Run.
End Model.
Arguments Focus {Nd}. Arguments f_node {Nd}. Arguments f_position {Nd}. Arguments f_size {Nd}. Arguments f_current {Nd}.
Arguments Expr {V Nd}. Arguments reads {V Nd}. Arguments compute {V Nd}. Arguments lookup {V}.
Arguments Text {V Nd}. Arguments Value {V Nd}. Arguments Element {V Nd}. Arguments Var {V Nd}. Arguments If {V Nd}. Arguments Choose {V Nd}.
Arguments ForEach {V Nd}. Arguments Call {V Nd}. Arguments Apply {V Nd}. Arguments Select {V Nd}. Arguments Content {V Nd}. Arguments Empty {V Nd}.
Arguments Template {V Nd}. Arguments t_params {V Nd}. Arguments t_body {V Nd}.
Arguments World {V Nd}. Arguments truth {V Nd}. Arguments nodes_of {V Nd}. Arguments tree_of {V Nd}. Arguments empty_string {V Nd}.
Arguments string_of {V Nd}. Arguments children {V Nd}. Arguments rule {V Nd}. Arguments named {V Nd}.
Arguments State {V Nd}. Arguments s_focus {V Nd}. Arguments s_vars {V Nd}. Arguments s_copied {V Nd}. Arguments s_global {V Nd}. Arguments s_rec {V Nd}.
Arguments set_focus {V Nd}. Arguments set_vars {V Nd}. Arguments set_rec {V Nd}. Arguments assign {V Nd}. Arguments Done {V Nd}. Arguments Fail {V Nd}.
Arguments andthen {V Nd}. Arguments all_values {V}. Arguments evaluate {V Nd}. Arguments with_value {V Nd}. Arguments with_params {V Nd}.
Arguments is_var {V Nd}. Arguments declares {V Nd}. Arguments each {V Nd}. Arguments run {V Nd}. Arguments run_all {V Nd}. Arguments process {V Nd}.
Arguments set_params {V Nd}. Arguments apply_one {V Nd}. Arguments apply_each {V Nd}. Arguments body_of {V Nd}. Arguments restore_focus {V Nd}.
Arguments enter {V Nd}. Arguments rounds {V Nd}. Arguments apply_templates {V Nd}. Arguments instantiate {V Nd}. Arguments instantiate_global {V Nd}.
Arguments pass {V Nd}. Arguments prime {V Nd}.
