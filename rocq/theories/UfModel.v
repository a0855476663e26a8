(** * Model of user-defined functions

    func:function and func:result of EXSLT, /repo/lib/xslt/exslt/functions.py, with xsl:variable, xsl:param
    (/repo/lib/xslt/tree/variable_elements.py) and xsl:choose in their bodies.  Names are numbers.  Values, their truth and
    the operators of XPath are parameters; the focus, namespaces and the output are left out.  [None] stands for a run that fails or for one that needs
    more steps than given; a function that fails leaves the context as it is, which is not modelled. *)
From Coq Require Import NArith List Bool.
From Verif Require Import PyStr PyErr.
Import ListNotations.
Open Scope N_scope.

Section Values.
Context {V : Type}.
(** XPath expressions: a literal, $x, an operator or built-in function, a call of a user-defined function *)
Inductive expr := Const (v : V) | Var (x : N) | Op (o : N) (args : list expr) | Call (f : N) (args : list expr).
(** xsl:variable, func:result, an instruction that evaluates an expression and has no other effect, xsl:choose *)
Inductive instr := Let (x : N) (e : expr) | Result (e : expr) | Eval (e : expr) | Choose (test : expr) (yes no : list instr).
(** func:function: the parameters with their defaults, and the rest of the children; setup, functions.py:25-36 *)
Record func := { f_params : list (N * expr); f_body : list instr }.
(** context.variables *)
Definition env := list (N * V).
Fixpoint look (d : env) (x : N) : option V := match d with [] => None | (y, v) :: d' => if y =? x then Some v else look d' x end.
Definition set (d : env) (x : N) (v : V) : env := (x, v) :: d.
(** The attribute [result] of every function element *)
Definition slots := N -> V.
Definition put (s : slots) (f : N) (v : V) : slots := fun g => if g =? f then v else s g.
Context (empty : V) (truth : V -> bool) (op : N -> list V -> V) (functions : N -> option func).

Fixpoint eval (n : nat) (vars : env) (s : slots) (e : expr) {struct n} : option (V * slots) :=
  match n with
  | O => None
  | S n =>
    match e with
    | Const v => Some (v, s)
    | Var x => match look vars x with Some v => Some (v, s) | None => None end   (* xpath/expressions/basics.py:94-122 *)
    | Op o args => match evals n vars s args with Some (vs, s1) => Some (op o vs, s1) | None => None end
    | Call f args =>
      (* function_element.__call__, functions.py:42-66; the arguments come as expressions, xpath/expressions/functioncalls.py:199-204 *)
      match functions f with
      | None => None
      | Some fd =>
        match bind n args (f_params fd) vars (put s f empty) with
        | None => None
        | Some (vars1, s1) =>
          match exec n f (f_body fd) vars1 s1 with
          | None => None
          | Some s2 => Some (s2 f, s2)
          end
        end
      end
    end
  end
with evals (n : nat) (vars : env) (s : slots) (l : list expr) {struct n} : option (list V * slots) :=
  match n with
  | O => None
  | S n =>
    match l with
    | [] => Some ([], s)
    | e :: l' =>
      match eval n vars s e with
      | None => None
      | Some (v, s1) => match evals n vars s1 l' with Some (vs, s2) => Some (v :: vs, s2) | None => None end
      end
    end
  end
(* functions.py:51-59: izip over the arguments and parameters, then the defaults of the other parameters; variable_element.instantiate, variable_elements.py:28-42 *)
with bind (n : nat) (args : list expr) (params : list (N * expr)) (vars : env) (s : slots) {struct n} : option (env * slots) :=
  match n with
  | O => None
  | S n =>
    match args, params with
    | _, [] => Some (vars, s)
    | a :: args', (x, _) :: params' =>
      match eval n vars s a with Some (v, s1) => bind n args' params' (set vars x v) s1 | None => None end
    | [], (x, d) :: params' =>
      match eval n vars s d with Some (v, s1) => bind n [] params' (set vars x v) s1 | None => None end
    end
  end
(* functions.py:61-62: every child is instantiated; the variables of an instruction's content are those before it afterwards (push_variables_node and
   pop_variables_node, xslt/reader/__init__.py:28-56) *)
with exec (n : nat) (f : N) (b : list instr) (vars : env) (s : slots) {struct n} : option slots :=
  match n with
  | O => None
  | S n =>
    match b with
    | [] => Some s
    | Let x e :: b' => match eval n vars s e with Some (v, s1) => exec n f b' (set vars x v) s1 | None => None end
    | Result e :: b' => (* result_element.instantiate, functions.py:109-112 *)
      match eval n vars s e with Some (v, s1) => exec n f b' vars (put s1 f v) | None => None end
    | Eval e :: b' => match eval n vars s e with Some (_, s1) => exec n f b' vars s1 | None => None end
    | Choose e yes no :: b' =>
      match eval n vars s e with
      | None => None
      | Some (c, s1) => match exec n f (if truth c then yes else no) vars s1 with Some s2 => exec n f b' vars s2 | None => None end
      end
    end
  end.
End Values.
Arguments expr : clear implicits.
Arguments instr : clear implicits.
Arguments func : clear implicits.
Arguments env : clear implicits.
Arguments slots : clear implicits.
