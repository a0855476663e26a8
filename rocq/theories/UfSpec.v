(** * What a user-defined function returns

    The arguments are evaluated where the function is called.  The body sees the global variables, the
    parameters and its own variables.  func:result ends the function; without it the value is the empty string. *)
From Coq Require Import NArith List Bool.
From Verif Require Import UfModel.
Import ListNotations.

Section Meaning.
Context {V : Type} (empty : V) (truth : V -> bool) (op : N -> list V -> V) (functions : N -> option (func V)) (globals : env V).

Inductive evaluates : env V -> expr V -> V -> Prop :=
| ev_const : forall d v, evaluates d (Const v) v
| ev_var : forall d x v, look d x = Some v -> evaluates d (Var x) v
| ev_op : forall d o args vs, all d args vs -> evaluates d (Op o args) (op o vs)
| ev_call : forall d f args fd vs d' o, functions f = Some fd -> all d args vs -> binds (f_params fd) vs globals d' -> runs d' (f_body fd) o ->
    evaluates d (Call f args) (match o with Some v => v | None => empty end)
with all : env V -> list (expr V) -> list V -> Prop :=
| all_nil : forall d, all d [] []
| all_cons : forall d e l v vs, evaluates d e v -> all d l vs -> all d (e :: l) (v :: vs)
with binds : list (N * expr V) -> list V -> env V -> env V -> Prop :=
| binds_nil : forall d, binds [] [] d d
| binds_arg : forall x e params v vs d d', binds params vs (set d x v) d' -> binds ((x, e) :: params) (v :: vs) d d'
| binds_default : forall x e params v d d', evaluates d e v -> binds params [] (set d x v) d' -> binds ((x, e) :: params) [] d d'
with runs : env V -> list (instr V) -> option V -> Prop :=
| runs_nil : forall d, runs d [] None
| runs_let : forall d x e b v o, evaluates d e v -> runs (set d x v) b o -> runs d (Let x e :: b) o
| runs_result : forall d e b v, evaluates d e v -> runs d (Result e :: b) (Some v)
| runs_eval : forall d e b v o, evaluates d e v -> runs d b o -> runs d (Eval e :: b) o
| runs_choose_result : forall d e yes no b c v, evaluates d e c -> runs d (if truth c then yes else no) (Some v) -> runs d (Choose e yes no :: b) (Some v)
| runs_choose : forall d e yes no b c o, evaluates d e c -> runs d (if truth c then yes else no) None -> runs d b o -> runs d (Choose e yes no :: b) o.

(** ** Programs for which the code is right *)
Definition global (x : N) : Prop := In x (map fst globals).
Fixpoint mentions (e : expr V) : list N :=
  match e with Const _ => [] | Var x => [x] | Op _ args => flat_map mentions args | Call _ args => flat_map mentions args end.
(** No argument mentions the name of a parameter to the left of its own *)
Fixpoint no_capture (args : list (expr V)) (params : list (N * expr V)) : Prop :=
  match args, params with
  | [], _ => True
  | _ :: _, [] => False
  | _ :: args', (x, _) :: params' => Forall (fun a => ~ In x (mentions a)) args' /\ no_capture args' params'
  end.
Fixpoint tame (e : expr V) : Prop :=
  match e with
  | Const _ | Var _ => True
  | Op _ args => fold_right and True (map tame args)
  | Call f args => (exists fd, functions f = Some fd /\ no_capture args (f_params fd)) /\ fold_right and True (map tame args)
  end.
(** [scoped seen e]: all variables are local ones that have been seen, or global ones *)
Definition scoped (seen : list N) (e : expr V) : Prop := tame e /\ forall x, In x (mentions e) -> In x seen \/ global x.
(** A body, or part of one: with [last] it ends with func:result whatever happens, without it has none. *)
Inductive block : bool -> list N -> list (instr V) -> Prop :=
| block_nil : forall seen, block false seen []
| block_let : forall last seen x e b, scoped seen e -> ~ global x -> block last (x :: seen) b -> block last seen (Let x e :: b)
| block_result : forall seen e, scoped seen e -> block true seen [Result e]
| block_eval : forall last seen e b, scoped seen e -> block last seen b -> block last seen (Eval e :: b)
| block_choose : forall last seen e yes no b, scoped seen e -> block false seen yes -> block false seen no -> block last seen b -> block last seen (Choose e yes no :: b)
| block_choose_last : forall seen e yes no, scoped seen e -> block true seen yes -> block true seen no -> block true seen [Choose e yes no].
Inductive parameters : list N -> list (N * expr V) -> Prop :=
| parameters_nil : forall seen, parameters seen []
| parameters_cons : forall seen x d params, scoped seen d -> ~ global x -> parameters (x :: seen) params -> parameters seen ((x, d) :: params).
Definition tame_program : Prop :=
  forall f fd, functions f = Some fd -> parameters [] (f_params fd) /\ block true (rev (map fst (f_params fd))) (f_body fd).
End Meaning.
