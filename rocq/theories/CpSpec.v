(** * Specification: what evaluating an XPath expression means

    No blocks, no instructions and no stack: the meaning of an expression is given
    by recursion on the expression, as a sequence of operations on Python objects. *)
From Coq Require Import NArith ZArith String List Bool.
From Verif Require Import PyStr PyErr CpModel.
Import ListNotations.
Local Open Scope nat_scope.

Section Spec.
Context {w : world}.
Local Notation V := (V w).
Local Notation K := (K w).
Local Notation St := (St w).

(** An action changes the state and gives a value or raises. *)
Definition action (A : Type) := St -> result A * St.
Definition ret {A} (a : A) : action A := fun s => (Ok a, s).
Definition raise {A} (x : exn) : action A := fun s => (Err x, s).
Definition andthen {A B} (a : action A) (k : A -> action B) : action B := fun s =>
  match a s with (Ok v, s') => k v s' | (Err x, s') => (Err x, s') end.
Notation "x <- a ;; k" := (andthen a (fun x => k)) (at level 100, a at level 99, right associativity).

(** The value of a list of actions, in order *)
Fixpoint in_order {A} (l : list (action A)) : action (list A) :=
  match l with
  | [] => ret []
  | a :: r => x <- a ;; xs <- in_order r ;; ret (x :: xs)
  end.

(** A Number token denotes zero when it has no digit but 0. *)
Definition nonzero_digit (c : N) : bool := (49 <=? c)%N && (c <=? 57)%N.
Definition is_zero (s : str) : bool := negb (existsb nonzero_digit s).

(** What is wanted of an expression, given the context object: a value (plain, as a
    boolean, number, string or node-set), or, for a path, the nodes reached from given
    ones. *)
Record meaning := { wanted : mode -> V -> action V; from : V -> V -> action V }.

Definition convert (k : K) (v : action V) : action V :=
  x <- v ;; w_call w (kval w k) [x].
Definition constant (r : result K) (otherwise : K) : action V :=
  match r with
  | Ok k => ret (kval w k)
  | Err _ => ret (kval w otherwise)
  end.
(** The value of an expression that is not a path, and its conversions *)
Definition plain (own : mode) (value : V -> action V) : meaning :=
  {| wanted := fun m c =>
       match m with
       | Value => value c
       | Boolean => match own with Boolean => value c | _ => convert (k_boolean w) (value c) end
       | Number => match own with Number => value c | _ => convert (k_number w) (value c) end
       | String => convert (k_string w) (value c)
       | Nodeset | Iterable => raise TypeError
       end;
     from := fun _ _ => raise TypeError |}.
(** A literal is a constant, whatever it is wanted as. *)
Definition constants (value number string : action V) (true_ : bool) : meaning :=
  {| wanted := fun m _ =>
       match m with
       | Value => value
       | Boolean => ret (kval w (if true_ then k_true w else k_false w))
       | Number => number
       | String => string
       | Nodeset | Iterable => raise TypeError
       end;
     from := fun _ _ => raise TypeError |}.
(** A function call: the function object evaluates itself. *)
Definition ask (self : K) (name : str) (c : V) : action V :=
  f <- w_attr w (kval w self) name ;; w_call w f [c].
Definition asked (self : K) (m : mode) (c : V) : action V :=
  match m with
  | Value => ask self (lit "evaluate") c
  | Boolean => ask self (lit "evaluate_as_boolean") c
  | Number => ask self (lit "evaluate_as_number") c
  | String => ask self (lit "evaluate_as_string") c
  | Nodeset => ask self (lit "evaluate_as_nodeset") c
  | Iterable => raise TypeError
  end.

(** A path leaves the context's node, position and size as they were. *)
Definition restoring (c : V) (a : action V) : action V :=
  n <- w_attr w c (lit "node") ;; p <- w_attr w c (lit "position") ;;
  z <- w_attr w c (lit "size") ;;
  v <- a ;;
  _ <- w_setattr w c (lit "size") z ;; _ <- w_setattr w c (lit "position") p ;;
  _ <- w_setattr w c (lit "node") n ;; ret v.
(** It starts from the context node. *)
Definition context_node (c : V) : action V :=
  n <- w_attr w c (lit "node") ;; ret (w_tuple w [n]).
(** The first node it reaches *)
Definition first_of (c : V) (reach : V -> V -> action V) (found : V -> action V) (none : action V)
    : action V :=
  i <- context_node c ;; l <- reach c i ;; it <- w_iter w l ;; x <- w_next w it ;;
  match x with Some v => found v | None => none end.
Definition path (reach : V -> V -> action V) : meaning :=
  {| wanted := fun m c =>
       match m with
       | Value | Nodeset =>
         restoring c (i <- context_node c ;; l <- reach c i ;; w_call w (kval w (k_nodeset w)) [l])
       | Boolean =>
         restoring c (first_of c reach (fun _ => ret (kval w (k_true w))) (ret (kval w (k_false w))))
       | Number =>
         restoring c (first_of c reach (fun v => w_call w (kval w (k_number w)) [v])
                               (w_attr w (kval w (k_number w)) (lit "NaN")))
       | String =>
         restoring c (first_of c reach (fun v => w_call w (kval w (k_string w)) [v])
                               (ret (kval w (k_empty w))))
       | Iterable => raise TypeError
       end;
     from := reach |}.
(** One location step after the other *)
Fixpoint stepping (en : env w) (steps : list (step w)) (c nodes : V) : action V :=
  match steps with
  | [] => ret nodes
  | s :: r =>
    let k := s_make s (match s_prefix s with Some p => e_namespaces en p | None => None end) in
    l <- w_call w (kval w k) [c; nodes] ;; stepping en r c l
  end.
(** Is there a node in one of the paths?  The later ones are not asked. *)
Fixpoint any (l : list (action V)) : action V :=
  match l with
  | [] => raise IndexError
  | [a] => a
  | a :: r => x <- a ;; b <- w_truth w x ;; if b : bool then ret x else any r
  end.

Definition python_operator (o : relop) : str :=
  match o with
  | OpEq => lit "==" | OpNe => lit "!=" | OpLt => lit "<"
  | OpLe => lit "<=" | OpGt => lit ">" | OpGe => lit ">="
  end.
Definition namespace_of (en : env w) (prefix : option str) : option str :=
  match prefix with Some p => e_namespaces en p | None => None end.

Definition variable (en : env w) (p : option str) (l : str) (c : V) : action V :=
  vs <- w_attr w c (lit "variables") ;;
  w_subscr w vs (w_tuple w [kval w (match namespace_of en p with Some n => k_text w n
                                                        | None => k_none w end);
                            kval w (k_text w l)]).
Definition extension (en : env w) (p l : str) (args : list K) (c : V) : action V :=
  match e_namespaces en p with
  | None => raise UndefinedPrefix
  | Some n =>
    match e_functions en n l with
    | None => raise UndefinedFunction
    | Some f =>
      g <- (if f_nocache f then w_call w (kval w (k_dynamic w n l)) [c]
            else ret (kval w (f_obj f))) ;;
      w_call w g (c :: map (kval w) args)
    end
  end.

Fixpoint means (en : env w) (e : expr w) : meaning :=
  match e with
  | Str s => let str := constant (to_string w s) (k_empty w) in
             constants str (constant (to_number w s) (k_nan w)) str
                       (match s with [] => false | _ => true end)
  | Num s => let num := constant (to_number w s) (k_nan w) in
             constants num num (constant (to_string w s) (k_empty w)) (negb (is_zero s))
  | Var p l =>
    let value := variable en p l in
    {| wanted := fun m c => match m with
                            | Nodeset => convert (k_nodeset w) (value c)
                            | m => wanted (plain Value value) m c
                            end;
       from := fun c _ => v <- value c ;; w_iter w v |}
  | Or a b =>
    plain Boolean (fun c => x <- wanted (means en a) Boolean c ;; t <- w_truth w x ;;
                            if t : bool then ret x else wanted (means en b) Boolean c)
  | And a b =>
    plain Boolean (fun c => x <- wanted (means en a) Boolean c ;; t <- w_truth w x ;;
                            if t : bool then wanted (means en b) Boolean c else ret x)
  | Cmp o a b =>
    plain Boolean (fun c => x <- wanted (means en a) Value c ;; y <- wanted (means en b) Value c ;;
                            w_compare w (python_operator o) x y)
  | Arith o a b =>
    plain Number (fun c => x <- wanted (means en a) Number c ;; y <- wanted (means en b) Number c ;;
                           w_arith w o x y)
  | Neg a => plain Number (fun c => x <- wanted (means en a) Number c ;; w_negate w x)
  | Builtin self k =>
    {| wanted := fun m c => match m, k with
                            | Value, Some k | Boolean, Some k => ret (kval w k)
                            | m, _ => asked self m c
                            end;
       from := fun _ _ => raise TypeError |}
  | Ext self p l args =>
    {| wanted := fun m c => match m with
                            | Value => extension en p l args c
                            | m => asked self m c
                            end;
       from := fun _ _ => raise TypeError |}
  | Union paths =>
    let all := path (fun c nodes => its <- in_order (map (fun p => from (means en p) c nodes) paths) ;;
                                    w_call w (kval w (k_unioniter w)) its) in
    {| wanted := fun m c => match m with
                            | Boolean => any (map (fun p => wanted (means en p) Boolean c) paths)
                            | m => wanted all m c
                            end;
       from := from all |}
  | Path e' steps =>
    path (fun c nodes =>
            l <- (match e' with
                  | Union _ | Path _ _ | Filter _ _ | Loc _ _ => from (means en e') c nodes
                  | _ => wanted (means en e') Nodeset c
                  end) ;;
            stepping en steps c l)
  | Filter e' p =>
    path (fun c _ =>
            l <- wanted (means en e') Nodeset c ;;
            match p with Some k => w_call w (kval w k) [c; l] | None => ret l end)
  | Loc absolute steps =>
    path (fun c nodes =>
            l <- (if absolute : bool then
                    n <- w_attr w c (lit "node") ;; r <- w_attr w n (lit "xml_root") ;;
                    ret (w_tuple w [r])
                  else ret nodes) ;;
            stepping en steps c l)
  end.

(** ** What is found out before anything is evaluated *)

Definition first (a b : option exn) : option exn := match a with Some x => Some x | None => b end.
Fixpoint first_in (l : list (option exn)) : option exn :=
  match l with [] => None | a :: r => first a (first_in r) end.
(** Only a ValueError of a literal's conversion is taken for no number. *)
Definition conversion_fault (r : result K) : option exn :=
  match r with Ok _ | Err ValueError => None | Err x => Some x end.
Definition literal_fault (s : str) (own : result K) (m : mode) : option exn :=
  match m with
  | Value => conversion_fault own
  | Boolean => None
  | Number => conversion_fault (to_number w s)
  | String => conversion_fault (to_string w s)
  | Nodeset | Iterable => Some TypeError
  end.
Definition prefix_fault (en : env w) (p : option str) : option exn :=
  match p with
  | Some p => match e_namespaces en p with Some _ => None | None => Some UndefinedPrefix end
  | None => None
  end.
Definition variable_fault (en : env w) (p : option str) (l : str) : option exn :=
  first (prefix_fault en p)
        (if e_variables en (namespace_of en p) l then None else Some UndefinedVariable).
(** A function written in Python takes a number of arguments besides the context: at
    most all its parameters unless it takes any number, at least those without
    default. *)
Definition argument_fault (sig : nat * bool * nat) (n : nat) : option exn :=
  let '(parameters, any_number, defaults) := sig in
  if negb any_number && (parameters <? S n) then
    Some (match parameters, defaults with
          | 1, _ => ArgcountNone | _, 0 => ArgcountExact | _, _ => ArgcountAtmost
          end)
  else if S n + defaults <? parameters then
    Some (match any_number, defaults with false, 0 => ArgcountExact | _, _ => ArgcountAtleast end)
  else None.
Definition extension_fault (en : env w) (p l : str) (n : nat) : option exn :=
  match e_namespaces en p with
  | None => Some UndefinedPrefix
  | Some u =>
    match e_functions en u l with
    | None => Some UndefinedFunction
    | Some f => match f_sig f with Some s => argument_fault s n | None => None end
    end
  end.
Definition not_nodeset (m : mode) (x : option exn) : option exn :=
  match m with Nodeset | Iterable => Some TypeError | _ => x end.

(** The first fault, in reading order, of an expression that is wanted as [m] *)
Fixpoint fault (en : env w) (e : expr w) (m : mode) : option exn :=
  match e with
  | Str s => literal_fault s (to_string w s) m
  | Num s => literal_fault s (to_number w s) m
  | Var p l => variable_fault en p l
  | Or a b | And a b => not_nodeset m (first (fault en a Boolean) (fault en b Boolean))
  | Cmp _ a b => not_nodeset m (first (fault en a Value) (fault en b Value))
  | Arith _ a b => not_nodeset m (first (fault en a Number) (fault en b Number))
  | Neg a => not_nodeset m (fault en a Number)
  | Builtin _ _ => match m with Iterable => Some TypeError | _ => None end
  | Ext _ p l args =>
    match m with
    | Value => extension_fault en p l (List.length args)
    | Iterable => Some TypeError
    | _ => None
    end
  | Union paths =>
    match m with
    | Boolean => match paths with
                 | [] => Some IndexError
                 | _ => first_in (map (fun p => fault en p Boolean) paths)
                 end
    | _ => first_in (map (fun p => fault en p Iterable) paths)
    end
  | Path e' steps =>
    first (match e' with
           | Union _ | Path _ _ | Filter _ _ | Loc _ _ => fault en e' Iterable
           | _ => fault en e' Nodeset
           end)
          (first_in (map (fun s => prefix_fault en (s_prefix s)) steps))
  | Filter e' _ => fault en e' Nodeset
  | Loc _ steps => first_in (map (fun s => prefix_fault en (s_prefix s)) steps)
  end.

(** ** Limits *)

(** How much there is in an expression *)
Fixpoint size (e : expr w) : nat :=
  match e with
  | Str _ | Num _ | Var _ _ | Builtin _ _ => 1
  | Or a b | And a b | Cmp _ a b | Arith _ a b => S (size a + size b)
  | Neg a => S (size a)
  | Ext _ _ _ args => S (List.length args)
  | Union paths => S (list_sum (map size paths))
  | Path e' steps => S (size e' + List.length steps)
  | Filter e' _ => S (size e')
  | Loc _ steps => S (List.length steps)
  end.
(** No call has 256 arguments or more; the context is an argument of an extension
    function. *)
Fixpoint calls_fit (e : expr w) : Prop :=
  match e with
  | Str _ | Num _ | Var _ _ | Builtin _ _ | Loc _ _ => True
  | Or a b | And a b | Cmp _ a b | Arith _ a b => calls_fit a /\ calls_fit b
  | Neg a => calls_fit a
  | Ext _ _ _ args => List.length args < 255
  | Union paths => List.length paths < 256 /\
                   (fix all l := match l with [] => True | p :: r => calls_fit p /\ all r end) paths
  | Path e' _ | Filter e' _ => calls_fit e'
  end.
(** No number literal that is zero stands where a boolean is wanted. *)
Fixpoint no_zero_tested (e : expr w) (m : mode) : Prop :=
  match e with
  | Num s => match m with Boolean => is_zero s = false | _ => True end
  | Or a b | And a b => no_zero_tested a Boolean /\ no_zero_tested b Boolean
  | Cmp _ a b => no_zero_tested a Value /\ no_zero_tested b Value
  | Arith _ a b => no_zero_tested a Number /\ no_zero_tested b Number
  | Neg a => no_zero_tested a Number
  | Union paths =>
    (fix all l := match l with
                  | [] => True
                  | p :: r => no_zero_tested p (match m with Boolean => Boolean | _ => Iterable end)
                              /\ all r
                  end) paths
  | Path e' _ =>
    no_zero_tested e' (match e' with
                       | Union _ | Path _ _ | Filter _ _ | Loc _ _ => Iterable
                       | _ => Nodeset
                       end)
  | Filter e' _ => no_zero_tested e' Nodeset
  | _ => True
  end.

(** Running a code object on a context gives an outcome, whatever number of rounds of the
    interpreter's loop is allowed beyond what it needs. *)
Definition gives (c : code w) (context : V) (s : St) (o : result V * St) : Prop :=
  exists n, forall k, n <= k -> run k c (start c context s) = Done (fst o) (snd o).
(** A location path, a filtered expression, a path starting from one, or a union of such *)
Fixpoint is_path (e : expr w) : Prop :=
  match e with
  | Loc _ _ | Path _ _ | Filter _ _ => True
  | Union ps => (fix all l := match l with [] => True | p :: r => is_path p /\ all r end) ps
  | _ => False
  end.
(** The context has a node, a position and a size, which can be read and set.  Nothing is
    said about what calls and iterators do to them. *)
Definition attributes_work (context : V) (node position size : St -> V) : Prop :=
  (forall s, w_attr w context (lit "node") s = (Ok (node s), s))
  /\ (forall s, w_attr w context (lit "position") s = (Ok (position s), s))
  /\ (forall s, w_attr w context (lit "size") s = (Ok (size s), s))
  /\ (forall v s, exists s', w_setattr w context (lit "node") v s = (Ok tt, s')
                   /\ node s' = v /\ position s' = position s /\ size s' = size s)
  /\ (forall v s, exists s', w_setattr w context (lit "position") v s = (Ok tt, s')
                   /\ node s' = node s /\ position s' = v /\ size s' = size s)
  /\ (forall v s, exists s', w_setattr w context (lit "size") v s = (Ok tt, s')
                   /\ node s' = node s /\ position s' = position s /\ size s' = v)
  /\ (forall v s r s', w_truth w v s = (Ok r, s') ->
         node s' = node s /\ position s' = position s /\ size s' = size s).
(** Constants that the assembler takes for the same are the same. *)
Definition constants_apart : Prop := forall a b, same w a b = true <-> a = b.

End Spec.
Notation "x <- a ;; k" := (andthen a (fun x => k)) (at level 100, a at level 99, right associativity).
Arguments constants_apart : clear implicits.
Arguments meaning : clear implicits.
