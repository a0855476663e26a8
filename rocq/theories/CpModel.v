(** * Model: the XPath compiler (lib/xpath/compiler, lib/xpath/expressions,
      lib/xpath/locationpaths/__init__.py)

    An XPath expression is turned into Python bytecode: every expression class
    emits instructions into basic blocks (compile, compile_as_boolean, ...), the
    assembler lays the blocks out, resolves constants, names and jumps and makes a
    code object, and the interpreter runs that.  All three are modelled: the
    compile methods, the assembler down to the bytes of the code string, and the
    part of the interpreter of Python 2.5 and 2.6 (Python/ceval.c) the emitted
    instructions use.

    What the instructions do to Python objects (calls, attributes, iteration,
    arithmetic) is left open: it is a [world], and the theorems hold for every
    world. *)
From Coq Require Import NArith ZArith String List Bool.
From Verif Require Import PyStr PyErr.
Import ListNotations.
Local Open Scope nat_scope.

Definition OutOfFuel : exn := OtherError 3.
Definition OverflowError : exn := OtherError 6.
Definition RuntimeError : exn := OtherError 111.
(** XPathError, by code; amara/xpath/__init__.py *)
Definition UndefinedPrefix : exn := OtherError 7.
Definition UndefinedVariable : exn := OtherError 141.
Definition UndefinedFunction : exn := OtherError 142.
Definition ArgcountNone : exn := OtherError 143.
Definition ArgcountAtmost : exn := OtherError 144.
Definition ArgcountExact : exn := OtherError 145.
Definition ArgcountAtleast : exn := OtherError 146.

(** The operators of the arithmetic expressions: '+', '-', '*', 'div', 'mod'. *)
Inductive arith := Add | Sub | Mul | Div | Mod.
(** The operators of the comparisons, as the parser hands them over. *)
Inductive relop := OpEq | OpNe | OpLt | OpLe | OpGt | OpGe.
Definition relop_text (o : relop) : str :=
  match o with
  | OpEq => lit "=" | OpNe => lit "!=" | OpLt => lit "<"
  | OpLe => lit "<=" | OpGt => lit ">" | OpGe => lit ">="
  end.

(** Python as the compiled code meets it.  [V] are objects, [St] is the state they
    live in; an operation may change the state and may raise.  [K] are the objects
    the compiler puts into a code object as constants, [kval] such a constant as an
    object, and [same] is the key equality of the assembler's table of constants:
    equal values of the same type (assembler.py:238). *)
Record world := {
  V : Type;
  K : Type;
  St : Type;
  same : K -> K -> bool;
  kval : K -> V;
  k_none : K;                        (* None *)
  k_text : str -> K;                 (* a unicode string *)
  k_pair : str -> str -> K;          (* a pair of unicode strings *)
  k_true : K; k_false : K;           (* datatypes.boolean.TRUE and FALSE *)
  k_nan : K; k_empty : K;            (* datatypes.number.NaN, string.EMPTY *)
  k_boolean : K; k_number : K; k_string : K; k_nodeset : K;   (* the types *)
  k_unioniter : K;                   (* _paths.unioniter *)
  k_dynamic : str -> str -> K;       (* a fresh dynamic_function, functioncalls.py:181-186 *)
  to_number : str -> result K;       (* datatypes.number(literal) *)
  to_string : str -> result K;       (* datatypes.string(literal) *)
  w_attr : V -> str -> St -> result V * St;                (* getattr *)
  w_setattr : V -> str -> V -> St -> result unit * St;
  w_call : V -> list V -> St -> result V * St;             (* f( *args) *)
  w_callkw : V -> list V -> list (V * V) -> St -> result V * St;  (* with keywords *)
  w_compare : str -> V -> V -> St -> result V * St;        (* by Python's operator *)
  w_arith : arith -> V -> V -> St -> result V * St;
  w_negate : V -> St -> result V * St;
  w_subscr : V -> V -> St -> result V * St;                (* v[w] *)
  w_tuple : list V -> V;
  w_iter : V -> St -> result V * St;
  w_next : V -> St -> result (option V) * St;              (* None: exhausted *)
  w_truth : V -> St -> result bool * St
}.

Section Model.
Context {w : world}.
Local Notation V := (V w).
Local Notation K := (K w).
Local Notation St := (St w).

(** ** Expressions *)

(** A location step, locationpaths/__init__.py:149-159: the prefix its node test
    needs, if any, and the bound method stepiter(...).select that
    [compile_iterable] makes, as a function of the namespace of the prefix. *)
Record step := { s_prefix : option str; s_make : option str -> K }.

(** The expression classes.  A variable's name is given split at the colon
    (splitqname, C50).  [Builtin self c]: a call of a core function; true() and
    false() are compiled to a constant [c] (functions/booleans.py:40-69).  [Ext]: a
    call of an extension function, with the expressions of its arguments as
    constants, [self] being the expression object.  [Filter e p]: [p] is the bound
    method pathiter(...).select of the predicates, if there are any. *)
Inductive expr :=
| Str (s : str)                                  (* string_literal *)
| Num (s : str)                                  (* number_literal *)
| Var (prefix : option str) (local : str)        (* variable_reference *)
| Or (a b : expr) | And (a b : expr)             (* or_expr, and_expr *)
| Cmp (o : relop) (a b : expr)                   (* equality_expr, relational_expr *)
| Arith (o : arith) (a b : expr)                 (* additive_expr, multiplicative_expr *)
| Neg (a : expr)                                 (* unary_expr *)
| Builtin (self : K) (constant : option K)       (* builtin_function *)
| Ext (self : K) (prefix local : str) (args : list K)   (* extension_function *)
| Union (paths : list expr)                      (* union_expr *)
| Path (e : expr) (steps : list step)            (* path_expr *)
| Filter (e : expr) (predicates : option K)      (* filter_expr *)
| Loc (absolute : bool) (steps : list step).     (* location_path *)

(** What an expression is compiled for: compile, compile_as_boolean, ... *)
Inductive mode := Value | Boolean | Number | String | Nodeset | Iterable.

(** An extension function: the object, whether it has a true attribute nocache, and,
    for a function written in Python, the number of its positional parameters (the
    context included), whether it takes *args, and the number of defaults. *)
Record func := { f_obj : K; f_nocache : bool; f_sig : option (nat * bool * nat) }.
(** The compiler's namespaces, variables and functions (compiler/__init__.py:20-28),
    and __debug__. *)
Record env := {
  e_namespaces : str -> option str;
  e_variables : option str -> str -> bool;
  e_functions : str -> str -> option func;
  e_debug : bool
}.

(** ** Instructions and blocks *)

(** BINARY_SUBSCRIPT, which functioncalls.py:196 emits, is not an opcode. *)
Inductive opcode :=
| POP_TOP | ROT_TWO | ROT_THREE | ROT_FOUR | UNARY_NEGATIVE
| BINARY_MULTIPLY | BINARY_DIVIDE | BINARY_MODULO | BINARY_ADD | BINARY_SUBTRACT
| BINARY_SUBSCR | GET_ITER | RETURN_VALUE | BINARY_SUBSCRIPT
| FOR_ITER | STORE_ATTR | LOAD_CONST | BUILD_TUPLE | LOAD_ATTR | COMPARE_OP
| JUMP_FORWARD | JUMP_IF_FALSE | JUMP_IF_TRUE
| LOAD_FAST | STORE_FAST | DELETE_FAST | CALL_FUNCTION.

(** The local variables: the parameter 'context' and the names '$1', '$2', ... made by
    tmpname (compiler/__init__.py:56-58). *)
Inductive local := Context | Tmp (n : nat).
Definition local_eqb (a b : local) : bool :=
  match a, b with
  | Context, Context => true
  | Tmp n, Tmp m => n =? m
  | _, _ => false
  end.

(** instruction.oparg and instruction.target before the arguments are resolved *)
Inductive arg :=
| ANone | AConst (k : K) | AName (s : str) | ALocal (x : local) | ACompare (s : str)
| ANum (n : nat) | AJump (b : nat).
Record instr := I { op : opcode; oparg : arg }.

(** basicblock, assembler.py:377-386 *)
Record block := { b_code : list instr; b_next : option nat }.
Definition empty_block : block := {| b_code := []; b_next := None |}.
(** assembler and xpathcompiler._nlocals; blocks by their id *)
Record graph := { g_blocks : list block; g_cur : nat; g_nlocals : nat }.

(** __init__, assembler.py:18-20 *)
Definition new_graph : graph := {| g_blocks := [empty_block]; g_cur := 0; g_nlocals := 0 |}.
Definition block_at (bs : list block) (b : nat) : block := nth b bs empty_block.
Fixpoint set_block (bs : list block) (n : nat) (b : block) : list block :=
  match bs, n with
  | [], _ => []
  | _ :: r, O => b :: r
  | x :: r, S m => x :: set_block r m b
  end.
(** new_block, assembler.py:22-25 *)
Definition new_block (g : graph) : nat * graph :=
  (List.length (g_blocks g),
   {| g_blocks := g_blocks g ++ [empty_block]; g_cur := g_cur g; g_nlocals := g_nlocals g |}).
(** next_block with a block, assembler.py:27-33 *)
Definition next_block_to (b : nat) (g : graph) : graph :=
  let c := block_at (g_blocks g) (g_cur g) in
  {| g_blocks := set_block (g_blocks g) (g_cur g) {| b_code := b_code c; b_next := Some b |};
     g_cur := b; g_nlocals := g_nlocals g |}.
(** next_block without one *)
Definition next_block (g : graph) : graph :=
  let (b, g') := new_block g in next_block_to b g'.
(** emit, assembler.py:35-52 *)
Definition emit (is : list instr) (g : graph) : graph :=
  let c := block_at (g_blocks g) (g_cur g) in
  {| g_blocks := set_block (g_blocks g) (g_cur g) {| b_code := b_code c ++ is; b_next := b_next c |};
     g_cur := g_cur g; g_nlocals := g_nlocals g |}.
(** tmpname, compiler/__init__.py:56-58 *)
Definition tmpname (g : graph) : local * graph :=
  (Tmp (S (g_nlocals g)),
   {| g_blocks := g_blocks g; g_cur := g_cur g; g_nlocals := S (g_nlocals g) |}).

Definition i0 (o : opcode) : instr := I o ANone.
Definition load_const (k : K) : instr := I LOAD_CONST (AConst k).
Definition load_context : instr := I LOAD_FAST (ALocal Context).
Definition load_attr (s : str) : instr := I LOAD_ATTR (AName s).
Definition store_attr (s : str) : instr := I STORE_ATTR (AName s).
Definition call_function (n : nat) : instr := I CALL_FUNCTION (ANum n).
Definition build_tuple (n : nat) : instr := I BUILD_TUPLE (ANum n).

(** ** The compile methods *)

Definition compiler := graph -> result graph.
Definition emits (is : list instr) : compiler := fun g => Ok (emit is g).
Definition fails (x : exn) : compiler := fun _ => Err x.
Definition seq (a b : compiler) : compiler := fun g => do g1 <- a g ; b g1.

(** expression.compile_as_boolean and its likes, expressions/__init__.py:22-45 *)
Definition converted (k : K) (value : compiler) : compiler :=
  seq (emits [load_const k]) (seq value (emits [call_function 1])).
(** The methods of an expression that only knows its value: conversions are calls of
    the types, and there is no node-set (expressions/__init__.py:22-57). *)
Definition converted_modes (value : compiler) (m : mode) : compiler :=
  match m with
  | Value => value
  | Boolean => converted (k_boolean w) value
  | Number => converted (k_number w) value
  | String => converted (k_string w) value
  | Nodeset | Iterable => fails TypeError
  end.

(** literal.compile_as_boolean: the text of the literal is tested, basics.py:20-26 *)
Definition literal_boolean (s : str) : compiler :=
  emits [load_const (match s with [] => k_false w | _ => k_true w end)].
(** literal.compile_as_number, compile_as_string, basics.py:28-42 *)
Definition literal_number (s : str) : compiler :=
  match to_number w s with
  | Ok k => emits [load_const k]
  | Err ValueError => emits [load_const (k_nan w)]
  | Err x => fails x
  end.
Definition literal_string (s : str) : compiler :=
  match to_string w s with
  | Ok k => emits [load_const k]
  | Err ValueError => emits [load_const (k_empty w)]
  | Err x => fails x
  end.
(** string_literal and number_literal, basics.py:48-80 *)
Definition literal_modes (s : str) (value : compiler) (m : mode) : compiler :=
  match m with
  | Value => value
  | Boolean => literal_boolean s
  | Number => literal_number s
  | String => literal_string s
  | Nodeset | Iterable => fails TypeError
  end.

(** variable_reference.compile, basics.py:94-122 *)
Definition variable_value (en : env) (prefix : option str) (l : str) : compiler :=
  let go namespace :=
    if e_variables en namespace l then
      emits [load_context; load_attr (lit "variables");
             load_const (match namespace with Some n => k_text w n | None => k_none w end);
             load_const (k_text w l); build_tuple 2; i0 BINARY_SUBSCR]
    else fails UndefinedVariable in
  match prefix with
  | Some p => match e_namespaces en p with Some n => go (Some n) | None => fails UndefinedPrefix end
  | None => go None
  end.
(** variable_reference, basics.py:124-137 *)
Definition variable_modes (value : compiler) (m : mode) : compiler :=
  match m with
  | Nodeset => converted (k_nodeset w) value
  | Iterable => seq (emits [i0 POP_TOP]) (seq value (emits [i0 GET_ITER]))
  | m => converted_modes value m
  end.

(** _logical_expr.compile_as_boolean, booleans.py:26-35 *)
Definition logical (o : opcode) (l r : compiler) : compiler := fun g =>
  let (end_, g) := new_block g in
  do g <- l g ;
  let g := emit [I o (AJump end_)] g in
  let g := next_block g in
  let g := emit [i0 POP_TOP] g in
  do g <- r g ;
  Ok (next_block_to end_ g).
(** _comparison_expr.compile_as_boolean, booleans.py:71-78 *)
Definition comparison (o : relop) (l r : compiler) : compiler :=
  let t := relop_text o in
  let t := if str_eqb t (lit "=") then lit "==" else t in
  seq l (seq r (emits [I COMPARE_OP (ACompare t)])).
(** A logical or comparison expression: compile = compile_as_boolean *)
Definition boolean_modes (value : compiler) (m : mode) : compiler :=
  match m with
  | Boolean => value
  | m => converted_modes value m
  end.

(** _binary_expr._opmap, numbers.py:21-27 *)
Definition binary_opcode (o : arith) : opcode :=
  match o with
  | Add => BINARY_ADD | Sub => BINARY_SUBTRACT | Mul => BINARY_MULTIPLY
  | Div => BINARY_DIVIDE | Mod => BINARY_MODULO
  end.
(** A number expression: compile = compile_as_number, numbers.py:34-39, 79-83 *)
Definition number_modes (value : compiler) (m : mode) : compiler :=
  match m with
  | Number => value
  | m => converted_modes value m
  end.

(** function_call.compile and its likes, functioncalls.py:42-90 *)
Definition method_call (self : K) (name : str) : compiler :=
  emits [load_const self; load_attr name; load_context; call_function 1].
Definition function_modes (self : K) (m : mode) : compiler :=
  match m with
  | Value => method_call self (lit "evaluate")
  | Boolean => method_call self (lit "evaluate_as_boolean")
  | Number => method_call self (lit "evaluate_as_number")
  | String => method_call self (lit "evaluate_as_string")
  | Nodeset => method_call self (lit "evaluate_as_nodeset")
  | Iterable => fails TypeError
  end.
(** true_function and false_function, functions/booleans.py:46-49, 62-65 *)
Definition builtin_modes (self : K) (constant : option K) (m : mode) : compiler :=
  match m, constant with
  | Value, Some k | Boolean, Some k => emits [load_const k]
  | m, _ => function_modes self m
  end.

(** The argument check, functioncalls.py:142-175 *)
Definition check_arguments (sig : nat * bool * nat) (argcount : nat) : option exn :=
  let '(nargs, varargs, ndefaults) := sig in
  let maxargs := (Z.of_nat nargs - 1)%Z in
  let minargs := (maxargs - Z.of_nat ndefaults)%Z in
  let argcount := Z.of_nat argcount in
  (if (maxargs <? argcount) && negb varargs then
     Some (if (maxargs =? 0) then ArgcountNone
           else if (ndefaults =? 0)%nat then ArgcountExact else ArgcountAtmost)
   else if (argcount <? minargs) then
     Some (if varargs || negb (ndefaults =? 0)%nat then ArgcountAtleast else ArgcountExact)
   else None)%Z.
(** extension_function.compile, functioncalls.py:127-205 *)
Definition extension_value (en : env) (prefix l : str) (args : list K) : compiler :=
  match e_namespaces en prefix with
  | None => fails UndefinedPrefix
  | Some n =>
    match e_functions en n l with
    | None => fails UndefinedFunction
    | Some f =>
      match match f_sig f with Some s => check_arguments s (List.length args) | None => None end with
      | Some x => fails x
      | None =>
        seq (emits (if f_nocache f then
                      if e_debug en then [load_const (k_dynamic w n l); load_context; call_function 1]
                      else [load_context; load_attr (lit "functions"); load_const (k_pair w n l);
                            i0 BINARY_SUBSCRIPT]
                    else [load_const (f_obj f)]))
            (emits (load_context :: map load_const args
                    ++ [call_function (1 + List.length args)]))
      end
    end
  end.
Definition extension_modes (value : compiler) (self : K) (m : mode) : compiler :=
  match m with
  | Value => value
  | m => function_modes self m
  end.

(** nodeset_expression._make_block, nodesets.py:16-41: what is emitted before the body
    and after it *)
Definition block_start : list instr :=
  [load_context; load_attr (lit "node"); load_context; load_attr (lit "position");
   load_context; load_attr (lit "size")].
Definition block_end : list instr :=
  [i0 ROT_FOUR; load_context; store_attr (lit "size"); load_context;
   store_attr (lit "position"); load_context; store_attr (lit "node")].
(** _make_loop, nodesets.py:43-72 *)
Definition make_loop (iterable : compiler) (found empty : list instr) : compiler := fun g =>
  let g := emit block_start g in
  let (end_block, g) := new_block g in
  let (else_block, g) := new_block g in
  let g := emit [load_context; load_attr (lit "node"); build_tuple 1] g in
  do g <- iterable g ;
  let g := emit [i0 GET_ITER; I FOR_ITER (AJump else_block)] g in
  let g := emit found g in
  let g := emit [i0 ROT_TWO; i0 POP_TOP; I JUMP_FORWARD (AJump end_block)] g in
  let g := next_block_to else_block g in
  let g := emit empty g in
  let g := next_block_to end_block g in
  Ok (emit block_end g).
(** nodeset_expression.compile_as_*, nodesets.py:74-110 *)
Definition nodeset_modes (iterable : compiler) (m : mode) : compiler :=
  match m with
  | Boolean => make_loop iterable [i0 POP_TOP; load_const (k_true w)] [load_const (k_false w)]
  | Number => make_loop iterable [load_const (k_number w); i0 ROT_TWO; call_function 1]
                                 [load_const (k_number w); load_attr (lit "NaN")]
  | String => make_loop iterable [load_const (k_string w); i0 ROT_TWO; call_function 1]
                                 [load_const (k_empty w)]
  | Value | Nodeset =>
    seq (emits block_start)
      (seq (emits [load_const (k_nodeset w); load_context; load_attr (lit "node"); build_tuple 1])
        (seq iterable (seq (emits [call_function 1]) (emits block_end))))
  | Iterable => iterable
  end.

(** step.select(context, nodes) for every step, locationpaths/__init__.py:31-53 *)
Definition select_call (k : K) : list instr :=
  [load_const k; load_context; i0 ROT_THREE; i0 ROT_THREE; call_function 2].
Fixpoint steps_code (en : env) (steps : list step) : compiler :=
  match steps with
  | [] => emits []
  | s :: r =>
    match s_prefix s with
    | None => seq (emits (select_call (s_make s None))) (steps_code en r)
    | Some p =>
      match e_namespaces en p with
      | None => fails UndefinedPrefix
      | Some n => seq (emits (select_call (s_make s (Some n)))) (steps_code en r)
      end
    end
  end.
(** location_path.compile_iterable, locationpaths/__init__.py:19-54 *)
Definition location_iterable (en : env) (absolute : bool) (steps : list step) : compiler :=
  seq (emits (if absolute then [i0 POP_TOP; load_context; load_attr (lit "node");
                                load_attr (lit "xml_root"); build_tuple 1] else []))
      (steps_code en steps).

(** isinstance(e, nodeset_expression) *)
Definition is_nodeset_expression (e : expr) : bool :=
  match e with Union _ | Path _ _ | Filter _ _ | Loc _ _ => true | _ => false end.

(** union_expr.compile_iterable, nodesets.py:132-150: the arguments of the call *)
Fixpoint union_arguments (tmp : local) (paths : list (mode -> compiler)) : compiler :=
  match paths with
  | [] => emits []
  | p :: r => seq (emits [I LOAD_FAST (ALocal tmp)]) (seq (p Iterable) (union_arguments tmp r))
  end.
Definition union_iterable (paths : list (mode -> compiler)) : compiler := fun g =>
  let (tmp, g) := tmpname g in
  seq (emits [I STORE_FAST (ALocal tmp); load_const (k_unioniter w)])
    (seq (union_arguments tmp paths)
         (emits [call_function (List.length paths); I DELETE_FAST (ALocal tmp)])) g.
(** union_expr.compile_as_boolean, nodesets.py:152-161 *)
Fixpoint union_alternatives (end_ : nat) (paths : list (mode -> compiler)) : compiler :=
  match paths with
  | [] => fails IndexError
  | [p] => p Boolean
  | p :: r => fun g =>
    do g <- p Boolean g ;
    let g := emit [I JUMP_IF_TRUE (AJump end_)] g in
    let g := next_block g in
    let g := emit [i0 POP_TOP] g in
    union_alternatives end_ r g
  end.
Definition union_boolean (paths : list (mode -> compiler)) : compiler := fun g =>
  let (end_, g) := new_block g in
  do g <- union_alternatives end_ paths g ;
  Ok (next_block_to end_ g).

(** filter_expr.compile_iterable, nodesets.py:225-241 *)
Definition filter_iterable (e : mode -> compiler) (predicates : option K) : compiler :=
  seq (emits [i0 POP_TOP])
    (seq (e Nodeset)
         (emits (match predicates with Some k => select_call k | None => [] end))).
(** path_expr.compile_iterable, nodesets.py:196-204 *)
Definition path_iterable (en : env) (nodeset_expression : bool) (e : mode -> compiler)
    (steps : list step) : compiler :=
  seq (if nodeset_expression then e Iterable
       else seq (emits [i0 POP_TOP]) (e Nodeset))
      (location_iterable en false steps).

(** The compile methods of all expressions *)
Fixpoint compile (en : env) (e : expr) : mode -> compiler :=
  match e with
  | Str s => literal_modes s (literal_string s)
  | Num s => literal_modes s (literal_number s)
  | Var p l => variable_modes (variable_value en p l)
  | Or a b => boolean_modes (logical JUMP_IF_TRUE (compile en a Boolean) (compile en b Boolean))
  | And a b => boolean_modes (logical JUMP_IF_FALSE (compile en a Boolean) (compile en b Boolean))
  | Cmp o a b => boolean_modes (comparison o (compile en a Value) (compile en b Value))
  | Arith o a b =>
    number_modes (seq (compile en a Number) (seq (compile en b Number) (emits [i0 (binary_opcode o)])))
  | Neg a => number_modes (seq (compile en a Number) (emits [i0 UNARY_NEGATIVE]))
  | Builtin self c => builtin_modes self c
  | Ext self p l args => extension_modes (extension_value en p l args) self
  | Union paths =>
    let ps := map (compile en) paths in
    fun m => match m with
             | Boolean => union_boolean ps
             | m => nodeset_modes (union_iterable ps) m
             end
  | Path e' steps => nodeset_modes (path_iterable en (is_nodeset_expression e') (compile en e') steps)
  | Filter e' p => nodeset_modes (filter_iterable (compile en e') p)
  | Loc absolute steps => nodeset_modes (location_iterable en absolute steps)
  end.

(** ** The assembler *)

Definition target (i : instr) : option nat := match oparg i with AJump b => Some b | _ => None end.

(** The stack effects, assembler.py:73-187 *)
Definition stack_effect (i : instr) : option Z :=
  match op i with
  | POP_TOP => Some (-1) | ROT_TWO => Some 0 | ROT_THREE => Some 0 | ROT_FOUR => Some 0
  | UNARY_NEGATIVE => Some 0
  | BINARY_MULTIPLY | BINARY_DIVIDE | BINARY_MODULO | BINARY_ADD | BINARY_SUBTRACT
  | BINARY_SUBSCR => Some (-1)
  | GET_ITER => Some 0 | RETURN_VALUE => Some (-1) | FOR_ITER => Some 1
  | STORE_ATTR => Some (-2) | LOAD_CONST => Some 1 | LOAD_ATTR => Some 0
  | COMPARE_OP => Some (-1)
  | JUMP_FORWARD | JUMP_IF_FALSE | JUMP_IF_TRUE => Some 0
  | LOAD_FAST => Some 1 | STORE_FAST => Some (-1) | DELETE_FAST => Some 0
  | CALL_FUNCTION =>
    match oparg i with
    | ANum n => Some (- (Z.of_nat n mod 256 + 2 * (Z.of_nat n / 256)))
    | _ => None
    end
  | BUILD_TUPLE => match oparg i with ANum n => Some (1 - Z.of_nat n) | _ => None end
  | BINARY_SUBSCRIPT => None
  end%Z.

(** block.seen *)
Definition seen_b (seen : list nat) (b : nat) : bool := existsb (Nat.eqb b) seen.
(** _compute_stack_size, assembler.py:172-202.  A block's mark is taken off when it
    has been walked, so [seen] are the blocks on the way from the entry. *)
Fixpoint walk_size (fuel : nat) (bs : list block) (seen : list nat) (b : nat) (size maxsize : Z)
    : result Z :=
  match fuel with
  | O => Err OutOfFuel
  | S f =>
    let seen := b :: seen in
    (fix loop (is : list instr) (size maxsize : Z) : result Z :=
       match is with
       | [] =>
         match b_next (block_at bs b) with
         | Some n => if seen_b seen n then Ok maxsize else walk_size f bs seen n size maxsize
         | None => Ok maxsize
         end
       | i :: r =>
         match stack_effect i with
         | None => Err RuntimeError
         | Some d =>
           let size := (size + d)%Z in
           let maxsize := Z.max size maxsize in
           match target i with
           | Some t =>
             if seen_b seen t then loop r size maxsize
             else do m <- walk_size f bs seen t size maxsize ;
                  match op i with JUMP_FORWARD => Ok m | _ => loop r size m end
           | None => loop r size maxsize
           end
         end
       end) (b_code (block_at bs b)) size maxsize
  end.
Definition compute_stack_size (bs : list block) : result Z :=
  walk_size (S (List.length bs)) bs [] 0 0 0.

(** _get_blocks_in_order, assembler.py:204-217.  Here the marks stay; [seen] are the
    marked blocks and the last argument is the list, last block first. *)
Fixpoint walk_order (fuel : nat) (bs : list block) (b : nat) (seen postorder : list nat)
    : result (list nat * list nat) :=
  match fuel with
  | O => Err OutOfFuel
  | S f =>
    let visit n so :=
      if seen_b (fst so) n then Ok so else walk_order f bs n (fst so) (snd so) in
    do so <- match b_next (block_at bs b) with
             | Some n => visit n (b :: seen, postorder)
             | None => Ok (b :: seen, postorder)
             end ;
    do so <- (fix targets (is : list instr) so :=
                match is with
                | [] => Ok so
                | i :: r =>
                  match target i with
                  | Some t => do so <- visit t so ; targets r so
                  | None => targets r so
                  end
                end) (b_code (block_at bs b)) so ;
    Ok (fst so, b :: snd so)
  end.
(** reversed(...) of the list *)
Definition blocks_in_order (bs : list block) : result (list nat) :=
  rmap snd (walk_order (S (List.length bs)) bs 0 [] []).

(** _compute_lookups, assembler.py:219-284: the tables are dictionaries from an item to
    its position, the next position being the number of items; modelled as the lists
    of the items. *)
Fixpoint position {A} (e : A -> A -> bool) (x : A) (l : list A) : option nat :=
  match l with
  | [] => None
  | y :: r => if e x y then Some 0 else option_map S (position e x r)
  end.
Definition enter {A} (e : A -> A -> bool) (x : A) (l : list A) : nat * list A :=
  match position e x l with
  | Some n => (n, l)
  | None => (List.length l, l ++ [x])
  end.
Record tables := { t_consts : list K; t_names : list str; t_locals : list local }.
(** dis.cmp_op *)
Definition cmp_op : list str :=
  [lit "<"; lit "<="; lit "=="; lit "!="; lit ">"; lit ">="; lit "in"; lit "not in";
   lit "is"; lit "is not"; lit "exception match"; lit "BAD"].
(** an instruction with its argument resolved: nothing, a number, or the block to
    jump to *)
Inductive rarg := RNone | RNum (n : Z) | RJump (b : nat).
Definition lookup (i : instr) (t : tables) : result (rarg * tables) :=
  match oparg i with
  | ANone => Ok (RNone, t)
  | AConst k =>
    let (n, l) := enter (same w) k (t_consts t) in
    Ok (RNum (Z.of_nat n), {| t_consts := l; t_names := t_names t; t_locals := t_locals t |})
  | ALocal x =>
    let (n, l) := enter local_eqb x (t_locals t) in
    Ok (RNum (Z.of_nat n), {| t_consts := t_consts t; t_names := t_names t; t_locals := l |})
  | AName s =>
    let (n, l) := enter str_eqb s (t_names t) in
    Ok (RNum (Z.of_nat n), {| t_consts := t_consts t; t_names := l; t_locals := t_locals t |})
  | ACompare s =>
    match position str_eqb s cmp_op with
    | Some n => Ok (RNum (Z.of_nat n), t)
    | None => Err KeyError
    end
  | ANum n => Ok (RNum (Z.of_nat n), t)
  | AJump b => Ok (RJump b, t)
  end.
Definition rinstr := (opcode * rarg)%type.
Fixpoint lookup_all (is : list instr) (t : tables) : result (list rinstr * tables) :=
  match is with
  | [] => Ok ([], t)
  | i :: r =>
    do (a, t) <- lookup i t ;
    do (l, t) <- lookup_all r t ;
    Ok ((op i, a) :: l, t)
  end.
Fixpoint lookup_blocks (bs : list block) (order : list nat) (t : tables)
    : result (list (nat * list rinstr) * tables) :=
  match order with
  | [] => Ok ([], t)
  | b :: r =>
    do (l, t) <- lookup_all (b_code (block_at bs b)) t ;
    do (ls, t) <- lookup_blocks bs r t ;
    Ok ((b, l) :: ls, t)
  end.

(** dis.opmap of Python 2.5 and 2.6; BINARY_SUBSCRIPT is not in it. *)
Definition opmap (o : opcode) : option N :=
  match o with
  | POP_TOP => Some 1 | ROT_TWO => Some 2 | ROT_THREE => Some 3 | ROT_FOUR => Some 5
  | UNARY_NEGATIVE => Some 11
  | BINARY_MULTIPLY => Some 20 | BINARY_DIVIDE => Some 21 | BINARY_MODULO => Some 22
  | BINARY_ADD => Some 23 | BINARY_SUBTRACT => Some 24 | BINARY_SUBSCR => Some 25
  | GET_ITER => Some 68 | RETURN_VALUE => Some 83
  | FOR_ITER => Some 93 | STORE_ATTR => Some 95 | LOAD_CONST => Some 100
  | BUILD_TUPLE => Some 102 | LOAD_ATTR => Some 105 | COMPARE_OP => Some 106
  | JUMP_FORWARD => Some 110 | JUMP_IF_FALSE => Some 111 | JUMP_IF_TRUE => Some 112
  | LOAD_FAST => Some 124 | STORE_FAST => Some 125 | DELETE_FAST => Some 126
  | CALL_FUNCTION => Some 131
  | BINARY_SUBSCRIPT => None
  end%N.

(** instruction.__len__, assembler.py:360-365; the oparg of a jump is still None. *)
Definition ilen (i : rinstr) : Z :=
  match snd i with
  | RNone => 1
  | RNum n => if n >? 65535 then 6 else 3
  | RJump _ => 3
  end%Z.
(** The offsets of the blocks, assembler.py:299-302 *)
Fixpoint block_offsets (o : Z) (bs : list (nat * list rinstr)) : list (nat * Z) :=
  match bs with
  | [] => []
  | (b, l) :: r => (b, o) :: block_offsets (fold_left (fun n i => (n + ilen i)%Z) l o) r
  end.
Fixpoint offset_of (b : nat) (os : list (nat * Z)) : Z :=
  match os with
  | [] => 0%Z
  | (c, o) :: r => if b =? c then o else offset_of b r
  end.
(** The bytes of an instruction at offset [o], assembler.py:305-328.  All jumps that are
    emitted are relative.  For an argument over 0xFFFF line 321 uses the name
    Instruction, which is not defined.  An array of bytes takes no negative number. *)
Definition encode (os : list (nat * Z)) (o : Z) (i : rinstr) : result (list N) :=
  match opmap (fst i) with
  | None => Err KeyError
  | Some c =>
    let with_arg n :=
      (if n >? 65535 then Err NameError
       else if n <? 0 then Err OverflowError
       else Ok [c; Z.to_N (n mod 256); Z.to_N (n / 256)])%Z in
    match snd i with
    | RNone => Ok [c]
    | RNum n => with_arg n
    | RJump b => with_arg (offset_of b os - (o + ilen i))%Z
    end
  end.
Fixpoint encode_all (os : list (nat * Z)) (o : Z) (is : list rinstr) : result (list N) :=
  match is with
  | [] => Ok []
  | i :: r =>
    do x <- encode os o i ;
    do y <- encode_all os (o + Z.of_nat (List.length x))%Z r ;
    Ok (x ++ y)
  end.

(** The code object *)
Record code := {
  c_stacksize : Z; c_bytes : list N; c_consts : list K; c_names : list str;
  c_varnames : list local
}.
(** assemble, assembler.py:56-69, with args = ('context',) *)
Definition assemble (docstring : K) (g : graph) : result code :=
  let g := emit [i0 RETURN_VALUE] (next_block g) in
  let bs := g_blocks g in
  do stacksize <- compute_stack_size bs ;
  do order <- blocks_in_order bs ;
  do (blocks, t) <- lookup_blocks bs order
                      {| t_consts := [docstring]; t_names := []; t_locals := [Context] |} ;
  do bytes <- encode_all (block_offsets 0 blocks) 0 (List.concat (map snd blocks)) ;
  Ok {| c_stacksize := stacksize; c_bytes := bytes; c_consts := t_consts t;
        c_names := t_names t; c_varnames := t_locals t |}.

(** The compiled function: expression.evaluate and its likes, expressions/__init__.py:59-97 *)
Definition compiled (en : env) (docstring : K) (m : mode) (e : expr) : result code :=
  do g <- compile en e m new_graph ; assemble docstring g.

(** ** The interpreter *)

Definition all_opcodes : list opcode :=
  [POP_TOP; ROT_TWO; ROT_THREE; ROT_FOUR; UNARY_NEGATIVE; BINARY_MULTIPLY; BINARY_DIVIDE;
   BINARY_MODULO; BINARY_ADD; BINARY_SUBTRACT; BINARY_SUBSCR; GET_ITER; RETURN_VALUE; FOR_ITER;
   STORE_ATTR; LOAD_CONST; BUILD_TUPLE; LOAD_ATTR; COMPARE_OP; JUMP_FORWARD; JUMP_IF_FALSE;
   JUMP_IF_TRUE; LOAD_FAST; STORE_FAST; DELETE_FAST; CALL_FUNCTION].
Definition decode (c : N) : option opcode :=
  find (fun o => match opmap o with Some d => N.eqb c d | None => false end) all_opcodes.

Record machine := { m_pc : nat; m_stack : list V; m_locals : list (option V); m_state : St }.
(** The outcome of an evaluation: a value or an exception, with the state reached.  A
    [Crash] is what the interpreter does not check and must never happen: running out
    of the code string, an unknown opcode, an index outside a table, taking a value
    from the empty stack, or pushing more values than the code object's stack size. *)
Inductive outcome := Done (r : result V) (s : St) | Crash | Running.
Inductive next := Go (m : machine) | Stop (o : outcome).

(** take [n] values off the stack, the deepest first *)
Fixpoint take_stack (n : nat) (s acc : list V) : option (list V * list V) :=
  match n, s with
  | O, _ => Some (acc, s)
  | S n', x :: r => take_stack n' r (x :: acc)
  | S _, [] => None
  end.
Fixpoint pairs (l : list V) : list (V * V) :=
  match l with a :: b :: r => (a, b) :: pairs r | _ => [] end.
Fixpoint set_local (l : list (option V)) (n : nat) (v : option V) : list (option V) :=
  match l, n with
  | [], _ => []
  | _ :: r, O => v :: r
  | x :: r, S m => x :: set_local r m v
  end.

(** One round of the loop of PyEval_EvalFrameEx, for the opcodes that are emitted.  [n]
    is the argument, [pc] the position after the instruction. *)
Definition execute (c : code) (o : opcode) (n pc : nat) (m : machine) : next :=
  let st := m_state m in
  let go s l st :=
    if (Z.of_nat (List.length s) <=? c_stacksize c)%Z
    then Go {| m_pc := pc; m_stack := s; m_locals := l; m_state := st |}
    else Stop Crash in
  let jump s l st := Go {| m_pc := pc + n; m_stack := s; m_locals := l; m_state := st |} in
  let push (r : result V * St) s :=
    match r with
    | (Ok v, st) => go (v :: s) (m_locals m) st
    | (Err x, st) => Stop (Done (Err x) st)
    end in
  match o, m_stack m with
  | POP_TOP, _ :: s => go s (m_locals m) st
  | ROT_TWO, a :: b :: s => go (b :: a :: s) (m_locals m) st
  | ROT_THREE, a :: b :: d :: s => go (b :: d :: a :: s) (m_locals m) st
  | ROT_FOUR, a :: b :: d :: e :: s => go (b :: d :: e :: a :: s) (m_locals m) st
  | UNARY_NEGATIVE, a :: s => push (w_negate w a st) s
  | BINARY_MULTIPLY, b :: a :: s => push (w_arith w Mul a b st) s
  | BINARY_DIVIDE, b :: a :: s => push (w_arith w Div a b st) s
  | BINARY_MODULO, b :: a :: s => push (w_arith w Mod a b st) s
  | BINARY_ADD, b :: a :: s => push (w_arith w Add a b st) s
  | BINARY_SUBTRACT, b :: a :: s => push (w_arith w Sub a b st) s
  | BINARY_SUBSCR, b :: a :: s => push (w_subscr w a b st) s
  | GET_ITER, a :: s => push (w_iter w a st) s
  | RETURN_VALUE, a :: _ => Stop (Done (Ok a) st)
  | FOR_ITER, a :: s =>
    match w_next w a st with
    | (Ok (Some v), st) => go (v :: a :: s) (m_locals m) st
    | (Ok None, st) => jump s (m_locals m) st
    | (Err x, st) => Stop (Done (Err x) st)
    end
  | STORE_ATTR, v :: u :: s =>
    match nth_error (c_names c) n with
    | Some name =>
      match w_setattr w v name u st with
      | (Ok _, st) => go s (m_locals m) st
      | (Err x, st) => Stop (Done (Err x) st)
      end
    | None => Stop Crash
    end
  | LOAD_CONST, s =>
    match nth_error (c_consts c) n with
    | Some k => go (kval w k :: s) (m_locals m) st
    | None => Stop Crash
    end
  | BUILD_TUPLE, s =>
    match take_stack n s [] with
    | Some (vs, s) => go (w_tuple w vs :: s) (m_locals m) st
    | None => Stop Crash
    end
  | LOAD_ATTR, a :: s =>
    match nth_error (c_names c) n with
    | Some name => push (w_attr w a name st) s
    | None => Stop Crash
    end
  | COMPARE_OP, b :: a :: s =>
    match nth_error cmp_op n with
    | Some t => push (w_compare w t a b st) s
    | None => Stop Crash
    end
  | JUMP_FORWARD, s => jump s (m_locals m) st
  | JUMP_IF_FALSE, a :: s =>
    match w_truth w a st with
    | (Ok true, st) => go (a :: s) (m_locals m) st
    | (Ok false, st) => jump (a :: s) (m_locals m) st
    | (Err x, st) => Stop (Done (Err x) st)
    end
  | JUMP_IF_TRUE, a :: s =>
    match w_truth w a st with
    | (Ok true, st) => jump (a :: s) (m_locals m) st
    | (Ok false, st) => go (a :: s) (m_locals m) st
    | (Err x, st) => Stop (Done (Err x) st)
    end
  | LOAD_FAST, s =>
    match nth_error (m_locals m) n with
    | Some (Some v) => go (v :: s) (m_locals m) st
    | Some None => Stop (Done (Err NameError) st)      (* UnboundLocalError *)
    | None => Stop Crash
    end
  | STORE_FAST, a :: s =>
    match nth_error (m_locals m) n with
    | Some _ => go s (set_local (m_locals m) n (Some a)) st
    | None => Stop Crash
    end
  | DELETE_FAST, s =>
    match nth_error (m_locals m) n with
    | Some (Some _) => go s (set_local (m_locals m) n None) st
    | Some None => Stop (Done (Err NameError) st)
    | None => Stop Crash
    end
  | CALL_FUNCTION, s =>
    (* call_function: the low byte counts the arguments, the high byte the keywords *)
    match take_stack (2 * (n / 256)) s [] with
    | Some (kw, s) =>
      match take_stack (n mod 256) s [] with
      | Some (args, f :: s) =>
        push (match pairs kw with [] => w_call w f args st | kw => w_callkw w f args kw st end) s
      | _ => Stop Crash
      end
    | None => Stop Crash
    end
  | _, _ => Stop Crash
  end.
(** HAVE_ARGUMENT is 90. *)
Definition step_machine (c : code) (m : machine) : next :=
  match nth_error (c_bytes c) (m_pc m) with
  | None => Stop Crash
  | Some b =>
    match decode b with
    | None => Stop Crash
    | Some o =>
      if (b <? 90)%N then execute c o 0 (m_pc m + 1) m
      else match nth_error (c_bytes c) (m_pc m + 1), nth_error (c_bytes c) (m_pc m + 2) with
           | Some lo, Some hi => execute c o (N.to_nat (lo + 256 * hi)) (m_pc m + 3) m
           | _, _ => Stop Crash
           end
    end
  end.
Fixpoint run (fuel : nat) (c : code) (m : machine) : outcome :=
  match fuel with
  | O => Running
  | S f => match step_machine c m with Go m' => run f c m' | Stop o => o end
  end.
(** Calling the function with a context *)
Definition start (c : code) (context : V) (s : St) : machine :=
  {| m_pc := 0; m_stack := [];
     m_locals := Some context :: repeat None (List.length (c_varnames c) - 1); m_state := s |}.

End Model.
Arguments expr : clear implicits.
Arguments step : clear implicits.
Arguments env : clear implicits.
Arguments code : clear implicits.
Arguments graph : clear implicits.
Arguments block : clear implicits.
Arguments instr : clear implicits.
Arguments compiler : clear implicits.
Arguments outcome : clear implicits.
Arguments func : clear implicits.
