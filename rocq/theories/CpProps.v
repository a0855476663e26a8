(** * Compiled XPath expressions: C93 to C95 *)
From Coq Require Import NArith ZArith String List Bool Lia Arith.
From Verif Require Import PyStr PyErr CpModel CpSpec CpCode CpGen CpPath CpVm CpAsm CpRun.
Import ListNotations.
Local Open Scope nat_scope.

(** ** A small world for the examples: nodes are numbers, the children of n are 2n and
    2n+1, and an iterator is the tuple it iterates over. *)

Inductive konst := KNone | KText (s : str) | KPair (a b : str) | KBool (b : bool) | KNum (z : Z) | KNan | KName (s : str).
Inductive object := OK (k : konst) | OTuple (l : list object) | OContext | OBound (k : konst) (s : str).
Definition konst_dec : forall a b : konst, {a = b} + {a <> b}.
Proof. decide equality; try apply Bool.bool_dec; try apply Z.eq_dec; apply (list_eq_dec N.eq_dec). Defined.
Record focus := { o_node : object; o_position : object; o_size : object }.
Definition ends (r : result object) (s : focus) : result object * focus := (r, s).
Definition number_of (v : object) : Z := match v with OK (KNum z) => z | OK (KBool true) => 1%Z | _ => 0%Z end.
Definition truth_of (v : object) : bool :=
  match v with OK (KBool b) => b | OK (KNum z) => negb (z =? 0)%Z | OTuple [] => false | _ => true end.
Definition nodes_of (v : object) : list object := match v with OTuple l => l | _ => [] end.
Definition toy_call (f : object) (args : list object) : result object :=
  match f, args with
  | OK (KName n), [x] =>
    if str_eqb n (lit "boolean") then Ok (OK (KBool (truth_of x)))
    else if str_eqb n (lit "number") then Ok (OK (KNum (number_of x)))
    else if str_eqb n (lit "string") then Ok (OK (KText (lit "text")))
    else if str_eqb n (lit "nodeset") then Ok x
    else if str_eqb n (lit "unioniter") then Ok x
    else Err TypeError
  | OK (KName n), [c; x] =>
    if str_eqb n (lit "child") then
      Ok (OTuple (flat_map (fun v => [OK (KNum (2 * number_of v)); OK (KNum (2 * number_of v + 1))]) (nodes_of x)))
    else if str_eqb n (lit "unioniter") then Ok (OTuple (nodes_of c ++ nodes_of x))
    else Err TypeError
  | OK (KName n), l => if str_eqb n (lit "unioniter") then Ok (OTuple (flat_map nodes_of l)) else Err TypeError
  | OBound _ _, _ => Ok (OK (KNum 42))
  | _, _ => Err TypeError
  end.
Definition toy_attr (v : object) (a : str) (s : focus) : result object :=
  match v with
  | OContext => if str_eqb a (lit "node") then Ok (o_node s)
                else if str_eqb a (lit "position") then Ok (o_position s)
                else if str_eqb a (lit "size") then Ok (o_size s)
                else if str_eqb a (lit "variables") then Ok (OK (KName a)) else Err AttributeError
  | OK (KNum _) => if str_eqb a (lit "xml_root") then Ok (OK (KNum 1)) else Err AttributeError
  | OK (KName n) => if str_eqb a (lit "NaN") then Ok (OK KNan) else Ok (OBound (KName n) a)
  | _ => Err AttributeError
  end.
Definition toy_setattr (v : object) (a : str) (x : object) (s : focus) : result unit * focus :=
  match v with
  | OContext =>
    if str_eqb a (lit "node") then (Ok tt, {| o_node := x; o_position := o_position s; o_size := o_size s |})
    else if str_eqb a (lit "position") then (Ok tt, {| o_node := o_node s; o_position := x; o_size := o_size s |})
    else if str_eqb a (lit "size") then (Ok tt, {| o_node := o_node s; o_position := o_position s; o_size := x |})
    else (Err AttributeError, s)
  | _ => (Err AttributeError, s)
  end.
(** Two calls move the focus: wander(c, x) gives x, lost() raises. *)
Definition elsewhere : focus := {| o_node := OK (KNum 99); o_position := OK (KNum 99); o_size := OK (KNum 99) |}.
Definition digits (s : str) : Z := fold_left (fun z c => (10 * z + (Z.of_N c - 48))%Z) s 0%Z.
Definition toy : world := {|
  V := object; K := konst; St := focus;
  same := fun a b => if konst_dec a b then true else false;
  kval := OK; k_none := KNone; k_text := KText; k_pair := KPair; k_true := KBool true; k_false := KBool false;
  k_nan := KNan; k_empty := KText []; k_boolean := KName (lit "boolean"); k_number := KName (lit "number");
  k_string := KName (lit "string"); k_nodeset := KName (lit "nodeset"); k_unioniter := KName (lit "unioniter");
  k_dynamic := fun _ n => KName n;
  to_number := fun s => Ok (KNum (digits s)); to_string := fun s => Ok (KText s);
  w_attr := fun v a s => (toy_attr v a s, s); w_setattr := toy_setattr;
  w_call := fun f args s =>
    match f with
    | OK (KName n) =>
      if str_eqb n (lit "wander") then (Ok (nth 1 args (OTuple [])), elsewhere)
      else if str_eqb n (lit "lost") then (Err TypeError, elsewhere) else (toy_call f args, s)
    | _ => (toy_call f args, s)
    end;
  w_callkw := fun _ _ _ s => (Err TypeError, s);
  w_compare := fun o a b s => (Ok (OK (KBool (if str_eqb o (lit "==") then (number_of a =? number_of b)%Z
                                              else (number_of a <? number_of b)%Z))), s);
  w_arith := fun o a b s => (Ok (OK (KNum (match o with Add => number_of a + number_of b | _ => number_of a - number_of b end)%Z)), s);
  w_negate := fun a s => (Ok (OK (KNum (- number_of a))), s);
  w_subscr := fun _ _ s => (Ok (OK (KNum 7)), s);
  w_tuple := OTuple; w_iter := fun v s => (Ok v, s);
  w_next := fun v s => (Ok (match v with OTuple (x :: _) => Some x | _ => None end), s);
  w_truth := fun v s => (Ok (truth_of v), s)
|}.
Lemma toy_apart : constants_apart toy.
Proof. intros a b. cbn. destruct (konst_dec a b) as [E|E]; split; intros H; try exact E; try reflexivity; [discriminate|contradiction]. Qed.
Definition toy_env : env toy := {|
  e_namespaces := fun p => if str_eqb p (lit "p") then Some (lit "urn:p") else None;
  e_variables := fun _ l => str_eqb l (lit "x");
  e_functions := fun _ l => if str_eqb l (lit "f")
                            then Some {| f_obj := (KName (lit "f") : K toy); f_nocache := true; f_sig := Some (2, false, 1) |} else None;
  e_debug := true |}.
Definition child : step toy := {| s_prefix := None; s_make := fun _ => (KName (lit "child") : K toy) |}.
Definition child_p : step toy := {| s_prefix := Some (lit "p"); s_make := fun _ => (KName (lit "child") : K toy) |}.
Definition here : focus := {| o_node := OK (KNum 3); o_position := OK (KNum 2); o_size := OK (KNum 5) |}.

(** ** C93 Compiled code computes the value of the expression *)

(** The code object computes what the expression means, or the first fault is raised
    before anything is evaluated.  Only expressions of more than 400 parts are too large. *)
Theorem C93_computes_partial : forall (w : world), constants_apart w ->
  forall (en : env w) (docstring : K w) (e : expr w) (m : mode),
  e_debug en = true -> calls_fit e -> no_zero_tested e m -> m <> Iterable ->
  match compiled en docstring m e with
  | Ok c => fault en e m = None /\
            forall context s, gives c context s (wanted (means en e) m context s)
  | Err x => fault en e m = Some x \/ (fault en e m = None /\ x = NameError /\ (size e > 400)%nat)
  end.
Proof. intros w A en doc e m. apply compiled_spec. exact A. Qed.
Print Assumptions C93_computes_partial.

(** $x + 1 = number of the first grandchild, or a union has a node *)
Definition an_expression : expr toy :=
  Or (Cmp OpEq (Arith Add (Var None (lit "x")) (Num (lit "1"))) (Neg (Loc false [child; child_p])))
     (Union [Loc true [child]; Path (Var None (lit "x")) [child]; Filter (Loc false [child]) None]).
Example C93_case_hypotheses : e_debug toy_env = true /\ calls_fit an_expression /\ no_zero_tested an_expression Value.
Proof. vm_compute. repeat split; repeat constructor. Qed.
Definition done (r : result object) : outcome toy := Done (w:=toy) r here.
Definition outcome_of (en : env toy) (e : expr toy) (m : mode) (n : nat) : result (outcome toy) :=
  do c <- compiled en (KText (lit "doc")) m e ; Ok (run n c (start c OContext here)).
Example C93_case_value : outcome_of toy_env an_expression Value 200 = Ok (done (Ok (OK (KBool true)))).
Proof. vm_compute. reflexivity. Qed.
Example C93_case_number : outcome_of toy_env (Arith Sub (Loc false [child; child]) (Var None (lit "x"))) Number 200
                          = Ok (done (Ok (OK (KNum 5)))).
Proof. vm_compute. reflexivity. Qed.
Example C93_case_extension : outcome_of toy_env (Cmp OpLt (Ext (KName (lit "e") : K toy) (lit "p") (lit "f") [KNum 1 : K toy]) (Num (lit "3"))) Boolean 200
                             = Ok (done (Err TypeError)).
Proof. vm_compute. reflexivity. Qed.
Example C93_case_faults :
  compiled toy_env KNone Value (Or (Var (Some (lit "q")) (lit "x")) (Var None (lit "y"))) = Err UndefinedPrefix
  /\ compiled toy_env KNone Value (Or (Var None (lit "x")) (Var None (lit "y"))) = Err UndefinedVariable
  /\ compiled toy_env KNone Value (Ext (KName (lit "e") : K toy) (lit "p") (lit "f") [KNum 1 : K toy; KNum 2]) = Err ArgcountAtmost
  /\ compiled toy_env KNone Nodeset (Num (lit "1")) = Err TypeError.
Proof. vm_compute. repeat split. Qed.

(** The number 0 is true where a boolean is wanted: 0 or false() *)
Theorem C93_zero_refuted : exists (e : expr toy) c,
  constants_apart toy /\ calls_fit e /\ compiled toy_env KNone Value e = Ok c /\ fault toy_env e Value = None
  /\ fst (wanted (means toy_env e) Value OContext here) = (Ok (OK (KBool false)) : result object)
  /\ gives c (OContext : V toy) (here : St toy) (ends (Ok (OK (KBool true))) here).
Proof.
  set (e := Or (Num (lit "0")) (Builtin (KName (lit "false") : K toy) (Some (KBool false))) : expr toy).
  destruct (compiled toy_env KNone Value e) as [c|x] eqn:E; [|vm_compute in E; discriminate].
  exists e, c. split; [exact toy_apart|]. split; [vm_compute; repeat split|]. split; [exact E|].
  split; [reflexivity|]. split; [vm_compute; reflexivity|].
  exists 20. intros k Hk. replace k with (20 + (k - 20)) by lia. generalize (k - 20). intros j.
  vm_compute in E. injection E as <-. vm_compute. reflexivity.
Qed.
Print Assumptions C93_zero_refuted.

(** A call of a function is no operand of a union: f() | child::node() *)
Theorem C93_function_in_union_refuted : forall (w : world) (en : env w) (docstring self : K w) (c : option (K w)) (p : expr w),
  compiled en docstring Nodeset (Union [Builtin self c; p]) = Err TypeError.
Proof. intros w en doc self c p. destruct c; reflexivity. Qed.
Print Assumptions C93_function_in_union_refuted.

(** A union of 256 paths: the call has no argument and one keyword. *)
Theorem C93_256_refuted : exists (e : expr toy) c,
  constants_apart toy /\ no_zero_tested e Nodeset /\ compiled toy_env KNone Nodeset e = Ok c /\ fault toy_env e Nodeset = None
  /\ (exists v, fst (wanted (means toy_env e) Nodeset OContext here) = Ok v)
  /\ exists s, gives c (OContext : V toy) (here : St toy) (ends (Err TypeError) s).
Proof.
  set (e := Union (repeat (Loc true []) 256) : expr toy).
  destruct (compiled toy_env KNone Nodeset e) as [c|x] eqn:E; [|vm_compute in E; discriminate].
  exists e, c. split; [exact toy_apart|]. split; [vm_compute; repeat split|]. split; [exact E|].
  split; [vm_compute; reflexivity|]. split; [eexists; vm_compute; reflexivity|].
  vm_compute in E. injection E as <-. exists here.
  exists 2000. intros k Hk. replace k with (2000 + (k - 2000)) by lia. generalize (k - 2000). intros j.
  vm_compute. reflexivity.
Qed.
Print Assumptions C93_256_refuted.

(** Under python -O a function with nocache cannot be called. *)
Definition optimized : env toy := {|
  e_namespaces := e_namespaces toy_env; e_variables := e_variables toy_env; e_functions := e_functions toy_env; e_debug := false |}.
Theorem C93_optimized_refuted : exists e : expr toy,
  calls_fit e /\ no_zero_tested e Value /\ fault optimized e Value = None
  /\ compiled optimized KNone Value e = Err RuntimeError.
Proof.
  exists (Ext (KName (lit "e") : K toy) (lit "p") (lit "f") [KNum 1 : K toy]). split; [cbn; lia|]. split; [exact Logic.I|].
  split; vm_compute; reflexivity.
Qed.
Print Assumptions C93_optimized_refuted.

(** Too long a way to jump: true() or f(...) = (f(...) = ...) *)
Fixpoint long (n : nat) : expr toy :=
  let f := Ext (KName (lit "e") : K toy) (lit "p") (lit "g") (repeat (KNum 1 : K toy) 250) in
  match n with O => f | S n => Cmp OpEq f (long n) end.
Definition any_number : env toy := {|
  e_namespaces := e_namespaces toy_env; e_variables := e_variables toy_env;
  e_functions := fun _ _ => Some {| f_obj := (KName (lit "g") : K toy); f_nocache := false; f_sig := None |}; e_debug := true |}.
Theorem C93_too_large_refuted : exists e : expr toy,
  calls_fit e /\ no_zero_tested e Value /\ fault any_number e Value = None
  /\ compiled any_number KNone Value e = Err NameError.
Proof.
  exists (Or (Builtin (KName (lit "true") : K toy) (Some (KBool true))) (Cmp OpEq (long 90) (long 0))).
  split; [|split; [|split; vm_compute; reflexivity]].
  - cbn [calls_fit]. split; [exact Logic.I|]. split; [|apply Nat.ltb_lt; reflexivity].
    generalize 90. intros n. induction n as [|n IH]; cbn [long calls_fit]; [apply Nat.ltb_lt; reflexivity|].
    split; [apply Nat.ltb_lt; reflexivity|exact IH].
  - cbn [no_zero_tested]. split; [exact Logic.I|]. split; [|exact Logic.I].
    generalize 90. intros n. induction n as [|n IH]; cbn [long no_zero_tested]; [exact Logic.I|]. split; [exact Logic.I|exact IH].
Qed.
Print Assumptions C93_too_large_refuted.

(** ** C94 Evaluating never leaves the interpreter in an undefined state *)

(** A number literal tested as a boolean is the constant it is compiled to. *)
Fixpoint tested {w : world} (e : expr w) (m : mode) : expr w :=
  match e with
  | Num s => match m with
             | Boolean => Builtin (k_none w) (Some (match s with [] => k_false w | _ => k_true w end))
             | _ => e
             end
  | Or a b => Or (tested a Boolean) (tested b Boolean)
  | And a b => And (tested a Boolean) (tested b Boolean)
  | Cmp o a b => Cmp o (tested a Value) (tested b Value)
  | Arith o a b => Arith o (tested a Number) (tested b Number)
  | Neg a => Neg (tested a Number)
  | Union ps => Union (map (fun p => tested p (match m with Boolean => Boolean | _ => Iterable end)) ps)
  | Path e' s => Path (tested e' (if is_nodeset_expression e' then Iterable else Nodeset)) s
  | Filter e' p => Filter (tested e' Nodeset) p
  | _ => e
  end.
Section Tested.
Context {w : world}.
Lemma mode_boolean : forall m, {m = Boolean} + {m <> Boolean}.
Proof. decide equality. Qed.
Lemma tested_kind : forall (e : expr w) m, m <> Boolean -> is_nodeset_expression (tested e m) = is_nodeset_expression e.
Proof. intros [] m H; try reflexivity. destruct m; reflexivity || contradiction. Qed.
Lemma arguments_ext : forall t (l l' : list (mode -> compiler w)),
  Forall2 (fun a b => forall g, a Iterable g = b Iterable g) l l' -> forall g, union_arguments t l g = union_arguments t l' g.
Proof.
  intros t l l' H. induction H as [|a b l l' Hab H IH]; intros g; [reflexivity|]. cbn [union_arguments]. unfold seq.
  destruct (emits _ g) as [g1|]; [|reflexivity]. cbn [bind]. rewrite Hab. destruct (b Iterable g1) as [g2|]; [|reflexivity].
  cbn [bind]. apply IH.
Qed.
Lemma alternatives_ext : forall end_ (l l' : list (mode -> compiler w)),
  Forall2 (fun a b => forall g, a Boolean g = b Boolean g) l l' -> forall g, union_alternatives end_ l g = union_alternatives end_ l' g.
Proof.
  intros t l l' H. induction H as [|a b l l' Hab H IH]; intros g; [reflexivity|].
  destruct H as [|a' b' l l' Hab' H]; [cbn [union_alternatives]; apply Hab|].
  change (union_alternatives t (a :: a' :: l) g) with
    (do g <- a Boolean g ; union_alternatives t (a' :: l) (emit [i0 POP_TOP] (next_block (emit [I JUMP_IF_TRUE (AJump t)] g)))).
  change (union_alternatives t (b :: b' :: l') g) with
    (do g <- b Boolean g ; union_alternatives t (b' :: l') (emit [i0 POP_TOP] (next_block (emit [I JUMP_IF_TRUE (AJump t)] g)))).
  rewrite Hab. destruct (b Boolean g) as [g2|]; [|reflexivity]. cbn [bind]. apply IH.
Qed.
Lemma seq_ext : forall (a a' b b' : compiler w), (forall g, a g = a' g) -> (forall g, b g = b' g) -> forall g, seq a b g = seq a' b' g.
Proof. intros a a' b b' H H' g. unfold seq. rewrite H. destruct (a' g) as [g1|]; [apply H'|reflexivity]. Qed.
Lemma converted_ext : forall (v v' : compiler w), (forall g, v g = v' g) -> forall m g, converted_modes v m g = converted_modes v' m g.
Proof.
  intros v v' H [] g; cbn [converted_modes]; try reflexivity; try apply H; unfold converted;
    apply seq_ext; try reflexivity; intros g'; apply seq_ext; try exact H; reflexivity.
Qed.
Lemma boolean_ext : forall (v v' : compiler w), (forall g, v g = v' g) -> forall m g, boolean_modes v m g = boolean_modes v' m g.
Proof. intros v v' H [] g; try apply (converted_ext v v' H); apply H. Qed.
Lemma number_ext : forall (v v' : compiler w), (forall g, v g = v' g) -> forall m g, number_modes v m g = number_modes v' m g.
Proof. intros v v' H [] g; try apply (converted_ext v v' H); apply H. Qed.
Lemma logical_ext : forall o (a a' b b' : compiler w), (forall g, a g = a' g) -> (forall g, b g = b' g) ->
  forall g, logical o a b g = logical o a' b' g.
Proof.
  intros o a a' b b' H H' g. unfold logical. destruct (new_block g) as [e g1]. rewrite H. destruct (a' g1) as [g2|]; [|reflexivity].
  cbn [bind]. rewrite H'. reflexivity.
Qed.
Lemma loop_ext : forall (v v' : compiler w) f e, (forall g, v g = v' g) -> forall g, make_loop v f e g = make_loop v' f e g.
Proof.
  intros v v' f e H g. unfold make_loop. destruct (new_block _) as [x g1]. destruct (new_block _) as [y g2]. rewrite H. reflexivity.
Qed.
Lemma nodeset_ext : forall (v v' : compiler w), (forall g, v g = v' g) -> forall m g, nodeset_modes v m g = nodeset_modes v' m g.
Proof.
  intros v v' H [] g; cbn [nodeset_modes]; try (apply loop_ext; exact H); try apply H.
  all: apply seq_ext; [reflexivity|]; intros g1; apply seq_ext; [reflexivity|]; intros g2; apply seq_ext; [exact H|reflexivity].
Qed.
Lemma compile_tested : forall (en : env w) (e : expr w) m g, compile en (tested e m) m g = compile en e m g.
Proof.
  intros en. fix IH 1. intros [s|s|p l|a b|a b|o a b|o a b|a|self k|self p l args|ps|e' steps|e' p|ab steps] m g;
    try reflexivity.
  - destruct m; try reflexivity; destruct s; reflexivity.
  - cbn [tested compile]. apply boolean_ext. intros g'. apply logical_ext; intros; apply IH.
  - cbn [tested compile]. apply boolean_ext. intros g'. apply logical_ext; intros; apply IH.
  - cbn [tested compile]. apply boolean_ext. intros g'. unfold comparison. apply seq_ext; [intros; apply IH|].
    intros g2. apply seq_ext; [intros; apply IH|reflexivity].
  - cbn [tested compile]. apply number_ext. intros g'. apply seq_ext; [intros; apply IH|].
    intros g2. apply seq_ext; [intros; apply IH|reflexivity].
  - cbn [tested compile]. apply number_ext. intros g'. apply seq_ext; [intros; apply IH|reflexivity].
  - cbn [tested compile]. destruct (mode_boolean m) as [->|Hm].
    + unfold union_boolean. destruct (new_block g) as [e2 g2].
      replace (union_alternatives e2 (map (compile en) (map (fun p => tested p Boolean) ps)) g2)
        with (union_alternatives e2 (map (compile en) ps) g2); [reflexivity|].
      symmetry. apply alternatives_ext. clear - IH.
      induction ps as [|p ps IHp]; [constructor|]. cbn [map]. constructor; [intros g; apply IH|exact IHp].
    + assert (E : forall g, union_iterable (map (compile en) (map (fun p => tested p (match m with Boolean => Boolean | _ => Iterable end)) ps)) g
                          = union_iterable (map (compile en) ps) g).
      { intros g1. unfold union_iterable. destruct (tmpname g1) as [t g2].
        apply seq_ext; [reflexivity|]. intros g3. apply seq_ext.
        - apply arguments_ext. clear - IH Hm.
          induction ps as [|p ps IHp]; [constructor|]. cbn [map]. constructor; [|exact IHp].
          intros g. destruct m; try contradiction; apply IH.
        - intros g4. rewrite !map_length. reflexivity. }
      destruct m; try contradiction; apply nodeset_ext; exact E.
  - cbn [tested compile]. apply nodeset_ext. intros g'. unfold path_iterable.
    rewrite tested_kind by (destruct (is_nodeset_expression e'); discriminate).
    apply seq_ext; [|reflexivity]. intros g2. destruct (is_nodeset_expression e').
    + apply IH.
    + apply seq_ext; [reflexivity|intros; apply IH].
  - cbn [tested compile]. apply nodeset_ext. intros g'. unfold filter_iterable. apply seq_ext; [reflexivity|].
    intros g2. apply seq_ext; [intros; apply IH|reflexivity].
Qed.
Lemma tested_fits : forall (e : expr w) m, calls_fit e -> calls_fit (tested e m).
Proof.
  fix IH 1. intros [s|s|p l|a b|a b|o a b|o a b|a|self k|self p l args|ps|e' steps|e' p|ab steps] m H;
    cbn [tested calls_fit] in *; try exact H; try (split; apply IH; apply H); try (apply IH; exact H).
  - destruct m; exact Logic.I.
  - destruct H as [H1 H2]. rewrite map_length. split; [exact H1|]. clear H1.
    induction ps as [|p ps IHp]; [exact Logic.I|]. cbn [map]. destruct H2 as [H2 H3]. split; [apply IH; exact H2|apply IHp; exact H3].
Qed.
Lemma tested_no_zero : forall (e : expr w) m, no_zero_tested (tested e m) m.
Proof.
  fix IH 1. intros [s|s|p l|a b|a b|o a b|o a b|a|self k|self p l args|ps|e' steps|e' p|ab steps] m;
    cbn [tested no_zero_tested]; try exact Logic.I; try (split; apply IH); try apply IH.
  - destruct m; exact Logic.I.
  - induction ps as [|p ps IHp]; [exact Logic.I|]. cbn [map]. split; [apply IH|exact IHp].
  - assert (K : is_nodeset_expression (tested e' (if is_nodeset_expression e' then Iterable else Nodeset)) = is_nodeset_expression e')
      by (apply tested_kind; destruct (is_nodeset_expression e'); discriminate).
    set (t := tested e' (if is_nodeset_expression e' then Iterable else Nodeset)) in *.
    replace (match t with Union _ | Path _ _ | Filter _ _ | Loc _ _ => Iterable | _ => Nodeset end)
      with (if is_nodeset_expression t then Iterable else Nodeset) by (destruct t; reflexivity).
    rewrite K. apply IH.
Qed.
(** What a code object gives, whatever is tested *)
Lemma compiled_tested : constants_apart w -> forall (en : env w) doc (e : expr w) m c,
  e_debug en = true -> calls_fit e -> m <> Iterable -> compiled en doc m e = Ok c ->
  forall context s, gives c context s (wanted (means en (tested e m)) m context s).
Proof.
  intros A en doc e m c D F M E. pose proof (compiled_spec A en doc (tested e m) m D (tested_fits e m F) (tested_no_zero e m) M) as S.
  replace (compiled en doc m (tested e m)) with (compiled en doc m e) in S.
  - rewrite E in S. exact (proj2 S).
  - unfold compiled. rewrite compile_tested. reflexivity.
Qed.
Lemma run_more : forall (c : code w) k j m o, run k c m = o -> o <> Running -> run (k + j) c m = o.
Proof.
  induction k as [|k IH]; intros j m o H Ho; [cbn in H; congruence|]. cbn [Nat.add run] in *.
  destruct (step_machine c m) as [m'|o']; [apply IH; assumption|exact H].
Qed.
End Tested.

(** Whatever the values, the functions and the exceptions: the code ends, with a value or
    an exception of some operation, and no step takes a value from an empty stack, pushes
    one beyond the stack size, or looks outside the code string or the tables. *)
Theorem C94_never_crashes_partial : forall (w : world), constants_apart w ->
  forall (en : env w) (docstring : K w) (e : expr w) (m : mode) (c : code w),
  e_debug en = true -> calls_fit e -> m <> Iterable -> compiled en docstring m e = Ok c ->
  forall context s, (forall rounds, run rounds c (start c context s) <> Crash)
                    /\ exists rounds r s', run rounds c (start c context s) = Done r s'.
Proof.
  intros w A en doc e m c D F M E context s. destruct (compiled_tested A en doc e m c D F M E context s) as [n H]. split.
  - intros k Hk. pose proof (run_more c k n _ _ Hk ltac:(discriminate)) as R. rewrite H in R by lia. discriminate.
  - exists n, (fst (wanted (means en (tested e m)) m context s)), (snd (wanted (means en (tested e m)) m context s)).
    apply H. lia.
Qed.
Print Assumptions C94_never_crashes_partial.
Example C94_case : exists c, compiled toy_env KNone Value (Or (Num (lit "0")) an_expression) = Ok c
                             /\ c_stacksize c = 16%Z /\ List.length (c_bytes c) = 448
                             /\ run 5 c (start c (OContext : V toy) (here : St toy)) = done (Ok (OK (KBool true))).
Proof.
  destruct (compiled toy_env KNone Value (Or (Num (lit "0")) an_expression)) as [c|x] eqn:E; [|vm_compute in E; discriminate].
  exists c. split; [reflexivity|]. vm_compute in E. injection E as <-. vm_compute. repeat split.
Qed.

(** ** C95 A path leaves the context as it was *)

Section Focus.
Context {w : world}.
Variables (context : V w) (node position size : St w -> V w).
Hypothesis works : attributes_work context node position size.
Definition unmoved (s s' : St w) : Prop := node s' = node s /\ position s' = position s /\ size s' = size s.
Lemma restoring_unmoved : forall a s v s', restoring context a s = (Ok v, s') -> unmoved s s'.
Proof.
  destruct works as (R1 & R2 & R3 & W1 & W2 & W3 & _).
  intros a s v s' H. unfold restoring, andthen in H. rewrite R1, R2, R3 in H.
  destruct (a s) as [[x|x] s1]; [|discriminate].
  destruct (W3 (size s) s1) as (s2 & E2 & N2 & P2 & Z2). rewrite E2 in H.
  destruct (W2 (position s) s2) as (s3 & E3 & N3 & P3 & Z3). rewrite E3 in H.
  destruct (W1 (node s) s3) as (s4 & E4 & N4 & P4 & Z4). rewrite E4 in H.
  unfold ret in H. injection H as _ <-. unfold unmoved. repeat split; congruence.
Qed.
Lemma path_unmoved : forall reach m s v s', m <> Iterable -> wanted (path reach) m context s = (Ok v, s') -> unmoved s s'.
Proof. intros reach [] s v s' M H; try contradiction; cbn [wanted path] in H; eapply restoring_unmoved; exact H. Qed.
Lemma any_unmoved : forall l, (forall a, In a l -> forall s v s', a s = (Ok v, s') -> unmoved s s') ->
  forall s v s', any l s = (Ok v, s') -> unmoved s s'.
Proof.
  induction l as [|a l IH]; intros H s v s' E; [discriminate|].
  destruct l as [|b l]; [exact (H a (or_introl eq_refl) s v s' E)|].
  change (any (a :: b :: l)) with (x <- a ;; t <- w_truth w x ;; (if t : bool then ret x else any (b :: l))) in E.
  unfold andthen in E. destruct (a s) as [[x|x] s1] eqn:E1; [|discriminate].
  destruct (w_truth w x s1) as [[t|y] s2] eqn:E2; [|discriminate].
  pose proof (H a (or_introl eq_refl) s x s1 E1) as (U1 & U2 & U3).
  destruct works as (_ & _ & _ & _ & _ & _ & T). destruct (T x s1 t s2 E2) as (T1 & T2 & T3).
  destruct t.
  - unfold ret in E. injection E as _ <-. repeat split; congruence.
  - destruct (IH (fun c Hc => H c (or_intror Hc)) s2 v s' E) as (V1 & V2 & V3). repeat split; congruence.
Qed.
Lemma means_unmoved : forall (en : env w) (e : expr w) m, is_path e -> m <> Iterable ->
  forall s v s', wanted (means en e) m context s = (Ok v, s') -> unmoved s s'.
Proof.
  intros en. fix IH 1. intros [x|x|p l|a b|a b|o a b|o a b|a|self k|self p l args|ps|e' steps|e' p|ab steps] m P M s v s' H;
    try contradiction P; try (cbn [means] in H; exact (path_unmoved _ m s v s' M H)).
  cbn [means wanted] in H. destruct (mode_boolean m) as [->|Hm].
  - eapply any_unmoved; [|exact H]. cbn [is_path] in P. clear - IH P.
    induction ps as [|p ps IHp]; intros a Ha s v s' E; [contradiction|]. destruct P as [P1 P2]. cbn [map] in Ha.
    destruct Ha as [<-|Ha]; [|exact (IHp P2 a Ha s v s' E)].
    exact (IH p Boolean P1 ltac:(discriminate) s v s' E).
  - destruct m; try contradiction; exact (path_unmoved _ _ s v s' M H).
Qed.
End Focus.
Lemma tested_path : forall (w : world) (e : expr w) m, is_path e -> is_path (tested e m).
Proof.
  intros w. fix IH 1. intros [x|x|p l|a b|a b|o a b|o a b|a|self k|self p l args|ps|e' steps|e' p|ab steps] m P;
    try contradiction P; try exact Logic.I.
  cbn [tested is_path] in *. induction ps as [|p ps IHp]; [exact Logic.I|]. cbn [map]. destruct P as [P1 P2].
  split; [apply IH; exact P1|apply IHp; exact P2].
Qed.

(** Whatever the steps, the predicates and the iterators do to the focus: when the path has
    a value, the focus is what it was. *)
Theorem C95_focus_partial : forall (w : world), constants_apart w ->
  forall (en : env w) (docstring : K w) (e : expr w) (m : mode) (c : code w),
  e_debug en = true -> calls_fit e -> m <> Iterable -> is_path e -> compiled en docstring m e = Ok c ->
  forall context node position size s, attributes_work context node position size ->
  forall rounds v s', run rounds c (start c context s) = Done (Ok v) s' ->
  node s' = node s /\ position s' = position s /\ size s' = size s.
Proof.
  intros w A en doc e m c D F M P E context node position size s W k v s' R.
  destruct (compiled_tested A en doc e m c D F M E context s) as [n H].
  pose proof (run_more c k n _ _ R ltac:(discriminate)) as R'. rewrite H in R' by lia.
  injection R' as R1 R2.
  apply (means_unmoved context node position size W en (tested e m) m (tested_path w e m P) M s v s').
  rewrite <- R1, <- R2. destruct (wanted (means en (tested e m)) m context s). reflexivity.
Qed.
Print Assumptions C95_focus_partial.
Lemma toy_works : attributes_work (OContext : V toy) o_node o_position o_size.
Proof.
  unfold attributes_work. split; [reflexivity|]. split; [reflexivity|]. split; [reflexivity|].
  split; [intros v s; eexists; split; [reflexivity|]; cbn; repeat split|].
  split; [intros v s; eexists; split; [reflexivity|]; cbn; repeat split|].
  split; [intros v s; eexists; split; [reflexivity|]; cbn; repeat split|].
  intros v s r s' H. cbn in H. injection H as _ <-. repeat split.
Qed.
Definition wander : step toy := {| s_prefix := None; s_make := fun _ => (KName (lit "wander") : K toy) |}.
Definition lost : step toy := {| s_prefix := None; s_make := fun _ => (KName (lit "lost") : K toy) |}.
Example C95_case : is_path (Union [Loc false [child; wander]; Filter (Loc true [wander]) None])
  /\ outcome_of toy_env (Union [Loc false [child; wander]; Filter (Loc true [wander]) None]) Boolean 200
     = Ok (done (Ok (OK (KBool true)))).
Proof. vm_compute. repeat split. Qed.

(** When a step raises, the focus stays where it was left. *)
Theorem C95_exception_refuted : exists (e : expr toy) c,
  is_path e /\ compiled toy_env KNone Nodeset e = Ok c
  /\ attributes_work (OContext : V toy) o_node o_position o_size
  /\ gives c (OContext : V toy) (here : St toy) (ends (Err TypeError) elsewhere)
  /\ o_position elsewhere <> o_position here.
Proof.
  set (e := Loc false [child; lost] : expr toy).
  destruct (compiled toy_env KNone Nodeset e) as [c|x] eqn:E; [|vm_compute in E; discriminate].
  exists e, c. split; [exact Logic.I|]. split; [exact E|]. split; [exact toy_works|]. split; [|discriminate].
  exists 200. intros k Hk. replace k with (200 + (k - 200)) by lia. generalize (k - 200). intros j.
  vm_compute in E. injection E as <-. vm_compute. reflexivity.
Qed.
Print Assumptions C95_exception_refuted.
