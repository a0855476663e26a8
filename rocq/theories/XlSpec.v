(** * Specification: what the instructions that make elements and attributes give

    After XSLT 1.0, sections 7.1.1 to 7.1.4.  An instruction gives attributes,
    for the element being made, and nodes; a sequence of instructions gives those
    of its members, attributes first. *)
From Coq Require Import NArith ZArith String List Bool Lia Arith.
From Verif Require Import PyStr PyErr SerModel SerSpec SerTree XwModel XwSpec XcModel XlModel.
Import ListNotations.
Open Scope N_scope.

Section Gives.
  Variable env : Type.
  Variable global : env.
  Variable sets : list (set_def env).

  (** 7.1.2, 7.1.3: the namespace attribute, if there is one ("" means none),
      else the declarations in scope at the instruction; the default namespace
      is not used for attributes. *)
  Definition namespace_for (attribute : bool) (nsa : option (env -> result str)) (nsmap : wdict) (e : env) (p : option str) (ns : option str) : Prop :=
    match nsa, p with
    | Some f, _ => exists s, f e = Ok s /\ ns = named (Some s)
    | None, None => if attribute then ns = None else wget nsmap None = Some ns
    | None, Some q => wget nsmap (Some q) = Some ns
    end.
  Definition is_wtext (n : wnode) : bool := match n with WText _ => true | _ => false end.
  Definition text_value (l : list wnode) : str := flat_map (fun n => match n with WText s => s | _ => [] end) l.
  Definition defs_of (n : sname) : list (set_def env) := filter (fun d => ename_eqb (s_name d) n) sets.
  (** The prefix is not the empty string, and an attribute is not called xmlns. *)
  Definition fine_prefix (p : option str) : Prop := p <> Some [].

  Inductive gives : env -> instr env -> list watt -> list wnode -> Prop :=
  | g_leaf : forall e f ws, f e = Ok (flat_map calls ws) -> gives e (Leaf f) [] ws
  | g_literal : forall e p l ns nss attrs lits uses satts body batts kids,
      Forall2 (fun a w => exists s, snd a e = Ok s /\ w = {| t_prefix := t_prefix w; t_local := t_local w; t_ns := snd (fst a); t_value := s |} /\ fst (fst a) = qn (t_prefix w) (t_local w)) attrs lits ->
      sets_give uses satts -> gives_all e body batts kids ->
      gives e (Literal (qn p l) ns nss attrs uses body) [] [WElem p l ns nss [] (lits ++ satts ++ batts) kids]
  | g_element : forall e nm nsa nsmap uses body p l ns satts batts kids,
      nm e = Ok (p, l) -> fine_prefix p -> namespace_for false nsa nsmap e p ns ->
      sets_give uses satts -> gives_all e body batts kids ->
      gives e (Element nm nsa nsmap uses body) [] [WElem p l ns [] [] (satts ++ batts) kids]
  | g_attribute : forall e nm nsa nsmap body p l ns content,
      nm e = Ok (p, l) -> fine_prefix p -> (p = None -> l <> lit "xmlns") -> namespace_for true nsa nsmap e p ns ->
      gives_all e body [] content -> forallb is_wtext content = true ->
      gives e (AttributeI nm nsa nsmap body) [{| t_prefix := p; t_local := l; t_ns := ns; t_value := text_value content |}] []
  with gives_all : env -> list (instr env) -> list watt -> list wnode -> Prop :=
  | ga_nil : forall e, gives_all e [] [] []
  | ga_cons : forall e i body a k a' k', gives e i a k -> gives_all e body a' k' -> (k = [] \/ a' = []) ->
      gives_all e (i :: body) (a ++ a') (k ++ k')
  (** 7.1.4: for each name in order, the definitions of that name in order: first
      the sets it uses, then its own attributes; only top-level variables are
      visible. *)
  with sets_give : list sname -> list watt -> Prop :=
  | sg_nil : sets_give [] []
  | sg_cons : forall n uses a a', defs_of n <> [] -> defs_give (defs_of n) a -> sets_give uses a' -> sets_give (n :: uses) (a ++ a')
  with defs_give : list (set_def env) -> list watt -> Prop :=
  | dg_nil : defs_give [] []
  | dg_cons : forall d ds u a a', sets_give (s_uses d) u -> gives_all global (s_body d) a [] -> defs_give ds a' -> defs_give (d :: ds) ((u ++ a) ++ a').
End Gives.

(** ** 7.1.1: aliases *)
(** The alias of [ns]: among its declarations the one of highest import
    precedence. *)
Definition declared_alias (decls : list alias_decl) (ns : option str) (r : option (option str * option str)) : Prop :=
  match r with
  | None => forall d, In d decls -> al_ns d <> ns
  | Some v => exists l1 d l2, decls = l1 ++ d :: l2 /\ al_ns d = ns /\ (al_to d, al_prefix d) = v /\
      forall d', In d' (l1 ++ l2) -> al_ns d' = ns -> (al_prec d' < al_prec d)%Z
  end.
(** The expanded name in the result for one in the stylesheet. *)
Definition aliased (al : aliases) (n : option str * str) : option str * str :=
  match alias_of al (fst n) with Some (ns', _) => (ns', snd n) | None => n end.

(** ** 7.1.1: the namespace nodes copied *)
(** The declaration of [p] nearest to the end of [path], with the elements below it. *)
Fixpoint nearest (p : option str) (path : list scope_step) : option (option str * list scope_step) :=
  match path with
  | [] => None
  | s :: path' =>
    match nearest p path' with
    | Some r => Some r
    | None => match wget (sc_decls s) p with Some u => Some (u, s :: path') | None => None end
    end
  end.
(** [u] is excluded on an element of [steps]: by a prefix bound to it there. *)
Fixpoint excluded_in (before steps : list scope_step) (u : option str) : Prop :=
  match steps with
  | [] => False
  | s :: l => (exists p, In p (sc_excluded s) /\ match nearest p (before ++ [s]) with Some (v, _) => v = u | None => (p = None /\ u = None) \/ (p = Some (lit "xml") /\ u = Some XML_NAMESPACE) end)
              \/ excluded_in (before ++ [s]) l u
  end.

(** The namespaces of XML and of XSLT themselves. *)
Definition own (u : option str) : Prop :=
  u = Some (lit "http://www.w3.org/XML/1998/namespace") \/ u = Some (lit "http://www.w3.org/1999/XSL/Transform").
