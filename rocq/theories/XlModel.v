(** * Model of the instructions that make elements and attributes

    /repo/lib/xslt/tree/literal_element.py, element_element.py,
    attribute_element.py, attribute sets (declaration_elements.py:121-159),
    namespace aliases and the table of attribute sets (transform_element.py),
    the namespaces given to literal result elements (reader/__init__.py).  As in
    XcModel, what an instruction does is the list of calls it makes on the
    writer (XwModel.call). *)
From Coq Require Import NArith ZArith String List Bool Lia Arith.
From Verif Require Import PyStr PyErr SerModel XwModel XcModel.
Import ListNotations.
Open Scope N_scope.

(** XsltError codes, /repo/lib/xslt/__init__.py. *)
Definition UndefinedSet : exn := OtherError 101.
Definition BadAttributeName : exn := OtherError 102.
Definition UndefinedPrefixErr : exn := OtherError 103.
Definition NonTextInAttribute : exn := OtherError 104.
Definition DuplicateAlias : exn := OtherError 105.
Definition TooDeep : exn := OtherError 3.

(** ** Namespace aliases *)
(** aliases: namespace -> (result namespace, result prefix). *)
Definition aliases := list (option str * (option str * option str)).
Fixpoint alias_of (al : aliases) (ns : option str) : option (option str * option str) :=
  match al with [] => None | (k, v) :: l => if okey_eqb k ns then Some v else alias_of l ns end.
(** xsl:namespace-alias: import precedence, namespace of the stylesheet prefix,
    namespace of the result prefix, result prefix (both prefixes declared). *)
Record alias_decl := { al_prec : Z; al_ns : option str; al_to : option str; al_prefix : option str }.
(** transform_element.py:323-340, one group: [mapped] are the namespaces the
    group has added. *)
Fixpoint alias_group (g : list alias_decl) (mapped : list (option str)) (al : aliases) : result aliases :=
  match g with
  | [] => Ok al
  | d :: g' =>
    match alias_of al (al_ns d) with
    | None => alias_group g' (al_ns d :: mapped) (al ++ [(al_ns d, (al_to d, al_prefix d))])
    | Some _ => if existsb (okey_eqb (al_ns d)) mapped then Err DuplicateAlias else alias_group g' mapped al
    end
  end.
(** itertools.groupby by precedence. *)
Fixpoint groups (l : list alias_decl) : list (list alias_decl) :=
  match l with
  | [] => []
  | d :: l' =>
    match groups l' with
    | (d' :: g) :: gs => if (al_prec d =? al_prec d')%Z then (d :: d' :: g) :: gs else [d] :: (d' :: g) :: gs
    | gs => [d] :: gs
    end
  end.
Fixpoint alias_groups (gs : list (list alias_decl)) (al : aliases) : result aliases :=
  match gs with [] => Ok al | g :: gs' => do al' <- alias_group g [] al ; alias_groups gs' al' end.
(** transform_element.py:323-343; [decls] in the order of the stylesheet,
    increasing import precedence. *)
Definition collect_aliases (decls : list alias_decl) : result aliases := alias_groups (groups (rev decls)) [].

(** The local part of a qualified name. *)
Definition after_colon (q : str) : str := match break1 58 q with Some (_, l) => l | None => q end.
(** literal_element.fixup_aliases, literal_element.py:19-45, the name: setting
    [prefix] rebuilds nodeName (/repo/lib/xslt/src/xslt_element.c:553-600). *)
Definition fix_name (al : aliases) (q : str) (ns : option str) : str * option str :=
  match alias_of al ns with
  | Some (ns', Some p) => (p ++ 58 :: after_colon q, ns')
  | Some (ns', None) => (after_colon q, ns')
  | None => (q, ns)
  end.
(** 27-35: attributes without namespace are left alone; name.split(':', 1) of a
    name without colon is a ValueError (a namespace needs a prefix). *)
Definition fix_attr {A} (al : aliases) (a : str * option str * A) : str * option str * A :=
  let '(q, ns, v) := a in
  match ns with
  | Some (_ :: _) => let (q', ns') := fix_name al q ns in (q', ns', v)
  | _ => a
  end.
(** 38-44: the entries at the start, one after the other. *)
Fixpoint wdel (d : wdict) (k : option str) : wdict :=
  match d with [] => [] | (k', v) :: d' => if okey_eqb k' k then d' else (k', v) :: wdel d' k end.
Definition fix_nss (al : aliases) (nss : wdict) : wdict :=
  fold_left (fun d kv => match alias_of al (snd kv) with Some (ns', p) => wset (wdel d (fst kv)) p ns' | None => d end) nss nss.
(** The dictionary is shared by all literal elements in the scope of the same
    declarations (reader/__init__.py:515); each of them applies the aliases to
    it: [share] times in all. *)
Fixpoint fix_shared (share : nat) (al : aliases) (nss : wdict) : wdict :=
  match share with O => nss | S k => fix_shared k al (fix_nss al nss) end.

(** ** Namespaces given to literal result elements *)
Definition XSL_NAMESPACE : str := lit "http://www.w3.org/1999/XSL/Transform".
(** One element of the stylesheet on the way down: the declarations made on it,
    the prefixes listed in (xsl:)exclude-result-prefixes and
    (xsl:)extension-element-prefixes. *)
Record scope_step := { sc_decls : wdict; sc_excluded : list (option str) }.
(** reader/__init__.py:326-336, 696-724: currentNamespaces and outputNamespaces. *)
Definition drop_uri (u : option str) (d : wdict) : wdict := filter (fun kv => negb (okey_eqb (snd kv) u)) d.
Fixpoint exclude_all (cur : wdict) (excl : list (option str)) (out : wdict) : result wdict :=
  match excl with
  | [] => Ok out
  | p :: l => match wget cur p with None => Err UndefinedPrefixErr | Some u => exclude_all cur l (drop_uri u out) end
  end.
Definition special_uri (u : option str) : bool := okey_eqb u (Some XML_NAMESPACE) || okey_eqb u (Some XSL_NAMESPACE).
Definition scope_down (st : wdict * wdict) (s : scope_step) : result (wdict * wdict) :=
  let cur := wupdate (fst st) (sc_decls s) in
  let out := wupdate (snd st) (filter (fun kv => negb (special_uri (snd kv))) (sc_decls s)) in
  do out' <- exclude_all cur (sc_excluded s) out ; Ok (cur, out').
Fixpoint scopes (st : wdict * wdict) (path : list scope_step) : result (wdict * wdict) :=
  match path with [] => Ok st | s :: path' => do st' <- scope_down st s ; scopes st' path' end.
(** reader/__init__.py:235-237. *)
Definition output_namespaces (path : list scope_step) : result wdict :=
  rmap snd (scopes ([(Some (lit "xml"), Some XML_NAMESPACE); (None, None)], []) path).

(** ** Instructions *)
Section Instr.
  (** The variable bindings; values of expressions depend on them only (the rest
      of the context is fixed here). *)
  Variable env : Type.
  Variable global : env.
  Definition sname := (option str * str)%type.

  Inductive instr :=
  | Leaf (f : env -> result (list call))         (* xsl:text, xsl:value-of, xsl:comment, xsl:copy-of, ... *)
  | Literal (q : str) (ns : option str) (nss : wdict) (attrs : list (str * option str * (env -> result str))) (uses : list sname) (body : list instr)
  | Element (nm : env -> result (option str * str)) (nsa : option (env -> result str)) (nsmap : wdict) (uses : list sname) (body : list instr)
  | AttributeI (nm : env -> result (option str * str)) (nsa : option (env -> result str)) (nsmap : wdict) (body : list instr).
  (** xsl:attribute-set *)
  Record set_def := { s_name : sname; s_uses : list sname; s_body : list instr }.

  (** transform_element.py:345-348: a later definition replaces an earlier one. *)
  Fixpoint find_set (sets : list set_def) (n : sname) : option set_def :=
    match sets with
    | [] => None
    | d :: l => match find_set l n with Some d' => Some d' | None => if wkey_eqb (s_name d) n then Some d else None end
    end.

  (** stringwriter, /repo/lib/writers/stringwriter.py; its method for processing
      instructions has another name than the one called
      (writers/__init__.py:237-244). *)
  Fixpoint text_of (l : list call) : result str :=
    match l with
    | [] => Ok []
    | Text s :: l' => rmap (app s) (text_of l')
    | PI _ _ :: l' => text_of l'
    | _ :: _ => Err NonTextInAttribute
    end.
  (** The qualified name, element_element.py:26-28, attribute_element.py:22-24. *)
  Definition qualify (p : option str) (l : str) : str := match p with Some (c :: p') => (c :: p') ++ 58 :: l | _ => l end.
  (** element_element.py:35-41. *)
  Definition element_namespace (nsa : option (env -> result str)) (nsmap : wdict) (e : env) (p : option str) : result (option str) :=
    match nsa with
    | None => match wget nsmap p with Some ns => Ok ns | None => Err UndefinedPrefixErr end
    | Some f => do s <- f e ; Ok (match s with [] => None | _ => Some s end)
    end.
  (** attribute_element.py:35-44. *)
  Definition attribute_namespace (nsa : option (env -> result str)) (nsmap : wdict) (e : env) (p : option str) : result (option str) :=
    match nsa, p with
    | None, Some _ => match wget nsmap p with Some ns => Ok ns | None => Err UndefinedPrefixErr end
    | None, None => Ok None
    | Some f, _ => do s <- f e ; Ok (match s with [] => None | _ => Some s end)
    end.
  (** literal_element.py:54-56. *)
  Fixpoint literal_attrs (e : env) (attrs : list (str * option str * (env -> result str))) : result (list call) :=
    match attrs with
    | [] => Ok []
    | (q, ns, v) :: l => do s <- v e ; do r <- literal_attrs e l ; Ok (Attribute q s ns :: r)
    end.

  Variable sets : list set_def.
  (** instantiate: literal_element.py:47-70, element_element.py:19-55,
      attribute_element.py:18-55.  [fuel] bounds the depth of nesting. *)
  Fixpoint inst (fuel : nat) (e : env) (i : instr) {struct fuel} : result (list call) :=
    match fuel with
    | O => Err TooDeep
    | S k =>
      match i with
      | Leaf f => f e
      | Literal q ns nss attrs uses body =>
        do a <- literal_attrs e attrs ;
        do s <- use_sets k UndefinedSet uses ;
        do b <- concat_results (map (inst k e) body) ;
        Ok (StartElement q ns nss [] :: a ++ s ++ b ++ [EndElement q])
      | Element nm nsa nsmap uses body =>
        do n <- nm e ;
        do ns <- element_namespace nsa nsmap e (fst n) ;
        do s <- use_sets k UndefinedSet uses ;
        do b <- concat_results (map (inst k e) body) ;
        Ok (StartElement (qualify (fst n) (snd n)) ns [] [] :: s ++ b ++ [EndElement (qualify (fst n) (snd n))])
      | AttributeI nm nsa nsmap body =>
        do n <- nm e ;
        if match fst n with Some (_ :: _) => false | _ => str_eqb (snd n) (lit "xmlns") end then Err BadAttributeName
        else
          do ns <- attribute_namespace nsa nsmap e (fst n) ;
          do b <- concat_results (map (inst k e) body) ;
          do v <- text_of b ;
          Ok [Attribute (qualify (fst n) (snd n)) v ns]
      end
    end
  (** attribute_set_element.instantiate (declaration_elements.py:130-159) for a
      list of names: only global variables are seen; the nested sets are
      instantiated without [used] (153), so circular use is not noticed;
      [missing]: the error for an unknown name (in a nested set a NameError, as
      attr_set_name is not defined, 151). *)
  with use_sets (fuel : nat) (missing : exn) (uses : list sname) {struct fuel} : result (list call) :=
    match fuel with
    | O => match uses with [] => Ok [] | _ => Err TooDeep end
    | S k =>
      concat_results (map (fun n =>
        match find_set sets n with
        | None => Err missing
        | Some d =>
          do u <- use_sets k NameError (s_uses d) ;
          do b <- concat_results (map (inst k global) (s_body d)) ;
          Ok (u ++ b)
        end) uses)
    end.
  (** The content of a template. *)
  Definition inst_all (fuel : nat) (e : env) (body : list instr) : result (list call) := concat_results (map (inst fuel e) body).
End Instr.
Arguments Leaf {env}. Arguments Literal {env}. Arguments Element {env}. Arguments AttributeI {env}.
Arguments s_name {env}. Arguments s_uses {env}. Arguments s_body {env}. Arguments find_set {env}.
Arguments inst {env}. Arguments use_sets {env}. Arguments inst_all {env}. Arguments literal_attrs {env}.
Arguments element_namespace {env}. Arguments attribute_namespace {env}. Arguments Build_set_def {env}.
