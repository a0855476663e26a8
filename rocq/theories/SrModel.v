(** * Model of the stylesheet reader
      (lib/xslt/reader/__init__.py, and the content models and attribute tables of
      lib/xslt/tree)

    The reader gets the SAX events of a stylesheet document; here it gets the
    tree they come from, so that its stack is the recursion.  Simplifications:
    one document is read: xsl:import and xsl:include are elements like others
    (C55 has the combination of stylesheets); what the attribute types of
    tree/attribute_types.py make of a value is a parameter (C63 has part of it);
    output namespaces and positions are left out; the entries of a dictionary of
    attribute types are looked at in the order of the source. *)
From Coq Require Import NArith ZArith String List Bool Lia Arith.
From Verif Require Import PyStr PyErr DtdModel.
Import ListNotations.
Local Open Scope nat_scope.

(** amara.namespaces.XSL_NAMESPACE, lib/namespaces.py. *)
Definition XSL_NAMESPACE : str := lit "http://www.w3.org/1999/XSL/Transform".

(** The codes of XsltError, lib/xslt/__init__.py. *)
Definition ILLEGAL_ELEMENT : exn := OtherError 151.
Definition ILLEGAL_ELEMENT_CHILD : exn := OtherError 152.
Definition ILLEGAL_TEXT_CHILD : exn := OtherError 153.
Definition MISSING_REQUIRED_ATTRIBUTE : exn := OtherError 154.
Definition MISSING_REQUIRED_ELEMENT : exn := OtherError 155.
Definition ILLEGAL_NULL_NAMESPACE_ATTR : exn := OtherError 156.
Definition ILLEGAL_XSL_NAMESPACE_ATTR : exn := OtherError 157.
Definition ILLEGAL_SHADOWING : exn := OtherError 158.
Definition DUPLICATE_TOP_LEVEL_VAR : exn := OtherError 159.
Definition LITERAL_RESULT_MISSING_VERSION : exn := OtherError 160.
(** Any of the errors of attribute_types.py for an illegal value. *)
Definition INVALID_ATTR : exn := OtherError 161.
(** A stylesheet element below the document element, where the reader goes on
    with reader/__init__.py:278-290: not modelled. *)
Definition NotModelled : exn := OtherError 162.

(** ** The stylesheet document *)
(** An element as startElementNS gets it: its expanded name, the namespaces in
    scope, the attributes. *)
Record elem := {
  e_ns : option str; e_local : str;
  e_scope : list (option str * str);
  e_attrs : list ((option str * str) * str)
}.
(** A text is what is left after white space is stripped. *)
Inductive snode := SText (data : str) | SElem (e : elem) (kids : list snode).

Definition ostr_eqb (a b : option str) : bool :=
  match a, b with Some x, Some y => str_eqb x y | None, None => true | _, _ => false end.
Fixpoint attr (l : list ((option str * str) * str)) (ns : option str) (name : str) : option str :=
  match l with
  | [] => None
  | ((ns', name'), v) :: l' => if ostr_eqb ns' ns && str_eqb name' name then Some v else attr l' ns name
  end.
Definition in_scope (scope : list (option str * str)) (prefix : option str) : option str :=
  match find (fun b => ostr_eqb (fst b) prefix) scope with Some b => Some (snd b) | None => None end.
Definition one_of (names : list str) (n : str) : bool := existsb (str_eqb n) names.

(** ** Content models *)
(** lib/xslt/tree/content_model.py:12-14: the keys that are no names of XSLT
    elements; an expanded name in the XSLT namespace is its local part. *)
Definition RESULT_ELEMENT : str := [].
Definition TEXT_NODE : str := lit "#PCDATA".
Definition EMPTY : str := lit "/empty/".
(** content_model.py:71-133. *)
Definition m_empty : content := CName Opt EMPTY.
Definition m_text : content := CName Rep TEXT_NODE.
Definition m_result_elements : content := CName Rep RESULT_ELEMENT.
Definition m_instructions : content :=
  CAlt Rep (map (CName One) [lit "apply-templates"; lit "call-template"; lit "apply-imports"; lit "for-each"; lit "value-of"; lit "copy-of"; lit "number";
    lit "choose"; lit "if"; lit "text"; lit "copy"; lit "variable"; lit "message"; lit "fallback"; lit "processing-instruction"; lit "comment";
    lit "element"; lit "attribute"]).
Definition m_template : content := CAlt Rep [m_text; m_instructions; m_result_elements].
Definition m_top_level : content :=
  CAlt Rep (map (CName One) [lit "include"; lit "strip-space"; lit "preserve-space"; lit "output"; lit "key"; lit "decimal-format"; lit "attribute-set";
    lit "variable"; lit "param"; lit "template"; lit "namespace-alias"] ++ [m_result_elements]).
(** _root_content_model, reader/__init__.py:108-111. *)
Definition m_root : content := CAlt One [CName One (lit "stylesheet"); CName One (lit "transform"); m_result_elements].

(** ** The element classes *)
(** An attribute type with required=True, and one without. *)
Definition req (a : string) : str * bool := (lit a, true).
Definition opt (a : string) : str * bool := (lit a, false).
(** [content_model] and [attribute_types] of the classes in ELEMENT_CLASSES,
    reader/__init__.py:59-97: the name of an attribute, and whether it is
    required.  The classes: lib/xslt/tree/apply_imports_element.py:11-12,
    apply_templates_element.py:17-24, attribute_element.py:12-16,
    call_template_element.py:15-20, choose_elements.py:15-31,
    comment_element.py:13-14, copy_element.py:15-18, copy_of_element.py:14-17,
    element_element.py:12-17, fallback_elements.py:15-16,
    for_each_element.py:16-22, if_element.py:13-16, message_element.py:14-17,
    number_element.py:23-37, processing_instruction_element.py:12-15,
    transform_element.py:178-187, template_element.py:18-27,
    text_element.py:11-14, value_of_element.py:11-15, variable_elements.py:16-20
    (param_element, line 45, has the same), sort_element.py:11-23,
    with_param_element.py:15-19, declaration_elements.py:20-128. *)
Definition m_class (local : str) : option (content * list (str * bool)) :=
  let is := str_eqb local in
  let names (l : list str) := map (CName One) l in
  if is (lit "apply-imports") then Some (m_empty, [])
  else if is (lit "apply-templates") then Some (CAlt Rep (names [lit "sort"; lit "with-param"]), [opt "select"; opt "mode"])
  else if is (lit "attribute") then Some (m_template, [req "name"; opt "namespace"])
  else if is (lit "call-template") then Some (CName Rep (lit "with-param"), [req "name"])
  else if is (lit "choose") then Some (CSeq One [CName Plus (lit "when"); CName Opt (lit "otherwise")], [])
  else if is (lit "otherwise") then Some (m_template, [])
  else if is (lit "when") then Some (m_template, [req "test"])
  else if is (lit "comment") then Some (m_template, [])
  else if is (lit "copy") then Some (m_template, [opt "use-attribute-sets"])
  else if is (lit "copy-of") then Some (m_empty, [req "select"])
  else if is (lit "element") then Some (m_template, [req "name"; opt "namespace"; opt "use-attribute-sets"])
  else if is (lit "fallback") then Some (m_template, [])
  else if is (lit "for-each") then Some (CSeq One [CName Rep (lit "sort"); m_template], [req "select"])
  else if is (lit "if") then Some (m_template, [req "test"])
  else if is (lit "message") then Some (m_template, [opt "terminate"])
  else if is (lit "number") then
    Some (m_empty, [opt "level"; opt "count"; opt "from"; opt "value"; opt "format"; opt "lang"; opt "letter-value"; opt "grouping-separator"; opt "grouping-size"])
  else if is (lit "processing-instruction") then Some (m_template, [req "name"])
  else if is (lit "stylesheet") || is (lit "transform") then
    Some (CSeq One [CName Rep (lit "import"); m_top_level], [opt "id"; opt "extension-element-prefixes"; opt "exclude-result-prefixes"; req "version"])
  else if is (lit "template") then Some (CSeq One [CName Rep (lit "param"); m_template], [opt "match"; opt "name"; opt "priority"; opt "mode"])
  else if is (lit "text") then Some (m_text, [opt "disable-output-escaping"])
  else if is (lit "value-of") then Some (m_empty, [req "select"; opt "disable-output-escaping"])
  else if is (lit "variable") || is (lit "param") then Some (m_template, [req "name"; opt "select"])
  else if is (lit "sort") then Some (m_empty, [opt "select"; opt "lang"; opt "data-type"; opt "order"; opt "case-order"])
  else if is (lit "with-param") then Some (m_template, [req "name"; opt "select"])
  else if is (lit "import") || is (lit "include") then Some (m_empty, [req "href"])
  else if is (lit "strip-space") || is (lit "preserve-space") then Some (m_empty, [req "elements"])
  else if is (lit "output") then
    Some (m_empty, [opt "method"; opt "version"; opt "encoding"; opt "omit-xml-declaration"; opt "standalone"; opt "doctype-public"; opt "doctype-system";
      opt "cdata-section-elements"; opt "indent"; opt "media-type"; opt "f:byte-order-mark"; opt "f:canonical-form"])
  else if is (lit "key") then Some (m_empty, [req "name"; req "match"; req "use"])
  else if is (lit "decimal-format") then
    Some (m_empty, [opt "name"; opt "decimal-separator"; opt "grouping-separator"; opt "infinity"; opt "minus-sign"; opt "NaN"; opt "percent"; opt "per-mille";
      opt "zero-digit"; opt "digit"; opt "pattern-separator"])
  else if is (lit "namespace-alias") then Some (m_empty, [req "stylesheet-prefix"; req "result-prefix"])
  else if is (lit "attribute-set") then Some (CName Rep (lit "attribute"), [req "name"; opt "use-attribute-sets"])
  else None.

(** The number a version attribute stands for: 1.0, 0.0 or another. *)
Inductive num := NOne | NZero | NOther.
(** What the model leaves open. *)
Record world := {
  (** the order of a dictionary *)
  w_order : forall A, list A -> list A;
  (** attribute_types.number.prepare, attribute_types.py:172-178 *)
  w_number : str -> option num;
  (** attribute_types.prefixes.prepare, attribute_types.py:537-544 *)
  w_prefixes : str -> option (list (option str));
  (** whether any other attribute type accepts a value: the element and the
      attribute, the namespaces in scope, the value *)
  w_value : option str * str -> option str * str -> list (option str * str) -> str -> bool;
  (** the expanded name of a variable *)
  w_name : list (option str * str) -> str -> str;
  (** the extension elements: self._extelements, reader/__init__.py:171-173; the
      content model and the attributes, None if they are not checked *)
  w_ext : option str -> str -> option (content * option (list (str * bool)));
  (** the upper half of the uninitialised variable [index] in
      element_insertChild *)
  w_high : Z
}.

(** ** The state *)
Inductive kind := KRoot | KXsl (local : str) | KUndefinedXsl | KExt | KUndefinedExt | KLiteral.
(** The stylesheet tree: XPush and XPop are push_variables_node and
    pop_variables_node, reader/__init__.py:28-56. *)
Inductive xnode := XText (data : str) | XElem (e : elem) (kids : list xnode) | XPush | XPop.
(** parse_state, reader/__init__.py:116-145.  [l_id] is the identity of the node;
    [l_own] tells whether localVariables is another dictionary than the
    parent's. *)
Record level := {
  l_id : nat; l_kind : kind;
  l_dfa : dfa; l_at : nat;
  l_vars : list str; l_own : bool;
  l_fc : bool; l_exts : list (option str);
  l_nodes : list xnode
}.
(** What the reader keeps: [r_next] the next identity, [r_sheet] is
    self._stylesheet, [r_globals] the keys of self._global_vars (there is one
    import index). *)
Record reader := { r_next : nat; r_sheet : option nat; r_globals : list str }.
(** What is known of a class: the class, the compiled content model, the token,
    the attributes (None: not checked). *)
Record entry := { c_kind : kind; c_dfa : dfa; c_token : str; c_attrs : option (list (str * bool)) }.
(** _element_cache, reader/__init__.py:316: a default argument, which lives as long
    as the process. *)
Definition cache := list (str * entry).
Fixpoint cached (c : cache) (n : str) : option entry :=
  match c with [] => None | (n', x) :: c' => if str_eqb n' n then Some x else cached c' n end.

(** Steps that may change the cache. *)
Definition act (A : Type) : Type := cache -> cache * result A.
Definition lift {A} (r : result A) : act A := fun c => (c, r).
Definition andthen {A B} (x : act A) (k : A -> act B) : act B :=
  fun c => match x c with (c', Ok a) => k a c' | (c', Err e) => (c', Err e) end.

(** XsltStaticError.__init__, lib/xslt/__init__.py:449-455: it needs lineNumber
    and columnNumber of the node, which an xslt_root does not have. *)
Definition static {A} (k : kind) (e : exn) : result A := match k with KRoot => Err AttributeError | _ => Err e end.

Section Reader.
Variable w : world.

Definition xsl (e : elem) : bool := ostr_eqb (e_ns e) (Some XSL_NAMESPACE).
(** The class of an element that is not in the cache, reader/__init__.py:347-381. *)
Definition find_class (l : level) (e : elem) : result entry :=
  if xsl e then
    match m_class (e_local e) with
    | Some (m, attrs) => do d <- compile (w_order w) m ; Ok {| c_kind := KXsl (e_local e); c_dfa := d; c_token := e_local e; c_attrs := Some attrs |}
    | None =>
      if negb (l_fc l) then static (l_kind l) ILLEGAL_ELEMENT
      else do d <- compile (w_order w) m_template ; Ok {| c_kind := KUndefinedXsl; c_dfa := d; c_token := RESULT_ELEMENT; c_attrs := Some [] |}
    end
  else if existsb (ostr_eqb (e_ns e)) (l_exts l) then
    match w_ext w (e_ns e) (e_local e) with
    | Some (m, attrs) => do d <- compile (w_order w) m ; Ok {| c_kind := KExt; c_dfa := d; c_token := RESULT_ELEMENT; c_attrs := attrs |}
    | None => do d <- compile (w_order w) m_template ; Ok {| c_kind := KUndefinedExt; c_dfa := d; c_token := RESULT_ELEMENT; c_attrs := None |}
    end
  else do d <- compile (w_order w) m_template ; Ok {| c_kind := KLiteral; c_dfa := d; c_token := RESULT_ELEMENT; c_attrs := None |}.
(** With the cache, reader/__init__.py:339-381.  Simplification: the cache for
    extension elements, which belongs to the reader, is left out: it holds what
    would be computed again. *)
Definition element_class (l : level) (e : elem) : act entry := fun c =>
  if xsl e then
    match cached c (e_local e) with
    | Some x => (c, Ok x)
    | None => match find_class l e with Ok x => ((e_local e, x) :: c, Ok x) | Err er => (c, Err er) end
    end
  else (c, find_class l e).

(** ** Attributes *)
(** What the attributes change: forwardsCompatible and extensionNamespaces. *)
Definition mode := (bool * list (option str))%type.
Fixpoint all_prefixes (scope : list (option str * str)) (ps : list (option str)) : result (list (option str)) :=
  match ps with
  | [] => Ok []
  | p :: ps' => match in_scope scope p with
                | None => Err KeyError
                | Some uri => do us <- all_prefixes scope ps' ; Ok (Some uri :: us)
                end
  end.
(** _handle_standard_attr, reader/__init__.py:696-735, with the preparation of the
    value.  UNDEFINED_PREFIX has a message with a parameter that is not given
    (lib/xslt/__init__.py:223-224): the KeyError is the one of formatting it. *)
Definition standard_attr (e : elem) (name v : str) (m : mode) : result mode :=
  if str_eqb name (lit "extension-element-prefixes") then
    match w_prefixes w v with
    | None => Err INVALID_ATTR
    | Some ps => do us <- all_prefixes (e_scope e) ps ; Ok (fst m, us ++ snd m)
    end
  else if str_eqb name (lit "exclude-result-prefixes") then
    match w_prefixes w v with
    | None => Err INVALID_ATTR
    | Some ps => do us <- all_prefixes (e_scope e) ps ; Ok m
    end
  else if str_eqb name (lit "version") then
    match w_number w v with
    | None => Err INVALID_ATTR
    | Some n => Ok (match n with NOne => false | _ => true end, snd m)
    end
  else if w_value w (e_ns e, e_local e) (None, name) (e_scope e) v then Ok m
  else Err INVALID_ATTR.
(** _handle_result_element_attr, reader/__init__.py:737-747, and
    _RESULT_ELEMENT_XSL_ATTRS, lines 100-105. *)
Definition result_attr (e : elem) (name v : str) (m : mode) : result mode :=
  if one_of [lit "exclude-result-prefixes"; lit "extension-element-prefixes"; lit "use-attribute-sets"; lit "version"] name then standard_attr e name v m
  else Err ILLEGAL_XSL_NAMESPACE_ATTR.

(** The loop over the legal attributes, reader/__init__.py:414-438 and 462-480. *)
Fixpoint legal_attrs (sheet : bool) (e : elem) (types : list (str * bool)) (m : mode) : result mode :=
  match types with
  | [] => Ok m
  | (name, required) :: types' =>
    match attr (e_attrs e) None name with
    | Some v =>
      do m' <- (if sheet then standard_attr e name v m
                else if w_value w (e_ns e, e_local e) (None, name) (e_scope e) v then Ok m else Err INVALID_ATTR) ;
      legal_attrs sheet e types' m'
    | None => if required then Err MISSING_REQUIRED_ATTRIBUTE else legal_attrs sheet e types' m
    end
  end.
(** The other attributes of an XSLT element, reader/__init__.py:440-452. *)
Fixpoint other_xsl_attrs (types : list (str * bool)) (fc : bool) (l : list ((option str * str) * str)) : result unit :=
  match l with
  | [] => Ok tt
  | ((None, name), _) :: l' =>
    if one_of (map fst types) name then other_xsl_attrs types fc l' else if fc then other_xsl_attrs types fc l' else Err ILLEGAL_NULL_NAMESPACE_ATTR
  | ((Some _, _), _) :: l' => other_xsl_attrs types fc l'
  end.
(** The other attributes of an extension element, reader/__init__.py:484-497. *)
Fixpoint other_ext_attrs (e : elem) (types : option (list (str * bool))) (l : list ((option str * str) * str)) (m : mode) : result mode :=
  match l with
  | [] => Ok m
  | ((ns, name), v) :: l' =>
    match ns, types with
    | None, Some ts => if one_of (map fst ts) name then other_ext_attrs e types l' m else Err ILLEGAL_NULL_NAMESPACE_ATTR
    | _, _ =>
      if ostr_eqb ns (Some XSL_NAMESPACE) then do m' <- result_attr e name v m ; other_ext_attrs e types l' m'
      else other_ext_attrs e types l' m
    end
  end.
(** The attributes of a literal result element, reader/__init__.py:500-511. *)
Fixpoint literal_attrs (e : elem) (l : list ((option str * str) * str)) (m : mode) : result mode :=
  match l with
  | [] => Ok m
  | ((ns, name), v) :: l' =>
    if ostr_eqb ns (Some XSL_NAMESPACE) then do m' <- result_attr e name v m ; literal_attrs e l' m'
    else if w_value w (e_ns e, e_local e) (ns, name) (e_scope e) v then literal_attrs e l' m
    else Err INVALID_ATTR
  end.

(** ** The events *)
Definition is_sheet (k : kind) : bool := match k with KXsl n => str_eqb n (lit "stylesheet") || str_eqb n (lit "transform") | _ => false end.
Definition is_variable (k : kind) : bool := match k with KXsl n => str_eqb n (lit "variable") || str_eqb n (lit "param") | _ => false end.
Definition at_state (l : level) (k : nat) : level :=
  {| l_id := l_id l; l_kind := l_kind l; l_dfa := l_dfa l; l_at := k; l_vars := l_vars l; l_own := l_own l; l_fc := l_fc l; l_exts := l_exts l; l_nodes := l_nodes l |}.
Definition append (l : level) (x : xnode) : level :=
  {| l_id := l_id l; l_kind := l_kind l; l_dfa := l_dfa l; l_at := l_at l; l_vars := l_vars l; l_own := l_own l; l_fc := l_fc l; l_exts := l_exts l; l_nodes := l_nodes l ++ [x] |}.
Definition bind_local (l : level) (n : str) : level :=
  {| l_id := l_id l; l_kind := l_kind l; l_dfa := l_dfa l; l_at := l_at l; l_vars := n :: l_vars l; l_own := true; l_fc := l_fc l; l_exts := l_exts l; l_nodes := l_nodes l |}.

(** The attributes of startElementNS, reader/__init__.py:410-511. *)
Definition attributes (x : entry) (e : elem) (m : mode) : result mode :=
  match c_kind x with
  | KXsl _ | KUndefinedXsl =>
    let types := match c_attrs x with Some ts => ts | None => [] end in
    do m' <- legal_attrs (is_sheet (KXsl (e_local e))) e types m ;
    do _ <- other_xsl_attrs types (fst m') (e_attrs e) ;
    Ok m'
  | KExt | KUndefinedExt =>
    do m' <- (match c_attrs x with Some ts => legal_attrs false e ts m | None => Ok m end) ;
    other_ext_attrs e (c_attrs x) (e_attrs e) m'
  | KLiteral | KRoot => literal_attrs e (e_attrs e) m
  end.
(** startElementNS, reader/__init__.py:313-523, for an element of class [x]: the
    parent's state, the element's, the reader's. *)
Definition start_element (l : level) (r : reader) (e : elem) (x : entry) : result (level * level * reader) :=
  do l1 <- (match lookup (nth (l_at l) (l_dfa l) []) (EName (c_token x)) with
            | Some k => Ok (at_state l k)
            | None => match l_kind l with KUndefinedExt => Ok l | _ => static (l_kind l) ILLEGAL_ELEMENT_CHILD end
            end) ;
  do m <- attributes x e (l_fc l, l_exts l) ;
  let id := r_next r in
  let sheet := if is_sheet (c_kind x) then Some id else r_sheet r in
  do _ <- (match c_kind x, sheet with
  | KLiteral, Some s =>
    if (s =? l_id l) && match e_ns e with None | Some [] => true | _ => false end && negb (fst m) then static (l_kind l) ILLEGAL_ELEMENT_CHILD
    else Ok tt
  | _, _ => Ok tt
  end) ;
  Ok (l1,
      {| l_id := id; l_kind := c_kind x; l_dfa := c_dfa x; l_at := 0; l_vars := l_vars l; l_own := false; l_fc := fst m; l_exts := snd m; l_nodes := [] |},
      {| r_next := S id; r_sheet := sheet; r_globals := r_globals r |}).
(** characters, reader/__init__.py:628-657. *)
Definition characters (l : level) (data : str) : result level :=
  match lookup (nth (l_at l) (l_dfa l) []) (EName TEXT_NODE) with
  | None => static (l_kind l) ILLEGAL_TEXT_CHILD
  | Some k => Ok (append (at_state l k) (XText data))
  end.

(** XsltElement_InsertChild, lib/xslt/src/xslt_element.c:108-141. *)
Definition insert_child (l : list xnode) (at_ : Z) (x : xnode) : list xnode :=
  let count := Z.of_nat (length l) in
  let at_ := if (at_ <? 0)%Z then (if (at_ + count <? 0)%Z then 0%Z else (at_ + count)%Z) else at_ in
  let at_ := if (count <? at_)%Z then count else at_ in
  firstn (Z.to_nat at_) l ++ x :: skipn (Z.to_nat at_) l.
(** element_insertChild(0, node), xslt_element.c:230-244: "i" sets the lower half of
    the Py_ssize_t only. *)
Definition insert_first (l : list xnode) (x : xnode) : list xnode := insert_child l (w_high w * 2 ^ 32)%Z x.
(** endElementNS up to the parent, reader/__init__.py:537-564: the children of the
    finished element. *)
Definition finish (child : level) (e : elem) : result (list xnode) :=
  match lookup (nth (l_at child) (l_dfa child) []) EFinal with
  | None => if xsl e && str_eqb (e_local e) (lit "choose") then Err MISSING_REQUIRED_ELEMENT else Err KeyError
  | Some _ => Ok (if l_own child then insert_first (l_nodes child) XPush ++ [XPop] else l_nodes child)
  end.
Definition variable_name (e : elem) : str := w_name w (e_scope e) (match attr (e_attrs e) None (lit "name") with Some v => v | None => [] end).
(** endElementNS below the document element, reader/__init__.py:525-626. *)
Definition end_element (l : level) (r : reader) (e : elem) (child : level) : result (level * reader) :=
  do nodes <- finish child e ;
  let l1 := append l (XElem e nodes) in
  if is_variable (l_kind child) then
    let name := variable_name e in
    if match r_sheet r with Some s => s =? l_id l | None => false end then
      if one_of (r_globals r) name then Err DUPLICATE_TOP_LEVEL_VAR
      else Ok (l1, {| r_next := r_next r; r_sheet := r_sheet r; r_globals := name :: r_globals r |})
    else if one_of (l_vars l) name then Err ILLEGAL_SHADOWING
    else Ok (bind_local l1 name, r)
  else Ok (l1, r).

Section Classes.
(** The class of an element; element_class in the end. *)
Variable class_of : level -> elem -> act entry.
Fixpoint read_node (x : snode) (l : level) (r : reader) {struct x} : act (level * reader) :=
  match x with
  | SText data => lift (do l1 <- characters l data ; Ok (l1, r))
  | SElem e kids =>
    andthen (class_of l e) (fun k =>
    andthen (lift (start_element l r e k)) (fun s =>
    andthen ((fix go (ks : list snode) (l : level) (r : reader) : act (level * reader) :=
      match ks with
      | [] => lift (Ok (l, r))
      | k :: ks' => andthen (read_node k l r) (fun lr => go ks' (fst lr) (snd lr))
      end) kids (snd (fst s)) (snd s)) (fun lr =>
    lift (end_element (fst (fst s)) (snd lr) e (fst lr)))))
  end.
Fixpoint read_nodes (ks : list snode) (l : level) (r : reader) : act (level * reader) :=
  match ks with
  | [] => lift (Ok (l, r))
  | k :: ks' => andthen (read_node k l r) (fun lr => read_nodes ks' (fst lr) (snd lr))
  end.
(** startDocument, reader/__init__.py:216-245, for a new reader. *)
Definition root_level (d : dfa) : level :=
  {| l_id := 0; l_kind := KRoot; l_dfa := d; l_at := 0; l_vars := []; l_own := false; l_fc := false; l_exts := []; l_nodes := [] |}.
Definition new_reader : reader := {| r_next := 1; r_sheet := None; r_globals := [] |}.
Definition sheet_elem : elem := {| e_ns := Some XSL_NAMESPACE; e_local := lit "stylesheet"; e_scope := []; e_attrs := [] |}.
Definition template_elem : elem := {| e_ns := Some XSL_NAMESPACE; e_local := lit "template"; e_scope := []; e_attrs := [] |}.
(** endElementNS of the document element, reader/__init__.py:566-599, and
    endDocument, lines 247-304.  A literal result element as stylesheet becomes
    the content of a template; the version it has is prepared again
    (attribute_types.py:172-178), where 0.0 is taken for no value.
    Simplification: the attributes version and match of the elements that are
    made up are left out. *)
Definition end_root (root : level) (r : reader) (e : elem) (child : level) : act xnode :=
  andthen (lift (finish child e)) (fun nodes =>
  match r_sheet r with
  | Some s => lift (if s =? l_id child then Ok (XElem e nodes) else Err NotModelled)
  | None =>
    match l_kind child with
    | KLiteral =>
      match attr (e_attrs e) (Some XSL_NAMESPACE) (lit "version") with
      | None => lift (Err LITERAL_RESULT_MISSING_VERSION)
      | Some v =>
        andthen (class_of root sheet_elem) (fun _ =>
        match w_number w v with
        | Some NOne | Some NOther => andthen (class_of root template_elem) (fun _ => lift (Ok (XElem sheet_elem [XElem template_elem [XElem e nodes]])))
        | _ => lift (Err INVALID_ATTR)
        end)
      end
    | _ => lift (Err AssertionError)
    end
  end).
(** parse, reader/__init__.py:825-866: the whole document. *)
Definition read_with (e : elem) (kids : list snode) : act xnode :=
  andthen (lift (compile (w_order w) m_root)) (fun d =>
  let root := root_level d in
  andthen (class_of root e) (fun k =>
  andthen (lift (start_element root new_reader e k)) (fun s =>
  andthen (read_nodes kids (snd (fst s)) (snd s)) (fun lr =>
  end_root (fst (fst s)) (snd lr) e (fst lr))))).
End Classes.
Definition read_document : elem -> list snode -> act xnode := read_with element_class.
(** A process that reads stylesheets, each with a reader of its own. *)
Fixpoint read_all (docs : list (elem * list snode)) (c : cache) : cache :=
  match docs with [] => c | (e, kids) :: docs' => read_all docs' (fst (read_document e kids c)) end.
End Reader.
