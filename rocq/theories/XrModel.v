(** * Model of the XUpdate reader

    /repo/lib/xupdate/reader.py: an XUpdate document becomes a tree of commands and
    instructions.  The handler gets the events of a document; here it gets the tree they come from, so that its
    stack is the recursion.  The parsers of XPath expressions and of attribute value templates are
    parameters: they accept a text or not.  A dictionary is a list whose first entry for a key counts. *)
From Coq Require Import NArith String List Bool.
From Verif Require Import PyStr PyErr DtdModel XsModel.
Import ListNotations.
Open Scope N_scope.

(** xupdate/__init__.py:11 *)
Definition XUPDATE_NAMESPACE : str := lit "http://www.xmldb.org/xupdate".
(** The codes of XUpdateError, xupdate/__init__.py:17-25; INVALID_QNAME_ATTR and
    INCOMPLETE_ELEMENT are not among them. *)
Definition XUpdateError (code : N) : exn := OtherError (180 + code).
Definition SYNTAX_ERROR := XUpdateError 1.
Definition ILLEGAL_ELEMENT := XUpdateError 2.
Definition ILLEGAL_ELEMENT_CHILD := XUpdateError 3.
Definition MISSING_REQUIRED_ATTRIBUTE := XUpdateError 4.
Definition INVALID_TEXT := XUpdateError 5.
Definition UNSUPPORTED_VERSION := XUpdateError 10.
Definition UNDEFINED_PREFIX := XUpdateError 12.

(** Namespaces in scope *)
Definition scope := list (option str * option str).
(** An attribute: expanded name, qualified name, value. *)
Record attribute := { a_ns : option str; a_local : str; a_qname : str; a_value : str }.
(** The arguments of start_element *)
Record elem := { e_ns : option str; e_local : str; e_tag : str; e_decls : scope; e_attrs : list attribute }.
Inductive xnode := XText (data : str) | XElem (e : elem) (kids : list xnode).
(** The attributes (slots) of commands and instructions: expressions, templates, the name of a variable, None, the namespaces;
    for literal elements the name, the namespace and the list of attributes. *)
Inductive field := FExpr (s : str) | FAvt (s : str) | FName (ns : option str) (local : str) | FNone | FScope (s : scope)
  | FStr (s : str) | FUri (s : option str) | FAttrs (l : list (option str * str * str)).
(** Commands and instructions, by the names of their classes; literal_text. *)
Inductive item := Item (cls : str) (fields : list (str * field)) (kids : list item) | LText (s : str).

Definition ostr_eqb (a b : option str) : bool :=
  match a, b with Some x, Some y => str_eqb x y | None, None => true | _, _ => false end.
(** attributes[None, name] *)
Fixpoint attr (l : list attribute) (name : str) : option str :=
  match l with
  | [] => None
  | a :: l' => if ostr_eqb (a_ns a) None && str_eqb (a_local a) name then Some (a_value a) else attr l' name
  end.
(** namespaces[prefix] *)
Fixpoint ns_get (s : scope) (prefix : option str) : option (option str) :=
  match s with [] => None | (p, u) :: s' => if ostr_eqb p prefix then Some u else ns_get s' prefix end.

(** ** The content models, reader.py:19-80.  An expanded name in the XUpdate namespace is its
    local part, the literal event (None, None) the empty name. *)
Definition TEXT : str := lit "#PCDATA".
Definition LITERAL : str := [].
Definition EMPTY : str := lit "/empty/".
Definition names (l : list string) : list content := map (fun n => CName One (lit n)) l.
Definition m_document : content := CName One (lit "modifications").
Definition m_empty : content := CName Rep EMPTY.
Definition m_text : content := CName Rep TEXT.
Definition m_literal : content := CName Rep LITERAL.
Definition m_char_template : content := CAlt Rep (m_text :: names ["text"; "value-of"]%string).
Definition m_template : content :=
  CAlt Rep (m_char_template :: names ["element"; "attribute"; "processing-instruction"; "comment"]%string ++ [m_literal]).
Definition m_toplevel : content :=
  CAlt Rep (names ["insert-before"; "insert-after"; "append"; "update"; "remove"; "rename"; "variable"; "if"]%string ++ [m_literal]).

(** unicode.strip: what Python 2 takes for white space. *)
Definition py_space (c : N) : bool :=
  ((9 <=? c) && (c <=? 13)) || ((28 <=? c) && (c <=? 32)) || (c =? 133) || (c =? 160) || (c =? 5760) || (c =? 6158) ||
  ((8192 <=? c) && (c <=? 8202)) || (c =? 8232) || (c =? 8233) || (c =? 8239) || (c =? 8287) || (c =? 12288).

Section Reader.
Variable order : forall A, list A -> list A.
(** parse_expression and avt_expression raise no error *)
Variables w_xpath w_avt : str -> bool.

(** A required attribute: reader.py:95-99 and the like *)
Definition required (e : elem) (name : string) : result str :=
  match attr (e_attrs e) (lit name) with Some v => Ok v | None => Err MISSING_REQUIRED_ATTRIBUTE end.
Definition expression (v : str) : result field := if w_xpath v then Ok (FExpr v) else Err SYNTAX_ERROR.
(** qname_avt, ncname_avt: xupdate_avt.__init__, expressions.py:18-24 *)
Definition avt (v : str) : result field := if w_avt v then Ok (FAvt v) else Err SYNTAX_ERROR.
Definition select_command (cls : string) (m : content) (e : elem) (s : scope) : result (str * list (str * field) * content) :=
  do v <- required e "select" ; do x <- expression v ; Ok (lit cls, [(lit "namespaces", FScope s); (lit "select", x)], m).
(** element_element and attribute_element, reader.py:262-294: namespace_avt needs two arguments and is given one. *)
Definition named_instruction (cls : string) (m : content) (e : elem) (s : scope) : result (str * list (str * field) * content) :=
  do v <- required e "name" ; do x <- avt v ;
  match attr (e_attrs e) (lit "namespace") with
  | Some _ => Err TypeError
  | None => Ok (lit cls, [(lit "namespaces", FScope s); (lit "name", x); (lit "namespace", FNone)], m)
  end.
(** The functions of _elements, reader.py:84-330: class, slots, content model.  The name of a variable: splitqname
    gives an empty prefix for none only if there is no colon; INVALID_QNAME_ATTR is an unknown attribute (222). *)
Definition factory (e : elem) (s : scope) : result (str * list (str * field) * content) :=
  let is := str_eqb (e_local e) in
  if is (lit "modifications") then
    do v <- required e "version" ;
    if str_eqb v (lit "1.0") then Ok (lit "modifications_list", [], m_toplevel) else Err UNSUPPORTED_VERSION
  else if is (lit "insert-before") then select_command "insert_before_command" m_template e s
  else if is (lit "insert-after") then select_command "insert_after_command" m_template e s
  else if is (lit "append") then
    do v <- required e "select" ; do x <- expression v ;
    do c <- match attr (e_attrs e) (lit "child") with Some c => expression c | None => Ok FNone end ;
    Ok (lit "append_command", [(lit "namespaces", FScope s); (lit "select", x); (lit "child", c)], m_template)
  else if is (lit "update") then select_command "update_command" m_char_template e s
  else if is (lit "remove") then select_command "remove_command" m_empty e s
  else if is (lit "rename") then select_command "rename_command" m_char_template e s
  else if is (lit "variable") then
    do n <- required e "name" ;
    do name <- (if is_qname n then
                  match split_qname n with
                  | (Some (c :: p), l) => match ns_get s (Some (c :: p)) with Some u => Ok (FName u l) | None => Err UNDEFINED_PREFIX end
                  | (_, l) => Ok (FName None l)
                  end
                else Err AttributeError) ;
    do x <- match attr (e_attrs e) (lit "select") with Some v => expression v | None => Ok FNone end ;
    Ok (lit "variable_command", [(lit "namespaces", FScope s); (lit "name", name); (lit "select", x)], m_template)
  else if is (lit "if") then
    do v <- required e "test" ; do x <- expression v ;
    Ok (lit "if_command", [(lit "namespaces", FScope s); (lit "test", x)], m_toplevel)
  else if is (lit "element") then named_instruction "element_instruction" m_template e s
  else if is (lit "attribute") then named_instruction "attribute_instruction" m_char_template e s
  else if is (lit "text") then Ok (lit "text_instruction", [], m_text)
  else if is (lit "processing-instruction") then
    do v <- required e "name" ; do x <- avt v ;
    Ok (lit "processing_instruction_instruction", [(lit "namespaces", FScope s); (lit "name", x)], m_char_template)
  else if is (lit "comment") then Ok (lit "comment_instruction", [], m_char_template)
  else if is (lit "value-of") then select_command "value_of_instruction" m_empty e s
  else Err ILLEGAL_ELEMENT.
(** The first half of start_element, reader.py:358-382 *)
Definition start_element (e : elem) (s : scope) : result (str * list (str * field) * content * str) :=
  if ostr_eqb (e_ns e) (Some XUPDATE_NAMESPACE) then do p <- factory e s ; Ok (p, e_local e)
  else Ok (lit "literal_element", [(lit "name", FStr (e_tag e)); (lit "namespace", FUri (e_ns e));
                                   (lit "attributes", FAttrs (map (fun a => (a_ns a, a_qname a, a_value a)) (e_attrs e)))], m_template, LITERAL).
(** The rest of start_element, end_element and characters, reader.py:383-427: the state of the parent's content model and what
    is appended to the parent. *)
Fixpoint read (d : dfa) (k : nat) (s : scope) (n : xnode) : result (nat * list item) :=
  match n with
  | XText data =>
    if forallb py_space data then Ok (k, [])
    else match lookup (nth k d []) (EName TEXT) with Some k' => Ok (k', [LText data]) | None => Err INVALID_TEXT end
  | XElem e kids =>
    let s' := e_decls e ++ s in
    do p <- start_element e s' ;
    match lookup (nth k d []) (EName (snd p)) with
    | None => Err ILLEGAL_ELEMENT_CHILD
    | Some k' =>
      do d' <- compile order (snd (fst p)) ;
      do r <- (fix go (k : nat) (l : list xnode) : result (nat * list item) :=
                 match l with
                 | [] => Ok (k, [])
                 | n :: l' => do a <- read d' k s' n ; do b <- go (fst a) l' ; Ok (fst b, snd a ++ snd b)
                 end) 0%nat kids ;
      match lookup (nth (fst r) d' []) EFinal with
      | None => Err AttributeError
      | Some _ => Ok (k', [Item (fst (fst (fst p))) (snd (fst (fst p))) (snd r)])
      end
    end
  end.
(** xupdate_handler.__init__, reader.py:344-351, and parse, 430-434: handler.modifications[0] *)
Definition initial_scope : scope := [(Some (lit "xml"), Some (lit "http://www.w3.org/XML/1998/namespace")); (None, None)].
Definition parse (root : xnode) : result item :=
  do d <- compile order m_document ;
  do r <- read d 0 initial_scope root ;
  match snd r with i :: _ => Ok i | [] => Err IndexError end.
End Reader.
