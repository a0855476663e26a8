(** * Model of how stylesheets are combined: xsl:import and xsl:include in
      lib/xslt/reader/__init__.py, and what transform_element.setup of
      lib/xslt/tree/transform_element.py makes of variables, named templates and
      xsl:output

    A stylesheet module is the list of its top-level elements.  What an element is
    apart from xsl:import and xsl:include is a parameter [E].  The parsing, the
    content models and the errors they raise are not modelled.  [world] gives the
    module at a URI, or None if there is none; a reference is already resolved against
    the base URI. *)
From Coq Require Import NArith ZArith String List Bool Lia Arith.
From Verif Require Import PyStr PyErr.
Import ListNotations.
Local Open Scope nat_scope.

Definition CircularInclude : exn := OtherError 20.
Definition IncludeNotFound : exn := OtherError 21.
Definition DuplicateTopLevelVar : exn := OtherError 22.
Definition DuplicateNamedTemplate : exn := OtherError 23.
Definition StillReading : exn := OtherError 3.

(** A top-level element: [Refer true] is xsl:import, [Refer false] xsl:include. *)
Inductive written (E : Type) := Here (e : E) | Refer (is_import : bool) (uri : str).
Arguments Here {E} e.
Arguments Refer {E} is_import uri.
(** The same with the module referred to in place of its URI. *)
Inductive item (E : Type) := Elem (e : E) | Combine (is_import : bool) (sheet : list (item E)).
Arguments Elem {E} e.
Arguments Combine {E} is_import sheet.

(** parse (by way of startDocument, reader/__init__.py:216-245, and endDocument,
    247-304) and _combine_stylesheet, 661-693: [visited] is
    [_visited_stylesheet_uris], the modules being read.  The URI is entered by
    startDocument, line 241, and removed by endDocument, line 258.  [fuel] bounds the
    depth of the recursion. *)
Definition visiting (u : str) (visited : list str) : bool := existsb (str_eqb u) visited.
Section Load.
Variable E : Type.
Variable world : str -> option (list (written E)).
Fixpoint load (fuel : nat) (visited : list str) (u : str) {struct fuel} : result (list (item E)) :=
  match fuel with
  | O => Err StillReading
  | S fuel' =>
      match world u with
      | None => Err IncludeNotFound
      | Some doc =>
          (fix children (doc : list (written E)) : result (list (item E)) :=
             match doc with
             | [] => Ok []
             | Here e :: doc' => do l <- children doc' ; Ok (Elem e :: l)
             | Refer b v :: doc' =>
                 match world v with
                 | None => Err IncludeNotFound
                 | Some _ =>
                     if visiting v (u :: visited) then Err CircularInclude
                     else do s <- load fuel' (u :: visited) v ; do l <- children doc' ; Ok (Combine b s :: l)
                 end
             end) doc
      end
  end.
End Load.
Arguments load {E} world fuel visited u.

(** startElementNS, reader/__init__.py:408: the element gets the current
    [_import_index]; _combine_stylesheet, 687-689: the module is read and the index
    grows by one after an import; endDocument, 271 (and XsltElement_Merge,
    xslt_element.c:144-174): its elements are appended to those of the module that
    refers to it.  The elements with their precedences and the new index.  The
    xsl:import elements themselves, which stay among the children, are left out. *)
Fixpoint read_item {E} (index : nat) (i : item E) : list (E * nat) * nat :=
  match i with
  | Elem e => ([(e, index)], index)
  | Combine b s =>
      let '(l, index') :=
        (fix read (index : nat) (s : list (item E)) : list (E * nat) * nat :=
           match s with
           | [] => ([], index)
           | i :: s' => let '(l1, index1) := read_item index i in let '(l2, index2) := read index1 s' in (l1 ++ l2, index2)
           end) index s in
      (l, if b then S index' else index')
  end.
Fixpoint read_sheet {E} (index : nat) (s : list (item E)) : list (E * nat) * nat :=
  match s with
  | [] => ([], index)
  | i :: s' => let '(l1, index1) := read_item index i in let '(l2, index2) := read_sheet index1 s' in (l1 ++ l2, index2)
  end.
(** endDocument, reader/__init__.py:275-296: several stylesheets given one after the
    other are merged into the first; after each the index grows by one. *)
Fixpoint read_all {E} (index : nat) (sheets : list (list (item E))) : list (E * nat) :=
  match sheets with
  | [] => []
  | s :: sheets' => let '(l, index') := read_sheet index s in l ++ read_all (S index') sheets'
  end.

(** ** What is done with the children.  [name] is None for an element without name. *)

(** endElementNS, reader/__init__.py:601-613, for the xsl:variable and xsl:param
    elements in the order they are read; [global] is [_global_vars], newest first. *)
Fixpoint global_index (global : list (str * nat)) (n : str) : option nat :=
  match global with [] => None | (m, k) :: g => if str_eqb m n then Some k else global_index g n end.
Fixpoint check_globals (global : list (str * nat)) (vars : list (str * nat)) : result (list (str * nat)) :=
  match vars with
  | [] => Ok global
  | (n, k) :: vars' =>
      match global_index global n with
      | Some existing =>
          if existing <? k then check_globals ((n, k) :: global) vars'
          else if k =? existing then Err DuplicateTopLevelVar
          else check_globals global vars'
      | None => check_globals ((n, k) :: global) vars'
      end
  end.

(** transform_element.setup, transform_element.py:350-360: going backwards, an element
    whose name was seen is removed from [_variables]; what is left, in the order of
    the children.  list.remove finds the element itself since elements are compared
    by identity. *)
Fixpoint keep_variables {A} (name : A -> str) (index : list str) (backwards : list A) : list A :=
  match backwards with
  | [] => []
  | v :: l => if existsb (str_eqb (name v)) index then keep_variables name index l
              else keep_variables name (name v :: index) l ++ [v]
  end.
Definition variables {A} (name : A -> str) (elements : list A) : list A := keep_variables name [] (rev elements).

(** transform_element.setup, transform_element.py:367-372 and 405-416: the first
    template of a name, going backwards, is kept; a later one is an error if it has
    the precedence of the one kept.  The KeyError that making the message of this
    error raises for a name with a namespace is not distinguished. *)
Definition lookup_named {A} (name : A -> option str) (kept : list A) (n : str) : option A :=
  find (fun t => match name t with Some m => str_eqb m n | None => false end) kept.
Fixpoint keep_named {A} (name : A -> option str) (prec : A -> nat) (kept : list A) (backwards : list A) : result (list A) :=
  match backwards with
  | [] => Ok kept
  | t :: l =>
      match name t with
      | None => keep_named name prec kept l
      | Some n =>
          match lookup_named name kept n with
          | None => keep_named name prec (t :: kept) l
          | Some t' => if prec t' =? prec t then Err DuplicateNamedTemplate else keep_named name prec kept l
          end
      end
  end.
(** [named_templates], and call_template_element.prime, call_template_element.py:33-38. *)
Definition named_templates {A} (name : A -> option str) (prec : A -> nat) (elements : list A) : result (list A) :=
  keep_named name prec [] (rev elements).

(** transform_element.setup, transform_element.py:258-285, for one of the attributes of
    xsl:output: [value] is None where it is absent.  cdata-section-elements, which
    are collected, are left out. *)
Fixpoint output_parameter {A V} (value : A -> option V) (parameter : option V) (elements : list A) : option V :=
  match elements with
  | [] => parameter
  | e :: l => output_parameter value (match value e with Some v => Some v | None => parameter end) l
  end.

(** apply_imports_element.instantiate, apply_imports_element.py:14-22, and
    transform_element.apply_imports, transform_element.py: the rules that are considered are those
    of lower precedence than the current one. *)
Definition considered {E} (precedence : nat) (l : list (E * nat)) : list E :=
  map fst (filter (fun p => snd p <? precedence) l).
