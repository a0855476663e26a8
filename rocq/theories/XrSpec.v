(** * XUpdate documents *)
From Coq Require Import NArith String List Bool.
From Verif Require Import PyStr PyErr XsModel XsSpec XrModel.
Import ListNotations.
Open Scope N_scope.

(** What an attribute says: a version, an XPath expression, an attribute value template, the name of a variable. *)
Inductive type := TVersion | TExpr | TAvt | TVariable.
(** What an element may contain *)
Inductive rule := Commands | Template | Chars | OnlyText | Nothing.
(** An XUpdate element: what it becomes, its content, whether it keeps the namespaces in scope, its
    attributes and which of them are required. *)
Record row := { r_class : string; r_rule : rule; r_ns : bool; r_attrs : list (string * type * bool) }.
Definition mkrow c r n a := {| r_class := c; r_rule := r; r_ns := n; r_attrs := a |}.
Definition select : list (string * type * bool) := [("select", TExpr, true)]%string.
Definition table : list (string * row) := [
  ("modifications", mkrow "modifications_list" Commands false [("version", TVersion, true)]);
  ("insert-before", mkrow "insert_before_command" Template true select);
  ("insert-after", mkrow "insert_after_command" Template true select);
  ("append", mkrow "append_command" Template true (select ++ [("child", TExpr, false)]));
  ("update", mkrow "update_command" Chars true select);
  ("remove", mkrow "remove_command" Nothing true select);
  ("rename", mkrow "rename_command" Chars true select);
  ("variable", mkrow "variable_command" Template true [("name", TVariable, true); ("select", TExpr, false)]);
  ("if", mkrow "if_command" Commands true [("test", TExpr, true)]);
  ("element", mkrow "element_instruction" Template true [("name", TAvt, true); ("namespace", TAvt, false)]);
  ("attribute", mkrow "attribute_instruction" Chars true [("name", TAvt, true); ("namespace", TAvt, false)]);
  ("text", mkrow "text_instruction" OnlyText false []);
  ("processing-instruction", mkrow "processing_instruction_instruction" Chars true [("name", TAvt, true)]);
  ("comment", mkrow "comment_instruction" Chars false []);
  ("value-of", mkrow "value_of_instruction" Nothing true select)]%string.
Fixpoint find_row (t : list (string * row)) (local : str) : option row :=
  match t with [] => None | (n, r) :: t' => if str_eqb local (lit n) then Some r else find_row t' local end.
(** The XUpdate elements, and other elements and text, an element may contain. *)
Definition children (r : rule) : list string :=
  match r with
  | Commands => ["insert-before"; "insert-after"; "append"; "update"; "remove"; "rename"; "variable"; "if"]%string
  | Template => ["text"; "value-of"; "element"; "attribute"; "processing-instruction"; "comment"]%string
  | Chars => ["text"; "value-of"]%string
  | _ => []
  end.
Definition literals (r : rule) : Prop := r = Commands \/ r = Template.
Definition text_allowed (r : rule) : Prop := r = Template \/ r = Chars \/ r = OnlyText.
Definition blank (s : str) : Prop := Forall white s.
Definition xupdate (e : elem) : Prop := e_ns e = Some XUPDATE_NAMESPACE.
Definition allowed (r : rule) (n : xnode) : Prop :=
  match n with
  | XText s => blank s \/ text_allowed r
  | XElem e _ => (xupdate e /\ exists c, In c (children r) /\ e_local e = lit c) \/ (~ xupdate e /\ literals r)
  end.
Section Spec.
Variables w_xpath w_avt : str -> bool.
(** The value of an attribute; None if it is not a legal one.  Names of variables: C49 and C50. *)
Definition value (s : scope) (t : type) (v : str) : option (list field) :=
  match t with
  | TVersion => if str_eqb v (lit "1.0") then Some [] else None
  | TExpr => if w_xpath v then Some [FExpr v] else None
  | TAvt => if w_avt v then Some [FAvt v] else None
  | TVariable =>
    if is_qname v then
      match split_qname v with
      | (Some p, l) => option_map (fun u => [FName u l]) (ns_get s (Some p))
      | (None, l) => Some [FName None l]
      end
    else None
  end.
Definition slot (s : scope) (attrs : list attribute) (a : string * type * bool) : option (list (str * field)) :=
  let '(n, t, req) := a in
  match attr attrs (lit n) with
  | Some v => option_map (map (pair (lit n))) (value s t v)
  | None => if req then None else Some [(lit n, FNone)]
  end.
Fixpoint slots (s : scope) (attrs : list attribute) (l : list (string * type * bool)) : option (list (str * field)) :=
  match l with
  | [] => Some []
  | a :: l' => match slot s attrs a, slots s attrs l' with Some x, Some y => Some (x ++ y) | _, _ => None end
  end.
Definition fields (s : scope) (attrs : list attribute) (r : row) : option (list (str * field)) :=
  option_map (app (if r_ns r then [(lit "namespaces", FScope s)] else [])) (slots s attrs (r_attrs r)).
(** [stands s n items]: in the scope [s] the node stands for [items]. *)
Inductive stands : scope -> xnode -> list item -> Prop :=
| stands_blank : forall s t, blank t -> stands s (XText t) []
| stands_text : forall s t, ~ blank t -> stands s (XText t) [LText t]
| stands_xupdate : forall s e kids r fs items, xupdate e -> find_row table (e_local e) = Some r ->
    fields (e_decls e ++ s) (e_attrs e) r = Some fs -> Forall (allowed (r_rule r)) kids -> stands_all (e_decls e ++ s) kids items ->
    stands s (XElem e kids) [Item (lit (r_class r)) fs items]
| stands_literal : forall s e kids items, ~ xupdate e -> Forall (allowed Template) kids -> stands_all (e_decls e ++ s) kids items ->
    stands s (XElem e kids) [Item (lit "literal_element") [(lit "name", FStr (e_tag e)); (lit "namespace", FUri (e_ns e));
      (lit "attributes", FAttrs (map (fun a => (a_ns a, a_qname a, a_value a)) (e_attrs e)))] items]
with stands_all : scope -> list xnode -> list item -> Prop :=
| stands_nil : forall s, stands_all s [] []
| stands_cons : forall s n l a b, stands s n a -> stands_all s l b -> stands_all s (n :: l) (a ++ b).
(** The error a value that is not legal deserves *)
Inductive error_of : type -> str -> exn -> Prop :=
| e_version : forall v, error_of TVersion v UNSUPPORTED_VERSION
| e_expr : forall v, error_of TExpr v SYNTAX_ERROR
| e_avt : forall v, error_of TAvt v SYNTAX_ERROR
| e_prefix : forall v, is_qname v = true -> error_of TVariable v UNDEFINED_PREFIX
| e_name : forall v, is_qname v = false -> error_of TVariable v AttributeError.
(** [defect ok s n e]: something at or below [n], in an element that may have [ok] as its children, deserves the error [e]. *)
Inductive defect : (xnode -> Prop) -> scope -> xnode -> exn -> Prop :=
| d_text : forall (ok : xnode -> Prop) s t, ~ ok (XText t) -> defect ok s (XText t) INVALID_TEXT
| d_child : forall (ok : xnode -> Prop) s e kids, ~ ok (XElem e kids) -> defect ok s (XElem e kids) ILLEGAL_ELEMENT_CHILD
| d_unknown : forall ok s e kids, xupdate e -> find_row table (e_local e) = None -> defect ok s (XElem e kids) ILLEGAL_ELEMENT
| d_missing : forall ok s e kids r n t, xupdate e -> find_row table (e_local e) = Some r -> In (n, t, true) (r_attrs r) ->
    attr (e_attrs e) (lit n) = None -> defect ok s (XElem e kids) MISSING_REQUIRED_ATTRIBUTE
| d_value : forall ok s e kids r n t b v er, xupdate e -> find_row table (e_local e) = Some r -> In (n, t, b) (r_attrs r) ->
    attr (e_attrs e) (lit n) = Some v -> value (e_decls e ++ s) t v = None -> error_of t v er -> defect ok s (XElem e kids) er
| d_inside : forall ok s e kids r n er, xupdate e -> find_row table (e_local e) = Some r -> In n kids ->
    defect (allowed (r_rule r)) (e_decls e ++ s) n er -> defect ok s (XElem e kids) er
| d_literal : forall ok s e kids n er, ~ xupdate e -> In n kids ->
    defect (allowed Template) (e_decls e ++ s) n er -> defect ok s (XElem e kids) er
(** the faults of the program *)
| d_namespace : forall ok s e kids r v, xupdate e -> find_row table (e_local e) = Some r -> In ("namespace"%string, TAvt, false) (r_attrs r) ->
    attr (e_attrs e) (lit "namespace") = Some v -> defect ok s (XElem e kids) TypeError.
End Spec.
(** No text is blank only for Python, and no instruction has a namespace attribute. *)
Fixpoint plain (n : xnode) : Prop :=
  match n with
  | XText s => forallb py_space s = true -> blank s
  | XElem e kids => (e_ns e = Some XUPDATE_NAMESPACE -> attr (e_attrs e) (lit "namespace") = None) /\ fold_right and True (map plain kids)
  end.
