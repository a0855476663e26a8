(** * Vocabulary for C96 to C99: which documents are XSLT 1.0 stylesheets

    The rules of the XSLT 1.0 recommendation for the content and the attributes of
    elements (its appendix B), the places of extension elements and literal result
    elements, forwards-compatible processing (section 2.5) and variables that
    shadow others (section 11.5). *)
From Coq Require Import NArith ZArith String List Bool Permutation.
From Verif Require Import PyStr PyErr DtdModel DtdSpec SrModel.
Import ListNotations.

(** ** Content *)
(** What a child is: a text, an XSLT element, or another element. *)
Inductive item := IText | IXsl (n : str) | IResult.
Definition instruction_names : list str :=
  [lit "apply-templates"; lit "call-template"; lit "apply-imports"; lit "for-each"; lit "value-of"; lit "copy-of"; lit "number"; lit "choose"; lit "if"; lit "text";
   lit "copy"; lit "variable"; lit "message"; lit "fallback"; lit "processing-instruction"; lit "comment"; lit "element"; lit "attribute"].
Definition top_level_names : list str :=
  [lit "include"; lit "strip-space"; lit "preserve-space"; lit "output"; lit "key"; lit "decimal-format"; lit "attribute-set"; lit "variable"; lit "param";
   lit "template"; lit "namespace-alias"].
Definition in_template (i : item) : Prop := match i with IText | IResult => True | IXsl n => In n instruction_names end.
Definition at_top (i : item) : Prop := match i with IText => False | IResult => True | IXsl n => In n top_level_names end.
Definition empty_names : list str :=
  [lit "apply-imports"; lit "copy-of"; lit "number"; lit "value-of"; lit "sort"; lit "import"; lit "include"; lit "strip-space"; lit "preserve-space"; lit "output";
   lit "key"; lit "decimal-format"; lit "namespace-alias"].
Definition template_names : list str :=
  [lit "attribute"; lit "when"; lit "otherwise"; lit "comment"; lit "copy"; lit "element"; lit "fallback"; lit "if"; lit "message"; lit "processing-instruction";
   lit "variable"; lit "param"; lit "with-param"].
(** The children an XSLT element may have. *)
Inductive content_rule : str -> list item -> Prop :=
  | cr_empty : forall n, In n empty_names -> content_rule n []
  | cr_template : forall n l, In n template_names -> Forall in_template l -> content_rule n l
  | cr_text : forall l, Forall (fun i => i = IText) l -> content_rule (lit "text") l
  | cr_sheet : forall n k l, n = lit "stylesheet" \/ n = lit "transform" -> Forall at_top l -> content_rule n (repeat (IXsl (lit "import")) k ++ l)
  | cr_rule : forall k l, Forall in_template l -> content_rule (lit "template") (repeat (IXsl (lit "param")) k ++ l)
  | cr_for_each : forall k l, Forall in_template l -> content_rule (lit "for-each") (repeat (IXsl (lit "sort")) k ++ l)
  | cr_apply : forall l, Forall (fun i => i = IXsl (lit "sort") \/ i = IXsl (lit "with-param")) l -> content_rule (lit "apply-templates") l
  | cr_call : forall l, Forall (fun i => i = IXsl (lit "with-param")) l -> content_rule (lit "call-template") l
  | cr_set : forall l, Forall (fun i => i = IXsl (lit "attribute")) l -> content_rule (lit "attribute-set") l
  | cr_choose : forall k, content_rule (lit "choose") (repeat (IXsl (lit "when")) (S k))
  | cr_choose_otherwise : forall k, content_rule (lit "choose") (repeat (IXsl (lit "when")) (S k) ++ [IXsl (lit "otherwise")]).

(** ** Attributes *)
(** The XSLT elements, with the attributes they must have and those they may
    have. *)
Definition attribute_table : list (str * (list str * list str)) :=
  [(lit "apply-imports", ([], []));
   (lit "apply-templates", ([], [lit "select"; lit "mode"]));
   (lit "attribute", ([lit "name"], [lit "namespace"]));
   (lit "call-template", ([lit "name"], []));
   (lit "choose", ([], []));
   (lit "when", ([lit "test"], []));
   (lit "otherwise", ([], []));
   (lit "comment", ([], []));
   (lit "copy", ([], [lit "use-attribute-sets"]));
   (lit "copy-of", ([lit "select"], []));
   (lit "element", ([lit "name"], [lit "namespace"; lit "use-attribute-sets"]));
   (lit "fallback", ([], []));
   (lit "for-each", ([lit "select"], []));
   (lit "if", ([lit "test"], []));
   (lit "message", ([], [lit "terminate"]));
   (lit "number", ([], [lit "level"; lit "count"; lit "from"; lit "value"; lit "format"; lit "lang"; lit "letter-value"; lit "grouping-separator"; lit "grouping-size"]));
   (lit "processing-instruction", ([lit "name"], []));
   (lit "stylesheet", ([lit "version"], [lit "id"; lit "extension-element-prefixes"; lit "exclude-result-prefixes"]));
   (lit "transform", ([lit "version"], [lit "id"; lit "extension-element-prefixes"; lit "exclude-result-prefixes"]));
   (lit "template", ([], [lit "match"; lit "name"; lit "priority"; lit "mode"]));
   (lit "text", ([], [lit "disable-output-escaping"]));
   (lit "value-of", ([lit "select"], [lit "disable-output-escaping"]));
   (lit "variable", ([lit "name"], [lit "select"]));
   (lit "param", ([lit "name"], [lit "select"]));
   (lit "sort", ([], [lit "select"; lit "lang"; lit "data-type"; lit "order"; lit "case-order"]));
   (lit "with-param", ([lit "name"], [lit "select"]));
   (lit "import", ([lit "href"], []));
   (lit "include", ([lit "href"], []));
   (lit "strip-space", ([lit "elements"], []));
   (lit "preserve-space", ([lit "elements"], []));
   (lit "output", ([], [lit "method"; lit "version"; lit "encoding"; lit "omit-xml-declaration"; lit "standalone"; lit "doctype-public"; lit "doctype-system"; lit "cdata-section-elements"; lit "indent"; lit "media-type"; lit "f:byte-order-mark"; lit "f:canonical-form"]));
   (lit "key", ([lit "name"; lit "match"; lit "use"], []));
   (lit "decimal-format", ([], [lit "name"; lit "decimal-separator"; lit "grouping-separator"; lit "infinity"; lit "minus-sign"; lit "NaN"; lit "percent"; lit "per-mille"; lit "zero-digit"; lit "digit"; lit "pattern-separator"]));
   (lit "namespace-alias", ([lit "stylesheet-prefix"; lit "result-prefix"], []));
   (lit "attribute-set", ([lit "name"], [lit "use-attribute-sets"]))].
Fixpoint row (l : list (str * (list str * list str))) (n : str) : option (list str * list str) :=
  match l with [] => None | (n', r) :: l' => if str_eqb n' n then Some r else row l' n end.
Definition sheet_name (n : str) : Prop := n = lit "stylesheet" \/ n = lit "transform".
Definition result_attribute_names : list str := [lit "exclude-result-prefixes"; lit "extension-element-prefixes"; lit "use-attribute-sets"; lit "version"].

(** Where an element is: whether forwards-compatible processing is on, which
    namespaces are those of extension elements, whether the parent is the
    stylesheet element. *)
Record place := { x_fc : bool; x_exts : list (option str); x_top : bool }.
Inductive role := RXsl (n : str) | RUnknown | RExt (m : content) (types : option (list (str * bool))) | RUndefined | RLiteral.

Section Spec.
Variable w : world.
Definition in_xsl (e : elem) : bool := match e_ns e with Some u => str_eqb u XSL_NAMESPACE | None => false end.
(** What an element is; None: an XSLT element there is not. *)
Definition role_of (p : place) (e : elem) : option role :=
  if in_xsl e then
    match row attribute_table (e_local e) with
    | Some _ => Some (RXsl (e_local e))
    | None => if x_fc p then Some RUnknown else None
    end
  else if existsb (ostr_eqb (e_ns e)) (x_exts p) then
    match w_ext w (e_ns e) (e_local e) with Some (m, types) => Some (RExt m types) | None => Some RUndefined end
  else Some RLiteral.
(** The namespace in which an element has the attributes version and
    extension-element-prefixes: none for xsl:stylesheet, the XSLT namespace for
    literal result elements and extension elements. *)
Definition reads_mode (r : role) : option (option str) :=
  match r with
  | RXsl n => if str_eqb n (lit "stylesheet") || str_eqb n (lit "transform") then Some None else None
  | RUnknown => None
  | _ => Some (Some XSL_NAMESPACE)
  end.
Definition mode_attr (r : role) (e : elem) (name : str) : option str :=
  match reads_mode r with Some ns => attr (e_attrs e) ns name | None => None end.
Definition uris (scope : list (option str * str)) (ps : list (option str)) : list (option str) :=
  flat_map (fun p => match in_scope scope p with Some u => [Some u] | None => [] end) ps.
(** The place of the children. *)
Definition inside (p : place) (e : elem) (r : role) : place :=
  {| x_fc := match mode_attr r e (lit "version") with
             | Some v => match w_number w v with Some NOne => false | Some _ => true | None => x_fc p end
             | None => x_fc p
             end;
     x_exts := match mode_attr r e (lit "extension-element-prefixes") with
               | Some v => match w_prefixes w v with Some ps => uris (e_scope e) ps ++ x_exts p | None => x_exts p end
               | None => x_exts p
               end;
     x_top := match r with RXsl n => str_eqb n (lit "stylesheet") || str_eqb n (lit "transform") | _ => false end |}.

Definition prefixes_ok (e : elem) (v : str) : Prop := exists ps, w_prefixes w v = Some ps /\ forall q, In q ps -> in_scope (e_scope e) q <> None.
(** A legal value of an attribute that is one of an xsl:stylesheet, or that is in
    the XSLT namespace. *)
Definition standard_value (e : elem) (a v : str) : Prop :=
  if str_eqb a (lit "version") then w_number w v <> None
  else if str_eqb a (lit "extension-element-prefixes") || str_eqb a (lit "exclude-result-prefixes") then prefixes_ok e v
  else w_value w (e_ns e, e_local e) (None, a) (e_scope e) v = true.
Definition has_required (e : elem) (names : list str) : Prop := forall a, In a names -> attr (e_attrs e) None a <> None.
Definition legal_value (r : role) (e : elem) (a v : str) : Prop :=
  match reads_mode r with Some None => standard_value e a v | _ => w_value w (e_ns e, e_local e) (None, a) (e_scope e) v = true end.
(** The attributes are those allowed, the required ones are there, and the values
    are legal. *)
Definition attributes_ok (p : place) (e : elem) (r : role) : Prop :=
  match r with
  | RXsl n =>
    match row attribute_table n with
    | None => False
    | Some (must, may) =>
      has_required e must /\
      (forall a v, In ((None, a), v) (e_attrs e) -> In a must \/ In a may -> legal_value r e a v) /\
      (forall a v, In ((None, a), v) (e_attrs e) -> In a must \/ In a may \/ x_fc (inside p e r) = true)
    end
  | RUnknown => True
  | RExt _ types =>
    (forall ts, types = Some ts ->
      has_required e (map fst (filter snd ts)) /\
      (forall a v, In ((None, a), v) (e_attrs e) -> In a (map fst ts) /\ legal_value r e a v)) /\
    (forall a v, In ((Some XSL_NAMESPACE, a), v) (e_attrs e) -> In a result_attribute_names /\ standard_value e a v)
  | RUndefined => forall a v, In ((Some XSL_NAMESPACE, a), v) (e_attrs e) -> In a result_attribute_names /\ standard_value e a v
  | RLiteral =>
    forall ns a v, In ((ns, a), v) (e_attrs e) ->
      (ns = Some XSL_NAMESPACE -> In a result_attribute_names /\ standard_value e a v) /\
      (ns <> Some XSL_NAMESPACE -> w_value w (e_ns e, e_local e) (ns, a) (e_scope e) v = true)
  end.
(** User data elements at the top level must be in a namespace. *)
Definition namespace_ok (p : place) (e : elem) (r : role) : Prop :=
  match r with RLiteral => x_top p = true -> x_fc (inside p e r) = false -> exists u, e_ns e = Some u /\ u <> [] | _ => True end.

(** ** Elements *)
Definition item_of (p : place) (x : snode) : item :=
  match x with SText _ => IText | SElem e _ => match role_of p e with Some (RXsl n) => IXsl n | _ => IResult end end.
(** Children as the content models of extension elements have them. *)
Definition event_of (i : item) : event := EName (match i with IText => lit "#PCDATA" | IXsl n => n | IResult => [] end).
Definition content_ok (r : role) (l : list item) : Prop :=
  match r with
  | RXsl n => content_rule n l
  | RUnknown | RLiteral => Forall in_template l
  | RExt m _ => matches m (map event_of l)
  | RUndefined => True
  end.
Fixpoint correct (p : place) (x : snode) : Prop :=
  match x with
  | SText _ => True
  | SElem e kids =>
    match role_of p e with
    | None => False
    | Some r =>
      attributes_ok p e r /\ namespace_ok p e r /\ content_ok r (map (item_of (inside p e r)) kids) /\
      (fix all (ks : list snode) : Prop := match ks with [] => True | k :: ks' => correct (inside p e r) k /\ all ks' end) kids
    end
  end.

(** ** Variables *)
(** The name that a variable or parameter declares. *)
Definition declares (x : snode) : option str :=
  match x with
  | SText _ => None
  | SElem e _ =>
    if in_xsl e && (str_eqb (e_local e) (lit "variable") || str_eqb (e_local e) (lit "param")) then
      Some (w_name w (e_scope e) (match attr (e_attrs e) None (lit "name") with Some v => v | None => [] end))
    else None
  end.
Definition declared (kids : list snode) : list str := flat_map (fun x => match declares x with Some n => [n] | None => [] end) kids.
(** No declaration below [x] has the name of a variable that is visible there:
    one in [vars], or one declared by a sibling before it or before one of its
    ancestors. *)
Fixpoint unshadowed (vars : list str) (x : snode) : Prop :=
  match x with
  | SText _ => True
  | SElem e kids =>
    (fix all (vars : list str) (ks : list snode) : Prop :=
      match ks with
      | [] => True
      | k :: ks' => unshadowed vars k /\ match declares k with Some n => ~ In n vars /\ all (n :: vars) ks' | None => all vars ks' end
      end) vars kids
  end.

(** ** Documents *)
Definition nowhere : place := {| x_fc := false; x_exts := []; x_top := false |}.
Definition sheet_elem_name (e : elem) : Prop := in_xsl e = true /\ sheet_name (e_local e).
(** The document is a stylesheet; or a literal result element with a version, as
    in XSLT 1.0, section 2.3. *)
Definition stylesheet_ok (e : elem) (kids : list snode) : Prop :=
  correct nowhere (SElem e kids) /\
  (sheet_elem_name e /\ Forall (unshadowed []) kids /\ NoDup (declared kids) \/
   in_xsl e = false /\ unshadowed [] (SElem e kids) /\ attr (e_attrs e) (Some XSL_NAMESPACE) (lit "version") <> None).

(** Properties of a tree: of all elements in it. *)
Fixpoint everywhere (P : elem -> Prop) (x : snode) : Prop :=
  match x with
  | SText _ => True
  | SElem e kids => P e /\ (fix all (ks : list snode) : Prop := match ks with [] => True | k :: ks' => everywhere P k /\ all ks' end) kids
  end.
(** No attribute is given twice: XML sees to that. *)
Definition distinct_attributes (e : elem) : Prop := NoDup (map fst (e_attrs e)).
(** The element does not turn forwards-compatible processing on (off) if [b] is
    false (true). *)
Definition keeps_mode (b : bool) (e : elem) : Prop :=
  forall v n, attr (e_attrs e) (Some XSL_NAMESPACE) (lit "version") = Some v -> w_number w v = Some n -> (n = NOne <-> b = false).
Definition no_sheet (e : elem) : Prop := ~ sheet_elem_name e.
(** Extension elements have content models in good form. *)
Definition good_world : Prop :=
  (forall A (l : list A), Permutation (w_order w A l) l) /\
  (forall ns n m types, w_ext w ns n = Some (m, types) -> proper m).

(** ** The tree that is built *)
(** The nodes of the document, and a node that saves the variables and one that
    restores them around the children of every element that declares one. *)
Fixpoint built (x : snode) : xnode :=
  match x with
  | SText data => XText data
  | SElem e kids =>
    let nodes := (fix all (ks : list snode) : list xnode := match ks with [] => [] | k :: ks' => built k :: all ks' end) kids in
    XElem e (match declared kids with [] => nodes | _ => XPush :: nodes ++ [XPop] end)
  end.
(** At the top level variables are global. *)
Definition built_sheet (e : elem) (kids : list snode) : xnode :=
  if in_xsl e then XElem e (map built kids)
  else XElem sheet_elem [XElem template_elem [built (SElem e kids)]].
End Spec.

(** ** Stylesheets that are not disturbed by others *)
Section History.
Variable w : world.
(** All elements in the XSLT namespace are those of XSLT 1.0. *)
Definition known_element (e : elem) : Prop := in_xsl e = true -> row attribute_table (e_local e) <> None.
Definition known_only (e : elem) (kids : list snode) : Prop := everywhere known_element (SElem e kids).
(** The whole document is for version 1.0 ([b] is false), or the whole document is
    for another version ([b] is true). *)
Definition one_version (b : bool) (e : elem) (kids : list snode) : Prop :=
  (forall r, role_of w nowhere e = Some r -> x_fc (inside w nowhere e r) = b) /\ Forall (everywhere (keeps_mode w b)) kids.
(** As the parser delivers it, with xsl:stylesheet only as document element. *)
Definition regular (e : elem) (kids : list snode) : Prop :=
  distinct_attributes e /\ Forall (everywhere distinct_attributes) kids /\ Forall (everywhere no_sheet) kids.
(** The version of a literal result element as document element is not 0. *)
Definition version_not_zero (e : elem) : Prop :=
  in_xsl e = false -> forall v, attr (e_attrs e) (Some XSL_NAMESPACE) (lit "version") = Some v -> w_number w v <> Some NZero.
(** The process has an error that says what is wrong with the stylesheet. *)
Definition xslt_error (er : exn) : Prop := exists c, er = OtherError c /\ (151 <= c <= 161)%N.
(** The prefixes in the attributes extension-element-prefixes and
    exclude-result-prefixes are declared. *)
Definition prefixes_declared (e : elem) : Prop :=
  forall ns a v ps, In ((ns, a), v) (e_attrs e) -> a = lit "extension-element-prefixes" \/ a = lit "exclude-result-prefixes" ->
    w_prefixes w v = Some ps -> forall q, In q ps -> in_scope (e_scope e) q <> None.
(** Extension elements may end anywhere. *)
Definition may_end (m : content) : Prop := forall u v, matches m (u ++ v) -> matches m u.
Definition open_ended : Prop := forall ns n m types, w_ext w ns n = Some (m, types) -> inhabited m /\ may_end m.
Definition undisturbing (d : elem * list snode) : Prop :=
  regular (fst d) (snd d) /\ (known_only (fst d) (snd d) \/ one_version false (fst d) (snd d)).
End History.
