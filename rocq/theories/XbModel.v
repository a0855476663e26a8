(** * Model of xml:base and xml:lang in the reader

    /repo/lib/src/expat/expat.c: the stacks for xml:base and xml:lang, the contexts of external
    entities, and the attributes that are added to elements of included entities.  Expat's calls are given; text, comments
    and names of elements play no role here.  The objects of the URIs of sources are not interned, those of attribute values are never None: a
    pointer to the top of a stack that is unchanged says that the element has no such attribute. *)
From Coq Require Import NArith String List Bool.
From Verif Require Import PyStr PyErr.
Import ListNotations.
Open Scope N_scope.

(** ExpatAttribute: namespaceURI, localName, value *)
Record attribute := { a_ns : option str; a_local : str; a_value : str }.
Definition XML_NAMESPACE : str := lit "http://www.w3.org/XML/1998/namespace".
Definition ostr_eqb (a b : option str) : bool :=
  match a, b with Some x, Some y => str_eqb x y | None, None => true | _, _ => false end.
(** Context, expat.c:166-179: uri, the flag EXPAT_FLAG_INFOSET_FIXUP, xml_base, xml_lang *)
Record context := { c_uri : option str; c_fixup : bool; c_base : option str; c_lang : option str }.
Record reader := { r_base : list (option str); r_lang : list (option str); r_contexts : list context }.
(** Stack_PEEK; the stacks are never empty *)
Definition peek (s : list (option str)) : option str := hd None s.
(** The stacks of a new reader, expat.c:3949-3956 *)
Definition new_reader : reader := {| r_base := [None]; r_lang := [None]; r_contexts := [] |}.
(** begin_context, expat.c:513-565 *)
Definition begin_context (r : reader) (uri : option str) : reader :=
  let fixup := match r_contexts r with c :: _ => negb (ostr_eqb (c_uri c) None) | [] => false end in
  {| r_base := uri :: r_base r; r_lang := None :: r_lang r;
     r_contexts := {| c_uri := uri; c_fixup := fixup; c_base := if fixup then peek (r_base r) else None; c_lang := if fixup then peek (r_lang r) else None |} :: r_contexts r |}.
(** end_context, expat.c:568-590 *)
Definition end_context (r : reader) : reader :=
  match r_contexts r with
  | [] => r
  | _ :: cs => {| r_base := tl (r_base r); r_lang := tl (r_lang r); r_contexts := cs |}
  end.
(** The loop over the attributes, expat.c:2068-2130: the value of the xml attribute [local], if there is one *)
Fixpoint scan (local : str) (atts : list attribute) (old : option str) : option str :=
  match atts with
  | [] => old
  | a :: l => scan local l (if ostr_eqb (a_ns a) (Some XML_NAMESPACE) && str_eqb (a_local a) local then Some (a_value a) else old)
  end.
(** The fixup of one attribute, expat.c:2145-2166 and 2169-2190: [found] is what the loop found on the element, [top] the value on the stack, [outer]
    the one of the place of inclusion *)
Definition fixup (local : str) (found top outer : option str) : list attribute :=
  match found with
  | Some _ => []
  | None => if ostr_eqb outer top then [] else [{| a_ns := Some XML_NAMESPACE; a_local := local; a_value := match top with Some v => v | None => [] end |}]
  end.
(** The handler's calls, with what ExpatReader_GetBase (expat.c:4363-4370) says during the call *)
Inductive event := EStart (atts : list attribute) (base : option str) | EEnd (base : option str).
Definition BASE : str := lit "base".
Definition LANG : str := lit "lang".
(** expat_StartElement, expat.c:1994-2226 *)
Definition start_element (r : reader) (atts : list attribute) : reader * list event :=
  let base := scan BASE atts (peek (r_base r)) in
  let lang := scan LANG atts (peek (r_lang r)) in
  let '(extra, contexts) :=
    match r_contexts r with
    | c :: cs =>
      if c_fixup c then
        (fixup BASE (scan BASE atts None) (peek (r_base r)) (c_base c) ++ fixup LANG (scan LANG atts None) (peek (r_lang r)) (c_lang c),
         {| c_uri := c_uri c; c_fixup := false; c_base := c_base c; c_lang := c_lang c |} :: cs)
      else ([], c :: cs)
    | [] => ([], [])
    end in
  ({| r_base := base :: r_base r; r_lang := lang :: r_lang r; r_contexts := contexts |}, [EStart (atts ++ extra) base]).
(** expat_EndElement, expat.c:2231-2284 *)
Definition end_element (r : reader) : reader * list event :=
  ({| r_base := tl (r_base r); r_lang := tl (r_lang r); r_contexts := r_contexts r |}, [EEnd (peek (r_base r))]).
(** Expat's calls; RBegin and REnd_ are the beginning and the end of an external entity, expat_ExternalEntityRef, expat.c:3598-3617 *)
Inductive raw := RStart (atts : list attribute) | REnd | RBegin (uri : option str) | REnd_.
Definition step (r : reader) (c : raw) : reader * list event :=
  match c with
  | RStart atts => start_element r atts
  | REnd => end_element r
  | RBegin uri => (begin_context r uri, [])
  | REnd_ => (end_context r, [])
  end.
Fixpoint steps (r : reader) (l : list raw) : reader * list event :=
  match l with
  | [] => (r, [])
  | c :: l' => let '(r1, e1) := step r c in let '(r2, e2) := steps r1 l' in (r2, e1 ++ e2)
  end.
(** start_parsing, expat.c:1644-1676, and the end of the parse, expat.c:4299, of a document with the given URI *)
Definition parse (uri : option str) (calls : list raw) : reader * list event :=
  let '(r, e) := steps (begin_context new_reader uri) calls in (end_context r, e).
