(** * Model of the reader: /repo/lib/src/expat/expat.c

    The callbacks that Expat makes while it parses, and what the reader makes
    of them for its handler (the SAX handlers of the user, or the tree
    builder): the buffering of character data, the inheritance of xml:space
    and the stripping of white space.  A call of Expat is a value of [raw], a
    call of the handler a value of [event].  Not modelled: Expat itself (the
    theorems quantify over what it may report), validation, DTD events,
    XInclude, the fixup of xml:base and xml:lang, suspending a parse, memory
    errors.  The interning tables are taken to return the same object exactly
    for equal strings, so that the pointer comparisons of the C code are
    comparisons of strings. *)
From Coq Require Import NArith String List Bool Lia.
From Verif Require Import PyStr PyErr.
Import ListNotations.

(** ExpatName, from split_triplet, expat.c:935-1014: the namespace is None for
    a name without one. *)
Record xname := { x_ns : option str; x_local : str; x_qname : str }.
(** ExpatAttribute without its type. *)
Record xattr := { a_name : xname; a_value : str }.

(** The calls Expat makes.  [REntityStart] and [REntityEnd] are the points of
    expat_ExternalEntityRef, expat.c:3521-3632, before and after it parses the
    entity. *)
Inductive raw :=
| RStart (n : xname) (atts : list xattr)
| REnd (n : xname)
| RChars (s : str)
| RPI (target data : str)
| RComment (s : str)
| RNsStart (prefix uri : option str)
| RNsEnd (prefix : option str)
| RCdataStart
| RCdataEnd
| RSkipped (name : str)
| REntityStart
| REntityEnd.

(** The calls of the handler. *)
Inductive event :=
| EStart (n : xname) (atts : list xattr)
| EEnd (n : xname)
| EText (s : str)
| EPI (target data : str)
| EComment (s : str)
| ENsStart (prefix uri : option str)
| ENsEnd (prefix : option str)
| ECdataStart
| ECdataEnd
| ESkipped (name : str).

Definition ostr_eqb (a b : option str) : bool :=
  match a, b with Some x, Some y => str_eqb x y | None, None => true | _, _ => false end.

(** ** Rules for white space *)

(** WhitespaceRule: test_type with its operands. *)
Inductive test := ExpandedNameTest (ns name : str) | NamespaceTest (ns : str) | ElementTest.
Record rule := { r_test : test; r_preserve : bool }.

(** intern_string, expat.c:1026-1038: PyUnicode_FromObject(None) raises a
    TypeError. *)
Definition intern_string (o : option str) : result str :=
  match o with Some s => Ok s | None => Err TypeError end.

(** The body of the loop of create_whitespace_rules, expat.c:1070-1123, for
    the tuple (namespace, local name, strip). *)
Definition create_rule (t : option str * str * bool) : result rule :=
  let '(ns, local, strip) := t in
  if str_eqb local (lit "*") then
    match ns with
    | None => Ok {| r_test := ElementTest; r_preserve := negb strip |}
    | Some _ => do u <- intern_string ns ; Ok {| r_test := NamespaceTest u; r_preserve := negb strip |}
    end
  else
    do u <- intern_string ns ; Ok {| r_test := ExpandedNameTest u local; r_preserve := negb strip |}.
(** create_whitespace_rules, expat.c:1042-1132. *)
Fixpoint create_rules (l : list (option str * str * bool)) : result (list rule) :=
  match l with
  | [] => Ok []
  | t :: l' => do r <- create_rule t ; do rs <- create_rules l' ; Ok (r :: rs)
  end.

(** ExpatReader_GetWhitespaceStripping, expat.c:4063-4101: the third item of
    each tuple is the preserve flag. *)
Definition get_rule (r : rule) : option str * str * bool :=
  match r_test r with
  | ExpandedNameTest u n => (Some u, n, r_preserve r)
  | NamespaceTest u => (Some u, lit "*", r_preserve r)
  | ElementTest => (None, lit "*", r_preserve r)
  end.
Definition get_rules (l : list rule) : list (option str * str * bool) := map get_rule l.
(** ExpatReader_SetWhitespaceStripping, expat.c:4103-4123, outside a parse:
    the old rules stay when the new ones are not accepted. *)
Definition set_rules (old : list rule) (l : list (option str * str * bool)) : list rule * result unit :=
  match create_rules l with
  | Ok rs => (rs, Ok tt)
  | Err e => (old, Err e)
  end.

(** The switch in is_whitespace_preserving, expat.c:1152-1164, with its falls
    through. *)
Definition rule_matches (t : test) (n : xname) : bool :=
  match t with
  | ExpandedNameTest u l => if negb (str_eqb l (x_local n)) then false else ostr_eqb (Some u) (x_ns n)
  | NamespaceTest u => ostr_eqb (Some u) (x_ns n)
  | ElementTest => true
  end.
(** is_whitespace_preserving, expat.c:1141-1168. *)
Fixpoint is_whitespace_preserving (rules : list rule) (n : xname) : bool :=
  match rules with
  | [] => true
  | r :: rules' => if rule_matches (r_test r) n then r_preserve r else is_whitespace_preserving rules' n
  end.

(** ** The reader *)

(** The state of the reader: the used part of the character buffer,
    xml_space_stack, preserve_whitespace_stack (top first), and for every
    parsing context the mark that it is open. *)
Record reader := { rd_buffer : str; rd_space : list bool; rd_preserve : list bool; rd_contexts : nat }.

(** ExpatReader_New, expat.c:3936-3966. *)
Definition new_reader : reader := {| rd_buffer := []; rd_space := [false]; rd_preserve := [true]; rd_contexts := 0 |}.

(** Stack_PEEK and Stack_Pop, util.c; reading an empty stack would be an error
    of the program. *)
Definition peek (l : list bool) : bool := hd false l.

(** The test of charbuf_flush, expat.c:1244-1249. *)
Definition is_space_char (c : N) : bool := N.eqb c 9 || N.eqb c 10 || N.eqb c 13 || N.eqb c 32.

(** charbuf_flush, expat.c:1227-1285, and charbuf_reset, 1287-1288. *)
Definition charbuf_flush (r : reader) : reader * list event :=
  match rd_buffer r with
  | [] => (r, [])
  | _ =>
    ({| rd_buffer := []; rd_space := rd_space r; rd_preserve := rd_preserve r; rd_contexts := rd_contexts r |},
     if forallb is_space_char (rd_buffer r) then
       if peek (rd_preserve r) then [EText (rd_buffer r)] else []
     else [EText (rd_buffer r)])
  end.

(** charbuf_write, expat.c:1306-1329. *)
Definition charbuf_write (r : reader) (s : str) : reader :=
  {| rd_buffer := rd_buffer r ++ s; rd_space := rd_space r; rd_preserve := rd_preserve r; rd_contexts := rd_contexts r |}.

Definition xml_namespace : str := lit "http://www.w3.org/XML/1998/namespace".
(** The test for xml:space in the loop of expat_StartElement,
    expat.c:2068-2129. *)
Fixpoint scan_space (atts : list xattr) (xml_space : bool) : bool :=
  match atts with
  | [] => xml_space
  | a :: atts' =>
    scan_space atts'
      (if ostr_eqb (x_ns (a_name a)) (Some xml_namespace) then
         if str_eqb (x_local (a_name a)) (lit "space") then
           let v := if str_eqb (a_value a) (lit "preserve") then true else xml_space in
           if str_eqb (a_value a) (lit "default") then false else v
         else xml_space
       else xml_space)
  end.

(** expat_StartElement, expat.c:1994-2225. *)
Definition start_element (rules : list rule) (r : reader) (n : xname) (atts : list xattr) : reader * list event :=
  let '(r1, ev) := charbuf_flush r in
  let xml_space := scan_space atts (peek (rd_space r1)) in
  let preserve := if xml_space then true else is_whitespace_preserving rules n in
  ({| rd_buffer := rd_buffer r1; rd_space := xml_space :: rd_space r1; rd_preserve := preserve :: rd_preserve r1; rd_contexts := rd_contexts r1 |},
   ev ++ [EStart n atts]).

(** expat_EndElement, expat.c:2231-2284. *)
Definition end_element (r : reader) (n : xname) : reader * list event :=
  let '(r1, ev) := charbuf_flush r in
  ({| rd_buffer := rd_buffer r1; rd_space := tl (rd_space r1); rd_preserve := tl (rd_preserve r1); rd_contexts := rd_contexts r1 |},
   ev ++ [EEnd n]).

(** begin_context, expat.c:513-565, and end_context, 568-590. *)
Definition begin_context (r : reader) : reader :=
  {| rd_buffer := rd_buffer r; rd_space := false :: rd_space r; rd_preserve := rd_preserve r; rd_contexts := S (rd_contexts r) |}.
Definition end_context (r : reader) : reader :=
  {| rd_buffer := rd_buffer r; rd_space := tl (rd_space r); rd_preserve := rd_preserve r; rd_contexts := pred (rd_contexts r) |}.
(** destroy_contexts, expat.c:594-602. *)
Fixpoint destroy (n : nat) (r : reader) : reader :=
  match n with O => r | S n' => destroy n' (end_context r) end.
Definition destroy_contexts (r : reader) : reader := destroy (rd_contexts r) r.

(** A handler that first flushes the buffer. *)
Definition flushing (r : reader) (e : event) : reader * list event :=
  let '(r1, ev) := charbuf_flush r in (r1, ev ++ [e]).

(** One call of Expat: expat_StartElement, expat_EndElement,
    expat_CharacterData (expat.c:2289-2300), expat_ProcessingInstruction
    (2305-2339), expat_Comment (2344-2370), expat_StartNamespaceDecl
    (2375-2417), expat_EndNamespaceDecl (2422-2450), the CDATA section handlers
    (2582-2607, which do not flush), expat_SkippedEntity (2612-2653),
    expat_ExternalEntityRef (3521-3632). *)
Definition step (rules : list rule) (r : reader) (c : raw) : reader * list event :=
  match c with
  | RStart n atts => start_element rules r n atts
  | REnd n => end_element r n
  | RChars s => (charbuf_write r s, [])
  | RPI t d => flushing r (EPI t d)
  | RComment s => flushing r (EComment s)
  | RNsStart p u => flushing r (ENsStart p u)
  | RNsEnd p => flushing r (ENsEnd p)
  | RCdataStart => (r, [ECdataStart])
  | RCdataEnd => (r, [ECdataEnd])
  | RSkipped s => flushing r (ESkipped s)
  | REntityStart => (begin_context r, [])
  | REntityEnd => (end_context r, [])
  end.
Fixpoint steps (rules : list rule) (r : reader) (l : list raw) : reader * list event :=
  match l with
  | [] => (r, [])
  | c :: l' =>
    let '(r1, e1) := step rules r c in
    let '(r2, e2) := steps rules r1 l' in
    (r2, e1 ++ e2)
  end.

(** start_parsing, expat.c:1644-1676: [calls] are the calls Expat makes, [ok]
    says whether it then reaches the end of the input or finds an error.  The
    events startDocument and endDocument are left out.  A handler that raises
    is a parse with an error after the call that invoked it. *)
Definition parse (rules : list rule) (r : reader) (calls : list raw) (ok : bool) : reader * list event :=
  let '(r1, e1) := steps rules (begin_context r) calls in
  let '(r2, e2) := if ok then charbuf_flush r1 else (r1, []) in
  (destroy_contexts r2, e1 ++ e2).

(** ** The rules of a stylesheet *)

(** transform_element.setup, /repo/lib/xslt/tree/transform_element.py:236-247.
    An xsl:strip-space ([true]) or xsl:preserve-space element with its
    tokens; a dictionary is an association list in which a key occurs once. *)
Definition token := (option str * str)%type.
Definition token_eqb (a b : token) : bool := ostr_eqb (fst a) (fst b) && str_eqb (snd a) (snd b).
Fixpoint dict_set (d : list (token * bool)) (k : token) (v : bool) : list (token * bool) :=
  match d with
  | [] => [(k, v)]
  | (k', v') :: d' => if token_eqb k k' then (k', v) :: d' else (k', v') :: dict_set d' k v
  end.
Definition space_dict (decls : list (bool * list token)) : list (token * bool) :=
  fold_left (fun d e => fold_left (fun d t => dict_set d t (fst e)) (snd e) d) decls [].

(** The order of Python 2 on unicode strings, on None and a string, on bool,
    and on tuples of them. *)
Fixpoint str_le (a b : str) : bool :=
  match a, b with
  | [], _ => true
  | _ :: _, [] => false
  | x :: a', y :: b' => if N.eqb x y then str_le a' b' else N.ltb x y
  end.
Definition ostr_le (a b : option str) : bool :=
  match a, b with
  | None, _ => true
  | Some _, None => false
  | Some x, Some y => str_le x y
  end.
Definition entry_le (a b : option str * str * bool) : bool :=
  let '(n1, l1, s1) := a in
  let '(n2, l2, s2) := b in
  if negb (ostr_eqb n1 n2) then ostr_le n1 n2
  else if negb (str_eqb l1 l2) then str_le l1 l2
  else implb s1 s2.
(** [list.sort(reverse=True)], as insertion: entries with equal keys do not
    occur. *)
Fixpoint insert_desc (x : option str * str * bool) (l : list (option str * str * bool)) : list (option str * str * bool) :=
  match l with
  | [] => [x]
  | y :: l' => if entry_le y x then x :: y :: l' else y :: insert_desc x l'
  end.
Fixpoint sort_desc (l : list (option str * str * bool)) : list (option str * str * bool) :=
  match l with [] => [] | x :: l' => insert_desc x (sort_desc l') end.

(** transform_element.py:238-247: self.space_rules. *)
Definition space_rules (decls : list (bool * list token)) : list (option str * str * bool) :=
  sort_desc (map (fun e => (fst (fst e), snd (fst e), snd e)) (space_dict decls)).
