(** * Model of the serializer: /repo/lib/writers/src/xmlstream.c,
      /repo/lib/writers/_xmlprinters.py and /repo/lib/writers/node.py.

    A Unicode object is the list of its code units (code points on a wide
    Python build), the output stream the list of the bytes written to it.
    Errors of the underlying file object are not modelled (writing to it
    always succeeds), nor are reference counts and memory errors. *)
From Coq Require Import NArith ZArith String List Bool Lia Arith.
From Verif Require Import PyStr PyErr.
Import ListNotations.
Open Scope N_scope.

(** ** xmlstream.c: the encoding output stream *)

(** A Python codec, called on one character.  xmlstream.c:102-139
    (encode_unicode) calls [codec(unicode)] on whole strings.  Simplification:
    codecs are stateless, so that encoding a string is encoding each of its
    characters, and it fails iff one of them is not encodable. *)
Definition codec := N -> option (list N).

(** encode_unicode, xmlstream.c:102-139. *)
Fixpoint encode (cd : codec) (s : str) : option (list N) :=
  match s with
  | [] => Some []
  | c :: s' =>
    match cd c, encode cd s' with
    | Some b, Some bs => Some (b ++ bs)
    | _, _ => None
    end
  end.

(** XmlStreamObject, xmlstream.c:28-49: encoder, flags ASCII_SAFE, BOM_LE and
    BOM_BE, and what has been written. *)
Record xmlstream := {
  x_cd : codec;
  x_ascii_safe : bool;
  x_bom_le : bool;
  x_bom_be : bool;
  x_out : list N
}.

(** self->write_func(self, data, size): xmlstream.c:55-99. *)
Definition write_func (x : xmlstream) (bs : list N) : xmlstream :=
  {| x_cd := x_cd x; x_ascii_safe := x_ascii_safe x;
     x_bom_le := x_bom_le x; x_bom_be := x_bom_be x; x_out := x_out x ++ bs |}.

Fixpoint ascii_from (n : nat) (c : N) : str :=
  match n with O => [] | S n' => c :: ascii_from n' (c + 1) end.
(** ascii_string, xmlstream.c:898-908: the characters 0 to 127. *)
Definition ascii_string : str := ascii_from 128 0.

(** Is the encoding of all of ASCII 128 bytes long?  xmlstream.c:330-340.
    (The code looks at the length of the encoding only.) *)
Definition ascii_safe (cd : codec) : bool :=
  match encode cd ascii_string with
  | Some bs => Nat.eqb (length bs) 128
  | None => false
  end.

(** xmlstream_new, xmlstream.c:262-343, for an encoding other than utf-16. *)
Definition xmlstream_new (cd : codec) : xmlstream :=
  {| x_cd := cd; x_ascii_safe := ascii_safe cd; x_bom_le := false; x_bom_be := false; x_out := [] |}.

(** The stateless codecs utf-16be and utf-16le of the Python runtime. *)
Definition utf16_units (c : N) : list N :=
  if c <? 65536 then [c]
  else let d := c - 65536 in [55296 + d / 1024; 56320 + d mod 1024].
Definition utf16be : codec := fun c => Some (flat_map (fun u => [u / 256; u mod 256]) (utf16_units c)).
Definition utf16le : codec := fun c => Some (flat_map (fun u => [u mod 256; u / 256]) (utf16_units c)).

(** xmlstream_new for the encoding "utf-16" on a machine with the given byte
    order, xmlstream.c:302-317.  Both branches set BOM_BE. *)
Definition xmlstream_new_utf16 (little_endian : bool) : xmlstream :=
  if little_endian
  then {| x_cd := utf16le; x_ascii_safe := ascii_safe utf16le;
          x_bom_le := false; x_bom_be := true; x_out := [] |}
  else {| x_cd := utf16be; x_ascii_safe := ascii_safe utf16be;
          x_bom_le := false; x_bom_be := true; x_out := [] |}.

(** The prologue of the three write methods, xmlstream.c:356-364, 387-395,
    437-445: write a pending byte order mark. *)
Definition flush_bom (x : xmlstream) : xmlstream :=
  if x_bom_le x || x_bom_be x then
    let x1 := write_func x (if x_bom_le x then [255; 254] else [254; 255]) in
    {| x_cd := x_cd x1; x_ascii_safe := x_ascii_safe x1;
       x_bom_le := false; x_bom_be := false; x_out := x_out x1 |}
  else x.

(** write_encode, xmlstream.c:141-176: ValueError if not encodable. *)
Definition write_encode0 (x : xmlstream) (s : str) : result xmlstream :=
  match encode (x_cd x) s with
  | Some bs => Ok (write_func x bs)
  | None => Err ValueError
  end.

(** xmlstream.write_encode(unicode, where), xmlstream.c:380-402. *)
Definition write_encode (x : xmlstream) (s : str) : result xmlstream :=
  write_encode0 (flush_bom x) s.

(** write_ascii, xmlstream.c:230-251. *)
Definition write_ascii0 (x : xmlstream) (s : str) : result xmlstream :=
  if x_ascii_safe x then Ok (write_func x s) else write_encode0 x s.

(** xmlstream.write_ascii(string), xmlstream.c:349-371. *)
Definition write_ascii (x : xmlstream) (s : str) : result xmlstream :=
  write_ascii0 (flush_bom x) s.

(** sprintf("%ld"): decimal digits, xmlstream.c:203. *)
Fixpoint dec_loop (fuel : nat) (n : N) (acc : str) : str :=
  match fuel with
  | O => acc
  | S f => let acc' := (48 + n mod 10) :: acc in
           if n <? 10 then acc' else dec_loop f (n / 10) acc'
  end.
Definition dec_str (n : N) : str := dec_loop (S (N.size_nat n)) n [].

Definition charref (c : N) : str := lit "&#" ++ dec_str c ++ lit ";".

(** The per-character loop of write_escaped, xmlstream.c:186-215. *)
Fixpoint write_escaped_chars (x : xmlstream) (s : str) : xmlstream :=
  match s with
  | [] => x
  | c :: s' =>
    let data := match encode (x_cd x) [c] with Some bs => bs | None => charref c end in
    write_escaped_chars (write_func x data) s'
  end.

(** write_escaped, xmlstream.c:180-228. *)
Definition write_escaped (x : xmlstream) (s : str) : xmlstream :=
  match encode (x_cd x) s with
  | Some bs => write_func x bs
  | None => write_escaped_chars x s
  end.

(** LEGAL_UCS2, LEGAL_UCS4 and LEGAL_XML_CHAR, xmlstream.c:412-423; [wide] is
    Py_UNICODE_WIDE. *)
Definition legal_ucs2 (c : N) : bool :=
  (c =? 9) || (c =? 10) || (c =? 13) || ((32 <=? c) && (c <=? 55295)) || ((57344 <=? c) && (c <=? 65533)).
Definition legal_ucs4 (c : N) : bool := (65536 <=? c) && (c <=? 1114111).
Definition legal_xml_char (wide : bool) (c : N) : bool :=
  if wide then legal_ucs2 c || legal_ucs4 c else legal_ucs2 c.

(** Replacements: a string or a callable of the string and the offset,
    xmlstream.c:489-511. *)
Inductive repl := RStr (s : str) | RFun (f : str -> nat -> str).

(** EntityMapObject, xmlstream.c:640-761: the table indexed by character.
    Simplification: construction from a dictionary is [emap_lookup] on the
    association list of its items. *)
Definition emap := list (N * repl).
Fixpoint emap_lookup (m : emap) (c : N) : option repl :=
  match m with
  | [] => None
  | (k, r) :: m' => if N.eqb k c then Some r else emap_lookup m' c
  end.

(** The main loop of write_escape, xmlstream.c:473-539.  [string] is the whole
    (already cleaned) string, [off] the offset of [s] in it, [chunk] the
    characters since chunk_start, in reverse. *)
Fixpoint write_escape_loop (x : xmlstream) (m : emap) (string : str) (off : nat) (s chunk : str) : result xmlstream :=
  match s with
  | [] => Ok (match chunk with [] => x | _ => write_escaped x (rev chunk) end)
  | c :: s' =>
    match emap_lookup m c with
    | Some r =>
      let x1 := match chunk with [] => x | _ => write_escaped x (rev chunk) end in
      let data := match r with RStr t => t | RFun f => f string off end in
      do x2 <- write_ascii0 x1 data ;
      write_escape_loop x2 m string (S off) s' []
    | None => write_escape_loop x m string (S off) s' (c :: chunk)
    end
  end.

(** xmlstream.write_escape(unicode, entitymap), xmlstream.c:425-543: illegal
    characters become '?' first (450-471). *)
Definition write_escape (wide : bool) (x : xmlstream) (s : str) (m : emap) : result xmlstream :=
  let x0 := flush_bom x in
  let string := map (fun c => if legal_xml_char wide c then c else 63) s in
  write_escape_loop x0 m string 0 string [].

(** ** _xmlprinters.py *)

(** _text_entities, _attr_entities_quot, _attr_entities_apos,
    _xmlprinters.py:324-344. *)
Definition text_entities : emap :=
  [(60, RStr (lit "&lt;")); (62, RStr (lit "&gt;")); (38, RStr (lit "&amp;")); (13, RStr (lit "&#13;"))].
Definition attr_entities_quot : emap :=
  [(60, RStr (lit "&lt;")); (38, RStr (lit "&amp;")); (9, RStr (lit "&#9;")); (10, RStr (lit "&#10;"));
   (13, RStr (lit "&#13;")); (34, RStr (lit "&quot;"))].
Definition attr_entities_apos : emap :=
  [(60, RStr (lit "&lt;")); (38, RStr (lit "&amp;")); (9, RStr (lit "&#9;")); (10, RStr (lit "&#10;"));
   (13, RStr (lit "&#13;")); (39, RStr (lit "&apos;"))].

(** The instance variables of a printer: stream, _element_name and, for
    xmlprettyprinter (_xmlprinters.py:434-451), _level and _can_indent. *)
Record printer := {
  p_x : xmlstream;
  p_elem : option str;
  p_level : Z;
  p_can_indent : bool
}.

(** xmlprinter.__init__, _xmlprinters.py:44-56; xmlprettyprinter.__init__, 448-451. *)
Definition printer_new (x : xmlstream) : printer :=
  {| p_x := x; p_elem := None; p_level := 0%Z; p_can_indent := false |}.

Definition set_x (p : printer) (x : xmlstream) : printer :=
  {| p_x := x; p_elem := p_elem p; p_level := p_level p; p_can_indent := p_can_indent p |}.
Definition set_elem (p : printer) (e : option str) : printer :=
  {| p_x := p_x p; p_elem := e; p_level := p_level p; p_can_indent := p_can_indent p |}.
Definition set_indent (p : printer) (l : Z) (b : bool) : printer :=
  {| p_x := p_x p; p_elem := p_elem p; p_level := l; p_can_indent := b |}.

(** [if self._element_name:] - None and the empty string are false. *)
Definition is_open (p : printer) : bool :=
  match p_elem p with Some (_ :: _) => true | _ => false end.

Definition p_ascii (p : printer) (s : str) : result printer :=
  rmap (set_x p) (write_ascii (p_x p) s).
Definition p_encode (p : printer) (s : str) : result printer :=
  rmap (set_x p) (write_encode (p_x p) s).
Definition p_escape (wide : bool) (p : printer) (s : str) (m : emap) : result printer :=
  rmap (set_x p) (write_escape wide (p_x p) s m).

(** [if self._element_name: self.write_ascii('>'); self._element_name = None] *)
Definition close_tag (p : printer) : result printer :=
  if is_open p then do p1 <- p_ascii p (lit ">") ; Ok (set_elem p1 None) else Ok p.

(** xmlprinter.start_document(version, standalone=None), _xmlprinters.py:58-70;
    [canon]: canonicalxmlprinter sets omit_declaration (371). *)
Definition start_document (canon : bool) (encoding version : str) (p : printer) : result printer :=
  if canon then Ok p
  else
    do p1 <- p_ascii p (lit "<?xml version=""" ++ version ++ lit """ encoding=""" ++ encoding ++ lit """") ;
    p_ascii p1 (lit "?>" ++ [10]).

(** xmlprinter.end_document, _xmlprinters.py:72-87. *)
Definition end_document (canon : bool) (p : printer) : result printer :=
  if is_open p then
    if canon then
      do p1 <- p_ascii p (lit "</") ;
      do p2 <- p_encode p1 (match p_elem p with Some n => n | None => [] end) ;
      do p3 <- p_ascii p2 (lit ">") ;
      Ok (set_elem p3 None)
    else
      do p1 <- p_ascii p (lit "/>") ;
      Ok (set_elem p1 None)
  else Ok p.

(** [None] and the empty string are false. *)
Definition truthy (s : option str) : bool := match s with Some (_ :: _) => true | _ => false end.
Definition oget (s : option str) : str := match s with Some t => t | None => [] end.

(** xmlprinter.doctype, _xmlprinters.py:89-114. *)
Definition doctype (canon : bool) (name : str) (publicid systemid : option str) (p : printer) : result printer :=
  if canon then Ok p
  else
    do p0 <- close_tag p ;
    if truthy publicid && truthy systemid then
      do p1 <- p_ascii p0 (lit "<!DOCTYPE ") ;
      do p2 <- p_encode p1 name ;
      do p3 <- p_ascii p2 (lit " PUBLIC """) ;
      do p4 <- p_encode p3 (oget publicid) ;
      do p5 <- p_ascii p4 (lit """ """) ;
      do p6 <- p_encode p5 (oget systemid) ;
      p_ascii p6 (lit """>" ++ [10])
    else if truthy systemid then
      do p1 <- p_ascii p0 (lit "<!DOCTYPE ") ;
      do p2 <- p_encode p1 name ;
      do p3 <- p_ascii p2 (lit " SYSTEM """) ;
      do p4 <- p_encode p3 (oget systemid) ;
      p_ascii p4 (lit """>" ++ [10])
    else Ok p0.

(** A prefix/URI pair as an attribute, _xmlprinters.py:141-143, 171-173:
    [prefix and u'xmlns:' + prefix or u'xmlns']. *)
Definition nsattr (d : option str * str) : str * option str :=
  (match fst d with Some (c :: p) => lit "xmlns:" ++ (c :: p) | _ => lit "xmlns" end, Some (snd d)).

(** One attribute, _xmlprinters.py:176-212. *)
Definition write_attr (wide : bool) (p : printer) (a : str * option str) : result printer :=
  do p1 <- p_ascii p (lit " ") ;
  do p2 <- p_encode p1 (fst a) ;
  match snd a with
  | None => Ok p2
  | Some value =>
    let apos := mem 34 value && negb (mem 39 value) in
    let m := if apos then attr_entities_apos else attr_entities_quot in
    let quote := if apos then lit "'" else lit """" in
    do p3 <- p_ascii p2 (lit "=") ;
    do p4 <- p_ascii p3 quote ;
    do p5 <- p_escape wide p4 value m ;
    p_ascii p5 quote
  end.

(** One attribute in canonical form, _xmlprinters.py:151-167.  Simplification:
    a value of None cannot occur there (it would be a TypeError). *)
Definition write_attr_canon (wide : bool) (p : printer) (a : str * option str) : result printer :=
  do p1 <- p_ascii p (lit " ") ;
  do p2 <- p_encode p1 (fst a) ;
  do p3 <- p_ascii p2 (lit "=""") ;
  match snd a with
  | None => Err TypeError
  | Some value =>
    do p4 <- p_escape wide p3 value attr_entities_quot ;
    p_ascii p4 (lit """")
  end.

Fixpoint fold_r {A} (f : printer -> A -> result printer) (p : printer) (l : list A) : result printer :=
  match l with
  | [] => Ok p
  | a :: l' => do p1 <- f p a ; fold_r f p1 l'
  end.

(** Python's order on strings (code points) and on pairs (name, value). *)
Fixpoint str_leb (a b : str) : bool :=
  match a, b with
  | [], _ => true
  | _ :: _, [] => false
  | x :: a', y :: b' => (x <? y) || ((x =? y) && str_leb a' b')
  end.
Definition attr_leb (a b : str * option str) : bool :=
  if str_eqb (fst a) (fst b) then str_leb (oget (snd a)) (oget (snd b)) else str_leb (fst a) (fst b).
Fixpoint insert_attr (a : str * option str) (l : list (str * option str)) : list (str * option str) :=
  match l with
  | [] => [a]
  | b :: l' => if attr_leb a b then a :: l else b :: insert_attr a l'
  end.
(** [sorted(l)] / [l.sort()]; any stable sort gives this list. *)
Definition sort_attrs (l : list (str * option str)) : list (str * option str) :=
  fold_right insert_attr [] l.

(** xmlprinter.start_element, _xmlprinters.py:116-213. *)
Definition start_element0 (wide canon : bool) (name : str)
    (nsdecls : list (option str * str)) (attributes : list (str * option str)) (p : printer) : result printer :=
  do p0 <- (if is_open p then p_ascii p (lit ">") else Ok p) ;
  let p1 := set_elem p0 (Some name) in
  do p2 <- p_ascii p1 (lit "<") ;
  do p3 <- p_encode p2 name ;
  if canon then
    do p4 <- fold_r (write_attr_canon wide) p3 (sort_attrs (map nsattr nsdecls)) ;
    fold_r (write_attr_canon wide) p4 (sort_attrs attributes)
  else
    fold_r (write_attr wide) p3 (map nsattr nsdecls ++ attributes).

(** xmlprinter.end_element, _xmlprinters.py:215-235. *)
Definition end_element0 (canon : bool) (name : str) (p : printer) : result printer :=
  let finish q :=
    do p1 <- p_ascii q (lit "</") ;
    do p2 <- p_encode p1 name ;
    p_ascii p2 (lit ">") in
  if is_open p then
    let p0 := set_elem p None in
    if canon then do p1 <- p_ascii p0 (lit ">") ; finish p1
    else p_ascii p0 (lit "/>")
  else finish p.

(** xmlprinter.text, _xmlprinters.py:237-263.  The result of text.replace in
    canonical form is discarded by the code, so it is no-op here. *)
Definition text0 (wide : bool) (text : str) (disable_escaping : bool) (p : printer) : result printer :=
  do p0 <- close_tag p ;
  if disable_escaping then p_encode p0 text else p_escape wide p0 text text_entities.

(** [data.split(u']]>')]: pieces between the leftmost non-overlapping
    occurrences. *)
Fixpoint split_cdata (s : str) : list str :=
  match s with
  | [] => [[]]
  | x :: s' =>
    match s' with
    | y :: ((z :: s3) as s2) =>
      if (x =? 93) && (y =? 93) && (z =? 62) then [] :: split_cdata s3
      else match split_cdata s' with [] => [[x]] | w :: ws => (x :: w) :: ws end
    | _ => match split_cdata s' with [] => [[x]] | w :: ws => (x :: w) :: ws end
    end
  end.

(** xmlprinter.cdata_section, _xmlprinters.py:265-287.  In canonical form the
    code uses the undefined name [text]. *)
Definition cdata_section0 (canon : bool) (data : str) (p : printer) : result printer :=
  do p0 <- close_tag p ;
  if canon then Err NameError
  else
    match split_cdata data with
    | [] => Err IndexError
    | s0 :: rest =>
      do p1 <- p_ascii p0 (lit "<![CDATA[") ;
      do p2 <- p_encode p1 s0 ;
      do p3 <- fold_r (fun q s => do q1 <- p_ascii q (lit "]]]]><![CDATA[>") ; p_encode q1 s) p2 rest ;
      p_ascii p3 (lit "]]>")
    end.

(** xmlprinter.processing_instruction, _xmlprinters.py:289-305. *)
Definition processing_instruction0 (target data : str) (p : printer) : result printer :=
  do p0 <- close_tag p ;
  do p1 <- p_ascii p0 (lit "<?") ;
  do p2 <- p_encode p1 target ;
  do p4 <- match data with
           | [] => Ok p2
           | _ => do p3 <- p_ascii p2 (lit " ") ; p_encode p3 data
           end ;
  p_ascii p4 (lit "?>").

(** xmlprinter.comment, _xmlprinters.py:307-320. *)
Definition comment0 (data : str) (p : printer) : result printer :=
  do p0 <- close_tag p ;
  do p1 <- p_ascii p0 (lit "<!--") ;
  do p2 <- p_encode p1 data ;
  p_ascii p2 (lit "-->").

(** The three printer classes: xmlprinter, canonicalxmlprinter and
    xmlprettyprinter. *)
Inductive style := Plain | Canon | Pretty.
Definition canon_of (st : style) : bool := match st with Canon => true | _ => false end.

(** [self.write_ascii('\n' + (self.indent * self._level))], indent = two spaces. *)
Definition newline_indent (p : printer) : result printer :=
  p_ascii p (10 :: repeat 32 (2 * Z.to_nat (p_level p))).

(** start_element of the three classes; xmlprettyprinter: _xmlprinters.py:453-463. *)
Definition start_element (wide : bool) (st : style) (name : str)
    (nsdecls : list (option str * str)) (attributes : list (str * option str)) (p : printer) : result printer :=
  match st with
  | Pretty =>
    do p0 <- close_tag p ;
    do p1 <- (if p_can_indent p0 then newline_indent p0 else Ok p0) ;
    do p2 <- start_element0 wide false name nsdecls attributes p1 ;
    Ok (set_indent p2 (p_level p2 + 1) true)
  | _ => start_element0 wide (canon_of st) name nsdecls attributes p
  end.

(** end_element; xmlprettyprinter: _xmlprinters.py:465-473. *)
Definition end_element (st : style) (name : str) (p : printer) : result printer :=
  match st with
  | Pretty =>
    let p0 := set_indent p (p_level p - 1) (p_can_indent p) in
    do p1 <- (if p_can_indent p0 && negb (is_open p0) then newline_indent p0 else Ok p0) ;
    do p2 <- end_element0 false name p1 ;
    Ok (set_indent p2 (p_level p2) true)
  | _ => end_element0 (canon_of st) name p
  end.

(** text; xmlprettyprinter: _xmlprinters.py:475-479. *)
Definition text (wide : bool) (st : style) (data : str) (p : printer) : result printer :=
  match st with
  | Pretty => do p1 <- text0 wide data false p ; Ok (set_indent p1 (p_level p1) false)
  | _ => text0 wide data false p
  end.

(** cdata_section; xmlprettyprinter: _xmlprinters.py:481-485. *)
Definition cdata_section (st : style) (data : str) (p : printer) : result printer :=
  match st with
  | Pretty => do p1 <- cdata_section0 false data p ; Ok (set_indent p1 (p_level p1) false)
  | _ => cdata_section0 (canon_of st) data p
  end.

(** processing_instruction and comment; xmlprettyprinter: _xmlprinters.py:487-508. *)
Definition indented (f : printer -> result printer) (p : printer) : result printer :=
  do p0 <- close_tag p ;
  do p1 <- (if p_can_indent p0 then newline_indent p0 else Ok p0) ;
  do p2 <- f p1 ;
  Ok (set_indent p2 (p_level p2) true).
Definition processing_instruction (st : style) (target data : str) (p : printer) : result printer :=
  match st with
  | Pretty => indented (processing_instruction0 target data) p
  | _ => processing_instruction0 target data p
  end.
Definition comment (st : style) (data : str) (p : printer) : result printer :=
  match st with
  | Pretty => indented (comment0 data) p
  | _ => comment0 data p
  end.

(** ** Trees and node.py *)

(** The node attributes the visitor reads: xml_namespace, xml_qname, the
    namespace nodes declared on the element (prefix or None, URI), its
    attribute nodes, its children.  Prefix and local name are computed from
    the qualified name (element.c:674-687, attr.c:157-170; SplitQName). *)
Record attr := { a_ns : option str; a_qname : str; a_value : str }.
Inductive node :=
| NElem (ns : option str) (qname : str) (decls : list (option str * str)) (attrs : list attr) (kids : list node)
| NText (s : str)
| NComment (s : str)
| NPI (target data : str).

(** xml_prefix: the text before the first ':', or None. *)
Definition prefix_of (qname : str) : option str :=
  match break1 58 qname with Some (p, _) => Some p | None => None end.
(** xml_local: the text after the first ':'. *)
Definition local_of (qname : str) : str :=
  match break1 58 qname with Some (_, l) => l | None => qname end.

(** Python dictionaries keyed by prefix (a string or None). *)
Definition okey_eqb (a b : option str) : bool :=
  match a, b with
  | None, None => true
  | Some x, Some y => str_eqb x y
  | _, _ => false
  end.
Definition nsdict := list (option str * str).
Fixpoint dget (d : nsdict) (k : option str) : option str :=
  match d with
  | [] => None
  | (k', v) :: d' => if okey_eqb k' k then Some v else dget d' k
  end.
Fixpoint dset (d : nsdict) (k : option str) (v : str) : nsdict :=
  match d with
  | [] => [(k, v)]
  | (k', v') :: d' => if okey_eqb k' k then (k', v) :: d' else (k', v') :: dset d' k v
  end.
Definition ddel (d : nsdict) (k : option str) : nsdict :=
  filter (fun e => negb (okey_eqb (fst e) k)) d.
Definition dupdate (d e : nsdict) : nsdict := fold_left (fun acc kv => dset acc (fst kv) (snd kv)) e d.

(** Dictionaries keyed by attribute name. *)
Fixpoint aset (d : list (str * option str)) (k : str) (v : str) : list (str * option str) :=
  match d with
  | [] => [(k, Some v)]
  | (k', v') :: d' => if str_eqb k' k then (k', Some v) :: d' else (k', v') :: aset d' k v
  end.

(** /repo/lib/namespaces.py:17-18. *)
Definition XML_NAMESPACE : str := lit "http://www.w3.org/XML/1998/namespace".
Definition XMLNS_NAMESPACE : str := lit "http://www.w3.org/2000/xmlns/".

(** Element_InscopeNamespaces, element.c:391-445: the declarations of the
    element and its element ancestors, nearest first.  Simplification: a
    namespace map is the list of its items (C23 and C24 are about the map). *)
Definition inscope_level (acc : nsdict) (decls : nsdict) : nsdict :=
  fold_left (fun acc d =>
    if (match snd d with [] => true | _ => false end) && (match fst d with None => true | _ => false end)
    then acc
    else match dget acc (fst d) with
         | Some _ => acc
         | None => dset acc (fst d) (snd d)
         end) decls acc.
Definition inscope (chain : list nsdict) : nsdict :=
  fold_left inscope_level chain [(Some (lit "xml"), XML_NAMESPACE)].

Definition ostr_eqb := okey_eqb.

(** The namespace computation of _Visitor.visit_element, node.py:86-140, with
    ns_hints None and no added attributes (as _xml_write creates the visitor,
    __init__.py:119-144).  Result: the declarations to write. *)
Definition visit_namespaces (chain : list nsdict) (current_nss : nsdict) (ns : option str) (qname : str) (attrs : list attr) : nsdict :=
  let namespaces0 := ddel (inscope chain) (Some (lit "xml")) in
  let namespaces1 :=
    fold_left (fun d a =>
      if ostr_eqb (a_ns a) (Some XMLNS_NAMESPACE) then
        let prefix := if truthy (prefix_of (a_qname a)) then Some (local_of (a_qname a)) else None in
        if okey_eqb (dget current_nss prefix) (Some (a_value a)) then d else dset d prefix (a_value a)
      else d) attrs namespaces0 in
  let key := match prefix_of qname with Some (c :: p) => Some (c :: p) | _ => None end in
  let namespaces2 :=
    if truthy ns || truthy (dget namespaces1 None) then
      (* .get(key, 0) != node.xml_namespace: an absent key gives 0, which differs from None *)
      if match dget namespaces1 key with
         | Some v => ostr_eqb (Some v) ns
         | None => false
         end
      then namespaces1
      else dset namespaces1 key (oget ns)
    else namespaces1 in
  filter (fun kv => negb (okey_eqb (dget current_nss (fst kv)) (Some (snd kv)))) namespaces2.

(** The attribute dictionary, node.py:105-125: keyed by qualified name. *)
Definition visit_attributes (attrs : list attr) : list (str * option str) :=
  fold_left (fun d a =>
    if ostr_eqb (a_ns a) (Some XMLNS_NAMESPACE) then d else aset d (a_qname a) (a_value a)) attrs [].

(** _Visitor.visit, node.py:35-57, 86-179.  [ordn] and [orda] are the orders in
    which [iteritems] of the two dictionaries yields their items; [chain] holds
    the declarations of the ancestors, nearest first, [cur] is
    self._namespaces[-1]. *)
Section Visit.
  Variables (wide : bool) (st : style).
  Variable ordn : list (option str * str) -> list (option str * str).
  Variable orda : list (str * option str) -> list (str * option str).
  Fixpoint visit (chain : list nsdict) (cur : nsdict) (n : node) (p : printer) : result printer :=
    match n with
    | NElem ns qname decls attrs kids =>
      let chain' := decls :: chain in
      let namespaces := visit_namespaces chain' cur ns qname attrs in
      do p1 <- start_element wide st qname (ordn namespaces) (orda (visit_attributes attrs)) p ;
      let cur' := dupdate cur namespaces in
      do p2 <- (fix visit_all (l : list node) (q : printer) : result printer :=
                  match l with
                  | [] => Ok q
                  | k :: l' => do q1 <- visit chain' cur' k q ; visit_all l' q1
                  end) kids p1 ;
      end_element st qname p2
    | NText s => text wide st s p
    | NComment s => comment st s p
    | NPI t d => processing_instruction st t d p
    end.
  Fixpoint visit_all (chain : list nsdict) (cur : nsdict) (l : list node) (p : printer) : result printer :=
    match l with
    | [] => Ok p
    | k :: l' => do p1 <- visit chain cur k p ; visit_all chain cur l' p1
    end.

  (** _Visitor.visit_document, node.py:68-83. *)
  Definition first_element (l : list node) : option str :=
    fold_right (fun n r => match n with NElem _ q _ _ _ => Some q | _ => r end) None l.
  Definition visit_document (encoding : str) (public_id system_id : option str) (kids : list node) (p : printer) : result printer :=
    do p1 <- start_document (canon_of st) encoding (lit "1.0") p ;
    do p2 <- (if truthy system_id then
                match first_element kids with
                | Some q => doctype (canon_of st) q public_id system_id p1
                | None => Ok p1
                end
              else Ok p1) ;
    do p3 <- visit_all [] [(Some (lit "xml"), XML_NAMESPACE)] kids p2 ;
    end_document (canon_of st) p3.
End Visit.

(** node.xml_encode(writer, encoding), __init__.py:119-152, for a non-document
    node whose ancestors declare [chain]. *)
Definition xml_encode_node (wide : bool) (st : style) ordn orda (chain : list nsdict) (x : xmlstream) (n : node) : result (list N) :=
  rmap (fun p => x_out (p_x p))
       (visit wide st ordn orda chain [(Some (lit "xml"), XML_NAMESPACE)] n (printer_new x)).
Definition xml_encode_document (wide : bool) (st : style) ordn orda (encoding : str) (pub sys : option str) (x : xmlstream) (kids : list node) : result (list N) :=
  rmap (fun p => x_out (p_x p))
       (visit_document wide st ordn orda encoding pub sys kids (printer_new x)).
