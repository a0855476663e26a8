(** * Model of the HTML and XHTML printers:
      /repo/lib/writers/_htmlprinters.py, _xhtmlprinters.py and htmlentities.py,
      with the parts of /repo/lib/writers/_xmlprinters.py they call, and
      /repo/lib/writers/node.py driving them.

    The stream below them is the one of [SerModel].  Python's unicode.lower is
    an argument ([low]).  Not modelled: standalone declarations, and printers
    driven by unbalanced calls of end_element. *)
From Coq Require Import NArith ZArith String List Bool Lia Arith.
From Verif Require Import PyStr PyErr Utf8 SerModel.
Import ListNotations.
Open Scope N_scope.

(** ** htmlentities.py *)

(** The items of the dictionary display, in the order of the source,
    htmlentities.py:10-108. *)
Definition html_32_items : list (N * str) := map (fun e => (fst e, lit (snd e)))
  [(160, "&nbsp;"); (161, "&iexcl;"); (162, "&cent;"); (163, "&pound;"); (164, "&curren;"); (165, "&yen;");
   (166, "&brvbar;"); (167, "&sect;"); (168, "&uml;"); (169, "&copy;"); (170, "&ordf;"); (171, "&laquo;");
   (172, "&not;"); (173, "&shy;"); (174, "&reg;"); (175, "&macr;"); (176, "&deg;"); (177, "&plusmn;");
   (178, "&sup2;"); (179, "&sup3;"); (180, "&acute;"); (181, "&micro;"); (182, "&para;"); (183, "&middot;");
   (184, "&cedil;"); (185, "&sup1;"); (186, "&ordm;"); (187, "&raquo;"); (188, "&frac14;"); (189, "&frac12;");
   (190, "&frac34;"); (191, "&iquest;"); (192, "&Agrave;"); (193, "&Aacute;"); (194, "&Acirc;"); (195, "&Atilde;");
   (196, "&Auml;"); (197, "&Aring;"); (198, "&AElig;"); (199, "&Ccedil;"); (200, "&Egrave;"); (201, "&Eacute;");
   (202, "&Ecirc;"); (203, "&Euml;"); (204, "&Igrave;"); (205, "&Iacute;"); (206, "&Icirc;"); (207, "&Iuml;");
   (208, "&ETH;"); (209, "&Ntilde;"); (210, "&Ograve;"); (211, "&Oacute;"); (212, "&Ocirc;"); (213, "&Otilde;");
   (214, "&Ouml;"); (215, "&times;"); (216, "&Oslash;"); (217, "&Ugrave;"); (218, "&Uacute;"); (219, "&Ucirc;");
   (220, "&Uuml;"); (221, "&Yacute;"); (222, "&THORN;"); (223, "&szlig;"); (224, "&agrave;"); (225, "&aacute;");
   (226, "&acirc;"); (227, "&atilde;"); (228, "&auml;"); (229, "&aring;"); (230, "&aelig;"); (231, "&ccedil;");
   (232, "&egrave;"); (233, "&eacute;"); (234, "&ecirc;"); (235, "&euml;"); (236, "&igrave;"); (237, "&iacute;");
   (238, "&icirc;"); (239, "&iuml;"); (240, "&eth;"); (241, "&ntilde;"); (242, "&ograve;"); (243, "&oacute;");
   (244, "&ocirc;"); (245, "&otilde;"); (246, "&ouml;"); (247, "&divide;"); (248, "&oslash;"); (249, "&ugrave;");
   (250, "&uacute;"); (251, "&ucirc;"); (252, "&uuml;"); (253, "&yacute;"); (254, "&thorn;"); (255, "&yuml;")]%string.

(** htmlentities.py:111-277. *)
Definition html_40_items : list (N * str) := map (fun e => (fst e, lit (snd e)))
  [(402, "&fnof;"); (913, "&Alpha;"); (914, "&Beta;"); (915, "&Gamma;"); (916, "&Delta;"); (917, "&Epsilon;");
   (918, "&Zeta;"); (919, "&Eta;"); (920, "&Theta;"); (921, "&Iota;"); (922, "&Kappa;"); (923, "&Lambda;");
   (924, "&Mu;"); (925, "&Nu;"); (926, "&Xi;"); (927, "&Omicron;"); (928, "&Pi;"); (929, "&Rho;"); (931, "&Sigma;");
   (932, "&Tau;"); (933, "&Upsilon;"); (934, "&Phi;"); (935, "&Chi;"); (936, "&Psi;"); (937, "&Omega;");
   (945, "&alpha;"); (946, "&beta;"); (947, "&gamma;"); (948, "&delta;"); (949, "&epsilon;"); (950, "&zeta;");
   (951, "&eta;"); (952, "&theta;"); (953, "&iota;"); (954, "&kappa;"); (955, "&lambda;"); (956, "&mu;");
   (957, "&nu;"); (958, "&xi;"); (959, "&omicron;"); (960, "&pi;"); (961, "&rho;"); (962, "&sigmaf;");
   (963, "&sigma;"); (964, "&tau;"); (965, "&upsilon;"); (966, "&phi;"); (967, "&chi;"); (968, "&psi;");
   (969, "&omega;"); (977, "&thetasym;"); (978, "&upsih;"); (982, "&piv;"); (8226, "&bull;"); (8230, "&hellip;");
   (8242, "&prime;"); (8243, "&Prime;"); (8254, "&oline;"); (8250, "&frasl;"); (8472, "&weierp;"); (8465, "&image;");
   (8476, "&real;"); (8482, "&trade;"); (8501, "&alefsym;"); (8592, "&larr;"); (8593, "&uarr;"); (8594, "&rarr;");
   (8595, "&darr;"); (8596, "&harr;"); (8629, "&crarr;"); (8656, "&lArr;"); (8657, "&uArr;"); (8658, "&rArr;");
   (8659, "&dArr;"); (8660, "&hArr;"); (8704, "&forall;"); (8706, "&part;"); (8707, "&exist;"); (8709, "&empty;");
   (8711, "&nabla;"); (8712, "&isin;"); (8713, "&notin;"); (8715, "&ni;"); (8719, "&prod;"); (8721, "&sum;");
   (8722, "&minus;"); (8727, "&lowast;"); (8730, "&radic;"); (8733, "&prop;"); (8734, "&infin;"); (8736, "&ang;");
   (8743, "&and;"); (8744, "&or;"); (8745, "&cap;"); (8746, "&cup;"); (8747, "&int;"); (8756, "&there4;");
   (8764, "&sim;"); (8773, "&cong;"); (8776, "&asymp;"); (8800, "&ne;"); (8801, "&equiv;"); (8804, "&le;");
   (8805, "&ge;"); (8834, "&sub;"); (8835, "&sup;"); (8836, "&nsub;"); (8838, "&sube;"); (8839, "&supe;");
   (8853, "&oplus;"); (8855, "&otimes;"); (8869, "&perp;"); (8901, "&sdot;"); (8968, "&lceil;"); (8969, "&rceil;");
   (8970, "&lfloor;"); (8971, "&rfloor;"); (9001, "&lang;"); (9002, "&rang;"); (9674, "&loz;"); (9824, "&spades;");
   (9827, "&clubs;"); (9829, "&hearts;"); (9830, "&diams;"); (338, "&OElig;"); (339, "&oelig;"); (352, "&Scaron;");
   (353, "&scaron;"); (376, "&Yuml;"); (710, "&circ;"); (732, "&tidle;"); (8194, "&ensp;"); (8195, "&emsp;");
   (8201, "&thinsp;"); (8204, "&zwnj;"); (8205, "&zwj;"); (8206, "&lrm;"); (8207, "&rlm;"); (8211, "&ndash;");
   (8212, "&mdash;"); (8216, "&lsquo;"); (8217, "&rsquo;"); (8218, "&sbquo;"); (8220, "&ldquo;"); (8221, "&rdquo;");
   (8222, "&bdquo;"); (8224, "&dagger;"); (8225, "&Dagger;"); (8240, "&permil;"); (8249, "&lsaquo;");
   (8250, "&rsaquo;"); (8364, "&euro;")]%string.

(** [d[k] = v] and [d.update(items)] on a dictionary of entities; a later item
    of a dictionary display replaces an earlier one with the same key. *)
Fixpoint emap_set (m : emap) (k : N) (r : repl) : emap :=
  match m with
  | [] => [(k, r)]
  | (k', r') :: m' => if N.eqb k' k then (k', r) :: m' else (k', r') :: emap_set m' k r
  end.
Definition emap_update (m items : emap) : emap := fold_left (fun m e => emap_set m (fst e) (snd e)) items m.
Definition strings (l : list (N * str)) : emap := map (fun e => (fst e, RStr (snd e))) l.

(** ENTITIES_HTML_32, htmlentities.py:10-108. *)
Definition ENTITIES_HTML_32 : emap := emap_update [] (strings html_32_items).
(** ENTITIES_HTML_40, htmlentities.py:111-278. *)
Definition ENTITIES_HTML_40 : emap := emap_update (emap_update [] (strings html_40_items)) ENTITIES_HTML_32.
(** ENTITIES_XHTML_10, htmlentities.py:280. *)
Definition ENTITIES_XHTML_10 : emap := ENTITIES_HTML_40.

(** ** The tables of the printers *)

(** The three entity maps of a printer: _text_entities, _attr_entities_quot and
    _attr_entities_apos. *)
Record maps := { m_text : emap; m_quot : emap; m_apos : emap }.

(** _htmlprinters.py:223-227. *)
Definition html_text0 : emap :=
  [(60, RStr (lit "&lt;")); (62, RStr (lit "&gt;")); (38, RStr (lit "&amp;")); (13, RStr (lit "&#13;"))].
(** _attr_amp_escape, _htmlprinters.py:239-243. *)
Definition attr_amp_escape (string : str) (offset : nat) : str :=
  if prefixb (lit "&{") (skipn offset string) then lit "&" else lit "&amp;".
(** _htmlprinters.py:244-249. *)
Definition html_quot0 : emap :=
  [(38, RFun attr_amp_escape); (9, RStr (lit "&#9;")); (10, RStr (lit "&#10;")); (13, RStr (lit "&#13;"));
   (34, RStr (lit "&quot;"))].
(** _htmlprinters.py:257-262. *)
Definition html_apos0 : emap :=
  [(38, RFun attr_amp_escape); (9, RStr (lit "&#9;")); (10, RStr (lit "&#10;")); (13, RStr (lit "&#13;"));
   (39, RStr (lit "&#39;"))].
(** _versioned_entities['3.2'], _htmlprinters.py:228-229, 250-251, 263-264. *)
Definition maps_32 : maps :=
  {| m_text := emap_update html_text0 ENTITIES_HTML_32;
     m_quot := emap_update html_quot0 ENTITIES_HTML_32;
     m_apos := emap_update html_apos0 ENTITIES_HTML_32 |}.
(** _versioned_entities['4.0'] and the defaults of the class,
    _htmlprinters.py:230-233, 252-255, 265-268. *)
Definition maps_40 : maps :=
  {| m_text := emap_update (m_text maps_32) ENTITIES_HTML_40;
     m_quot := emap_update (m_quot maps_32) ENTITIES_HTML_40;
     m_apos := emap_update (m_apos maps_32) ENTITIES_HTML_40 |}.

(** The entity maps of xhtmlprinter, _xhtmlprinters.py:111-135. *)
Definition maps_xhtml : maps :=
  {| m_text := emap_update
       [(60, RStr (lit "&lt;")); (62, RStr (lit "&gt;")); (38, RStr (lit "&amp;")); (13, RStr (lit "&#13;"))]
       ENTITIES_XHTML_10;
     m_quot := emap_update
       [(38, RStr (lit "&amp;")); (9, RStr (lit "&#9;")); (10, RStr (lit "&#10;")); (13, RStr (lit "&#13;"));
        (34, RStr (lit "&quot;"))] ENTITIES_XHTML_10;
     m_apos := emap_update
       [(38, RStr (lit "&amp;")); (9, RStr (lit "&#9;")); (10, RStr (lit "&#10;")); (13, RStr (lit "&#13;"));
        (39, RStr (lit "&#39;"))] ENTITIES_XHTML_10 |}.

(** _forbidden_end_elements, _htmlprinters.py:172-175. *)
Definition forbidden_end_elements : list str := map lit
  ["area"; "base"; "basefont"; "br"; "col"; "frame"; "hr"; "img"; "input"; "isindex"; "link"; "meta"; "param"]%string.

(** _no_escape_elements, _htmlprinters.py:183. *)
Definition no_escape_elements : list str := map lit
  ["script"; "style"]%string.

(** _boolean_attributes, _htmlprinters.py:186-201. *)
Definition boolean_attributes : list (str * list str) := map (fun e => (lit (fst e), map lit (snd e)))
  [("checked", ["input"]);
   ("compact", ["dl"; "ol"; "ul"; "dir"; "menu"; "li"]);
   ("declare", ["object"]);
   ("defer", ["script"]);
   ("disabled", ["input"; "select"; "optgroup"; "option"; "textarea"; "button"]);
   ("ismap", ["img"; "input"]);
   ("multiple", ["select"]);
   ("nohref", ["area"]);
   ("noresize", ["frame"]);
   ("noshade", ["hr"]);
   ("nowrap", ["th"; "td"]);
   ("readonly", ["input"; "textarea"]);
   ("selected", ["option"])]%string.

(** _uri_attributes, _htmlprinters.py:204-216. *)
Definition uri_attributes : list (str * list str) := map (fun e => (lit (fst e), map lit (snd e)))
  [("action", ["form"]);
   ("background", ["body"]);
   ("cite", ["blockquote"; "del"; "ins"; "q"]);
   ("classid", ["object"]);
   ("codebase", ["applet"; "object"]);
   ("data", ["object"]);
   ("href", ["a"; "area"; "base"; "link"]);
   ("longdesc", ["frame"; "iframe"; "img"]);
   ("profile", ["head"]);
   ("src", ["frame"; "iframe"; "img"; "input"; "script"]);
   ("usemap", ["img"; "input"; "object"])]%string.

(** _inline_elements, _htmlprinters.py:382-388. *)
Definition inline_elements : list str := map lit
  ["tt"; "i"; "b"; "u"; "s"; "strike"; "big"; "small"; "em"; "strong"; "dfn"; "code"; "samp"; "kbd"; "var"; "cite";
   "abbr"; "acronym"; "a"; "img"; "applet"; "object"; "font"; "basefont"; "br"; "script"; "map"; "q"; "sub"; "sup";
   "span"; "bdo"; "iframe"; "input"; "select"; "textarea"; "label"; "button"]%string.

(** _no_indent_elements, _htmlprinters.py:393-395. *)
Definition no_indent_elements : list str := map lit
  ["script"; "style"; "pre"; "textarea"; "xmp"]%string.

(** _empty_elements, _xhtmlprinters.py:86-89. *)
Definition x_empty_elements : list str := map lit
  ["area"; "base"; "basefont"; "br"; "col"; "frame"; "hr"; "img"; "input"; "isindex"; "link"; "meta"; "param"]%string.

(** _uri_attributes, _xhtmlprinters.py:92-109. *)
Definition x_uri_attributes : list (str * list str) := map (fun e => (lit (fst e), map lit (snd e)))
  [("action", ["form"]);
   ("archive", ["object"]);
   ("background", ["body"]);
   ("cite", ["blockquote"; "del"; "ins"; "q"]);
   ("classid", ["object"]);
   ("codebase", ["applet"; "object"]);
   ("data", ["object"]);
   ("datasrc", ["button"; "div"; "input"; "object"; "select"; "span"; "table"; "textarea"]);
   ("for", ["script"]);
   ("href", ["a"; "area"; "base"; "link"]);
   ("longdesc", ["frame"; "iframe"; "img"]);
   ("name", ["a"]);
   ("profile", ["head"]);
   ("src", ["frame"; "iframe"; "img"; "input"; "script"]);
   ("usemap", ["img"; "input"; "object"])]%string.

(** _inline_elements, _xhtmlprinters.py:243-249. *)
Definition x_inline_elements : list str := map lit
  ["tt"; "i"; "b"; "u"; "s"; "strike"; "big"; "small"; "em"; "strong"; "dfn"; "code"; "samp"; "kbd"; "var"; "cite";
   "abbr"; "acronym"; "a"; "img"; "applet"; "object"; "font"; "basefont"; "script"; "map"; "q"; "sub"; "sup"; "span";
   "bdo"; "iframe"; "input"; "select"; "textarea"; "label"; "button"]%string.

(** _no_indent_elements, _xhtmlprinters.py:254-256. *)
Definition x_no_indent_elements : list str := map lit
  ["script"; "style"; "pre"; "textarea"; "xmp"]%string.

(** [x in frozenset] and [attr in table and element in table[attr]]. *)
Definition isin (x : str) (l : list str) : bool := existsb (str_eqb x) l.
Fixpoint in_table (t : list (str * list str)) (attr element : str) : bool :=
  match t with
  | [] => false
  | (a, els) :: t' => if str_eqb a attr then isin element els else in_table t' attr element
  end.

(** [re.sub('[\x80-\xff]', lambda m: '%%%02X' % ord(m.group()), value.encode('UTF-8'))],
    _htmlprinters.py:92-94, _xhtmlprinters.py:45-47. *)
Definition hex_digit (n : N) : N := if n <? 10 then 48 + n else 55 + n.
Definition percent_byte (b : N) : str := if 128 <=? b then [37; hex_digit (b / 16); hex_digit (b mod 16)] else [b].
Definition escape_uri (value : str) : str := flat_map percent_byte (utf8_encode value).

(** htmlprinter._translate_attributes, _htmlprinters.py:70-96. *)
Definition html_attribute (low : str -> str) (element : str) (a : str * str) : str * option str :=
  let attr := low (fst a) in
  if in_table boolean_attributes attr element then
    if str_eqb attr (low (snd a)) then (fst a, None) else (fst a, Some (snd a))
  else if in_table uri_attributes attr element then (fst a, Some (escape_uri (snd a)))
  else (fst a, Some (snd a)).

(** xhtmlprinter._translate_attributes, _xhtmlprinters.py:28-49. *)
Definition xhtml_attribute (element : str) (a : str * str) : str * option str :=
  if in_table x_uri_attributes (fst a) element then (fst a, Some (escape_uri (snd a))) else (fst a, Some (snd a)).

(** ** xmlprinter, with the entity maps of the subclass *)

(** The attribute part of xmlprinter.start_element, _xmlprinters.py:176-212. *)
Definition h_attr (m : maps) (p : printer) (a : str * option str) : result printer :=
  do p1 <- p_ascii p (lit " ") ;
  do p2 <- p_encode p1 (fst a) ;
  match snd a with
  | None => Ok p2
  | Some value =>
    let apos := mem 34 value && negb (mem 39 value) in
    let quote := if apos then lit "'" else lit """" in
    do p3 <- p_ascii p2 (lit "=") ;
    do p4 <- p_ascii p3 quote ;
    do p5 <- p_escape true p4 value (if apos then m_apos m else m_quot m) ;
    p_ascii p5 quote
  end.

(** xmlprinter.start_element, _xmlprinters.py:116-213, not canonical. *)
Definition x_start (m : maps) (name : str) (nsdecls : list (option str * str)) (attributes : list (str * option str))
    (p : printer) : result printer :=
  do p0 <- (if is_open p then p_ascii p (lit ">") else Ok p) ;
  do p2 <- p_ascii (set_elem p0 (Some name)) (lit "<") ;
  do p3 <- p_encode p2 name ;
  fold_r (h_attr m) p3 (map nsattr nsdecls ++ attributes).

(** xmlprinter.text, _xmlprinters.py:237-263, disable_escaping False. *)
Definition x_text (m : maps) (data : str) (p : printer) : result printer :=
  do p0 <- close_tag p ;
  p_escape true p0 data (m_text m).

(** ** The printers *)

(** htmlprinter, htmlprettyprinter, html_ns_stripper, xhtmlprinter,
    xhtmlprettyprinter: the names html, html-indent, html-nsstrip, xhtml and
    xhtml-indent of writers/__init__.py:75-84. *)
Inductive kind := Html | HtmlIndent | HtmlStrip | Xhtml | XhtmlIndent.
Definition is_html (k : kind) : bool := match k with Html | HtmlIndent | HtmlStrip => true | _ => false end.

(** The state of a printer: the one of xmlprinter, the entity maps,
    _disable_ouput_escaping, and the indenting control variables _is_inline,
    _in_no_indent (tops first), _indent_forbidden and _indent_end_tag. *)
Record hp := {
  h_p : printer;
  h_maps : maps;
  h_noesc : Z;
  h_inline : list bool;
  h_noindent : list bool;
  h_forbidden : Z;
  h_endtag : bool
}.
Definition set_p (h : hp) (p : printer) : hp :=
  {| h_p := p; h_maps := h_maps h; h_noesc := h_noesc h; h_inline := h_inline h; h_noindent := h_noindent h;
     h_forbidden := h_forbidden h; h_endtag := h_endtag h |}.
Definition set_maps (h : hp) (m : maps) : hp :=
  {| h_p := h_p h; h_maps := m; h_noesc := h_noesc h; h_inline := h_inline h; h_noindent := h_noindent h;
     h_forbidden := h_forbidden h; h_endtag := h_endtag h |}.
Definition set_noesc (h : hp) (z : Z) : hp :=
  {| h_p := h_p h; h_maps := h_maps h; h_noesc := z; h_inline := h_inline h; h_noindent := h_noindent h;
     h_forbidden := h_forbidden h; h_endtag := h_endtag h |}.
Definition set_ind (h : hp) (inl noi : list bool) (forb : Z) (e : bool) : hp :=
  {| h_p := h_p h; h_maps := h_maps h; h_noesc := h_noesc h; h_inline := inl; h_noindent := noi;
     h_forbidden := forb; h_endtag := e |}.
Definition set_level (p : printer) (l : Z) : printer :=
  {| p_x := p_x p; p_elem := p_elem p; p_level := l; p_can_indent := p_can_indent p |}.

(** The constructors: htmlprinter.__init__, _htmlprinters.py:31-32;
    htmlprettyprinter.__init__, 286-294; xhtmlprettyprinter.__init__,
    _xhtmlprinters.py:152-160; xmlprinter.__init__, _xmlprinters.py:44-56. *)
Definition hp_new (k : kind) (x : xmlstream) : hp :=
  {| h_p := printer_new x; h_maps := if is_html k then maps_40 else maps_xhtml; h_noesc := 0%Z;
     h_inline := [true]; h_noindent := [false]; h_forbidden := 0%Z; h_endtag := false |}.

Definition on_p (h : hp) (f : printer -> result printer) : result hp := rmap (set_p h) (f (h_p h)).

(** htmlprinter.start_document(version), _htmlprinters.py:34-50;
    xmlprinter.start_document otherwise. *)
Definition h_start_document (k : kind) (encoding version : str) (h : hp) : result hp :=
  if is_html k then Ok (set_maps h (if str_eqb version (lit "3.2") then maps_32 else maps_40))
  else on_p h (start_document false encoding version).

(** htmlprinter.doctype, _htmlprinters.py:52-68; xmlprinter.doctype otherwise. *)
Definition h_doctype (k : kind) (name : str) (publicid systemid : option str) (h : hp) : result hp :=
  if is_html k && truthy publicid && negb (truthy systemid) then
    on_p h (fun p =>
      do p1 <- p_ascii p (lit "<!DOCTYPE ") ;
      do p2 <- p_encode p1 name ;
      do p3 <- p_ascii p2 (lit " PUBLIC """) ;
      do p4 <- p_encode p3 (oget publicid) ;
      p_ascii p4 (lit """>" ++ [10]))
  else on_p h (doctype false name publicid systemid).

(** Write '>' and forget the open tag. *)
Definition end_start_tag (p : printer) : result printer :=
  do p1 <- p_ascii p (lit ">") ; Ok (set_elem p1 None).

(** htmlprinter.start_element, _htmlprinters.py:98-126. *)
Definition html_start (low : str -> str) (strip : bool) (ns : option str) (name : str)
    (nsdecls : list (option str * str)) (attributes : list (str * str)) (h : hp) : result hp :=
  match ns with
  | Some _ =>
    on_p h (x_start (h_maps h) name (if strip then [] else nsdecls) (map (fun a => (fst a, Some (snd a))) attributes))
  | None =>
    let element := low name in
    let h1 := if isin element no_escape_elements then set_noesc h (h_noesc h + 1) else h in
    do h2 <- on_p h1 (x_start (h_maps h) name nsdecls (map (html_attribute low element) attributes)) ;
    on_p h2 end_start_tag
  end.

(** htmlprinter.end_element, _htmlprinters.py:128-150. *)
Definition html_end (low : str -> str) (ns : option str) (name : str) (h : hp) : result hp :=
  match ns with
  | Some _ => on_p h (end_element0 false name)
  | None =>
    let element := low name in
    do h1 <- (if isin element forbidden_end_elements then Ok h
              else on_p h (fun p =>
                     do p1 <- p_ascii p (lit "</") ;
                     do p2 <- p_encode p1 name ;
                     p_ascii p2 (lit ">"))) ;
    Ok (if isin element no_escape_elements then set_noesc h1 (h_noesc h1 - 1) else h1)
  end.

(** htmlprinter.processing_instruction, _htmlprinters.py:152-169. *)
Definition html_pi (target data : str) (p : printer) : result printer :=
  do p0 <- close_tag p ;
  do p1 <- p_ascii p0 (lit "<?") ;
  do p2 <- p_encode p1 target ;
  do p4 <- match data with
           | [] => Ok p2
           | _ => do p3 <- p_ascii p2 (lit " ") ; p_encode p3 data
           end ;
  p_ascii p4 (lit ">").

(** /repo/lib/namespaces.py:20. *)
Definition XHTML_NAMESPACE : str := lit "http://www.w3.org/1999/xhtml".
Definition is_xhtml (ns : option str) : bool := match ns with Some u => str_eqb u XHTML_NAMESPACE | None => false end.

(** xhtmlprinter.start_element, _xhtmlprinters.py:51-67. *)
Definition xhtml_start (ns : option str) (name : str)
    (nsdecls : list (option str * str)) (attributes : list (str * str)) (h : hp) : result hp :=
  let xhtml := is_xhtml ns in
  let atts := if xhtml then map (xhtml_attribute name) attributes else map (fun a => (fst a, Some (snd a))) attributes in
  do h1 <- on_p h (x_start (h_maps h) name nsdecls atts) ;
  if xhtml && negb (isin name x_empty_elements) then on_p h1 end_start_tag else Ok h1.

(** xhtmlprinter.end_element, _xhtmlprinters.py:69-83.  The first branch leaves
    _element_name as it is. *)
Definition xhtml_end (ns : option str) (name : str) (h : hp) : result hp :=
  if is_open (h_p h) && isin name x_empty_elements && is_xhtml ns
  then on_p h (fun p => p_ascii p (lit " />"))
  else on_p h (end_element0 false name).

(** The element handlers of the base class of a printer. *)
Definition base_start (low : str -> str) (k : kind) (ns : option str) (name : str)
    (nsdecls : list (option str * str)) (attributes : list (str * str)) (h : hp) : result hp :=
  match k with
  | Html | HtmlIndent => html_start low false ns name nsdecls attributes h
  | HtmlStrip => html_start low true ns name nsdecls attributes h
  | Xhtml | XhtmlIndent => xhtml_start ns name nsdecls attributes h
  end.
Definition base_end (low : str -> str) (k : kind) (ns : option str) (name : str) (h : hp) : result hp :=
  match k with
  | Html | HtmlIndent | HtmlStrip => html_end low ns name h
  | Xhtml | XhtmlIndent => xhtml_end ns name h
  end.

(** The lookup key of htmlprettyprinter, _htmlprinters.py:302-305, and of
    xhtmlprettyprinter, _xhtmlprinters.py:168-171 ([None]: in no table). *)
Definition key_of (low : str -> str) (k : kind) (ns : option str) (name : str) : option str :=
  match k with
  | XhtmlIndent => if is_xhtml ns then Some name else None
  | _ => match ns with None => Some (low name) | Some _ => Some (lit "#bogus") end
  end.
Definition key_in (key : option str) (l : list str) : bool := match key with Some x => isin x l | None => false end.
Definition inline_of (k : kind) : list str := match k with XhtmlIndent => x_inline_elements | _ => inline_elements end.
Definition noindent_of (k : kind) : list str := match k with XhtmlIndent => x_no_indent_elements | _ => no_indent_elements end.

(** [self.write_ascii('\n' + (self.indent * self._level))] *)
Definition h_newline (h : hp) : result hp := on_p h newline_indent.
Definition b2z (b : bool) : Z := if b then 1%Z else 0%Z.

(** start_element of the indenting printers, _htmlprinters.py:296-323,
    _xhtmlprinters.py:162-189. *)
Definition indent_start (low : str -> str) (k : kind) (ns : option str) (name : str)
    (nsdecls : list (option str * str)) (attributes : list (str * str)) (h : hp) : result hp :=
  do h0 <- on_p h close_tag ;
  let key := key_of low k ns name in
  let inline := key_in key (inline_of k) in
  match h_inline h0 with
  | [] => Err IndexError
  | top :: _ =>
    do h1 <- (if negb inline && negb top && (h_forbidden h0 =? 0)%Z then h_newline h0 else Ok h0) ;
    do h2 <- base_start low k ns name nsdecls attributes h1 ;
    let no_indent := key_in key (noindent_of k) in
    Ok (set_p (set_ind h2 (inline :: h_inline h2) (no_indent :: h_noindent h2) (h_forbidden h2 + b2z no_indent) false)
              (set_level (h_p h2) (p_level (h_p h2) + 1)))
  end.

(** end_element of the indenting printers, _htmlprinters.py:325-346,
    _xhtmlprinters.py:191-212. *)
Definition indent_end (low : str -> str) (k : kind) (ns : option str) (name : str) (h : hp) : result hp :=
  let h0 := set_p h (set_level (h_p h) (p_level (h_p h) - 1)) in
  match h_inline h0 with
  | [] => Err IndexError
  | is_inline :: outer =>
    let h1 := set_ind h0 outer (h_noindent h0) (h_forbidden h0) (h_endtag h0) in
    do h2 <- (if is_open (h_p h1) then
                on_p h1 (fun p => do p1 <- p_ascii p (lit "/>") ; Ok (set_elem p1 None))
              else
                do h2 <- (if negb is_inline && (h_forbidden h1 =? 0)%Z && h_endtag h1 then h_newline h1 else Ok h1) ;
                base_end low k ns name h2) ;
    match h_noindent h2 with
    | [] => Err IndexError
    | no_indent :: noi => Ok (set_ind h2 (h_inline h2) noi (h_forbidden h2 - b2z no_indent) (negb is_inline))
    end
  end.

(** IsSpace, /repo/lib/src/xmlstring.c:113-127. *)
Definition isspace (s : str) : bool := forallb (fun c => (c =? 32) || (c =? 9) || (c =? 10) || (c =? 13)) s.

(** processing_instruction and comment of the indenting printers,
    _htmlprinters.py:353-379, _xhtmlprinters.py:214-240. *)
Definition indent_other (f : printer -> result printer) (h : hp) : result hp :=
  do h0 <- on_p h close_tag ;
  let h1 := set_ind h0 (h_inline h0) (h_noindent h0) (h_forbidden h0) true in
  match h_inline h1 with
  | [] => Err IndexError
  | top :: _ =>
    do h2 <- (if negb top && (h_forbidden h1 =? 0)%Z then h_newline h1 else Ok h1) ;
    on_p h2 f
  end.

(** The calls of the printer interface. *)
Definition h_start (low : str -> str) (k : kind) (ns : option str) (name : str)
    (nsdecls : list (option str * str)) (attributes : list (str * str)) (h : hp) : result hp :=
  match k with
  | HtmlIndent | XhtmlIndent => indent_start low k ns name nsdecls attributes h
  | _ => base_start low k ns name nsdecls attributes h
  end.
Definition h_end (low : str -> str) (k : kind) (ns : option str) (name : str) (h : hp) : result hp :=
  match k with
  | HtmlIndent | XhtmlIndent => indent_end low k ns name h
  | _ => base_end low k ns name h
  end.
(** htmlprettyprinter.text, _htmlprinters.py:348-351; xhtmlprettyprinter has none. *)
Definition h_text (k : kind) (data : str) (h : hp) : result hp :=
  let h0 := match k with
            | HtmlIndent => set_ind h (h_inline h) (h_noindent h) (h_forbidden h) (isspace data)
            | _ => h
            end in
  on_p h0 (x_text (h_maps h0) data).
Definition h_pi (k : kind) (target data : str) (h : hp) : result hp :=
  let f := if is_html k then html_pi target data else processing_instruction0 target data in
  match k with
  | HtmlIndent | XhtmlIndent => indent_other f h
  | _ => on_p h f
  end.
Definition h_comment (k : kind) (data : str) (h : hp) : result hp :=
  match k with
  | HtmlIndent | XhtmlIndent => indent_other (comment0 data) h
  | _ => on_p h (comment0 data)
  end.

(** ** Trees of calls *)

(** The calls a well-nested client makes for an element: start_element with its
    namespace, name, declarations and attributes, the calls for its content,
    end_element. *)
Inductive call :=
| CElem (ns : option str) (name : str) (nsdecls : list (option str * str)) (attributes : list (str * str)) (content : list call)
| CText (data : str)
| CComment (data : str)
| CPI (target data : str).

Section Print.
  Variables (low : str -> str) (k : kind).
  Fixpoint h_print (c : call) (h : hp) : result hp :=
    match c with
    | CElem ns name nsdecls attributes content =>
      do h1 <- h_start low k ns name nsdecls attributes h ;
      do h2 <- (fix all (l : list call) (g : hp) : result hp :=
                  match l with
                  | [] => Ok g
                  | c' :: l' => do g1 <- h_print c' g ; all l' g1
                  end) content h1 ;
      h_end low k ns name h2
    | CText data => h_text k data h
    | CComment data => h_comment k data h
    | CPI target data => h_pi k target data h
    end.
  Fixpoint h_print_all (l : list call) (h : hp) : result hp :=
    match l with
    | [] => Ok h
    | c :: l' => do h1 <- h_print c h ; h_print_all l' h1
    end.
End Print.

(** The calls _Visitor makes for a node, node.py:86-179: see [SerModel.visit]
    for the computation of declarations and attributes. *)
Section Calls.
  Variable ordn : list (option str * str) -> list (option str * str).
  Variable orda : list (str * option str) -> list (str * option str).
  Fixpoint calls (chain : list nsdict) (cur : nsdict) (n : node) : call :=
    match n with
    | NElem ns qname decls attrs kids =>
      let namespaces := visit_namespaces (decls :: chain) cur ns qname attrs in
      CElem ns qname (ordn namespaces) (map (fun a => (fst a, oget (snd a))) (orda (visit_attributes attrs)))
        (map (calls (decls :: chain) (dupdate cur namespaces)) kids)
    | NText s => CText s
    | NComment s => CComment s
    | NPI t d => CPI t d
    end.
End Calls.

(** What a sequence of calls on a new printer writes, for a stream of the given
    encoder; [version]: the argument of start_document, [None] when it is not
    called. *)
Definition h_output (low : str -> str) (k : kind) (x : xmlstream) (version : option str) (encoding : str) (l : list call) : result (list N) :=
  do h0 <- match version with
           | Some v => h_start_document k encoding v (hp_new k x)
           | None => Ok (hp_new k x)
           end ;
  do h1 <- h_print_all low k l h0 ;
  do h2 <- match version with
           | Some _ => on_p h1 (end_document false)
           | None => Ok h1
           end ;
  Ok (x_out (p_x (h_p h2))).

(** node.xml_encode(writer, encoding), writers/__init__.py:119-152, for a
    non-document node whose ancestors declare [chain]. *)
Definition h_encode_node (low : str -> str) (k : kind) ordn orda (chain : list nsdict) (x : xmlstream) (n : node) : result (list N) :=
  h_output low k x None [] [calls ordn orda chain [(Some (lit "xml"), XML_NAMESPACE)] n].
(** For a document node without document type, node.py:68-83: start_document()
    with the default version, '4.0' or '1.0'. *)
Definition h_encode_document (low : str -> str) (k : kind) ordn orda (encoding : str) (x : xmlstream) (kids : list node) : result (list N) :=
  h_output low k x (Some (if is_html k then lit "4.0" else lit "1.0")) encoding
    (map (calls ordn orda [] [(Some (lit "xml"), XML_NAMESPACE)]) kids).
