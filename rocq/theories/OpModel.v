(** * Model of the way from the calls of a transformation to bytes:
      /repo/lib/xslt/proxywriter.py, /repo/lib/xslt/result.py,
      /repo/lib/writers/htmlwriter.py, textwriter.py, outputparameters.py,
      start_document of /repo/lib/writers/xmlwriter.py, and the part of
      /repo/lib/xslt/processor.py that sets them up.

    The XML writer and its namespace fix-up are [XwModel], the printers [SerModel]
    and [HtModel].  Simplifications: text is sent with escaping on; the encoding
    utf-16, whose stream starts with a byte order mark, is left out. *)
From Coq Require Import NArith ZArith String List Bool Lia Arith.
From Verif Require Import PyStr PyErr Utf8 SerModel XsModel XwModel HtModel.
Import ListNotations.
Open Scope N_scope.

(** LookupError of the codec registry. *)
Definition LookupError : exn := OtherError 171.

(** ** outputparameters.py *)

(** outputparameters, outputparameters.py:7-49.  A method is the value of a QName
    attribute: namespace and local name. *)
Record params := {
  o_method : option (option str * str);
  o_version : option str;
  o_encoding : option str;
  o_omit : option bool;
  o_standalone : option bool;
  o_public : option str;
  o_system : option str;
  o_cdata : list (option str * str);
  o_indent : option bool;
  o_media : option str;
  o_bom : option bool;
  o_canonical : option bool
}.
(** outputparameters(), 31-49. *)
Definition params0 : params :=
  {| o_method := None; o_version := None; o_encoding := None; o_omit := None; o_standalone := None; o_public := None;
     o_system := None; o_cdata := []; o_indent := None; o_media := None; o_bom := None; o_canonical := None |}.
Definition set_method (ps : params) (x : option (option str * str)) : params :=
  {| o_method := x; o_version := o_version ps; o_encoding := o_encoding ps; o_omit := o_omit ps; o_standalone := o_standalone ps;
     o_public := o_public ps; o_system := o_system ps; o_cdata := o_cdata ps; o_indent := o_indent ps; o_media := o_media ps;
     o_bom := o_bom ps; o_canonical := o_canonical ps |}.
(** The attributes start_document sets. *)
Definition set_all (ps : params) (version encoding : option str) (omit indent : option bool) (media : option str) (bom canonical : option bool) : params :=
  {| o_method := o_method ps; o_version := version; o_encoding := encoding; o_omit := omit; o_standalone := o_standalone ps;
     o_public := o_public ps; o_system := o_system ps; o_cdata := o_cdata ps; o_indent := indent; o_media := media;
     o_bom := bom; o_canonical := canonical |}.
(** setdefault, 71-76: the value, which is then the value of the attribute. *)
Definition dflt {A} (x : option A) (d : A) : A := match x with Some a => a | None => d end.

(** ** The calls of a transformation on its writer *)
Inductive ocall :=
| OStart (name : str) (namespace : option str) (namespaces : wdict) (attributes : list ((str * option str) * str))
| OAttr (name value : str) (namespace : option str)
| ONs (prefix namespace : option str)
| OEnd (name : str) (namespace : option str)
| OText (data : str)
| OComment (data : str)
| OPI (target data : str).
(** xmlwriter passes the namespace of an end tag to printers that ignore it. *)
Definition xw_call (c : ocall) : XwModel.call :=
  match c with
  | OStart n u d a => XwModel.StartElement n u d a
  | OAttr n v u => XwModel.Attribute n v u
  | ONs p u => XwModel.Namespace p u
  | OEnd n _ => XwModel.EndElement n
  | OText s => XwModel.Text s
  | OComment s => XwModel.Comment s
  | OPI t d => XwModel.PI t d
  end.

(** The state of htmlwriter: that of xmlwriter, whose printer is not used, with
    _element_namespace; the printer; whether _complete_element of the instance
    is still _complete_head_element; the content of the meta element. *)
Record hwriter := {
  hw_w : XwModel.writer;
  hw_ns : option str;
  hw_h : hp;
  hw_head : bool;
  hw_meta : str
}.
(** A writer after start_document. *)
Inductive wr :=
| WXml (cdata : bool) (st : style) (w : XwModel.writer)
| WHtml (k : kind) (w : hwriter)
| WPlain (cd : codec) (out : list N).
Inductive cls := ClsXml | ClsCdata | ClsHtml | ClsText.

Section Output.
  (** [low]: unicode.lower; [codecs]: the codec registry; [ordn], [orda]: the
      orders in which dictionaries are iterated. *)
  Variable low : str -> str.
  Variable codecs : str -> option codec.
  Variable ordn : wdict -> wdict.
  Variable orda : wattrs -> wattrs.

  Definition ascii_only (s : str) : bool := forallb (fun c => c <? 128) s.
  (** The dictionary of start_document, xmlwriter.py:96-98, htmlwriter.py:57-59. *)
  Definition namespaces0 : wdict :=
    [(None, None); (Some (lit "xml"), Some XML_NAMESPACE); (Some (lit "xmlns"), Some XMLNS_NAMESPACE)].
  Definition writer0 (p : printer) (need : bool) : XwModel.writer :=
    {| w_p := p; w_need_doctype := need; w_name := None; w_nss := [namespaces0]; w_atts := [] |}.

  (** xmlprinter.start_document, _xmlprinters.py:58-70. *)
  Definition xml_declaration (encoding version : str) (standalone : option bool) (p : printer) : result printer :=
    do p1 <- p_ascii p (lit "<?xml version=""" ++ version ++ lit """ encoding=""" ++ encoding ++ lit """") ;
    do p2 <- match standalone with
             | None => Ok p1
             | Some b => p_ascii p1 (lit " standalone=""" ++ (if b then lit "yes" else lit "no") ++ lit """")
             end ;
    p_ascii p2 (lit "?>" ++ [10]).

  (** xmlwriter.start_document from line 81 on, xmlwriter.py:81-100. *)
  Definition xml_open (cdata : bool) (st : style) (encoding version : str) (omit : bool) (standalone : option bool) : result wr :=
    match codecs encoding with
    | None => Err LookupError
    | Some cd =>
      do p <- (if omit then Ok (printer_new (xmlstream_new cd))
               else if ascii_only version then xml_declaration encoding version standalone (printer_new (xmlstream_new cd))
               else Err UnicodeEncodeError) ;
      Ok (WXml cdata st (writer0 p (negb (canon_of st))))
    end.
  (** xmlwriter.start_document, xmlwriter.py:60-100; cdatasectionwriter's, 285-290.
      WriterError() lacks an argument (69).  Also gives the output parameters
      after the call. *)
  Definition xml_start (cdata : bool) (ps : params) : params * result wr :=
    let version := dflt (o_version ps) (lit "1.0") in
    let media := dflt (o_media ps) (lit "text/xml") in
    let canonical := dflt (o_canonical ps) false in
    let set := fun encoding omit indent bom =>
      set_all ps (Some version) encoding omit indent (Some media) bom (Some canonical) in
    if canonical then
      if str_eqb version (lit "1.0") then
        (set (Some (lit "UTF-8")) (Some true) (Some false) (Some false),
         xml_open cdata Canon (lit "UTF-8") version true (o_standalone ps))
      else (set (o_encoding ps) (o_omit ps) (o_indent ps) (o_bom ps), Err TypeError)
    else
      let encoding := dflt (o_encoding ps) (lit "UTF-8") in
      if ascii_only encoding then
        let indent := dflt (o_indent ps) false in
        let omit := dflt (o_omit ps) false in
        (set (Some encoding) (Some omit) (Some indent) (o_bom ps),
         xml_open cdata (if indent then Pretty else Plain) encoding version omit (o_standalone ps))
      else (set (Some encoding) (o_omit ps) (o_indent ps) (o_bom ps), Err UnicodeEncodeError).

  (** htmlwriter.start_document, htmlwriter.py:42-61. *)
  Definition html_start_document (ps : params) : params * result wr :=
    let media := dflt (o_media ps) (lit "text/html") in
    let version := dflt (o_version ps) (lit "4.0") in
    let set := fun encoding indent =>
      set_all ps (Some version) encoding (o_omit ps) indent (Some media) (o_bom ps) (o_canonical ps) in
    if ascii_only version then
      let encoding := dflt (o_encoding ps) (lit "iso-8859-1") in
      if ascii_only encoding then
        let indent := dflt (o_indent ps) true in
        (set (Some encoding) (Some indent),
         match codecs encoding with
         | None => Err LookupError
         | Some cd =>
           let k := if indent then HtmlIndent else Html in
           do h <- h_start_document k encoding version (hp_new k (xmlstream_new cd)) ;
           Ok (WHtml k {| hw_w := writer0 (printer_new (xmlstream_new cd)) true; hw_ns := None; hw_h := h; hw_head := true;
                          hw_meta := media ++ lit "; charset=" ++ encoding |})
         end)
      else (set (Some encoding) (o_indent ps), Err UnicodeEncodeError)
    else (set (o_encoding ps) (o_indent ps), Err UnicodeEncodeError).

  (** textwriter.start_document, textwriter.py:16-22. *)
  Definition text_start_document (ps : params) : params * result wr :=
    let media := dflt (o_media ps) (lit "text/plain") in
    let encoding := dflt (o_encoding ps) (lit "UTF-8") in
    (set_all ps (o_version ps) (Some encoding) (o_omit ps) (o_indent ps) (Some media) (o_bom ps) (o_canonical ps),
     match codecs encoding with
     | None => Err LookupError
     | Some cd => Ok (WPlain cd [])
     end).

  Definition op_start (c : cls) (ps : params) : params * result wr :=
    match c with
    | ClsXml => xml_start false ps
    | ClsCdata => xml_start true ps
    | ClsHtml => html_start_document ps
    | ClsText => text_start_document ps
    end.

  (** ** htmlwriter *)
  Definition hw_set (w : hwriter) (xw : XwModel.writer) (ns : option str) (h : hp) (head : bool) : hwriter :=
    {| hw_w := xw; hw_ns := ns; hw_h := h; hw_head := head; hw_meta := hw_meta w |}.
  (** xmlwriter._complete_element, xmlwriter.py:34-58, on an HTML printer. *)
  Definition base_complete (k : kind) (w : hwriter) : result hwriter :=
    let xw := hw_w w in
    if truthy (w_name xw) then
      match w_nss xw with
      | d :: up :: _ =>
        do h <- h_start low k (hw_ns w) (oget (w_name xw)) (new_namespaces ordn d up) (map snd (orda (w_atts xw))) (hw_h w) ;
        Ok (hw_set w {| w_p := w_p xw; w_need_doctype := w_need_doctype xw; w_name := None; w_nss := w_nss xw; w_atts := [] |}
                   None h (hw_head w))
      | _ => Err IndexError
      end
    else Ok w.
  (** The attributes of the meta element, htmlwriter.py:30-34. *)
  Definition meta_attributes (content : str) : list (str * str) :=
    [(lit "http-equiv", lit "Content-Type"); (lit "content", content)].
  (** _complete_head_element, htmlwriter.py:19-40. *)
  Definition html_complete (k : kind) (w : hwriter) : result hwriter :=
    if hw_head w then
      let head_tag := truthy (w_name (hw_w w)) && (match hw_ns w with None => true | Some _ => false end) &&
                      str_eqb (low (oget (w_name (hw_w w)))) (lit "head") in
      do w1 <- base_complete k w ;
      if head_tag then
        do h1 <- h_start low k None (lit "meta") [] (meta_attributes (hw_meta w1)) (hw_h w1) ;
        do h2 <- h_end low k None (lit "meta") h1 ;
        Ok (hw_set w1 (hw_w w1) (hw_ns w1) h2 false)
      else Ok w1
    else base_complete k w.

  (** The methods of xmlwriter on an HTML printer, xmlwriter.py:102-272. *)
  Definition html_call (public system : option str) (k : kind) (c : ocall) (w : hwriter) : result hwriter :=
    match c with
    | OStart name namespace namespaces attributes =>
      do w1 <- html_complete k w ;
      do h <- (if w_need_doctype (hw_w w1) then h_doctype k name public system (hw_h w1) else Ok (hw_h w1)) ;
      match w_nss (hw_w w1) with
      | [] => Err IndexError
      | d :: rest =>
        do xw <- w_attributes ordn attributes
                   {| w_p := w_p (hw_w w1); w_need_doctype := false; w_name := Some name;
                      w_nss := wset (wupdate d namespaces) (fst (XsModel.split_qname name)) namespace :: d :: rest;
                      w_atts := w_atts (hw_w w1) |} ;
        Ok (hw_set w1 xw namespace h (hw_head w1))
      end
    | OAttr name value namespace =>
      do xw <- w_attribute ordn name value namespace (hw_w w) ;
      Ok (hw_set w xw (hw_ns w) (hw_h w) (hw_head w))
    | ONs prefix namespace =>
      do xw <- w_namespace prefix namespace (hw_w w) ;
      Ok (hw_set w xw (hw_ns w) (hw_h w) (hw_head w))
    | OEnd name namespace =>
      do w1 <- html_complete k w ;
      do h <- h_end low k namespace name (hw_h w1) ;
      match w_nss (hw_w w1) with
      | [] => Err IndexError
      | _ :: rest =>
        Ok (hw_set w1 {| w_p := w_p (hw_w w1); w_need_doctype := w_need_doctype (hw_w w1); w_name := w_name (hw_w w1);
                         w_nss := rest; w_atts := w_atts (hw_w w1) |} (hw_ns w1) h (hw_head w1))
      end
    | OText data =>
      do w1 <- html_complete k w ;
      do h <- h_text k data (hw_h w1) ;
      Ok (hw_set w1 (hw_w w1) (hw_ns w1) h (hw_head w1))
    | OComment data =>
      do w1 <- html_complete k w ;
      do h <- h_comment k data (hw_h w1) ;
      Ok (hw_set w1 (hw_w w1) (hw_ns w1) h (hw_head w1))
    | OPI target data =>
      do w1 <- html_complete k w ;
      do h <- h_pi k target (xml_strip true true data) (hw_h w1) ;
      Ok (hw_set w1 (hw_w w1) (hw_ns w1) h (hw_head w1))
    end.

  (** ** Any writer *)
  (** cdatasectionwriter fails on every element (SplitQName, xmlwriter.py:303) and
      is xmlwriter before the first one.  textwriter has only text
      (textwriter.py:24-27); the other methods are those of writer, which do
      nothing. *)
  Definition op_call (ps : params) (c : ocall) (w : wr) : result wr :=
    match w with
    | WXml cdata st xw =>
      do xw1 <- XwModel.do_call true st (o_public ps) (o_system ps) ordn orda (xw_call c) xw ;
      match c with
      | OStart _ _ _ _ => if cdata then Err NameError else Ok (WXml cdata st xw1)
      | _ => Ok (WXml cdata st xw1)
      end
    | WHtml k hw => do hw1 <- html_call (o_public ps) (o_system ps) k c hw ; Ok (WHtml k hw1)
    | WPlain cd out =>
      match c with
      | OText data =>
        match encode cd data with
        | None => Err UnicodeEncodeError
        | Some b => Ok (WPlain cd (out ++ b))
        end
      | _ => Ok w
      end
    end.
  Fixpoint op_calls (ps : params) (l : list ocall) (w : wr) : result wr :=
    match l with
    | [] => Ok w
    | c :: l' => do w1 <- op_call ps c w ; op_calls ps l' w1
    end.
  (** end_document, xmlwriter.py:102-105, and what the stream holds then. *)
  Definition op_end (w : wr) : result (list N) :=
    match w with
    | WXml cdata st xw => rmap (fun xw1 => x_out (p_x (w_p xw1))) (writer_end true st ordn orda xw)
    | WHtml k hw =>
      do hw1 <- html_complete k hw ;
      do h <- on_p (hw_h hw1) (end_document false) ;
      Ok (x_out (p_x (h_p h)))
    | WPlain cd out => Ok out
    end.

  (** ** proxywriter.py *)
  (** _lookup, proxywriter.py:80-93.  XsltError takes one positional argument. *)
  Definition lookup (ps : params) : result cls :=
    match o_method ps with
    | Some (None, m) =>
      if str_eqb m (lit "text") then Ok ClsText
      else if str_eqb m (lit "html") then Ok ClsHtml
      else if str_eqb m (lit "xml") then Ok (match o_cdata ps with [] => ClsXml | _ => ClsCdata end)
      else Err TypeError
    | _ => Err TypeError
    end.
  (** A proxywriter, or the writer it has become. *)
  Inductive pw := PBuf (stack : list ocall) | PReal (w : wr).
  (** _finalize, proxywriter.py:106-121; start_document, the first callback, is
      not on [stack]. *)
  Definition finalize (ps : params) (m : str) (stack : list ocall) : params * result pw :=
    let ps1 := set_method ps (Some (dflt (o_method ps) (None, m))) in
    match lookup ps1 with
    | Err e => (ps1, Err e)
    | Ok c => let (ps2, r) := op_start c ps1 in (ps2, do w <- r ; do w1 <- op_calls ps2 stack w ; Ok (PReal w1))
    end.
  (** The methods of proxywriter, 135-175. *)
  Definition proxy_call (ps : params) (c : ocall) (p : pw) : params * result pw :=
    match p with
    | PReal w => (ps, do w1 <- op_call ps c w ; Ok (PReal w1))
    | PBuf stack =>
      let stack' := stack ++ [c] in
      match c with
      | OStart name None _ _ => finalize ps (if str_eqb (low name) (lit "html") then lit "html" else lit "xml") stack'
      | OStart name (Some _) _ _ => finalize ps (lit "xml") stack'
      | OText data => if isspace data then (ps, Ok (PBuf stack')) else finalize ps (lit "xml") stack'
      | _ => (ps, Ok (PBuf stack'))
      end
    end.
  Fixpoint proxy_calls (ps : params) (l : list ocall) (p : pw) : params * result pw :=
    match l with
    | [] => (ps, Ok p)
    | c :: l' =>
      match proxy_call ps c p with
      | (ps1, Ok p1) => proxy_calls ps1 l' p1
      | (ps1, Err e) => (ps1, Err e)
      end
    end.
  (** end_document, 128-133. *)
  Definition proxy_end (ps : params) (p : pw) : params * result (list N) :=
    match p with
    | PReal w => (ps, op_end w)
    | PBuf stack =>
      match finalize ps (lit "xml") stack with
      | (ps1, Ok (PReal w)) => (ps1, op_end w)
      | (ps1, Ok (PBuf _)) => (ps1, Ok [])
      | (ps1, Err e) => (ps1, Err e)
      end
    end.

  (** ** processor._run, processor.py:497-579, and result.set_parameters,
      result.py:23-30: a new result is given the output parameters of the
      stylesheet, not a copy.  push_writer calls start_document
      (/repo/lib/xpath/__init__.py:147-155), pop_writer end_document (165-168). *)
  Definition open_writer (ps : params) : params * result pw :=
    match o_method ps with
    | None => (ps, Ok (PBuf []))
    | Some _ =>
      match lookup ps with
      | Err e => (ps, Err e)
      | Ok c => let (ps1, r) := op_start c ps in (ps1, do w <- r ; Ok (PReal w))
      end
    end.
  (** The output parameters of the stylesheet after a run that makes the calls
      [l], and the bytes of its result. *)
  Definition transform (ps : params) (l : list ocall) : params * result (list N) :=
    match open_writer ps with
    | (ps1, Err e) => (ps1, Err e)
    | (ps1, Ok p) =>
      match proxy_calls ps1 l p with
      | (ps2, Err e) => (ps2, Err e)
      | (ps2, Ok p2) => proxy_end ps2 p2
      end
    end.
  (** The same after a run that is left by an exception of the stylesheet when it
      has made the calls [l]. *)
  Definition abandoned (ps : params) (l : list ocall) : params :=
    match open_writer ps with
    | (ps1, Err e) => ps1
    | (ps1, Ok p) => fst (proxy_calls ps1 l p)
    end.
End Output.
