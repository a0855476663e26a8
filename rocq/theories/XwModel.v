(** * Model of the XML writer: start tags held back, namespace fix-up

    /repo/lib/writers/xmlwriter.py (class xmlwriter, 19-272), on top of the
    printers of SerModel (/repo/lib/writers/_xmlprinters.py). *)
From Coq Require Import NArith ZArith String List Bool Lia Arith.
From Verif Require Import PyStr PyErr SerModel XsModel.
Import ListNotations.
Open Scope N_scope.

(** WriterError(ATTRIBUTE_ADDED_TOO_LATE) and (ATTRIBUTE_ADDED_TO_NON_ELEMENT),
    writers/__init__.py:55-58. *)
Definition TooLate : exn := OtherError 91.
Definition NonElement : exn := OtherError 92.
Definition NeverEnds : exn := OtherError 3.

(** ** The dictionaries prefix -> namespace; both may be None *)
Definition wdict := list (option str * option str).
Fixpoint wget (d : wdict) (k : option str) : option (option str) :=
  match d with
  | [] => None
  | (k', v) :: d' => if okey_eqb k' k then Some v else wget d' k
  end.
Fixpoint wset (d : wdict) (k v : option str) : wdict :=
  match d with
  | [] => [(k, v)]
  | (k', v') :: d' => if okey_eqb k' k then (k', v) :: d' else (k', v') :: wset d' k v
  end.
(** dict.update *)
Definition wupdate (d e : wdict) : wdict := fold_left (fun acc kv => wset acc (fst kv) (snd kv)) e d.

(** self._attributes: (namespace, local) -> (name, value) *)
Definition wkey := (option str * str)%type.
Definition wkey_eqb (a b : wkey) : bool := okey_eqb (fst a) (fst b) && str_eqb (snd a) (snd b).
Definition wattrs := list (wkey * (str * str)).
Fixpoint wput (d : wattrs) (k : wkey) (v : str * str) : wattrs :=
  match d with
  | [] => [(k, v)]
  | (k', v') :: d' => if wkey_eqb k' k then (k', v) :: d' else (k', v') :: wput d' k v
  end.

(** ** The state, xmlwriter.py:26-32.  [w_name] is _element_name, [w_nss] is
    _namespaces with the last dictionary first.  _element_namespace is left out:
    it is only handed to printers that ignore it. *)
Record writer := {
  w_p : printer;
  w_need_doctype : bool;
  w_name : option str;
  w_nss : list wdict;
  w_atts : wattrs
}.
Definition with_p (w : writer) (p : printer) : writer :=
  {| w_p := p; w_need_doctype := w_need_doctype w; w_name := w_name w; w_nss := w_nss w; w_atts := w_atts w |}.

Section Writer.
  (** [st]: the printer class chosen in start_document (81-88); [public] and
      [system]: output_parameters.doctype_public and doctype_system; [ordn],
      [orda]: the orders in which the dictionaries are iterated.  Simplification:
      in canonical form the items are sorted first (39-41); the printer sorts
      them again, so any order gives the same output. *)
  Variables (wide : bool) (st : style) (public system : option str).
  Variable ordn : wdict -> wdict.
  Variable orda : wattrs -> wattrs.

  (** The declarations to write, 45-51. *)
  Definition new_namespaces (d up : wdict) : list (option str * str) :=
    map (fun kv => (fst kv, oget (snd kv)))
      (filter (fun kv => match wget up (fst kv) with
                         | None => true
                         | Some v => negb (okey_eqb v (snd kv))
                         end) (ordn d)).

  (** _complete_element, 34-58. *)
  Definition complete_element (w : writer) : result writer :=
    if truthy (w_name w) then
      match w_nss w with
      | d :: up :: _ =>
        do p <- start_element wide st (oget (w_name w)) (new_namespaces d up)
                  (map (fun a => (fst (snd a), Some (snd (snd a)))) (orda (w_atts w))) (w_p w) ;
        Ok {| w_p := p; w_need_doctype := w_need_doctype w; w_name := None; w_nss := w_nss w; w_atts := [] |}
      | _ => Err IndexError
      end
    else Ok w.

  (** start_document, 60-100.  Simplification: the version is 1.0, no standalone
      declaration, and the encoding is that of the stream [x]. *)
  Definition writer_start (encoding : str) (omit_declaration : bool) (x : xmlstream) : result writer :=
    do p <- (if canon_of st || omit_declaration then Ok (printer_new x)
             else start_document (canon_of st) encoding (lit "1.0") (printer_new x)) ;
    Ok {| w_p := p; w_need_doctype := negb (canon_of st); w_name := None;
          w_nss := [[(None, None); (Some (lit "xml"), Some XML_NAMESPACE); (Some (lit "xmlns"), Some XMLNS_NAMESPACE)]];
          w_atts := [] |}.

  (** end_document, 102-105. *)
  Definition writer_end (w : writer) : result writer :=
    do w1 <- complete_element w ;
    rmap (with_p w1) (end_document (canon_of st) (w_p w1)).

  (** [data.replace('\r\n', '\r')] *)
  Fixpoint replace_crlf (s : str) : str :=
    match s with
    | [] => []
    | c :: s' =>
      match s' with
      | d :: s'' => if (c =? 13) && (d =? 10) then 13 :: replace_crlf s'' else c :: replace_crlf s'
      | [] => [c]
      end
    end.

  (** text, 107-112, with escaping on. *)
  Definition w_text (data : str) (w : writer) : result writer :=
    do w1 <- complete_element w ;
    rmap (with_p w1) (text wide st (if canon_of st then replace_crlf data else data) (w_p w1)).

  (** GENERATED_PREFIX % suffix, 16, 24 *)
  Definition generated (n : nat) : str := lit "org.4suite.4xslt.ns" ++ dec_str (N.of_nat n).
  (** [for suffix in itertools.count()], 177-180 and 201-204 *)
  Fixpoint generate (fuel : nat) (n : nat) (d : wdict) : result str :=
    match fuel with
    | O => Err NeverEnds
    | S fuel' =>
      match wget d (Some (generated n)) with
      | None => Ok (generated n)
      | Some _ => generate fuel' (S n) d
      end
    end.
  (** [for prefix, inscope_namespace in namespaces.iteritems(): if prefix and
      inscope_namespace == namespace: break], 171-173, 184-187, 195-197 *)
  Definition reuse (d : wdict) (u : str) : option str :=
    match find (fun kv => truthy (fst kv) && okey_eqb (snd kv) (Some u)) (ordn d) with
    | Some kv => fst kv
    | None => None
    end.
  Definition make_prefix (d : wdict) (u : str) : result (str * wdict) :=
    do p <- generate (S (List.length d)) 0 d ;
    Ok (p, wset d (Some p) (Some u)).
  (** The prefix for an attribute in namespace [u], 168-205, and the bindings after it. *)
  Definition choose_prefix (d : wdict) (prefix : option str) (u : str) : result (str * wdict) :=
    if negb (truthy prefix) || okey_eqb prefix (Some (lit "xmlns")) then
      match reuse d u with
      | Some p => Ok (p, d)
      | None => make_prefix d u
      end
    else
      match wget d prefix with
      | None =>
        match reuse d u with
        | Some p => Ok (p, d)
        | None => Ok (oget prefix, wset d prefix (Some u))
        end
      | Some v =>
        if okey_eqb v (Some u) then Ok (oget prefix, d)
        else
          match reuse d u with
          | Some p => Ok (p, d)
          | None => make_prefix d u
          end
      end.

  (** attribute(name, value, namespace), 114-211 *)
  Definition w_attribute (name value : str) (namespace : option str) (w : writer) : result writer :=
    if negb (truthy (w_name w)) then Err (if w_need_doctype w then NonElement else TooLate)
    else
      let (prefix, local) := XsModel.split_qname name in
      match namespace with
      | None =>
        Ok {| w_p := w_p w; w_need_doctype := w_need_doctype w; w_name := w_name w; w_nss := w_nss w;
              w_atts := wput (w_atts w) (None, local) (local, value) |}
      | Some u =>
        match w_nss w with
        | [] => Err IndexError
        | d :: rest =>
          do r <- choose_prefix d prefix u ;
          match fst r with
          | [] => Err AssertionError
          | _ =>
            Ok {| w_p := w_p w; w_need_doctype := w_need_doctype w; w_name := w_name w; w_nss := snd r :: rest;
                  w_atts := wput (w_atts w) (Some u, local) (fst r ++ 58 :: local, value) |}
          end
        end
      end.

  (** namespace(prefix, namespace), 213-225: there is no method changePrefix. *)
  Definition w_namespace (prefix namespace : option str) (w : writer) : result writer :=
    match w_nss w with
    | [] => Err IndexError
    | d :: rest =>
      match wget d prefix with
      | None =>
        if (match prefix with None => false | Some _ => true end) && existsb (fun kv => okey_eqb (snd kv) namespace) d
        then Err AttributeError
        else Ok {| w_p := w_p w; w_need_doctype := w_need_doctype w; w_name := w_name w;
                   w_nss := wset d prefix namespace :: rest; w_atts := w_atts w |}
      | Some v => if okey_eqb v namespace then Ok w else Err AttributeError
      end
    end.

  (** processing_instruction and comment, 227-238 *)
  Definition w_pi (target data : str) (w : writer) : result writer :=
    do w1 <- complete_element w ;
    rmap (with_p w1) (processing_instruction st target (xml_strip true true data) (w_p w1)).
  Definition w_comment (data : str) (w : writer) : result writer :=
    do w1 <- complete_element w ;
    rmap (with_p w1) (comment st data (w_p w1)).

  (** One attribute() after the other, 264-265. *)
  Fixpoint w_attributes (l : list ((str * option str) * str)) (w : writer) : result writer :=
    match l with
    | [] => Ok w
    | ((name, namespace), value) :: l' => do w1 <- w_attribute name value namespace w ; w_attributes l' w1
    end.
  (** start_element, 240-266; [attributes] in the order of iteration. *)
  Definition w_start_element (name : str) (namespace : option str) (namespaces : wdict)
      (attributes : list ((str * option str) * str)) (w : writer) : result writer :=
    do w1 <- complete_element w ;
    do p <- (if w_need_doctype w1 then doctype (canon_of st) name public system (w_p w1) else Ok (w_p w1)) ;
    match w_nss w1 with
    | [] => Err IndexError
    | d :: rest =>
      w_attributes attributes
        {| w_p := p; w_need_doctype := false; w_name := Some name;
           w_nss := wset (wupdate d namespaces) (fst (XsModel.split_qname name)) namespace :: d :: rest;
           w_atts := w_atts w1 |}
    end.
  (** end_element, 268-272 *)
  Definition w_end_element (name : str) (w : writer) : result writer :=
    do w1 <- complete_element w ;
    do p <- end_element st name (w_p w1) ;
    match w_nss w1 with
    | [] => Err IndexError
    | _ :: rest =>
      Ok {| w_p := p; w_need_doctype := w_need_doctype w1; w_name := w_name w1; w_nss := rest; w_atts := w_atts w1 |}
    end.

  (** cdatasectionwriter.start_element, 300-306: SplitQName is not defined in the
      module.  This is the writer used when cdata-section-elements is given. *)
  Definition cdata_start_element (name : str) (namespace : option str) (namespaces : wdict)
      (attributes : list ((str * option str) * str)) (w : writer) : result writer :=
    do w1 <- w_start_element name namespace namespaces attributes w ;
    Err NameError.

  (** ** A history of calls *)
  Inductive call :=
  | StartElement (name : str) (namespace : option str) (namespaces : wdict) (attributes : list ((str * option str) * str))
  | Attribute (name value : str) (namespace : option str)
  | Namespace (prefix namespace : option str)
  | EndElement (name : str)
  | Text (data : str)
  | Comment (data : str)
  | PI (target data : str).
  Definition do_call (c : call) (w : writer) : result writer :=
    match c with
    | StartElement n u d a => w_start_element n u d a w
    | Attribute n v u => w_attribute n v u w
    | Namespace p u => w_namespace p u w
    | EndElement n => w_end_element n w
    | Text s => w_text s w
    | Comment s => w_comment s w
    | PI t d => w_pi t d w
    end.
  Fixpoint run (l : list call) (w : writer) : result writer :=
    match l with
    | [] => Ok w
    | c :: l' => do w1 <- do_call c w ; run l' w1
    end.
  (** start_document, the calls, end_document; what the stream holds then. *)
  Definition write (encoding : str) (omit_declaration : bool) (x : xmlstream) (l : list call) : result (list N) :=
    do w0 <- writer_start encoding omit_declaration x ;
    do w1 <- run l w0 ;
    rmap (fun w => x_out (p_x (w_p w))) (writer_end w1).
End Writer.
