(** * Model: the structure writer (lib/writers/struct.py)

    Structures of E, NS, ROOT, text, iterables and callables that
    structwriter.feed interprets as XML, written by the printers of SerModel. *)
From Coq Require Import NArith ZArith String List Bool.
From Verif Require Import PyStr PyErr XsModel SerModel.
Import ListNotations.
Open Scope N_scope.

(** What can be fed.  E: the constructor arguments after U() (struct.py:427-451);
    [None] as namespace is UNSPECIFIED_NAMESPACE (30), that is, E was given a
    name and not a pair.  The attribute dictionary is a list of key and value in
    the order of itervalues().  RAW (136-142) is not modelled: it parses its text
    and hands the nodes to another visitor.  Callables (190-191) are modelled by
    what they return; an object that is neither text nor iterable nor callable
    by whether it is true and its unicode() (192-194). *)
Inductive obj :=
| OE (ns : option str) (qname : str) (atts : list ((option str * str) * str)) (content : list obj)
| ONS (prefix ns : str)
| OText (s : str)
| ONode (s : str)
| OSeq (generator : bool) (items : list obj)
| OCall (returns : obj)
| OOther (true_ : bool) (s : str)
| ORoot (content : list obj).

(** E.__init__ on an attribute dictionary, struct.py:439-451: attributes whose
    value is None are left out. *)
Fixpoint new_attributes (given : list ((option str * str) * option str)) : list ((option str * str) * str) :=
  match given with
  | [] => []
  | (k, Some v) :: r => (k, v) :: new_attributes r
  | (_, None) :: r => new_attributes r
  end.
Definition new_E (ns : option str) (qname : str) (given : list ((option str * str) * option str)) (content : list obj) : obj :=
  OE ns qname (new_attributes given) content.

(** Python's truth value of an object (struct.py:170, "if lead"): E, NS, ROOT,
    nodes, functions and generators are true, sequences and text by length. *)
Definition true_obj (o : obj) : bool :=
  match o with
  | OText [] => false
  | OSeq false [] => false
  | OOther b _ => b
  | _ => true
  end.

(** The prefixes dictionary: an association list, the last assignment first. *)
Notation pdict := (list (str * str)).
Fixpoint pget (d : pdict) (k : str) : option str :=
  match d with
  | [] => None
  | (k', v) :: r => if str_eqb k' k then Some v else pget r k
  end.
(** prefixes.update(dict(new_prefixes)), struct.py:165-167. *)
Definition pupdate (d new : pdict) : pdict := rev new ++ d.

(** The NS items before the first other item, struct.py:144-152. *)
Fixpoint ns_items (content : list obj) : pdict :=
  match content with
  | ONS p u :: r => (p, u) :: ns_items r
  | _ => []
  end.
(** The first other item, struct.py:151. *)
Fixpoint lead_of (content : list obj) : option obj :=
  match content with
  | ONS _ _ :: r => lead_of r
  | x :: _ => Some x
  | [] => None
  end.

(** new_prefixes, struct.py:144-163. *)
Definition qprefix (qname : str) : str := match fst (XsModel.split_qname qname) with Some p => p | None => [] end.
Definition new_prefixes (prefixes : pdict) (ns : option str) (qname : str) (content : list obj) : pdict :=
  ns_items content ++
  match ns with
  | None => []
  | Some u =>
    match pget prefixes (qprefix qname) with
    | Some v => if str_eqb v u then [] else [(qprefix qname, u)]
    | None => [(qprefix qname, u)]
    end
  end.

Section Feed.
  Variable wide : bool.
  Variable st : style.
  Variable encoding : str.

  (** structwriter.feed, struct.py:115-201.  Items that are NS write nothing
      (133-134), so feeding the whole content, leading NS items included, is
      what 169-173 do when the first other item is true.  What feed stores in
      obj.ns is in [fed]. *)
  Fixpoint feed (prefixes : pdict) (o : obj) (p : printer) : result printer :=
    let feed_all := fix feed_all (pr : pdict) (l : list obj) (p : printer) : result printer :=
      match l with
      | [] => Ok p
      | x :: l' => do p1 <- feed pr x p ; feed_all pr l' p1
      end in
    match o with
    | ORoot content =>
      do p1 <- start_document (canon_of st) encoding (lit "1.0") p ;
      do p2 <- feed_all [] content p1 ;
      end_document (canon_of st) p2
    | ONS _ _ => Ok p
    | OE ns qname atts content =>
      let new := new_prefixes prefixes ns qname content in
      do p1 <- start_element wide st qname
                 (map (fun d => (Some (fst d), snd d)) new)
                 (map (fun a => (snd (fst a), Some (snd a))) atts) p ;
      do p2 <- match lead_of content with
               | Some x => if true_obj x then feed_all (pupdate prefixes new) content p1 else Ok p1
               | None => Ok p1
               end ;
      end_element st qname p2
    | OText s => text wide st s p
    | ONode s => text wide st s p
    | OSeq _ items => feed_all prefixes items p
    | OCall r => feed prefixes r p
    | OOther _ s => text wide st s p
    end.
  Fixpoint feed_all (prefixes : pdict) (l : list obj) (p : printer) : result printer :=
    match l with
    | [] => Ok p
    | x :: l' => do p1 <- feed prefixes x p ; feed_all prefixes l' p1
    end.
End Feed.

(** The structure after a call of feed: an element without a namespace has been
    given that of its prefix in the prefixes around it, struct.py:157-158.
    Generators and what callables return are consumed by the call and not kept;
    modelled as still there. *)
Fixpoint fed (prefixes : pdict) (o : obj) : obj :=
  match o with
  | OE ns qname atts content =>
    let pr := pupdate prefixes (new_prefixes prefixes ns qname content) in
    OE (match ns with
        | None => Some (match pget prefixes (qprefix qname) with Some u => u | None => [] end)
        | Some u => Some u
        end) qname atts
       (match lead_of content with
        | Some x => if true_obj x then map (fed pr) content else content
        | None => content
        end)
  | OSeq g items => OSeq g (map (fed prefixes) items)
  | OCall r => OCall (fed prefixes r)
  | ORoot content => ORoot (map (fed []) content)
  | _ => o
  end.

(** get_printer, struct.py:39-60, for XML: with canonical set the class named
    CanonicalXmlPrinter is looked up; _xmlprinters.py:347 calls it
    canonicalxmlprinter. *)
Definition get_printer (indent canonical : bool) : result style :=
  if indent then Ok Pretty else if canonical then Err AttributeError else Ok Plain.

(** structencoder(...).feed(obj) and read(), struct.py:112-114, 115-201, 411-424. *)
Definition struct_encode (wide indent canonical : bool) (encoding : str) (x : xmlstream) (o : obj) : result (list N) :=
  do st <- get_printer indent canonical ;
  rmap (fun p => x_out (p_x p)) (feed wide st encoding [] o (printer_new x)).
