(** * What the output of a transformation should be

    Written from XSLT 1.0, section 16, without reference to the writers. *)
From Coq Require Import NArith ZArith String List Bool Lia Arith Permutation.
From Verif Require Import PyStr PyErr SerModel SerSpec XwModel XwSpec HtModel HtSpec OpModel.
Import ListNotations.
Open Scope N_scope.

Definition white (c : N) : bool := (c =? 32) || (c =? 9) || (c =? 10) || (c =? 13).

(** XSLT 1.0, 16: without xsl:output method, the method is html if the first
    element is html, in any letter case, in no namespace, and only white space
    comes before it; otherwise it is xml.  Comments and processing instructions
    do not count. *)
Fixpoint default_method (l : list ocall) : str :=
  match l with
  | [] => lit "xml"
  | OStart name ns _ _ :: _ =>
    match ns with
    | None => if str_eqb (lower name) (lit "html") then lit "html" else lit "xml"
    | Some _ => lit "xml"
    end
  | OText s :: l' => if forallb white s then default_method l' else lit "xml"
  | _ :: l' => default_method l'
  end.
(** A call that settles it. *)
Definition settles (c : ocall) : bool :=
  match c with
  | OStart _ _ _ _ => true
  | OText s => negb (forallb white s)
  | _ => false
  end.

(** unicode.lower agrees with [lower] on ASCII, and as to what is called html or
    head. *)
Definition lowers_names (low : str -> str) : Prop :=
  lowers low /\ (forall s, low s = lit "html" <-> lower s = lit "html") /\ (forall s, low s = lit "head" <-> lower s = lit "head").

(** ** The calls for a page without namespaces *)

(** The attributes of an element may be given with start_element or one by one. *)
Inductive makes : HtModel.call -> list ocall -> Prop :=
| mk_text : forall s, makes (CText s) [OText s]
| mk_comment : forall s, makes (CComment s) [OComment s]
| mk_pi : forall t d, makes (CPI t d) [OPI t d]
| mk_elem : forall q a1 a2 k ks, Forall2 makes k ks ->
    makes (CElem None q [] (a1 ++ a2) k)
      (OStart q None [] (map (fun a => ((fst a, None), snd a)) a1) :: map (fun a => OAttr (fst a) (snd a) None) a2 ++
       concat ks ++ [OEnd q None]).

(** Names without colon, distinct attribute names, processing instructions
    without white space around the data. *)
Inductive simple : HtModel.call -> Prop :=
| si_text : forall s, simple (CText s)
| si_comment : forall s, simple (CComment s)
| si_pi : forall t d, trim d = d -> simple (CPI t d)
| si_elem : forall q a k, q <> [] -> ~ In 58 q -> Forall (fun x => ~ In 58 (fst x)) a -> NoDup (map fst a) -> Forall simple k ->
    simple (CElem None q [] a k).

(** The page with a meta element at the start of the first head element. *)
Definition meta (media encoding : str) : HtModel.call :=
  CElem None (lit "meta") [] [(lit "http-equiv", lit "Content-Type"); (lit "content", media ++ lit "; charset=" ++ encoding)] [].
Definition is_head (q : str) : bool := str_eqb (lower q) (lit "head").
Section Meta.
  Variable m : HtModel.call.
  (** [todo]: no head element has been seen so far. *)
  Fixpoint with_meta (todo : bool) (c : HtModel.call) : bool * HtModel.call :=
    match c with
    | CElem ns q d a k =>
      let here := todo && is_head q in
      let r := (fix all (todo : bool) (l : list HtModel.call) : bool * list HtModel.call :=
                  match l with
                  | [] => (todo, [])
                  | c' :: l' =>
                    let r1 := with_meta todo c' in
                    let r2 := all (fst r1) l' in
                    (fst r2, snd r1 :: snd r2)
                  end) (todo && negb here) k in
      (fst r, CElem ns q d a (if here then m :: snd r else snd r))
    | _ => (todo, c)
    end.
  Fixpoint all_with_meta (todo : bool) (l : list HtModel.call) : bool * list HtModel.call :=
    match l with
    | [] => (todo, [])
    | c :: l' =>
      let r1 := with_meta todo c in
      let r2 := all_with_meta (fst r1) l' in
      (fst r2, snd r1 :: snd r2)
    end.
End Meta.

(** The same page but for the order of attributes. *)
Inductive reordered : HtModel.call -> HtModel.call -> Prop :=
| ro_text : forall s, reordered (CText s) (CText s)
| ro_comment : forall s, reordered (CComment s) (CComment s)
| ro_pi : forall t d, reordered (CPI t d) (CPI t d)
| ro_elem : forall ns q d a a' k k', Permutation a a' -> Forall2 reordered k k' ->
    reordered (CElem ns q d a k) (CElem ns q d a' k').

(** ** Text output: the text, in order *)
Definition text_of (l : list ocall) : str := flat_map (fun c => match c with OText s => s | _ => [] end) l.

(** ** Earlier runs of a stylesheet: with their end, or abandoned *)
Inductive earlier := Completed (l : list ocall) | Abandoned (l : list ocall).
(** The run got as far as choosing an output method, this one. *)
Definition chose (e : earlier) : option str :=
  match e with
  | Completed l => Some (default_method l)
  | Abandoned l => if existsb settles l then Some (default_method l) else None
  end.

(** ** XML output: what xsl:output must say for it to be read back *)
(** The method is declared, or left to the default. *)
Definition method_is (m : str) (ps : params) (l : list ocall) : Prop :=
  match o_method ps with
  | Some d => d = (None, m)
  | None => default_method l = m
  end.
(** Version 1.0, no indenting, no standalone declaration, no CDATA sections, no
    document type. *)
Definition plain_xml (ps : params) : Prop :=
  (forall v, o_version ps = Some v -> v = lit "1.0") /\ (forall b, o_canonical ps = Some b -> b = false) /\
  (forall b, o_indent ps = Some b -> b = false) /\ o_standalone ps = None /\ o_cdata ps = [] /\
  (forall s, o_system ps = Some s -> s = []).
(** The encoding asked for, or the default one. *)
Definition encoding_of (d : str) (ps : params) : str := match o_encoding ps with Some e => e | None => d end.

(** ** HTML output *)
Definition version_of (d : str) (ps : params) : str := match o_version ps with Some v => v | None => d end.
Definition media_of (d : str) (ps : params) : str := match o_media ps with Some x => x | None => d end.
(** HTML is indented unless xsl:output says no. *)
Definition indent_html (ps : params) : bool := match o_indent ps with Some b => b | None => true end.
(** No document type is asked for. *)
Definition no_doctype (ps : params) : Prop :=
  (forall s, o_public ps = Some s -> s = []) /\ (forall s, o_system ps = Some s -> s = []).

(** ** XML output: a call of the result asks for the same as the call of the XML
    writer of C64. *)
Inductive asks : ocall -> XwModel.call -> Prop :=
| as_start : forall n u d a, asks (OStart n u d a) (XwModel.StartElement n u d a)
| as_attr : forall n v u, asks (OAttr n v u) (XwModel.Attribute n v u)
| as_ns : forall p u, asks (ONs p u) (XwModel.Namespace p u)
| as_end : forall n u, asks (OEnd n u) (XwModel.EndElement n)
| as_text : forall s, asks (OText s) (XwModel.Text s)
| as_comment : forall s, asks (OComment s) (XwModel.Comment s)
| as_pi : forall t d, asks (OPI t d) (XwModel.PI t d).
