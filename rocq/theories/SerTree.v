(** * Specification: what a DOM tree means, and which trees are in scope

    Written from the XML and Namespaces recommendations over the trees of
    [SerModel.node]; none of the printers' or the visitor's functions is used. *)
From Coq Require Import NArith String List Bool Lia Arith Permutation.
From Verif Require Import PyStr SerModel SerSpec.
Import ListNotations.
Open Scope N_scope.

(** ** The tree of qualified names *)
Fixpoint as_read (n : node) : rnode :=
  match n with
  | NElem _ q _ attrs kids => RElem q (map (fun a => (a_qname a, a_value a)) attrs) (map as_read kids)
  | NText s => RText s
  | NComment s => RComment s
  | NPI t d => RPI t d
  end.

(** A tree without its namespace declarations. *)
Fixpoint undeclare (n : rnode) : rnode :=
  match n with
  | RElem q a k => RElem q (filter (fun x => match decl_of (fst x) with None => true | Some _ => false end) a) (map undeclare k)
  | _ => n
  end.

(** Equal trees: attributes of an element are unordered. *)
Inductive same_read : rnode -> rnode -> Prop :=
| sr_text : forall s, same_read (RText s) (RText s)
| sr_comment : forall s, same_read (RComment s) (RComment s)
| sr_pi : forall t d, same_read (RPI t d) (RPI t d)
| sr_elem : forall q a a' k k', Permutation a a' -> Forall2 same_read k k' -> same_read (RElem q a k) (RElem q a' k').

(** ** The tree of expanded names *)
Definition xadd_text (t : str) (l : list xnode) : list xnode :=
  match t, l with
  | [], _ => l
  | _, XText u :: l' => XText (t ++ u) :: l'
  | _, _ => XText t :: l
  end.
Definition local (q : str) : str := match break1 58 q with Some (_, l) => l | None => q end.
(** [n] followed by [rest], adjacent text merged. *)
Fixpoint expanded (n : node) (rest : list xnode) : list xnode :=
  match n with
  | NElem ns q _ attrs kids =>
    XElem ns (local q) (map (fun a => ((a_ns a, local (a_qname a)), a_value a)) attrs)
      (fold_right expanded [] kids) :: rest
  | NText s => xadd_text s rest
  | NComment s => XComment s :: rest
  | NPI t d => XPI t d :: rest
  end.

Fixpoint resolve_all (sc : scope) (l : list rnode) : option (list xnode) :=
  match l with
  | [] => Some []
  | k :: l' =>
    match resolve sc k, resolve_all sc l' with
    | Some x, Some xs => Some (x :: xs)
    | _, _ => None
    end
  end.

(** ** Legal trees *)
Definition ncname (s : str) : Prop := is_name s = true /\ ~ In 58 s.

(** Declarations that Namespaces in XML allows on one element. *)
Definition legal_decls (d : list (option str * str)) : Prop :=
  NoDup (map fst d) /\
  Forall (fun e => chars (snd e) /\
    match fst e with
    | None => snd e <> xml_uri /\ snd e <> xmlns_uri
    | Some p => ncname p /\ p <> lit "xmlns" /\ snd e <> [] /\ snd e <> xmlns_uri /\ (p = lit "xml" <-> snd e = xml_uri)
    end) d.

Inductive legal_dom : node -> Prop :=
| ld_text : forall s, chars s -> legal_dom (NText s)
| ld_comment : forall s, legal_comment s -> legal_dom (NComment s)
| ld_pi : forall t d, legal_pi t d -> legal_dom (NPI t d)
| ld_elem : forall ns q decls attrs kids,
    is_name q = true -> (forall u, ns = Some u -> chars u) -> legal_decls decls ->
    Forall (fun a => is_name (a_qname a) = true /\ chars (a_value a) /\ decl_of (a_qname a) = None /\ a_ns a <> Some xmlns_uri) attrs ->
    NoDup (map a_qname attrs) ->
    Forall legal_dom kids ->
    legal_dom (NElem ns q decls attrs kids).

(** The strings that are written as they are, without escaping. *)
Definition decl_strings (d : list (option str * str)) : list str :=
  flat_map (fun e => match fst e with Some p => [p] | None => [] end) d.
Fixpoint raw_strings (n : node) : list str :=
  match n with
  | NText _ => []
  | NComment s => [s]
  | NPI t d => [t; d]
  | NElem _ q decls attrs kids => q :: decl_strings decls ++ map a_qname attrs ++ flat_map raw_strings kids
  end.

(** ** Namespace consistency: every name means, through the declarations of the
       tree, the namespace that is stored in the node. *)
Definition declared (sc : scope) (decls : list (option str * str)) : scope :=
  fold_left (fun sc d => bind_scope sc (fst d) (match snd d with [] => None | u => Some u end)) decls sc.
(** The scope of the declarations of a chain of ancestors, nearest first. *)
Definition scope_of (chain : list (list (option str * str))) : scope := fold_right (fun d sc => declared sc d) scope0 chain.

Fixpoint consistent (sc : scope) (n : node) : Prop :=
  match n with
  | NElem ns q decls attrs kids =>
    let sc' := declared sc decls in
    resolve_elem sc' q = Some (ns, local q) /\
    Forall (fun a => resolve_att sc' (a_qname a) = Some (a_ns a, local (a_qname a))) attrs /\
    NoDup (map (fun a => (a_ns a, local (a_qname a))) attrs) /\
    (fix all l := match l with [] => True | k :: l' => consistent sc' k /\ all l' end) kids
  | _ => True
  end.

(** ** Encodings: what a decoder must do *)
Definition decodes (cd : codec) (dec : list N -> option str) : Prop :=
  forall s bs, chars s -> encode cd s = Some bs -> dec bs = Some s.

(** ** Indentation: white-space-only text added next to markup only *)

(** [spaced b l l']: [l'] is [l] with white-space-only text nodes added, at any
    depth, none of them next to a text node of [l]; [b]: one may be added at
    the start. *)
Inductive spaced : bool -> list rnode -> list rnode -> Prop :=
| sp_nil : forall b, spaced b [] []
| sp_end : forall w, forallb ws w = true -> spaced true [] [RText w]
| sp_node : forall b n n' l l', spaced1 n n' -> spaced true l l' -> spaced b (n :: l) (n' :: l')
| sp_ws : forall w n n' l l', forallb ws w = true -> spaced1 n n' -> spaced true l l' ->
    spaced true (n :: l) (RText w :: n' :: l')
| sp_text : forall b s l l', spaced false l l' -> spaced b (RText s :: l) (RText s :: l')
with spaced1 : rnode -> rnode -> Prop :=
| sp1_elem : forall q a k k', spaced true k k' -> spaced1 (RElem q a k) (RElem q a k')
| sp1_comment : forall d, spaced1 (RComment d) (RComment d)
| sp1_pi : forall t d, spaced1 (RPI t d) (RPI t d).

(** ** Documents *)
Definition elem_node (n : node) : bool := match n with NElem _ _ _ _ _ => true | _ => false end.
Definition text_node (n : node) : bool := match n with NText _ => true | _ => false end.
(** The children of a document: no text, exactly one element. *)
Definition legal_document (kids : list node) : Prop :=
  Forall legal_dom kids /\ Forall (fun n => text_node n = false) kids /\ length (filter elem_node kids) = 1%nat.
(** EncName, production [81]. *)
Definition legal_encname (e : str) : Prop :=
  match e with
  | [] => False
  | c :: e' => (between 65 90 c || between 97 122 c) = true /\
      forallb (fun c => between 65 90 c || between 97 122 c || between 48 57 c || (c =? 46) || (c =? 95) || (c =? 45)) e' = true
  end.
(** System literal and public identifier that can stand between quotation
    marks; there is no escape for the carriage return. *)
Definition legal_sysid (s : str) : Prop := chars s /\ ~ In 34 s /\ ~ In 13 s.
Definition legal_pubid (s : str) : Prop := forallb pubid_char s = true /\ ~ In 13 s.

(** ** CDATA sections: the text of a sequence of sections and nothing else *)
Fixpoint cdata_text (fuel : nat) (s : str) : option str :=
  match s, fuel with
  | [], _ => Some []
  | _, O => None
  | _, S f =>
    if prefixb (lit "<![CDATA[") s then
      match break_sub (lit "]]>") (skipn 9 s) with
      | Some (d, r) => option_map (app d) (cdata_text f r)
      | None => None
      end
    else None
  end.

(** ** Trees that differ in the order of attributes and declarations only *)
Inductive same_dom : node -> node -> Prop :=
| sd_text : forall s, same_dom (NText s) (NText s)
| sd_comment : forall s, same_dom (NComment s) (NComment s)
| sd_pi : forall t d, same_dom (NPI t d) (NPI t d)
| sd_elem : forall ns q d d' a a' k k', Permutation d d' -> Permutation a a' -> Forall2 same_dom k k' ->
    same_dom (NElem ns q d a k) (NElem ns q d' a' k').

(** ** Some encodings and their decoders (Unicode standard, RFC 2781, ASCII) *)
Definition ascii_codec : codec := fun c => if c <? 128 then Some [c] else None.
Definition latin1_codec : codec := fun c => if c <? 256 then Some [c] else None.
Definition latin1_decode (bs : list N) : option str := if forallb (fun b => b <? 256) bs then Some bs else None.
Definition ascii_decode (bs : list N) : option str := if forallb (fun b => b <? 128) bs then Some bs else None.
(** UTF-16: 16-bit units, then surrogate pairs. *)
Fixpoint units (be : bool) (bs : list N) : option (list N) :=
  match bs with
  | [] => Some []
  | a :: b :: r => option_map (cons (if be then a * 256 + b else b * 256 + a)) (units be r)
  | _ => None
  end.
Fixpoint of_units (us : list N) : option str :=
  match us with
  | [] => Some []
  | u :: r =>
    if between 55296 56319 u then
      match r with
      | v :: r' => if between 56320 57343 v then option_map (cons (65536 + (u - 55296) * 1024 + (v - 56320))) (of_units r') else None
      | [] => None
      end
    else if between 56320 57343 u then None
    else option_map (cons u) (of_units r)
  end.
Definition utf16_decode_as (be : bool) (bs : list N) : option str :=
  match units be bs with Some us => of_units us | None => None end.
(** With a byte order mark, RFC 2781 section 4.3. *)
Definition utf16_decode (bs : list N) : option str :=
  if prefixb [254; 255] bs then utf16_decode_as true (skipn 2 bs)
  else if prefixb [255; 254] bs then utf16_decode_as false (skipn 2 bs)
  else utf16_decode_as true bs.

(** ** The document type declaration a document should have *)
Fixpoint root_name (kids : list node) : str :=
  match kids with
  | [] => []
  | NElem _ q _ _ _ :: _ => q
  | _ :: r => root_name r
  end.
(** Written when there is a non-empty system identifier. *)
Definition doctype_of (pub sys : option str) (kids : list node) : list rnode :=
  match sys with
  | Some (_ :: _) => [RDoctype (root_name kids) (match pub with Some (_ :: _) => pub | _ => None end) sys]
  | _ => []
  end.
