(** * Specification: the XML tree that a structure stands for

    Written over the structures of [SwModel.obj]; none of the writer's functions
    is used.  Names are resolved with the scopes of [SerSpec]. *)
From Coq Require Import NArith String List Bool.
From Verif Require Import PyStr SwModel SerModel SerSpec SerTree.
Import ListNotations.
Open Scope N_scope.

(** A namespace name; the empty one is no namespace. *)
Definition ns_of (u : str) : option str := match u with [] => None | _ => Some u end.
(** The prefix of a name. *)
Definition prefix (q : str) : option str := match break1 58 q with Some (p, _) => Some p | None => None end.

(** The namespace declarations at the head of the content of an element. *)
Inductive heads : list obj -> list (option str * str) -> list obj -> Prop :=
| heads_ns : forall p u r d r', heads r d r' -> heads (ONS p u :: r) ((match p with [] => None | _ => Some p end, u) :: d) r'
| heads_nil : heads [] [] []
| heads_other : forall x r, (forall p u, x <> ONS p u) -> heads (x :: r) [] (x :: r).

(** [denotes sc l xs]: in the scope [sc] the items [l] stand for the nodes [xs].
    An element with a namespace binds its prefix to it; one without has the
    namespace its prefix has there. *)
Definition own (ns : option str) (q : str) : list (option str * str) :=
  match ns with Some u => [(prefix q, u)] | None => [] end.
Definition att_name (sc : scope) (a : (option str * str) * str) : option str * str :=
  (match fst (fst a) with
   | Some u => ns_of u
   | None => match prefix (snd (fst a)) with Some p => sc (Some p) | None => None end
   end, local (snd (fst a))).
Inductive denotes : scope -> list obj -> list xnode -> Prop :=
| dn_nil : forall sc, denotes sc [] []
| dn_elem : forall sc ns q atts content decls rest kids l xs sc',
    heads content decls rest ->
    sc' = declared sc (decls ++ own ns q) ->
    denotes sc' rest kids ->
    denotes sc l xs ->
    denotes sc (OE ns q atts content :: l)
      (XElem (match ns with Some u => ns_of u | None => sc' (prefix q) end) (local q)
             (map (fun a => (att_name sc' a, snd a)) atts) kids :: xs)
| dn_ns : forall sc p u l xs, denotes sc l xs -> denotes sc (ONS p u :: l) xs
| dn_text : forall sc s l xs, denotes sc l xs -> denotes sc (OText s :: l) (XText s :: xs)
| dn_node : forall sc s l xs, denotes sc l xs -> denotes sc (ONode s :: l) (XText s :: xs)
| dn_other : forall sc b s l xs, denotes sc l xs -> denotes sc (OOther b s :: l) (XText s :: xs)
| dn_seq : forall sc g items l ys xs, denotes sc items ys -> denotes sc l xs -> denotes sc (OSeq g items :: l) (ys ++ xs)
| dn_call : forall sc r l ys xs, denotes sc [r] ys -> denotes sc l xs -> denotes sc (OCall r :: l) (ys ++ xs).

(** The nodes as a reader reports them: adjacent text is one node, empty text
    is none. *)
Fixpoint joined (x : xnode) (rest : list xnode) : list xnode :=
  match x with
  | XText s => xadd_text s rest
  | XElem u l a k => XElem u l a (fold_right joined [] k) :: rest
  | _ => x :: rest
  end.
Definition joined_all (l : list xnode) : list xnode := fold_right joined [] l.

(** ** The structures in scope of the theorem *)

(** Declarations are legal and name the prefix of the element at most when the
    element has no namespace of its own; the prefixes of the names are bound, to
    the namespaces given; the first item of the content that is no declaration
    is not false in Python. *)
Definition counts (o : obj) : Prop :=
  match o with
  | OText [] => False
  | OSeq false [] => False
  | OOther b _ => b = true
  | _ => True
  end.
Inductive legal_struct : scope -> obj -> Prop :=
| ls_elem : forall sc ns q atts content decls rest sc',
    heads content decls rest -> sc' = declared sc (decls ++ own ns q) ->
    is_name q = true -> split_qname q <> None ->
    legal_decls (decls ++ own ns q) ->
    (forall p, ns = None -> prefix q = Some p -> sc' (Some p) <> None) ->
    Forall (fun a => is_name (snd (fst a)) = true /\ chars (snd a) /\ decl_of (snd (fst a)) = None /\
                     resolve_att sc' (snd (fst a)) = Some (att_name sc' a)) atts ->
    NoDup (map (fun a => snd (fst a)) atts) -> NoDup (map (att_name sc') atts) ->
    (forall x r, rest = x :: r -> counts x) ->
    Forall (legal_struct sc') rest ->
    legal_struct sc (OE ns q atts content)
| ls_ns : forall sc p u, legal_struct sc (ONS p u)
| ls_text : forall sc s, chars s -> legal_struct sc (OText s)
| ls_node : forall sc s, chars s -> legal_struct sc (ONode s)
| ls_other : forall sc b s, chars s -> legal_struct sc (OOther b s)
| ls_seq : forall sc g items, Forall (legal_struct sc) items -> legal_struct sc (OSeq g items)
| ls_call : forall sc r, legal_struct sc r -> legal_struct sc (OCall r).

(** The strings that are written without escaping: names and prefixes. *)
Fixpoint name_strings (o : obj) : list str :=
  match o with
  | OE _ q atts content => q :: map (fun a => snd (fst a)) atts ++ flat_map name_strings content
  | ONS p _ => [p]
  | OSeq _ items => flat_map name_strings items
  | OCall r => name_strings r
  | ORoot content => flat_map name_strings content
  | _ => []
  end.

(** ** Structures that can be fed again *)

(** No element without a namespace declares its own prefix, or has the prefix
    xml. *)
Inductive settled : obj -> Prop :=
| se_elem : forall ns q atts content decls rest, heads content decls rest ->
    (ns = None -> ~ In (prefix q) (map fst decls) /\ prefix q <> Some (lit "xml")) ->
    Forall settled rest -> settled (OE ns q atts content)
| se_ns : forall p u, settled (ONS p u)
| se_text : forall s, settled (OText s)
| se_node : forall s, settled (ONode s)
| se_other : forall b s, settled (OOther b s)
| se_seq : forall g items, Forall settled items -> settled (OSeq g items)
| se_call : forall r, settled r -> settled (OCall r).
