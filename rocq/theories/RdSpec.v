(** * Specification of what a reader reports

    A document as the XML Recommendation sees it, independently of the
    reader: elements with their namespace declarations and attributes, text,
    CDATA sections, comments, processing instructions, references to external
    entities with their content, references to entities that are not read. *)
From Coq Require Import NArith String List Bool Lia Sorted Permutation.
From Verif Require Import PyStr PyErr RdModel.
Import ListNotations.

Inductive item :=
| Elem (n : xname) (ns : list (option str * option str)) (atts : list xattr) (content : list item)
| Text (s : str)
| Cdata (s : str)
| Instr (target data : str)
| Comm (s : str)
| External (content : list item)
| Unread (name : str).

(** What Expat may report of a document: the text of every piece in any number
    of chunks, the rest in document order. *)
Inductive reported : list item -> list raw -> Prop :=
| rep_nil : reported [] []
| rep_elem : forall n ns atts ct l rc r, reported ct rc -> reported l r ->
    reported (Elem n ns atts ct :: l)
      (map (fun d => RNsStart (fst d) (snd d)) ns ++ RStart n atts :: rc ++ REnd n :: map (fun d => RNsEnd (fst d)) (rev ns) ++ r)
| rep_text : forall chunks l r, reported l r -> reported (Text (concat chunks) :: l) (map RChars chunks ++ r)
| rep_cdata : forall chunks l r, reported l r ->
    reported (Cdata (concat chunks) :: l) (RCdataStart :: map RChars chunks ++ RCdataEnd :: r)
| rep_instr : forall t d l r, reported l r -> reported (Instr t d :: l) (RPI t d :: r)
| rep_comm : forall s l r, reported l r -> reported (Comm s :: l) (RComment s :: r)
| rep_external : forall ct l rc r, reported ct rc -> reported l r ->
    reported (External ct :: l) (REntityStart :: rc ++ REntityEnd :: r)
| rep_unread : forall n l r, reported l r -> reported (Unread n :: l) (RSkipped n :: r).

(** ** The nodes of a document *)

Inductive tree :=
| TElem (n : xname) (ns : list (option str * option str)) (atts : list xattr) (content : list tree)
| TText (s : str)
| TInstr (target data : str)
| TComm (s : str)
| TUnread (name : str).

(** Character data and nodes, in order, put together to the longest possible
    text nodes. *)
Fixpoint gather (l : list (N + tree)) : list tree :=
  match l with
  | [] => []
  | inl c :: l' => match gather l' with
                   | TText s :: r => TText (c :: s) :: r
                   | r => TText [c] :: r
                   end
  | inr t :: l' => t :: gather l'
  end.

(** XML white space. *)
Definition white_char (c : N) : Prop := In c [9; 10; 13; 32]%N.
Definition whiteb (s : str) : bool := forallb (fun c => existsb (N.eqb c) [9; 10; 13; 32]%N) s.
Definition is_white_text (t : tree) : bool := match t with TText s => whiteb s | _ => false end.
Definition drop_white (l : list tree) : list tree := filter (fun t => negb (is_white_text t)) l.

(** The value of xml:space on an element, if it has one. *)
Definition is_xml_space (a : xattr) : bool :=
  ostr_eqb (x_ns (a_name a)) (Some (lit "http://www.w3.org/XML/1998/namespace")) && str_eqb (x_local (a_name a)) (lit "space").
Definition xml_space_of (atts : list xattr) : option str := option_map a_value (find is_xml_space atts).
(** Whether xml:space is "preserve" for the content of an element inside
    content for which it is [inh]; an unknown value is no value. *)
Definition space_in (inh : bool) (atts : list xattr) : bool :=
  match xml_space_of atts with
  | Some v => if str_eqb v (lit "preserve") then true else if str_eqb v (lit "default") then false else inh
  | None => inh
  end.

(** Does the pattern (namespace, local name) of a rule match an element? *)
Definition pattern_matches (p : option str * str) (n : xname) : bool :=
  if str_eqb (snd p) (lit "*") then match fst p with None => true | Some u => ostr_eqb (x_ns n) (Some u) end
  else ostr_eqb (x_ns n) (fst p) && str_eqb (x_local n) (snd p).
(** White space is stripped from the elements whose first matching rule says
    so. *)
Definition stripped (rules : list (option str * str * bool)) (n : xname) : bool :=
  match find (fun r => pattern_matches (fst r) n) rules with Some r => snd r | None => false end.

(** The nodes of a document: [ent b] is the value of xml:space at the start of
    an external entity referred to where its value is [b]. *)
Section Nodes.
  Variable ent : bool -> bool.
  Variable rules : list (option str * str * bool).
  Definition finish (keep : bool) (l : list (N + tree)) : list tree :=
    if keep then gather l else drop_white (gather l).
  Fixpoint parts (inh : bool) (i : item) : list (N + tree) :=
    match i with
    | Elem n ns atts ct =>
      [inr (TElem n ns atts (finish (space_in inh atts || negb (stripped rules n)) (flat_map (parts (space_in inh atts)) ct)))]
    | Text s | Cdata s => map inl s
    | Instr t d => [inr (TInstr t d)]
    | Comm s => [inr (TComm s)]
    | External ct => flat_map (parts (ent inh)) ct
    | Unread n => [inr (TUnread n)]
    end.
  Definition nodes (l : list item) : list tree := finish true (flat_map (parts false) l).
End Nodes.

(** The XML Recommendation: xml:space applies to all elements within the
    content of the element that has it, wherever they are written. *)
Definition inherited (b : bool) : bool := b.

(** The events of nodes. *)
Fixpoint told (t : tree) : list event :=
  match t with
  | TElem n ns atts ct =>
    map (fun d => ENsStart (fst d) (snd d)) ns ++ EStart n atts :: flat_map told ct ++ EEnd n :: map (fun d => ENsEnd (fst d)) (rev ns)
  | TText s => [EText s]
  | TInstr t d => [EPI t d]
  | TComm s => [EComment s]
  | TUnread n => [ESkipped n]
  end.

(** Events other than the marks of CDATA sections. *)
Definition not_mark (e : event) : bool := match e with ECdataStart | ECdataEnd => false | _ => true end.
Definition content_events (l : list event) : list event := filter not_mark l.

(** At most one xml:space on an element (XML requires attribute names to be
    unique). *)
Fixpoint single_space (i : item) : Prop :=
  match i with
  | Elem _ _ atts ct => (length (filter is_xml_space atts) <= 1)%nat /\ (fix all l := match l with [] => True | x :: l' => single_space x /\ all l' end) ct
  | External ct => (fix all l := match l with [] => True | x :: l' => single_space x /\ all l' end) ct
  | _ => True
  end.

(** No external entity is referred to where xml:space is "preserve". *)
Fixpoint entities_outside (inh : bool) (i : item) : Prop :=
  match i with
  | Elem _ _ atts ct => (fix all l := match l with [] => True | x :: l' => entities_outside (space_in inh atts) x /\ all l' end) ct
  | External ct => inh = false /\ (fix all l := match l with [] => True | x :: l' => entities_outside inh x /\ all l' end) ct
  | _ => True
  end.

(** Rules the reader accepts: every named element is in a namespace. *)
Definition namespaced (r : option str * str * bool) : Prop := snd (fst r) = lit "*" \/ fst (fst r) <> None.

(** ** The rules of a stylesheet *)

(** How specific a pattern is: a name, then the names of a namespace, then
    any name. *)
Definition specificity (p : token) : nat :=
  if str_eqb (snd p) (lit "*") then match fst p with None => 0 | Some _ => 1 end else 2.

(** The declarations as a list of patterns, in order. *)
Definition declared (decls : list (bool * list token)) : list (token * bool) :=
  flat_map (fun d => map (fun t => (t, fst d)) (snd d)) decls.
(** [chosen l n v]: among the patterns that match [n], [v] is the value of the
    last one of those that are most specific. *)
Definition chosen (l : list (token * bool)) (n : xname) (v : bool) : Prop :=
  exists l1 p l2, l = l1 ++ (p, v) :: l2 /\ pattern_matches p n = true
  /\ (forall q w, In (q, w) l -> pattern_matches q n = true -> specificity q <= specificity p)%nat
  /\ (forall q w, In (q, w) l2 -> pattern_matches q n = true -> specificity q < specificity p)%nat.
(** The local name of an element does not begin with an asterisk or a character
    before it. *)
Definition named (n : xname) : Prop := exists c s, x_local n = c :: s /\ (42 < c)%N.

(** ** A reader used several times *)

(** The events of each of several documents read one after the other with the
    same reader; [true] for a document that is read to its end. *)
Fixpoint read_all (rules : list rule) (r : reader) (docs : list (list raw * bool)) : list (list event) :=
  match docs with
  | [] => []
  | d :: docs' => let '(r', ev) := parse rules r (fst d) (snd d) in ev :: read_all rules r' docs'
  end.
(** The items that may stand outside the root element. *)
Definition markup (i : item) : Prop := match i with Elem _ _ _ _ | Instr _ _ | Comm _ => True | _ => False end.
(** Calls of Expat for markup, as opposed to character data. *)
Definition markup_call (c : raw) : Prop :=
  match c with RStart _ _ | REnd _ | RPI _ _ | RComment _ | RNsStart _ _ | RNsEnd _ | RSkipped _ => True | _ => False end.
