(** * Vocabulary for C36, C37 and C44: what a content model means

    XML 1.0, section 3.2: a content model is a regular expression over element
    names. *)
From Coq Require Import NArith String List Bool.
From Verif Require Import PyStr DtdModel.
Import ListNotations.

(** [matches c w]: the sequence [w] of names (and of "#PCDATA" for mixed content)
    matches the model [c]; [once c w]: it matches [c] without its quantity. *)
Inductive once : content -> list event -> Prop :=
  | once_name : forall q n, once (CName q n) [EName n]
  | once_seq : forall q l w, in_turn l w -> once (CSeq q l) w
  | once_alt : forall q l c w, In c l -> matches c w -> once (CAlt q l) w
  | once_mixed : forall q l c w, In c l -> matches c w -> once (CMixed q l) w
  | once_text : forall q l, once (CMixed q l) [EPcdata]
with matches : content -> list event -> Prop :=
  | m_one : forall c w, quant_of c = One -> once c w -> matches c w
  | m_opt_none : forall c, quant_of c = Opt -> matches c []
  | m_opt_some : forall c w, quant_of c = Opt -> once c w -> matches c w
  | m_rep : forall c w, quant_of c = Rep -> times c w -> matches c w
  | m_plus : forall c w1 w2, quant_of c = Plus -> once c w1 -> times c w2 -> matches c (w1 ++ w2)
(** any number of times *)
with times : content -> list event -> Prop :=
  | t_none : forall c, times c []
  | t_more : forall c w1 w2, once c w1 -> times c w2 -> times c (w1 ++ w2)
with in_turn : list content -> list event -> Prop :=
  | i_nil : in_turn [] []
  | i_cons : forall c l w1 w2, matches c w1 -> in_turn l w2 -> in_turn (c :: l) (w1 ++ w2).
Scheme once_ind4 := Minimality for once Sort Prop
  with matches_ind4 := Minimality for matches Sort Prop
  with times_ind4 := Minimality for times Sort Prop
  with in_turn_ind4 := Minimality for in_turn Sort Prop.
Combined Scheme matches_mutind from once_ind4, matches_ind4, times_ind4, in_turn_ind4.

(** No empty sequence; mixed content only with the quantity [*]. *)
Fixpoint proper (c : content) : Prop :=
  let all := fix all (l : list content) : Prop := match l with [] => True | x :: l' => proper x /\ all l' end in
  match c with
  | CName _ _ => True
  | CSeq _ l => l <> [] /\ all l
  | CAlt _ l => all l
  | CMixed q l => (q = Rep \/ q = Plus) /\ all l
  end.

(** No empty choice. *)
Fixpoint inhabited (c : content) : Prop :=
  let all := fix all (l : list content) : Prop := match l with [] => True | x :: l' => inhabited x /\ all l' end in
  match c with CName _ _ => True | CSeq _ l => all l | CAlt _ l => l <> [] /\ all l | CMixed _ l => all l end.

(** ** Valid content *)
Definition names_of (kids : list node) : list str := flat_map (fun x => match x with Elem n _ => [n] | Text _ _ => [] end) kids.
(** The element children a declaration allows. *)
Definition allowed (s : spec) (names : list str) : Prop :=
  match s with DAny => True | DEmpty => names = [] | DContent c => matches c (map EName names) end.
(** The children that can be the beginning of allowed content. *)
Definition may_start (s : spec) (names : list str) : Prop :=
  match s with DAny => True | DEmpty => names = [] | DContent c => exists more, matches c (map EName names ++ more) end.
Fixpoint declaration (ds : list (str * spec)) (n : str) : option spec :=
  match ds with [] => None | (n', s) :: ds' => if str_eqb n' n then Some s else declaration ds' n end.
(** Content models as the XML grammar has them: element content without
    "#PCDATA", or mixed content [(#PCDATA | a | b)*]. *)
Fixpoint element_content (c : content) : Prop :=
  let all := fix all (l : list content) : Prop := match l with [] => True | x :: l' => element_content x /\ all l' end in
  match c with CName _ _ => True | CSeq _ l => l <> [] /\ all l | CAlt _ l => all l | CMixed _ _ => False end.
Definition xml_content (c : content) : Prop :=
  match c with CMixed q l => q = Rep /\ (forall x, In x l -> exists n, x = CName One n) | _ => element_content c end.
Definition xml_spec (s : spec) : Prop := match s with DContent c => xml_content c | _ => True end.
Definition inhabited_spec (s : spec) : Prop := match s with DContent c => inhabited c | _ => True end.
Definition proper_spec (s : spec) : Prop := match s with DContent c => proper c | _ => True end.

(** ** Verdicts *)
Definition accepted (r : report) : bool := match r with RElem a _ _ _ => a | RText _ => true end.
(** For every element of the tree: it is reported as undeclared iff it is; if it
    is declared, then it is reported as complete with all its children accepted
    iff its children are the ones its declaration allows; and the first child
    that is rejected is the first one after which nothing can be added to make
    the content allowed. *)
Inductive judged (ds : list (str * spec)) : node -> report -> Prop :=
  | j_text : forall ws keep o, judged ds (Text ws keep) (RText o)
  | j_elem : forall n kids a dcl rs cmp,
      (dcl = true <-> declaration ds n <> None) ->
      (forall s, declaration ds n = Some s -> (forallb accepted rs && cmp = true <-> allowed s (names_of kids))) ->
      (forall s k1 k2 r1 r2, declaration ds n = Some s -> inhabited_spec s -> kids = k1 ++ k2 -> rs = r1 ++ r2 -> length k1 = length r1 ->
        (forallb accepted r1 = true <-> may_start s (names_of k1))) ->
      Forall2 (judged ds) kids rs ->
      judged ds (Elem n kids) (RElem a dcl rs cmp).
(** A valid tree: every element is declared and has allowed children. *)
Inductive valid (ds : list (str * spec)) : node -> Prop :=
  | v_text : forall ws keep, valid ds (Text ws keep)
  | v_elem : forall n kids s, declaration ds n = Some s -> allowed s (names_of kids) -> Forall (valid ds) kids -> valid ds (Elem n kids).
(** No element is reported as in error. *)
Fixpoint no_errors (r : report) : bool :=
  match r with RElem a dcl rs cmp => a && dcl && forallb no_errors rs && cmp | RText _ => true end.

(** ** Text *)
(** What becomes of a text in the content of an element: an error unless it is
    allowed there; characters where "#PCDATA" may occur, ignorable white space in
    element content; white space is dropped unless it is preserved. *)
Definition text_spec (s : spec) (ws keep : bool) : text_outcome :=
  match s with
  | DEmpty => InvalidText
  | DAny | DContent (CMixed _ _) => if ws && negb keep then Dropped else Characters
  | DContent _ => if ws then (if keep then Ignorable else Dropped) else InvalidText
  end.
(** ... but white space that is not preserved in an element declared ANY. *)
Definition text_verdict (s : spec) (x : node) (r : report) : Prop :=
  match x, r with
  | Text ws keep, RText o => s = DAny /\ ws = true /\ keep = false \/ o = text_spec s ws keep
  | _, _ => True
  end.
Inductive texts_judged (ds : list (str * spec)) : node -> report -> Prop :=
  | tj_text : forall ws keep o, texts_judged ds (Text ws keep) (RText o)
  | tj_elem : forall n kids a dcl rs cmp,
      (forall s, declaration ds n = Some s -> xml_spec s -> Forall2 (text_verdict s) kids rs) ->
      Forall2 (texts_judged ds) kids rs ->
      texts_judged ds (Elem n kids) (RElem a dcl rs cmp).
