(** * Base URIs and languages *)
From Coq Require Import NArith String List.
From Verif Require Import PyStr XbModel.
Import ListNotations.

(** A document, or part of one: elements, and external entities with their URIs. *)
Inductive node := Elem (atts : list attribute) (kids : list node) | Entity (uri : str) (kids : list node).
(** The calls expat makes for it *)
Fixpoint calls (n : node) : list raw :=
  match n with
  | Elem atts kids => RStart atts :: flat_map calls kids ++ [REnd]
  | Entity uri kids => RBegin (Some uri) :: flat_map calls kids ++ [REnd_]
  end.
(** The xml attribute with this local name *)
Definition is_xml (local : string) (a : attribute) : Prop := a_ns a = Some XML_NAMESPACE /\ a_local a = lit local.
(** [inherits local atts outer v]: an element with these attributes has the value [v], where [outer] is inherited. *)
Inductive inherits (local : string) (atts : list attribute) : option str -> option str -> Prop :=
| inherits_own : forall outer l1 a l2, atts = l1 ++ a :: l2 -> is_xml local a -> Forall (fun b => ~ is_xml local b) l2 -> inherits local atts outer (Some (a_value a))
| inherits_outer : forall outer, Forall (fun b => ~ is_xml local b) atts -> inherits local atts outer outer.
(** The base URIs of the elements of a document, in document order: an entity is the base of what is in it. *)
Inductive bases : option str -> list node -> list (option str) -> Prop :=
| bases_nil : forall b, bases b [] []
| bases_elem : forall b atts kids rest b' x y, inherits "base" atts b b' -> bases b' kids x -> bases b rest y -> bases b (Elem atts kids :: rest) (b' :: x ++ y)
| bases_entity : forall b uri kids rest x y, bases (Some uri) kids x -> bases b rest y -> bases b (Entity uri kids :: rest) (x ++ y).
(** Their languages: entities make no difference. *)
Inductive langs : option str -> list node -> list (option str) -> Prop :=
| langs_nil : forall b, langs b [] []
| langs_elem : forall b atts kids rest b' x y, inherits "lang" atts b b' -> langs b' kids x -> langs b rest y -> langs b (Elem atts kids :: rest) (b' :: x ++ y)
| langs_entity : forall b uri kids rest x y, langs b kids x -> langs b rest y -> langs b (Entity uri kids :: rest) (x ++ y).
(** What a receiver of the events makes of the attributes: [reads local stack events values stack']. *)
Inductive reads (local : string) : list (option str) -> list event -> list (option str) -> list (option str) -> Prop :=
| reads_nil : forall st, reads local st [] [] st
| reads_start : forall outer st atts base v ev vs st', inherits local atts outer v -> reads local (v :: outer :: st) ev vs st' ->
    reads local (outer :: st) (EStart atts base :: ev) (v :: vs) st'
| reads_end : forall v st base ev vs st', reads local st ev vs st' -> reads local (v :: st) (EEnd base :: ev) vs st'.
(** What the locator said at the start of elements *)
Definition located (ev : list event) : list (option str) := flat_map (fun e => match e with EStart _ b => [b] | EEnd _ => [] end) ev.
(** At the end of an element the locator says what it said at its start. *)
Inductive closes : list (option str) -> list event -> list (option str) -> Prop :=
| closes_nil : forall st, closes st [] st
| closes_start : forall st atts b ev st', closes (b :: st) ev st' -> closes st (EStart atts b :: ev) st'
| closes_end : forall st b ev st', closes st ev st' -> closes (b :: st) (EEnd b :: ev) st'.
(** The attributes in the document, and those reported *)
Fixpoint written (n : node) : list (list attribute) :=
  match n with Elem atts kids => atts :: flat_map written kids | Entity _ kids => flat_map written kids end.
Definition reported (ev : list event) : list (list attribute) := flat_map (fun e => match e with EStart a _ => [a] | EEnd _ => [] end) ev.
(** Only xml:base and xml:lang are added, and only where they are missing. *)
Definition extends (w r : list attribute) : Prop :=
  exists base lang, r = w ++ base ++ lang /\
    (base = [] \/ exists a, base = [a] /\ is_xml "base" a /\ Forall (fun b => ~ is_xml "base" b) w) /\
    (lang = [] \/ exists a, lang = [a] /\ is_xml "lang" a /\ Forall (fun b => ~ is_xml "lang" b) w).
(** Entities with at most one element outside any other element or entity, and none with the URI of an entity directly around it. *)
Definition is_elem (n : node) : bool := match n with Elem _ _ => true | Entity _ _ => false end.
Fixpoint tidy (n : node) : Prop :=
  match n with
  | Elem _ kids => fold_right and True (map tidy kids)
  | Entity uri kids => (length (filter is_elem kids) <= 1)%nat /\ (forall u k, In (Entity u k) kids -> u <> uri) /\ fold_right and True (map tidy kids)
  end.
(** No entity in an element with a language *)
Inductive quiet : option str -> node -> Prop :=
| quiet_elem : forall l atts kids l', inherits "lang" atts l l' -> Forall (quiet l') kids -> quiet l (Elem atts kids)
| quiet_entity : forall uri kids, Forall (quiet None) kids -> quiet None (Entity uri kids).
