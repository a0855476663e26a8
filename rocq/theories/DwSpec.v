(** * What SAX events say *)
From Coq Require Import NArith String List Bool Permutation.
From Verif Require Import PyStr DwModel.
Import ListNotations.
Open Scope N_scope.

(** The document as a receiver of the events sees it: elements with their namespace,
    names, attributes and the prefixes declared for them, and text. *)
Inductive seen := SElem (ns : option str) (localname qname : str) (attrs : list attribute) (children : list seen) | SText (s : str).
(** The prefix of a qualified name. *)
Inductive prefix_of : str -> option str -> Prop :=
| prefix_some : forall p l, ~ In 58 p -> prefix_of (p ++ lit ":" ++ l) (Some p)
| prefix_none : forall q, ~ In 58 q -> prefix_of q None.
(** The innermost mapping of a prefix. *)
Inductive maps : list (option str * str) -> option str -> str -> Prop :=
| maps_here : forall p u env, maps ((p, u) :: env) p u
| maps_there : forall p u q v env, q <> p -> maps env p u -> maps ((q, v) :: env) p u.
(** [reads env events trees]: well nested events, in the scope of [env], that say
    [trees].  The mappings of an element come before it, and end after it; they
    map its prefix, if it is in a namespace, to that namespace. *)
Inductive reads : list (option str * str) -> list event -> list seen -> Prop :=
| reads_nil : forall env, reads env [] []
| reads_text : forall env s es ts, reads env es ts -> reads env (Characters s :: es) (SText s :: ts)
| reads_elem : forall env ds ns l q attrs body kids ends es ts,
    NoDup (map fst ds) ->
    (forall p u, In (p, u) ds -> ~ maps env p u) ->
    reads (ds ++ env) body kids ->
    (forall u p, ns = Some u -> prefix_of q p -> maps (ds ++ env) p u) ->
    Permutation ends (map fst ds) ->
    reads env es ts ->
    reads env (map (fun d => StartMapping (fst d) (snd d)) ds ++ [StartElement ns l q attrs] ++ body ++ [EndElement ns l q] ++ map EndMapping ends ++ es)
              (SElem ns l q attrs kids :: ts).
(** What there is to be seen of a tree, but for attributes; comments and processing
    instructions are no content events of this walk. *)
Fixpoint content (n : node) : list seen :=
  match n with
  | Elem ns q l _ _ children => [SElem ns l q [] (flat_map content children)]
  | Text s => [SText s]
  | Other => []
  end.
(** Every element has a map of attributes. *)
Fixpoint mapped (n : node) : Prop :=
  match n with
  | Elem _ _ _ a _ children => a <> None /\ fold_right and True (map mapped children)
  | _ => True
  end.
