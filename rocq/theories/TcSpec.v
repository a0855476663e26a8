(** * What it means that two documents are the same *)
From Coq Require Import NArith String List Bool Lia Arith Permutation.
From Verif Require Import PyStr TcModel.
Import ListNotations.
Open Scope N_scope.

(** A document: elements with the namespaces they declare, their expanded name,
    their attributes with expanded names, and their content. *)
Inductive item :=
| IElem (decls : list (option str * str)) (name : str) (atts : list (str * str)) (kids : list item)
| IText (s : str)
| ICdata (s : str)
| IComment (s : str)
| IPI (target data : str)
| IEntity (name : str)
| IDoctype (name : str) (sysid pubid : option str) (subset : bool).

(** ** What a parser may report: text comes in pieces *)
Inductive says : item -> list event -> Prop :=
| sy_text : forall ps, says (IText (concat ps)) (map EChars ps)
| sy_cdata : forall ps, says (ICdata (concat ps)) (EStartCdata :: map EChars ps ++ [EEndCdata])
| sy_comment : forall s, says (IComment s) [EComment s]
| sy_pi : forall t d, says (IPI t d) [EPI t d]
| sy_entity : forall n, says (IEntity n) [EEntity n]
| sy_doctype : forall n sy pu b, says (IDoctype n sy pu b) [EDoctype n sy pu b]
| sy_elem : forall decls n atts kids ks, Forall2 says kids ks ->
    says (IElem decls n atts kids)
      (map (fun d => ENs (fst d) (snd d)) decls ++ EStart n (flat_map (fun a => [fst a; snd a]) atts) :: concat ks ++ [EEnd n]).
Definition reports (l : list item) (es : list event) : Prop := exists ess, Forall2 says l ess /\ es = concat ess.

(** ** The same document: adjacent text counts as one, the order of attributes
    and declarations does not count; white space between markup does not count
    if it is to be ignored. *)
Definition blank (s : str) : bool := forallb (fun c => mem c [32; 9; 10; 13]) s.
Definition glue (s : str) (l : list item) : list item :=
  match s with
  | [] => l
  | _ => match l with IText t :: l' => IText (s ++ t) :: l' | _ => IText s :: l end
  end.
Section Same.
  Variable whitespace : bool.
  Definition kept (n : item) : bool := match n with IText s => whitespace || negb (blank s) | _ => true end.
  Fixpoint tidy (n : item) (rest : list item) : list item :=
    match n with
    | IElem d q a k => IElem d q a (filter kept (fold_right tidy [] k)) :: rest
    | IText s => glue s rest
    | ICdata s => ICdata (if whitespace || negb (blank s) then s else []) :: rest
    | _ => n :: rest
    end.
  Definition tidy_all (l : list item) : list item := filter kept (fold_right tidy [] l).
  Inductive alike : item -> item -> Prop :=
  | al_text : forall s, alike (IText s) (IText s)
  | al_cdata : forall s, alike (ICdata s) (ICdata s)
  | al_comment : forall s, alike (IComment s) (IComment s)
  | al_pi : forall t d, alike (IPI t d) (IPI t d)
  | al_entity : forall n, alike (IEntity n) (IEntity n)
  | al_doctype : forall n sy pu b, alike (IDoctype n sy pu b) (IDoctype n sy pu b)
  | al_elem : forall d d' q a a' k k', Permutation d d' -> Permutation a a' -> Forall2 alike k k' ->
      alike (IElem d q a k) (IElem d' q a' k').
  Definition same (l l' : list item) : Prop := Forall2 alike (tidy_all l) (tidy_all l').
End Same.

(** ** What is asked of the names: no quotes in names of attributes and
    prefixes, no prefix None, no comma in targets and document type names; all
    characters are Unicode. *)
Definition unquoted (s : str) : Prop := ~ In 34 s /\ ~ In 39 s.
Definition unicode (s : str) : Prop := Forall (fun c => c < 1114112) s.
Inductive fine : item -> Prop :=
| fi_text : forall s, unicode s -> fine (IText s)
| fi_cdata : forall s, unicode s -> fine (ICdata s)
| fi_comment : forall s, unicode s -> fine (IComment s)
| fi_pi : forall t d, ~ In 44 t -> unicode d -> fine (IPI t d)
| fi_entity : forall n, fine (IEntity n)
| fi_doctype : forall n sy pu b, ~ In 44 n -> (forall s, sy = Some s -> unicode s) -> (forall s, pu = Some s -> unicode s) ->
    fine (IDoctype n sy pu b)
| fi_elem : forall d q a k,
    Forall (fun x => (forall p, fst x = Some p -> unquoted p /\ p <> lit "None") /\ unicode (snd x)) d ->
    Forall (fun x => unquoted (fst x) /\ unicode (snd x)) a ->
    Forall fine k -> fine (IElem d q a k).
