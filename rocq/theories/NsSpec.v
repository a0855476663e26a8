(** * Vocabulary for C25: the Namespaces recommendation

    A chain of sets of declarations, the innermost element first.  A declaration
    maps a prefix, or None for [xmlns=], to a URI reference, which may be empty for
    [xmlns=] only. *)
From Coq Require Import NArith String List.
From Verif Require Import PyStr HashModel.
Import ListNotations.

Definition declarations := option str -> option str.
(** The nearest declaration. *)
Fixpoint nearest (chain : list declarations) (p : option str) : option str :=
  match chain with [] => None | d :: chain' => match d p with Some u => Some u | None => nearest chain' p end end.
(** The namespace of a prefix: that of the nearest declaration; an empty one
    undeclares; [xml] is always there. *)
Definition in_scope (chain : list declarations) (p : option str) : option str :=
  match nearest chain p with
  | Some [] => None
  | Some u => Some u
  | None => match p with Some q => if str_eqb q (lit "xml") then Some (lit "http://www.w3.org/XML/1998/namespace") else None | None => None end
  end.
(** Constraints of the recommendation on declarations. *)
Definition legal (d : option str * str) : Prop :=
  (snd d = [] -> fst d = None) /\
  (fst d = Some (lit "xml") <-> snd d = lit "http://www.w3.org/XML/1998/namespace") /\ fst d <> Some [].
(** What an element declares after the given declarations were made on it in this
    order: the last one for each prefix. *)
Fixpoint latest (ds : list (option str * str)) (p : option str) : option str :=
  match ds with
  | [] => None
  | (q, u) :: ds' => match latest ds' p with Some v => Some v | None => if opt_eqb q p then Some u else None end
  end.
