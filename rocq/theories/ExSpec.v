(** * Specification: what EXSLT says of its functions on node-sets and strings *)
From Coq Require Import NArith ZArith QArith String List Bool Lia Arith Sorted.
From Verif Require Import PyStr SerModel XpNum.
Import ListNotations.
Open Scope N_scope.

(** A node-set in document order: nodes are numbered in that order. *)
Definition in_order (l : list nat) : Prop := StronglySorted lt l.

(** ** Numbers *)
(** [greatest ns v]: v is one of the numbers, and none is greater. *)
Definition greatest (ns : list num) (v : num) : Prop := In v ns /\ forall n, In n ns -> num_ltb v n = false.
Definition least (ns : list num) (v : num) : Prop := In v ns /\ forall n, In n ns -> num_ltb n v = false.

(** ** Strings *)
Definition contains (s x : str) : Prop := exists a b, x = a ++ s ++ b.
(** [splits sep s ts]: s is cut at the separators found from left to right. *)
Inductive splits (sep : str) : str -> list str -> Prop :=
| sp_last : forall s, ~ contains sep s -> splits sep s [s]
| sp_more : forall t rest ts,
    (forall a b, t ++ sep = a ++ sep ++ b -> b = []) ->
    splits sep rest ts -> splits sep (t ++ sep ++ rest) (t :: ts).
(** [cut_at delims s ts]: s is cut at each character of [delims]. *)
Inductive cut_at (delims : str) : str -> list str -> Prop :=
| ca_last : forall s, (forall c, In c s -> ~ In c delims) -> cut_at delims s [s]
| ca_more : forall t c rest ts, (forall d, In d t -> ~ In d delims) -> In c delims -> cut_at delims rest ts -> cut_at delims (t ++ c :: rest) (t :: ts).
Definition token (t : str) : node := NElem None (lit "token") [] [] (match t with [] => [] | _ => [NText t] end).

Inductive side := AtLeft | AtRight | AtCenter.
Definition side_of (alignment : option str) : side :=
  match alignment with
  | Some a => if str_eqb a (lit "right") then AtRight else if str_eqb a (lit "center") then AtCenter else AtLeft
  | None => AtLeft
  end.
(** The target takes the place of as many characters of the padding. *)
Definition aligned (w : side) (target padding r : str) : Prop :=
  ((List.length padding < List.length target)%nat /\ exists rest, target = r ++ rest /\ List.length r = List.length padding) \/
  exists a b c, padding = a ++ b ++ c /\ List.length b = List.length target /\ r = a ++ target ++ c /\
    match w with
    | AtLeft => a = []
    | AtRight => c = []
    | AtCenter => List.length c = List.length a \/ List.length c = S (List.length a)
    end.

(** ** Replacement *)
(** The string as pieces: text that stays, and places where the i-th search string was. *)
Inductive piece := Stays (s : str) | Found (i : nat).
(** An empty search string is found between two characters. *)
Definition found_in (s x : str) : Prop := match s with [] => (2 <= List.length x)%nat | _ => contains s x end.
Section Replace.
  Variable search : list str.
  Definition piece_text (p : piece) : str := match p with Stays s => s | Found i => nth i search [] end.
  (** The longer search string goes first, of two with the same length the first. *)
  Definition goes_before (i j : nat) : Prop :=
    (List.length (nth j search []) < List.length (nth i search []))%nat \/
    List.length (nth j search []) = List.length (nth i search []) /\ (i < j)%nat.
  Definition after (i : nat) (p : piece) : Prop := match p with Stays _ => True | Found j => goes_before i j end.
  (** The pieces are those of s, and every search string is replaced wherever it is
      found, from left to right, unless a search string that goes before it took
      some of these characters. *)
  Definition replaced (s : str) (ps : list piece) : Prop :=
    flat_map piece_text ps = s /\
    (forall i, In (Found i) ps -> (i < List.length search)%nat) /\
    (forall i p run q, (i < List.length search)%nat -> ps = p ++ run ++ q -> Forall (after i) run -> ~ found_in (nth i search []) (flat_map piece_text run)) /\
    (forall i p run q, ps = p ++ run ++ Found i :: q -> nth i search [] <> [] -> Forall (after i) run ->
       forall a b, flat_map piece_text run ++ nth i search [] = a ++ nth i search [] ++ b -> b = []).
End Replace.
