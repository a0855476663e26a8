(** * Matches in a string *)
From Coq Require Import NArith String List.
From Verif Require Import PyStr RmModel.
Import ListNotations.

(** A search finds matches in the string, at or after the position. *)
Definition sane (search : str -> nat -> option found) : Prop :=
  forall s p m, search s p = Some m -> (p <= m_start m /\ m_start m <= m_end m /\ m_end m <= length s)%nat.
(** [cut s p l]: from position p the string consists of texts between matches and of the matches l, and there is no match after the last one. *)
Inductive cut (search : str -> nat -> option found) (s : str) : nat -> list str -> Prop :=
| cut_nil : forall p, search s p = None -> cut search s p []
| cut_cons : forall p m before text rest l, search s p = Some m ->
    skipn p s = before ++ text ++ rest -> length before = (m_start m - p)%nat -> length text = (m_end m - m_start m)%nat ->
    cut search s (m_end m) l -> cut search s p (text :: l).
