(** * Names and caches *)
From Coq Require Import NArith String List.
From Verif Require Import PyStr.
Import ListNotations.
Open Scope N_scope.

(** What expat makes of a name: the namespace, the local name, the prefix, with form feeds between them. *)
Inductive written := NoNamespace (local : str) | DefaultNamespace (uri local : str) | Prefixed (uri local prefix : str).
Definition triplet (w : written) : str :=
  match w with NoNamespace l => l | DefaultNamespace u l => u ++ 12 :: l | Prefixed u l p => u ++ 12 :: l ++ 12 :: p end.
(** Form feeds are no characters of XML. *)
Definition legal (w : written) : Prop :=
  match w with
  | NoNamespace l => ~ In 12 l
  | DefaultNamespace u l => ~ In 12 u /\ ~ In 12 l
  | Prefixed u l p => ~ In 12 u /\ ~ In 12 l /\ p <> []
  end.
(** The namespace, the local name and the qualified name *)
Definition meaning (w : written) : option str * str * str :=
  match w with
  | NoNamespace l => (None, l, l)
  | DefaultNamespace u l => (Some u, l, l)
  | Prefixed u l p => (Some u, l, p ++ lit ":" ++ l)
  end.
(** A cache: the first value that was built for a key is its value from then on.  Each request comes with what would be built now. *)
Section Cache.
Context {V : Type}.
Fixpoint cached (seen : list (str * V)) (k : str) : option V :=
  match seen with [] => None | (k', v) :: seen' => if str_eqb k' k then Some v else cached seen' k end.
Fixpoint answers (seen : list (str * V)) (requests : list (str * V)) : list V :=
  match requests with
  | [] => []
  | (k, v) :: l => match cached seen k with Some v' => v' :: answers seen l | None => v :: answers (seen ++ [(k, v)]) l end
  end.
(** What is in the cache in the end *)
Fixpoint kept (seen : list (str * V)) (requests : list (str * V)) : list (str * V) :=
  match requests with
  | [] => seen
  | (k, v) :: l => match cached seen k with Some _ => kept seen l | None => kept (seen ++ [(k, v)]) l end
  end.
End Cache.
