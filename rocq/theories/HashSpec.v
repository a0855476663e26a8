(** * Vocabulary for C23 and C24: what a map is

    Independent of the tables: a map is a function from keys to optional
    values. *)
From Coq Require Import List.
Import ListNotations.

Section Spec.
Context {K V : Type}.
Variable eq_dec : forall a b : K, {a = b} + {a <> b}.
Definition amap := K -> option V.
Definition no_keys : amap := fun _ => None.
Definition put (f : amap) (k : K) (v : V) : amap := fun k' => if eq_dec k' k then Some v else f k'.
Definition without (f : amap) (k : K) : amap := fun k' => if eq_dec k' k then None else f k'.
End Spec.
Arguments amap : clear implicits.

(** The list shows the map: each key of the map once, with its value, and nothing
    else. *)
Definition lists {K V} (l : list (K * V)) (f : K -> option V) : Prop :=
  NoDup (map fst l) /\ forall k v, In (k, v) l <-> f k = Some v.
