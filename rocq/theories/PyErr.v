(** * Exceptions as values.

    [Ok a] is a normal return, [Err e] a raised exception.  The classes are
    the ones raised by the modelled code; IriError codes are those of
    /repo/lib/lib/__init__.py:9-33. *)
From Coq Require Import NArith.

Inductive exn :=
| ValueError | TypeError | AttributeError | NameError | IndexError | KeyError
| UnicodeEncodeError | UnicodeDecodeError | NotImplementedError | AssertionError
| IriError (code : N)            (* amara.lib.IriError *)
| OtherError (code : N).

Inductive result (A : Type) := Ok (a : A) | Err (e : exn).
Arguments Ok {A} a.
Arguments Err {A} e.

Definition bind {A B} (r : result A) (f : A -> result B) : result B :=
  match r with Ok a => f a | Err e => Err e end.
Notation "'do' x <- r ; k" := (bind r (fun x => k)) (at level 200, x pattern, r at level 100, k at level 200).
Definition rmap {A B} (f : A -> B) (r : result A) : result B :=
  match r with Ok a => Ok (f a) | Err e => Err e end.
