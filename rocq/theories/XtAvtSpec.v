(** * What an attribute value template is, and what it stands for (XSLT 1.0, section 7.6.2) *)
From Coq Require Import NArith String List Bool.
From Verif Require Import PyStr PyErr XsSpec.
Import ListNotations.
Local Open Scope N_scope.

(** A template is a row of characters and expressions. *)
Inductive piece := Chars (s : str) | Expr (t : str).

(** How it is written: braces in the characters are doubled, expressions stand in braces. *)
Definition write1 (p : piece) : str :=
  match p with
  | Chars s => flat_map (fun c => if (c =? 123) || (c =? 125) then [c; c] else [c]) s
  | Expr t => [123] ++ t ++ [125]
  end.
Definition write (ps : list piece) : str := flat_map write1 ps.

(** A text whose quotes are closed and whose closing braces are all within quotes. *)
Inductive closed : str -> Prop :=
| closed_nil : closed []
| closed_char c t : c <> 125 -> c <> 39 -> c <> 34 -> closed t -> closed (c :: t)
| closed_literal q s t : q = 39 \/ q = 34 -> ~ In q s -> closed t -> closed (q :: s ++ q :: t).

Section Spec.
Context {E C : Type}.
Variable parse : str -> option E.
Variable ev : E -> C -> result str.

(** An expression is one that the parser of XPath accepts.  (None of them starts with a brace.) *)
Definition good (p : piece) : Prop :=
  match p with Chars _ => True | Expr t => closed t /\ hd 0 t <> 123 /\ exists e, parse t = Some e end.
Definition template (ps : list piece) : Prop := Forall good ps.

(** The characters, and the values of the expressions, in order. *)
Inductive stands_for (c : C) : list piece -> str -> Prop :=
| SF_nil : stands_for c [] []
| SF_chars s ps v : stands_for c ps v -> stands_for c (Chars s :: ps) (s ++ v)
| SF_expr t e ps x v : parse t = Some e -> ev e c = Ok x -> stands_for c ps v -> stands_for c (Expr t :: ps) (x ++ v).

(** The first expression that fails. *)
Inductive fails (c : C) : list piece -> exn -> Prop :=
| F_chars s ps x : fails c ps x -> fails c (Chars s :: ps) x
| F_here t e ps x : parse t = Some e -> ev e c = Err x -> fails c (Expr t :: ps) x
| F_later t e ps v x : parse t = Some e -> ev e c = Ok v -> fails c ps x -> fails c (Expr t :: ps) x.
End Spec.
