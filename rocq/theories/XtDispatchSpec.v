(** * Specification of the choice of template rules (XSLT 1.0, sections 5.5 and 5.6) *)
From Coq Require Import NArith ZArith QArith String List Bool Lia Arith Sorted Permutation.
From Verif Require Import PyStr PyErr DomModel DomSpec XpModel XpPath XpPathSpec XtPattern XtPatternSpec XtDispatch.
Import ListNotations.
Local Open Scope nat_scope.

(** The template at place [i] of the stylesheet has this mode, and [p] is one of the
    alternatives of its pattern. *)
Definition rule (templates : list template) (mode : option str) (i : nat) (t : template) (p : lpattern) : Prop :=
  nth_error templates i = Some t /\ tm_mode t = mode /\ In p (tm_match t).
(** Section 5.5: a QName or processing-instruction(Literal) has priority 0, NCName:*
    -0.25, any other node test -0.5, and everything else 0.5. *)
Definition default_priority (p : lpattern) : Q :=
  match p with
  | LRelative r =>
    match rp_rest r, ps_preds (rp_first r) with
    | [], [] => match ps_test (rp_first r) with TLocal _ | TQName _ _ | TPI (Some _) => 0 | TPrefix _ => - (1 # 4) | _ => - (1 # 2) end
    | _, _ => 1 # 2
    end
  | _ => 1 # 2
  end.
Definition priority (t : template) (p : lpattern) : Q := match tm_priority t with Some q => q | None => default_priority p end.
(** The first rule has a higher import precedence, or the same and a higher priority. *)
Definition beats (t : template) (p : lpattern) (t' : template) (p' : lpattern) : Prop :=
  tm_prec t' < tm_prec t \/ (tm_prec t' = tm_prec t /\ (priority t' p' < priority t p)%Q).
Definition ties (t : template) (p : lpattern) (t' : template) (p' : lpattern) : Prop := tm_prec t' = tm_prec t /\ (priority t' p' == priority t p)%Q.

Section Spec.
Variables (s : store) (nm : names) (templates : list template) (mode : option str).
(** The rules that match the node [x]; [ok] restricts the import precedence. *)
Definition applicable (ok : nat -> Prop) (x : nat) (i : nat) (t : template) (p : lpattern) : Prop :=
  rule templates mode i t p /\ ok (tm_prec t) /\ matches (tm_ns t) s nm p x.
(** [t] has the highest import precedence and priority among them; [among i i'] says
    how the choice falls between two templates with the same. *)
Definition best (among : nat -> nat -> Prop) (ok : nat -> Prop) (x : nat) (t : template) : Prop :=
  exists i p, applicable ok x i t p /\ forall i' t' p', applicable ok x i' t' p' -> beats t p t' p' \/ (ties t p t' p' /\ among i i').
(** "An XSLT processor must recover by choosing, from amongst the matching template
    rules that are left, the one that occurs last in the stylesheet." *)
Definition xslt_choice (ok : nat -> Prop) (x : nat) (t : template) : Prop := best (fun i i' => i' <= i) ok x t.
Definition first_choice (ok : nat -> Prop) (x : nat) (t : template) : Prop := best (fun i i' => i <= i') ok x t.
(** "It is an error if this leaves more than one matching template rule." *)
Definition no_conflict (ok : nat -> Prop) (x : nat) : Prop :=
  forall i t p i' t' p', applicable ok x i t p -> applicable ok x i' t' p' -> ties t p t' p' -> i = i'.
End Spec.

(** ** What the code handles *)
(** [list.sort(reverse=True)]: a permutation in which the keys do not increase. *)
Definition key_lt (a b : entry) : Prop :=
  en_prec a < en_prec b \/ (en_prec a = en_prec b /\ ((en_prio a < en_prio b)%Q \/ ((en_prio a == en_prio b)%Q /\ en_pos a < en_pos b))).
Definition is_sort (sort : list entry -> list entry) : Prop := forall l, Permutation (sort l) l /\ StronglySorted (fun a b => ~ key_lt a b) (sort l).
(** Not '//' and one step without a predicate, unless there is an explicit
    priority. *)
Definition plain_anywhere (p : lpattern) : Prop := match p with LAnywhere r => rp_rest r = [] /\ ps_preds (rp_first r) = [] | _ => False end.
Definition good_rule (s : store) (x : nat) (t : template) (p : lpattern) : Prop :=
  (forall nodes d r, p = LIdKeyPath nodes d r -> forall z, In z nodes -> exists_node s z) /\ good_pattern s x p /\ greedy_pattern p /\ (plain_anywhere p -> tm_priority t <> None).
