(** * Specification for resolvers, input sources and dictionaries of URIs *)
From Coq Require Import NArith ZArith String List Bool Relations.
From Verif Require Import PyStr IriSpec.
Import ListNotations.
Open Scope N_scope.

(** ** Rules: conditions on URIs, each with its verdict; the first that holds decides *)
Definition decides (rules : list ((str -> bool) * bool)) (uri : str) (verdict : bool) : Prop :=
  exists before cond after, rules = before ++ (cond, verdict) :: after /\ cond uri = true /\ Forall (fun r => fst r uri = false) before.
(** Without rules everything is permitted; with rules, what the first fitting rule permits. *)
Definition permitted (rules : list ((str -> bool) * bool)) (uri : str) : Prop := rules = [] \/ decides rules uri true.
Definition is_supported (s : str) : Prop := In s [lit "http"; lit "file"; lit "ftp"; lit "data"; lit "pkgdata"; lit "https"].

(** ** Equivalent URIs *)
Definition hex_digit (c n : N) : Prop :=
  (48 <= c <= 57 /\ n = c - 48) \/ (65 <= c <= 70 /\ n = c - 55) \/ (97 <= c <= 102 /\ n = c - 87).
Definition upcase (c : N) : N := if 97 <=? c then c - 32 else c.
(** Text in which every percent sign starts a triplet, on one line. *)
Definition text (s : str) : Prop := pct_wellformed s /\ ~ In 10 s.
Inductive step : str -> str -> Prop :=
(** a triplet of an unreserved character, and the character *)
| step_unreserved : forall x y a b m n, text x -> text y -> hex_digit a m -> hex_digit b n -> rfc_unreserved (16 * m + n) ->
    step (x ++ [37; a; b] ++ y) (x ++ [16 * m + n] ++ y)
(** a triplet in lower case, and in upper case *)
| step_case : forall x y a b m n, text x -> text y -> hex_digit a m -> hex_digit b n -> ~ 65 <= a <= 70 -> ~ 65 <= b <= 70 ->
    step (x ++ [37; a; b] ++ y) (x ++ [37; upcase a; upcase b] ++ y)
(** the case of the scheme *)
| step_scheme : forall s t r, scheme_name s -> scheme_name t -> map lower1 s = map lower1 t -> text r -> step (s ++ lit ":" ++ r) (t ++ lit ":" ++ r)
(** the host of files *)
| step_localhost : forall r, text r -> step (lit "file://localhost/" ++ r) (lit "file:///" ++ r).
Definition equivalent : str -> str -> Prop := clos_refl_sym_trans str step.
(** A URI: a scheme and text. *)
Definition uri (u : str) : Prop := has_scheme u /\ text u.
