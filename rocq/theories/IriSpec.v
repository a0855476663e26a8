(** * Specification of URI references, transcribed from RFC 3986.

    Nothing here refers to the model (IriModel.v). *)
From Coq Require Import NArith String List Bool.
From Verif Require Import PyStr.
Import ListNotations.
Open Scope N_scope.

(** The five components (RFC 3986 section 3 and appendix B): an absent
    component is [None], a present empty one is [Some []]. *)
Record components := Comp {
  scheme : option str; authority : option str; path : str;
  query : option str; fragment : option str }.

(** RFC 3986 section 5.3, component recomposition. *)
Definition recompose (c : components) : str :=
  (match scheme c with Some s => s ++ lit ":" | None => [] end)
  ++ (match authority c with Some a => lit "//" ++ a | None => [] end)
  ++ path c
  ++ (match query c with Some q => lit "?" ++ q | None => [] end)
  ++ (match fragment c with Some f => lit "#" ++ f | None => [] end).

Definition avoids (s : str) (bad : str) : Prop := forall x, In x bad -> ~ In x s.

(** Components that can be told apart again after recomposition. *)
Record legal (c : components) : Prop := {
  legal_scheme : forall s, scheme c = Some s -> s <> [] /\ avoids s (lit ":/?#");
  legal_auth : forall a, authority c = Some a -> avoids a (lit "/?#");
  legal_path : avoids (path c) (lit "?#");
  (* after an authority the path is empty or begins with a slash *)
  legal_path_auth : authority c <> None -> path c = [] \/ exists p, path c = lit "/" ++ p;
  (* without an authority the path does not begin with two slashes *)
  legal_path_noauth : authority c = None -> forall p, path c <> lit "//" ++ p;
  (* without scheme and authority, what precedes the first colon of the path is
     empty or contains a slash *)
  legal_path_noscheme : scheme c = None -> authority c = None ->
      forall a b, path c = a ++ lit ":" ++ b -> a = [] \/ In 58 a \/ In 47 a;
  legal_query : forall q, query c = Some q -> avoids q (lit "#") }.

(** ** RFC 3986 section 5.2.4: remove_dot_segments *)

(** "removing the last segment and its preceding "/" (if any) from the output buffer" *)
Definition drop_last_segment (out : str) : str :=
  match rbreak1 47 out with
  | ([], _) => []
  | (upto_slash, _) => removelast upto_slash
  end.

(** One loop iteration per unit of fuel; steps 2A to 2E in order. *)
Fixpoint rfc_dots (fuel : nat) (input out : str) : option str :=
  match fuel with
  | O => None
  | S n =>
    match input with
    | [] => Some out
    | c :: _ =>
      if prefixb (lit "../") input then rfc_dots n (skipn 3 input) out                      (* 2A *)
      else if prefixb (lit "./") input then rfc_dots n (skipn 2 input) out
      else if prefixb (lit "/./") input then rfc_dots n (lit "/" ++ skipn 3 input) out      (* 2B *)
      else if str_eqb input (lit "/.") then rfc_dots n (lit "/") out
      else if prefixb (lit "/../") input                                                    (* 2C *)
           then rfc_dots n (lit "/" ++ skipn 4 input) (drop_last_segment out)
      else if str_eqb input (lit "/..") then rfc_dots n (lit "/") (drop_last_segment out)
      else if str_eqb input (lit ".") || str_eqb input (lit "..") then rfc_dots n [] out    (* 2D *)
      else                                                                                  (* 2E *)
        let '(lead, rest) := if N.eqb c 47 then ([c], skipn 1 input) else ([], input) in
        let (seg, rest') := span (fun x => negb (N.eqb x 47)) rest in
        rfc_dots n rest' (out ++ lead ++ seg)
    end
  end.

(** Enough fuel for every path: each iteration shortens the input
    (lemma [rfc_dots_total] in IriDots.v). *)
Definition rfc_remove_dot_segments (p : str) : option str :=
  rfc_dots (S (List.length p)) p [].

(** ** RFC 3986 section 5.2.3: merge *)
Definition rfc_merge (base_auth : option str) (base_path ref_path : str) : str :=
  match base_auth, base_path with
  | Some _, [] => lit "/" ++ ref_path
  | _, _ => fst (rbreak1 47 base_path) ++ ref_path
  end.

(** ** RFC 3986 section 5.2.2: transform references (strict parser) *)
Definition omap {A B} (f : A -> B) (o : option A) : option B := match o with Some a => Some (f a) | None => None end.

Definition rfc_transform (R Base : components) : option components :=
  match scheme R with
  | Some s => omap (fun p => Comp (Some s) (authority R) p (query R) (fragment R))
                   (rfc_remove_dot_segments (path R))
  | None =>
    match authority R with
    | Some a => omap (fun p => Comp (scheme Base) (Some a) p (query R) (fragment R))
                     (rfc_remove_dot_segments (path R))
    | None =>
      match path R with
      | [] => Some (Comp (scheme Base) (authority Base) (path Base)
                         (match query R with Some q => Some q | None => query Base end)
                         (fragment R))
      | c :: _ =>
        omap (fun p => Comp (scheme Base) (authority Base) p (query R) (fragment R))
             (if N.eqb c 47 then rfc_remove_dot_segments (path R)
              else rfc_remove_dot_segments (rfc_merge (authority Base) (path Base) (path R)))
      end
    end
  end.

(** RFC 3986 section 3.1: [s] is a scheme name. *)
Definition scheme_name (s : str) : Prop :=
  exists c t, s = c :: t /\ is_alpha c = true /\
    Forall (fun x => is_alpha x = true \/ is_digit x = true \/ In x (lit "+-.")) t.

(** "Absolute" in the sense of the code base: has a scheme. *)
Definition has_scheme (u : str) : Prop := exists s r, u = s ++ lit ":" ++ r /\ scheme_name s.

(** The path has no "." or ".." segment. *)
Definition no_dot_segment (p : str) : Prop :=
  ~ In (lit ".") (split1 47 p) /\ ~ In (lit "..") (split1 47 p).

(** ** Percent-encoding (RFC 3986 section 2) *)

(** RFC 3986 section 2.3 *)
Definition rfc_unreserved (c : N) : Prop :=
  is_alpha c = true \/ is_digit c = true \/ In c (lit "-._~").
Definition upper_hex (c : N) : Prop := In c (lit "0123456789ABCDEF").
Definition any_hex (c : N) : Prop := In c (lit "0123456789ABCDEFabcdef").

(** Text made of unreserved characters and upper-case percent triplets. *)
Inductive uri_safe : str -> Prop :=
| safe_nil : uri_safe []
| safe_char : forall c s, rfc_unreserved c -> uri_safe s -> uri_safe (c :: s)
| safe_pct : forall a b s, upper_hex a -> upper_hex b -> uri_safe s -> uri_safe (37 :: a :: b :: s).

(** Text in which every percent sign starts a triplet. *)
Inductive pct_wellformed : str -> Prop :=
| pwf_nil : pct_wellformed []
| pwf_char : forall c s, c <> 37 -> pct_wellformed s -> pct_wellformed (c :: s)
| pwf_pct : forall a b s, any_hex a -> any_hex b -> pct_wellformed s -> pct_wellformed (37 :: a :: b :: s).

(** Unicode scalar values. *)
Definition scalar (c : N) : Prop := c < 55296 \/ (57344 <= c /\ c < 1114112).
