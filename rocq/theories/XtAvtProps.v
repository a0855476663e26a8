(** * C63: attribute value templates and the types of attributes

    The vocabulary is in XtAvtSpec: how a template is written, and what it stands for. *)
From Coq Require Import NArith String List Bool Lia.
From Verif Require Import PyStr PyErr XsModel XsSpec XsProofs XtAvt XtAvtSpec XtAvtProofs.
Import ListNotations.
Local Open Scope N_scope.

Section Props.
Context {E C : Type}.
Variable parse : str -> option E.
Variable ev : E -> C -> result str.
Variables (t : atype) (default : option str) (m : nss).

Lemma braces_out (v : str) : mem 123 v = false -> mem 125 v = false -> Forall (fun x => is_brace x = false) v.
Proof.
  intros A B. apply mem_false in A. apply mem_false in B. apply Forall_forall. intros x Hx. unfold is_brace.
  destruct (N.eqb_spec x 123) as [->|]; [contradiction|]. destruct (N.eqb_spec x 125) as [->|]; [contradiction|reflexivity].
Qed.
Lemma write1_plain (s : str) : Forall (fun x => is_brace x = false) (write1 (Chars s)) -> write1 (Chars s) = s.
Proof.
  cbn [write1]. induction s as [|c s IH]; [reflexivity|]. cbn [flat_map]. change ((c =? 123) || (c =? 125)) with (is_brace c). destruct (is_brace c) eqn:Bc; intros H.
  - inversion H; subst. congruence.
  - inversion H; subst. cbn [app]. f_equal. now apply IH.
Qed.
Lemma plain_template (c : C) (ps : list piece) : Forall (fun x => is_brace x = false) (write ps) ->
  (forall v, stands_for parse ev c ps v -> v = write ps) /\ (forall x, ~ fails parse ev c ps x).
Proof.
  unfold write. induction ps as [|[s|t0] ps IH]; intros H.
  - split; [intros v Hv; now inversion Hv|intros x Hx; inversion Hx].
  - cbn [flat_map] in *. apply Forall_app in H. destruct H as [H1 H2]. destruct (IH H2) as [A B]. split.
    + intros v Hv. inversion Hv; subst. rewrite (write1_plain s H1). f_equal. now apply A.
    + intros x Hx. inversion Hx; subst. eapply B. eassumption.
  - exfalso. cbn [flat_map write1 app] in H. inversion H; subst. discriminate.
Qed.

(** An attribute that is written as a template has the characters and the values of the expressions in order,
    checked against the type of the attribute. *)
Theorem C63_value : forall c ps v, template parse ps -> stands_for parse ev c ps v ->
  attribute_value parse ev t default m (Some (write ps)) c = reprocess t default m (Some v).
Proof.
  intros c ps v T S. unfold attribute_value, prepare. destruct (negb (mem 123 (write ps)) && negb (mem 125 (write ps))) eqn:Eb.
  - apply andb_true_iff in Eb. destruct Eb as [A B]. apply negb_true_iff in A. apply negb_true_iff in B.
    rewrite (proj1 (plain_template c ps (braces_out _ A B)) v S). destruct (reprocess t default m (Some (write ps))); reflexivity.
  - destruct (template_init parse ev ps T) as (a & -> & Hv & _). cbn [bind evaluate]. now rewrite (Hv c v S).
Qed.
(** The first expression that fails makes the attribute fail. *)
Theorem C63_failure : forall c ps x, template parse ps -> fails parse ev c ps x ->
  attribute_value parse ev t default m (Some (write ps)) c = Err x.
Proof.
  intros c ps x T S. unfold attribute_value, prepare. destruct (negb (mem 123 (write ps)) && negb (mem 125 (write ps))) eqn:Eb.
  - apply andb_true_iff in Eb. destruct Eb as [A B]. apply negb_true_iff in A. apply negb_true_iff in B.
    exfalso. exact (proj2 (plain_template c ps (braces_out _ A B)) x S).
  - destruct (template_init parse ev ps T) as (a & -> & _ & Hf). cbn [bind evaluate]. now rewrite (Hf c x S).
Qed.
(** Nothing else can happen to a template. *)
Theorem C63_complete : forall c ps, template parse ps -> (exists v, stands_for parse ev c ps v) \/ exists x, fails parse ev c ps x.
Proof. apply value_or_failure. Qed.
(** A value with braces is refused when the stylesheet is read if, and only if, it is not a template. *)
Theorem C63_refused : forall v, In 123 v \/ In 125 v ->
  (prepare parse t default m (Some v) = Err InvalidAvt <-> ~ exists ps, template parse ps /\ write ps = v) /\
  ((exists a, prepare parse t default m (Some v) = Ok a) <-> exists ps, template parse ps /\ write ps = v).
Proof.
  intros v Hb. unfold prepare. assert (negb (mem 123 v) && negb (mem 125 v) = false) as ->.
  { destruct Hb as [H|H]; apply mem_In in H; rewrite H; [reflexivity|]. apply andb_false_r. }
  destruct (avt_init parse v) as [a|x] eqn:Ea.
  - split; split; [discriminate|intros N; exfalso; apply N; exact (init_template parse v a Ea)|intros _; exact (init_template parse v a Ea)|eauto].
  - apply (init_errors parse ev) in Ea. destruct Ea as [-> N]. split; split; [intros _; exact N|reflexivity|intros [a [=]]|intros H; contradiction].
Qed.
(** Without braces the value is checked when the stylesheet is read, and used as it is. *)
Theorem C63_plain : forall v, ~ In 123 v -> ~ In 125 v ->
  prepare parse t default m (Some v) = rmap Constant (reprocess t default m (Some v)) /\
  forall c, attribute_value parse ev t default m (Some v) c = reprocess t default m (Some v).
Proof.
  intros v A B. apply mem_false in A. apply mem_false in B. assert (negb (mem 123 v) && negb (mem 125 v) = true) as Eb by (rewrite A, B; reflexivity). split.
  - unfold prepare. now rewrite Eb.
  - intros c. unfold attribute_value, prepare. rewrite Eb. destruct (reprocess t default m (Some v)); reflexivity.
Qed.
(** An attribute that is not there has its default value. *)
Theorem C63_default : forall c, attribute_value parse ev t default m None c = reprocess t default m default.
Proof. intros c. unfold attribute_value, prepare. destruct (reprocess t default m default); reflexivity. Qed.
End Props.
Print Assumptions C63_value.
Print Assumptions C63_failure.
Print Assumptions C63_complete.
Print Assumptions C63_refused.
Print Assumptions C63_plain.
Print Assumptions C63_default.

(** ** The types *)

(** [bound m p ns]: the prefix [p] is bound to [ns] in the namespaces of the element. *)
Definition bound (m : nss) (p : str) (ns : option str) : Prop := In (Some p, ns) m.

(** The values an attribute of each type may have, and what they stand for. *)
Definition conforms (t : atype) (m : nss) (s : str) (v : aval) : Prop :=
  match t with
  | TString => v = VStr s
  | TChoice values => In s values /\ v = VStr s
  | TChar => length s = 1%nat /\ v = VStr s
  | TNamespace => s <> lit "http://www.w3.org/XML/1998/namespace" /\ s <> lit "http://www.w3.org/2000/xmlns/" /\ v = VStr s
  | TId => name s /\ v = VStr s
  | TQName => (ncname s /\ v = VName None s) \/ exists p l ns, ncname p /\ ncname l /\ s = p ++ 58 :: l /\ bound m p ns /\ v = VName ns l
  | TRawQName => (ncname s /\ v = VRaw None s) \/ exists p l, ncname p /\ ncname l /\ s = p ++ 58 :: l /\ v = VRaw (Some p) l
  | TNCName => ncname s /\ v = VStr s
  | TPrefix => (s = lit "#default" /\ v = VNone) \/ (ncname s /\ v = VStr s)
  | TNmtoken => nmtoken s /\ v = VStr s
  end.

Lemma ncname_zero (s : str) : ncname s -> ~ In 0 s.
Proof.
  intros (c & r & -> & Hc & Hr) [->|H].
  - destruct Hc as [Hc|Hc]; [|discriminate]. apply zero_no_char, start_is_char. now left.
  - rewrite Forall_forall in Hr. destruct (Hr 0 H) as [K _]. now apply zero_no_char.
Qed.
Lemma qname_zero (s : str) : qname s -> ~ In 0 s.
Proof.
  intros [H|(p & l & Hp & Hl & ->)]; [now apply ncname_zero|]. intros H. apply in_app_or in H. destruct H as [H|[H|H]]; [now apply ncname_zero in Hp|discriminate|now apply ncname_zero in Hl].
Qed.
Lemma no_zero_of (s : str) : ~ In 0 s -> no_zero s.
Proof. intros H. apply Forall_forall. intros c Hc ->. contradiction. Qed.
Lemma lookup_bound (m : nss) (p : str) (ns : option str) : NoDup (map fst m) -> bound m p ns -> lookup m (Some p) = Some ns.
Proof.
  unfold lookup, bound. induction m as [|[k x] m IH]; intros D H; [destruct H|]. cbn [map fst] in D. inversion D; subst. cbn [find fst]. destruct H as [H|H].
  - injection H as -> ->. cbn [opt_eqb]. rewrite str_eqb_refl. reflexivity.
  - destruct k as [k|]; cbn [opt_eqb]; [|now apply IH]. destruct (str_eqb k p) eqn:Ek; [|now apply IH].
    apply str_eqb_eq in Ek. subst. exfalso. apply H2. apply in_map_iff. exists (Some p, ns). now split.
Qed.
Lemma lookup_in (m : nss) (p : str) (ns : option str) : lookup m (Some p) = Some ns -> bound m p ns.
Proof.
  unfold lookup, bound. induction m as [|[k x] m IH]; [discriminate|]. cbn [find fst]. destruct k as [k|]; cbn [opt_eqb]; [|intros H; right; now apply IH].
  destruct (str_eqb k p) eqn:Ek; [|intros H; right; now apply IH]. apply str_eqb_eq in Ek. subst. intros [= <-]. now left.
Qed.
Lemma nonempty_ncname (s : str) : ncname s -> exists c r, s = c :: r.
Proof. intros (c & r & -> & _). eauto. Qed.

(** Every value that conforms to its type is accepted. *)
Theorem C63_conforming : forall t default m s v, NoDup (map fst m) -> conforms t m s v -> reprocess t default m (Some s) = Ok v.
Proof.
  intros t default m s v D. destruct t as [|values| | | | | | | |]; cbn [conforms reprocess].
  - now intros ->.
  - intros [Hi ->]. assert (existsb (str_eqb s) values = true) as ->; [|reflexivity]. apply existsb_exists. exists s. split; [exact Hi|apply str_eqb_refl].
  - intros [Hl ->]. rewrite Hl. reflexivity.
  - intros (A & B & ->). destruct (str_eqb s (lit "http://www.w3.org/XML/1998/namespace")) eqn:E1; [apply str_eqb_eq in E1; contradiction|].
    destruct (str_eqb s (lit "http://www.w3.org/2000/xmlns/")) eqn:E2; [apply str_eqb_eq in E2; contradiction|reflexivity].
  - intros [(c & r & -> & _) ->]. reflexivity.
  - intros H. assert (qname s) as Q. { destruct H as [[H _]|(p & l & ns & Hp & Hl & -> & _)]; [now left|right; eauto]. }
    rewrite (proj2 (is_qname_ok s (no_zero_of s (qname_zero s Q))) Q). unfold qname_value, split_qname. destruct H as [[H ->]|(p & l & ns & Hp & Hl & -> & Hb & ->)].
    + apply ncname_no_colon in H. apply break_none in H. rewrite H. reflexivity.
    + assert (break1 58 (p ++ 58 :: l) = Some (p, l)) as -> by (apply break_some; split; [reflexivity|now apply ncname_no_colon]).
      destruct (nonempty_ncname p Hp) as (c & r & ->). rewrite (lookup_bound m _ ns D Hb). reflexivity.
  - intros H. assert (qname s) as Q. { destruct H as [[H _]|(p & l & Hp & Hl & -> & _)]; [now left|right; eauto]. }
    rewrite (proj2 (is_qname_ok s (no_zero_of s (qname_zero s Q))) Q). unfold split_qname. destruct H as [[H ->]|(p & l & Hp & Hl & -> & ->)].
    + apply ncname_no_colon in H. apply break_none in H. rewrite H. reflexivity.
    + assert (break1 58 (p ++ 58 :: l) = Some (p, l)) as -> by (apply break_some; split; [reflexivity|now apply ncname_no_colon]). reflexivity.
  - intros [H ->]. pose proof (ncname_no_colon s H) as K. apply mem_false in K. destruct (nonempty_ncname s H) as (c & r & ->). rewrite K. reflexivity.
  - intros [[-> ->]|[H ->]]; [reflexivity|]. pose proof (ncname_no_colon s H) as K. apply mem_false in K. rewrite K. destruct (str_eqb s (lit "#default")) eqn:Es.
    + exfalso. apply str_eqb_eq in Es. subst s. apply (proj2 (is_ncname_ok (lit "#default") ltac:(repeat constructor; discriminate))) in H. vm_compute in H. discriminate.
    + destruct (nonempty_ncname s H) as (c & r & ->). reflexivity.
  - intros [[Hn _] ->]. destruct s; [contradiction|reflexivity].
Qed.
Print Assumptions C63_conforming.

(** For strings, choices, namespaces and names, nothing else is. *)
Theorem C63_nothing_else_partial : forall t default m s v, ~ In 0 s -> match t with TString | TChoice _ | TNamespace | TQName | TRawQName => True | _ => False end ->
  reprocess t default m (Some s) = Ok v -> conforms t m s v.
Proof.
  intros t default m s v Z. destruct t as [|values| | | | | | | |]; cbn [conforms reprocess]; try contradiction; intros _.
  - now intros [= <-].
  - destruct (existsb (str_eqb s) values) eqn:Ex; [|discriminate]. intros [= <-]. apply existsb_exists in Ex. destruct Ex as (x & Hx & Ex). apply str_eqb_eq in Ex. subst. now split.
  - destruct (str_eqb s (lit "http://www.w3.org/XML/1998/namespace")) eqn:E1; [discriminate|]. destruct (str_eqb s (lit "http://www.w3.org/2000/xmlns/")) eqn:E2; [discriminate|].
    intros [= <-]. split; [intros ->; now rewrite str_eqb_refl in E1|]. split; [intros ->; now rewrite str_eqb_refl in E2|reflexivity].
  - destruct (is_qname s) eqn:Eq; [|discriminate]. apply is_qname_ok in Eq; [|now apply no_zero_of]. unfold qname_value, split_qname. destruct Eq as [H|(p & l & Hp & Hl & ->)].
    + pose proof (ncname_no_colon s H) as K. apply break_none in K. rewrite K. intros [= <-]. left. now split.
    + assert (break1 58 (p ++ 58 :: l) = Some (p, l)) as -> by (apply break_some; split; [reflexivity|now apply ncname_no_colon]).
      destruct p as [|c p]; [destruct Hp as (? & ? & [=] & _)|]. destruct (lookup m (Some (c :: p))) as [ns|] eqn:El; [|discriminate]. intros [= <-]. right.
      exists (c :: p), l, ns. repeat split; try assumption. now apply lookup_in.
  - destruct (is_qname s) eqn:Eq; [|discriminate]. apply is_qname_ok in Eq; [|now apply no_zero_of]. unfold split_qname. destruct Eq as [H|(p & l & Hp & Hl & ->)].
    + pose proof (ncname_no_colon s H) as K. apply break_none in K. rewrite K. intros [= <-]. left. now split.
    + assert (break1 58 (p ++ 58 :: l) = Some (p, l)) as -> by (apply break_some; split; [reflexivity|now apply ncname_no_colon]). intros [= <-]. right. eauto 10.
Qed.
Print Assumptions C63_nothing_else_partial.

(** For the other types, something else is, but never more than one character
    for a single character, and never the empty text or a colon for a name. *)
Theorem C63_little_else_partial : forall t default m s v, reprocess t default m (Some s) = Ok v ->
  match t with
  | TChar => s = [] \/ conforms TChar m s v
  | TNCName => s <> [] /\ ~ In 58 s /\ v = VStr s
  | TPrefix => s <> [] /\ ~ In 58 s /\ (s = lit "#default" /\ v = VNone \/ s <> lit "#default" /\ v = VStr s)
  | TNmtoken | TId => s <> [] /\ v = VStr s
  | _ => True
  end.
Proof.
  intros t default m s v. destruct t as [|values| | | | | | | |]; cbn [conforms reprocess]; try (intros _; exact Logic.I).
  - destruct (Nat.ltb 1 (length s)) eqn:L; [discriminate|]. intros [= <-]. apply PeanoNat.Nat.ltb_ge in L. destruct s as [|c [|d s]]; [now left|right; now split|cbn [length] in L; lia].
  - destruct s; [discriminate|]. intros [= <-]. split; [discriminate|reflexivity].
  - destruct s as [|c s]; [discriminate|]. destruct (mem 58 (c :: s)) eqn:M; [discriminate|]. intros [= <-]. apply mem_false in M. split; [discriminate|]. now split.
  - destruct s as [|c s]; [discriminate|]. destruct (mem 58 (c :: s)) eqn:M; [discriminate|]. apply mem_false in M. destruct (str_eqb (c :: s) (lit "#default")) eqn:E; intros [= <-]; (split; [discriminate|]); (split; [exact M|]).
    + left. apply str_eqb_eq in E. now split.
    + right. split; [intros Q; rewrite Q in E; discriminate E|reflexivity].
  - destruct s; [discriminate|]. intros [= <-]. split; [discriminate|reflexivity].
Qed.
Print Assumptions C63_little_else_partial.

(** The empty text is accepted as a single character; "a b" as a name without colon, as a prefix, as a name token and as an id. *)
Theorem C63_types_refuted : reprocess TChar None [] (Some []) = Ok (VStr []) /\ ~ conforms TChar [] [] (VStr []) /\
  (let s := lit "a b" in reprocess TNCName None [] (Some s) = Ok (VStr s) /\ reprocess TPrefix None [] (Some s) = Ok (VStr s) /\
    reprocess TNmtoken None [] (Some s) = Ok (VStr s) /\ reprocess TId None [] (Some s) = Ok (VStr s) /\
    ~ conforms TNCName [] s (VStr s) /\ ~ conforms TPrefix [] s (VStr s) /\ ~ conforms TNmtoken [] s (VStr s) /\ ~ conforms TId [] s (VStr s)).
Proof.
  assert (~ ncname (lit "a b")) as A. { intros (c & r & Es & _ & Hr). injection Es as <- <-. inversion Hr as [|? ? [K _]]; subst. now apply space_no_name. }
  split; [reflexivity|]. split; [intros [[=] _]|]. cbv zeta. do 4 (split; [reflexivity|]). cbn [conforms]. split; [intros [H _]; auto|]. split; [intros [[[=] _]|[H _]]; auto|].
  split; intros [H _].
  - destruct H as [_ H]. inversion H as [|? ? _ H']; subst. inversion H' as [|? ? K]; subst. now apply space_no_name.
  - destruct H as (c & r & Es & _ & Hr). injection Es as <- <-. inversion Hr as [|? ? K]; subst. now apply space_no_name.
Qed.
Print Assumptions C63_types_refuted.

(** A value that is not one of the choices, and a prefix that is not bound, are not reported as errors of the stylesheet:
    building the error fails with an error of Python. *)
Theorem C63_errors_refuted :
  reprocess (TChoice [lit "text"; lit "number"]) (Some (lit "text")) [] (Some (lit "date")) = Err TypeError /\
  reprocess TQName None [] (Some (lit "p:name")) = Err NameError.
Proof. split; reflexivity. Qed.
Print Assumptions C63_errors_refuted.

(** ** A concrete template: "100% {{of}} {$x} and {'}'}!" *)
Definition toy_parse (t : str) : option str := match t with [] => None | _ => Some t end.
Definition toy_ev (e : str) (c : str) : result str := if str_eqb e (lit "$x") then Ok c else if str_eqb e (lit "'}'") then Ok [125] else Err TypeError.
Definition toy : list piece := [Chars (lit "100% {of} "); Expr (lit "$x"); Chars (lit " and "); Expr (lit "'}'"); Chars (lit "!")].
Example C63_case : template toy_parse toy /\ write toy = lit "100% {{of}} {$x} and {'}'}!" /\ stands_for toy_parse toy_ev (lit "%s") toy (lit "100% {of} %s and }!") /\
  attribute_value toy_parse toy_ev TString None [] (Some (lit "100% {{of}} {$x} and {'}'}!")) (lit "%s") = Ok (VStr (lit "100% {of} %s and }!")) /\
  fails toy_parse toy_ev [] [Chars (lit "a"); Expr (lit "b")] TypeError /\
  prepare toy_parse TString None [] (Some (lit "a}")) = Err InvalidAvt.
Proof.
  assert (template toy_parse toy) as T.
  { constructor; [exact I|]. constructor; [|constructor; [exact I|constructor; [|constructor; [exact I|constructor]]]].
    - split; [repeat (constructor; [discriminate|discriminate|discriminate|]); constructor|]. split; [discriminate|eexists; reflexivity].
    - split; [apply (closed_literal 39 [125] []); [now left|intros [[=]|[]]|constructor]|]. split; [discriminate|eexists; reflexivity]. }
  assert (write toy = lit "100% {{of}} {$x} and {'}'}!") as W by (vm_compute; reflexivity).
  assert (stands_for toy_parse toy_ev (lit "%s") toy (lit "100% {of} %s and }!")) as S.
  { apply (SF_chars toy_parse toy_ev (lit "%s") (lit "100% {of} ") _ (lit "%s and }!")). apply (SF_expr toy_parse toy_ev (lit "%s") (lit "$x") (lit "$x") _ (lit "%s") (lit " and }!")); [reflexivity|reflexivity|].
    apply (SF_chars toy_parse toy_ev (lit "%s") (lit " and ") _ (lit "}!")). apply (SF_expr toy_parse toy_ev (lit "%s") (lit "'}'") (lit "'}'") _ [125] (lit "!")); [reflexivity|reflexivity|].
    apply (SF_chars toy_parse toy_ev (lit "%s") (lit "!") [] []). constructor. }
  split; [exact T|]. split; [exact W|]. split; [exact S|]. split; [rewrite <- W; exact (C63_value toy_parse toy_ev TString None [] _ toy _ T S)|].
  split; [constructor; eapply F_here; reflexivity|vm_compute; reflexivity].
Qed.
