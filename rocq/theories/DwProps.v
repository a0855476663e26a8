(** * C118: SAX events from a tree *)
From Coq Require Import NArith String List Bool Permutation Lia.
From Verif Require Import PyStr PyErr DwModel DwSpec.
Import ListNotations.
Open Scope N_scope.

Lemma peqb_eq : forall a b, peqb a b = true <-> a = b.
Proof. intros [a|] [b|]; cbn; try (split; intro H; (discriminate H || congruence)). rewrite str_eqb_eq. split; congruence. Qed.
Lemma get_prefix_spec : forall q p, prefix_of q p -> get_prefix q = p.
Proof.
  intros q p H. destruct H as [p l H|q H].
  - induction p as [|c p IH]; [reflexivity|]. cbn [app get_prefix]. destruct (N.eqb_spec c 58) as [E|E]; [exfalso; apply H; now left|].
    rewrite IH; auto. intro; apply H; now right.
  - induction q as [|c q IH]; [reflexivity|]. cbn [get_prefix]. destruct (N.eqb_spec c 58) as [E|E]; [exfalso; apply H; now left|].
    rewrite IH; auto. intro; apply H; now right.
Qed.
Lemma maps_fun : forall env p u v, maps env p u -> maps env p v -> u = v.
Proof. intros env p u v H. induction H; intro K; inversion K; subst; auto; congruence. Qed.
(** The dictionary in force and the scope of the events agree. *)
Definition agree (d env : list (option str * str)) : Prop := forall p u, ns_get d p = Some u <-> maps env p u.
Lemma ns_get_set : forall d p u q, ns_get (ns_set d p u) q = if peqb q p then Some u else ns_get d q.
Proof.
  intros d p u q. induction d as [|[r v] d IH]; cbn [ns_set ns_get]; [reflexivity|].
  destruct (peqb p r) eqn:E; cbn [ns_get].
  - apply peqb_eq in E as ->. destruct (peqb q r); auto.
  - rewrite IH. destruct (peqb q r) eqn:F; auto. apply peqb_eq in F as ->.
    destruct (peqb r p) eqn:G; auto. apply peqb_eq in G as ->. assert (peqb p p = true) by (now apply peqb_eq). congruence.
Qed.
Lemma agree_set : forall d env p u, agree d env -> agree (ns_set d p u) ((p, u) :: env).
Proof.
  intros d env p u A q v. rewrite ns_get_set. destruct (peqb q p) eqn:E.
  - apply peqb_eq in E as ->. split; intro H; [injection H as ->; constructor|]. inversion H; subst; auto; congruence.
  - assert (q <> p) by (intro X; apply peqb_eq in X; congruence). rewrite (A q v).
    split; intro H0; [constructor; auto|]. inversion H0; subst; auto; congruence.
Qed.
Lemma node_ind2 : forall P : node -> Prop,
  (forall ns q l a x ch, Forall P ch -> P (Elem ns q l a x ch)) -> (forall s, P (Text s)) -> P Other -> forall n, P n.
Proof.
  intros P He Ht Ho. fix IH 1. intros [ns q l a x ch|s|]; [|apply Ht|apply Ho]. apply He.
  induction ch as [|n ch IHc]; constructor; [apply IH|exact IHc].
Qed.
Lemma visit_elem : forall ns q l a x ch cur, visit (Elem ns q l (Some a) x ch) cur =
  let '(cur', ds) := declare (match ns with Some u => [(get_prefix q, u)] | None => [] end) cur in
  do body <- visit_all ch cur' ;
  Ok (map (fun d => StartMapping (fst d) (snd d)) ds ++ StartElement ns l q [] :: body ++ EndElement ns l q :: map (fun d => EndMapping (fst d)) ds).
Proof.
  intros ns q l a x ch cur. cbn [visit dict_next bind collect].
  change (match ns with Some u => ns_set [] (get_prefix q) u | None => [] end) with (match ns with Some u => [(get_prefix q, u)] | None => [] end).
  destruct (declare _ cur) as [cur' ds]. f_equal.
  generalize cur'. clear. intro c. induction ch as [|n ch IH]; [reflexivity|]. cbn [visit_all]. now rewrite IH.
Qed.
Lemma reads_app : forall env e t, reads env e t -> forall e' t', reads env e' t' -> reads env (e ++ e') (t ++ t').
Proof.
  intros env e t H. induction H as [env|env s es ts H IH|env ds ns l q attrs body kids ends es ts ND NR HB IHB HM HP HE IHE]; intros e' t' H'; auto.
  - cbn [app]. constructor. auto.
  - rewrite <- !app_assoc.
    change (reads env (map (fun d => StartMapping (fst d) (snd d)) ds ++ [StartElement ns l q attrs] ++ body ++ [EndElement ns l q] ++ map EndMapping ends ++ (es ++ e'))
              (SElem ns l q attrs kids :: (ts ++ t'))).
    apply reads_elem; auto.
Qed.
Lemma visit_reads : forall n, mapped n -> forall cur env, agree cur env -> exists es, visit n cur = Ok es /\ reads env es (content n).
Proof.
  induction n as [ns q l a x ch IH|s|] using node_ind2; intros M cur env A.
  - destruct M as [Ma Mc]. destruct a as [a|]; [|congruence]. rewrite visit_elem.
    assert (K : forall cur env, agree cur env -> exists es, visit_all ch cur = Ok es /\ reads env es (flat_map content ch)).
    { clear -IH Mc. intros cur env A. induction ch as [|n ch IHc]; [exists []; split; [reflexivity|constructor]|].
      inversion IH as [|? ? H1 H2]; subst. cbn [map fold_right] in Mc. destruct Mc as [M1 M2].
      destruct (H1 M1 cur env A) as (e1 & E1 & R1). destruct (IHc H2 M2) as (e2 & E2 & R2).
      exists (e1 ++ e2). cbn [visit_all flat_map]. rewrite E1. cbn [bind]. rewrite E2. split; [reflexivity|]. now apply reads_app. }
    destruct ns as [u|].
    + cbn [declare].
      assert (D : (exists v, ns_get cur (get_prefix q) = Some v /\ str_eqb v u = true) \/ ns_get cur (get_prefix q) <> Some u).
      { destruct (ns_get cur (get_prefix q)) as [v|]; [|right; congruence]. destruct (str_eqb_spec v u) as [->|]; [left; exists u; split; auto; now apply str_eqb_eq|right; congruence]. }
      destruct D as [(v & Ev & Eb)|Ne].
      * rewrite Ev, Eb. destruct (K cur env A) as (es & Es & Rs). rewrite Es. cbn [bind]. eexists; split; [reflexivity|].
        apply (reads_elem env [] (Some u) l q [] es (flat_map content ch) [] [] []); [constructor|intros p w []|exact Rs| |apply perm_nil|constructor].
        intros w p Hw Hp. injection Hw as <-. apply get_prefix_spec in Hp. subst p. apply A. rewrite Ev. f_equal. now apply str_eqb_eq.
      * destruct (K (ns_set cur (get_prefix q) u) ((get_prefix q, u) :: env) (agree_set _ _ _ _ A)) as (es & Es & Rs).
        assert (G : (match ns_get cur (get_prefix q) with Some v => if str_eqb v u then (cur, []) else (ns_set cur (get_prefix q) u, [(get_prefix q, u)]) | None => (ns_set cur (get_prefix q) u, [(get_prefix q, u)]) end)
                    = (ns_set cur (get_prefix q) u, [(get_prefix q, u)])).
        { destruct (ns_get cur (get_prefix q)) as [v|]; auto. destruct (str_eqb_spec v u); auto. congruence. }
        rewrite G, Es. cbn [bind]. eexists; split; [reflexivity|].
        apply (reads_elem env [(get_prefix q, u)] (Some u) l q [] es (flat_map content ch) [get_prefix q] [] []); [constructor; [intros []|constructor]| |exact Rs| |apply Permutation_refl|constructor].
        -- intros p w [E|[]] Hm. injection E as <- <-. apply Ne. now apply A.
        -- intros w p Hw Hp. injection Hw as <-. apply get_prefix_spec in Hp. subst p. constructor.
    + cbn [declare]. destruct (K cur env A) as (es & Es & Rs). rewrite Es. cbn [bind]. eexists; split; [reflexivity|].
      apply (reads_elem env [] None l q [] es (flat_map content ch) [] [] []); [constructor|intros p w []|exact Rs| |apply perm_nil|constructor].
      intros w p Hw. discriminate Hw.
  - exists [Characters s]. split; [reflexivity|]. cbn [content]. repeat constructor.
  - exists []. split; [reflexivity|constructor].
Qed.
(** Elements, text and the namespaces of elements, where every element has a map of attributes. *)
Theorem C118_events_partial : forall children, Forall mapped children ->
  exists es, parse_dom children = Ok ([StartDocument] ++ es ++ [EndDocument]) /\ reads [] es (flat_map content children).
Proof.
  intros children H. unfold parse_dom.
  assert (K : exists es, visit_all children [] = Ok es /\ reads [] es (flat_map content children)).
  { induction H as [|n l Hn Hl IH]; [exists []; split; [reflexivity|constructor]|].
    destruct IH as (e2 & E2 & R2). destruct (visit_reads n Hn [] []) as (e1 & E1 & R1).
    { intros p u. split; intro K; inversion K. }
    exists (e1 ++ e2). cbn [visit_all flat_map]. rewrite E1. cbn [bind]. rewrite E2. split; [reflexivity|]. now apply reads_app. }
  destruct K as (es & -> & R). exists es. split; [reflexivity|exact R].
Qed.
Print Assumptions C118_events_partial.
(** A receiver with a stack of open elements. *)
Fixpoint receive (es : list event) (top : list seen) (below : list (list seen)) (tags : list (option str * str * str * list attribute)) : list seen :=
  match es with
  | [] => top
  | Characters s :: es' => receive es' (SText s :: top) below tags
  | StartElement ns l q a :: es' => receive es' [] (top :: below) ((ns, l, q, a) :: tags)
  | EndElement _ _ _ :: es' =>
    match below, tags with
    | t :: below', (ns, l, q, a) :: tags' => receive es' (SElem ns l q a (rev top) :: t) below' tags'
    | _, _ => top
    end
  | _ :: es' => receive es' top below tags
  end.
Lemma receive_reads : forall env es ts, reads env es ts -> forall rest top below tags,
  receive (es ++ rest) top below tags = receive rest (rev ts ++ top) below tags.
Proof.
  intros env es ts H. induction H as [env|env s es ts H IH|env ds ns l q attrs body kids ends es ts ND NR HB IHB HM HP HE IHE]; intros rest top below tags; auto.
  - cbn [app receive rev]. rewrite IH, <- app_assoc. reflexivity.
  - rewrite <- !app_assoc.
    assert (S1 : forall ds r t b g, receive (map (fun d : option str * str => StartMapping (fst d) (snd d)) ds ++ r) t b g = receive r t b g) by (clear; induction ds; intros; cbn [map app receive]; auto).
    assert (S2 : forall ends r t b g, receive (map EndMapping ends ++ r) t b g = receive r t b g) by (clear; induction ends; intros; cbn [map app receive]; auto).
    rewrite S1. cbn [app receive]. rewrite IHB. cbn [app receive]. rewrite app_nil_r, rev_involutive, S2, IHE. cbn [rev]. now rewrite <- app_assoc.
Qed.
(** Events say one thing only. *)
Theorem C118_unambiguous : forall env env' es ts ts', reads env es ts -> reads env' es ts' -> ts = ts'.
Proof.
  intros env env' es ts ts' H H'. pose proof (receive_reads _ _ _ H [] [] [] []) as E. pose proof (receive_reads _ _ _ H' [] [] [] []) as E'.
  rewrite E in E'. cbn [receive] in E'. rewrite !app_nil_r in E'. apply (f_equal (@rev seen)) in E'. now rewrite !rev_involutive in E'.
Qed.
Print Assumptions C118_unambiguous.
(** Attributes are never reported. *)
Theorem C118_attributes_refuted : forall children es ns l q attrs,
  parse_dom children = Ok es -> In (StartElement ns l q attrs) es -> attrs = [].
Proof.
  intros children es ns l q attrs H Hin. unfold parse_dom in H.
  assert (V : forall n cur es, visit n cur = Ok es -> In (StartElement ns l q attrs) es -> attrs = []).
  { clear. induction n as [ns' q' l' a x ch IH|s|] using node_ind2; intros cur es H Hin.
    - destruct a as [a|]; [|discriminate H]. rewrite visit_elem in H. destruct (declare _ cur) as [c ds].
      destruct (visit_all ch c) as [body|] eqn:E; cbn [bind] in H; [|discriminate H]. injection H as <-.
      apply in_app_or in Hin as [Hin|[Hin|Hin]].
      + apply in_map_iff in Hin as (d & D & _). discriminate D.
      + injection Hin; auto.
      + apply in_app_or in Hin as [Hin|[Hin|Hin]]; [|discriminate Hin|apply in_map_iff in Hin as (d & D & _); discriminate D].
        revert body E Hin. induction ch as [|n ch IHc]; intros body E Hin; cbn [visit_all] in E; [injection E as <-; destruct Hin|].
        inversion IH as [|? ? H1 H2]; subst. destruct (visit n c) as [e1|] eqn:E1; cbn [bind] in E; [|discriminate E].
        destruct (visit_all ch c) as [e2|] eqn:E2; cbn [bind] in E; [|discriminate E]. injection E as <-.
        apply in_app_or in Hin as [Hin|Hin]; [eapply H1; eauto|eapply (IHc H2); eauto].
    - injection H as <-. destruct Hin as [Hin|[]]. discriminate Hin.
    - injection H as <-. destruct Hin. }
  destruct (visit_all children []) as [body|] eqn:E; cbn [bind] in H; [|discriminate H]. injection H as <-.
  destruct Hin as [Hin|Hin]; [discriminate Hin|]. apply in_app_or in Hin as [Hin|[Hin|[]]]; [|discriminate Hin].
  revert body E Hin. induction children as [|n ch IHc]; intros body E Hin; cbn [visit_all] in E; [injection E as <-; destruct Hin|].
  destruct (visit n []) as [e1|] eqn:E1; cbn [bind] in E; [|discriminate E].
  destruct (visit_all ch []) as [e2|] eqn:E2; cbn [bind] in E; [|discriminate E]. injection E as <-.
  apply in_app_or in Hin as [Hin|Hin]; [eapply V; eauto|eapply IHc; eauto].
Qed.
Print Assumptions C118_attributes_refuted.
(** A tree with an element that never had an attribute is not walked: a null pointer is read. *)
Theorem C118_crash_refuted : forall children, ~ Forall mapped children -> parse_dom children = Err (OtherError 173).
Proof.
  assert (V : forall n cur, (exists es, visit n cur = Ok es) /\ mapped n \/ visit n cur = Err (OtherError 173) /\ ~ mapped n).
  { induction n as [ns q l a x ch IH|s|] using node_ind2; intro cur; [|left; split; [eexists; reflexivity|exact Logic.I]|left; split; [eexists; reflexivity|exact Logic.I]].
    destruct a as [a|]; [|right; split; [reflexivity|intros [M _]; congruence]]. rewrite visit_elem.
    destruct (declare _ cur) as [c ds].
    assert (K : (exists es, visit_all ch c = Ok es) /\ fold_right and True (map mapped ch) \/ visit_all ch c = Err (OtherError 173) /\ ~ fold_right and True (map mapped ch)).
    { induction IH as [|n ch H1 H2 IHc]; [left; split; [eexists; reflexivity|exact Logic.I]|]. cbn [visit_all map fold_right].
      destruct (H1 c) as [[(e & ->) M]|[-> M]]; cbn [bind]; [|right; split; [reflexivity|tauto]].
      destruct IHc as [[(e2 & ->) M2]|[-> M2]]; cbn [bind]; [left; split; [eexists; reflexivity|tauto]|right; split; [reflexivity|tauto]]. }
    destruct K as [[(e & ->) M]|[-> M]]; cbn [bind]; [left; split; [eexists; reflexivity|split; [congruence|exact M]]|right; split; [reflexivity|intros [_ X]; auto]]. }
  intros children H. unfold parse_dom.
  assert (K : Forall mapped children \/ visit_all children [] = Err (OtherError 173)).
  { clear H. induction children as [|n l IH]; [left; constructor|]. cbn [visit_all].
    destruct (V n []) as [[(e & ->) M]|[-> M]]; cbn [bind]; [|right; reflexivity].
    destruct IH as [IH| ->]; [left; constructor; auto|right; reflexivity]. }
  destruct K as [K| ->]; [tauto|reflexivity].
Qed.
Print Assumptions C118_crash_refuted.
(** An element outside of any namespace is read in the scope of a default namespace;
    and declared prefixes that no element uses are not reported. *)
Theorem C118_default_refuted : exists es,
  parse_dom [Elem (Some (lit "urn:x")) (lit "a") (lit "a") (Some []) [(None, lit "urn:x"); (Some (lit "p"), lit "urn:p")] [Elem None (lit "b") (lit "b") (Some []) [] []]] = Ok es /\
  es = [StartDocument; StartMapping None (lit "urn:x"); StartElement (Some (lit "urn:x")) (lit "a") (lit "a") [];
        StartElement None (lit "b") (lit "b") []; EndElement None (lit "b") (lit "b");
        EndElement (Some (lit "urn:x")) (lit "a") (lit "a"); EndMapping None; EndDocument].
Proof. eexists; split; [vm_compute; reflexivity|reflexivity]. Qed.
Print Assumptions C118_default_refuted.
Example C118_case : exists es,
  parse_dom [Other; Elem (Some (lit "urn:x")) (lit "p:a") (lit "a") (Some []) [] [Text (lit "t"); Elem (Some (lit "urn:y")) (lit "p:b") (lit "b") (Some []) [] []]] = Ok es /\
  nth 4 es EndDocument = StartMapping (Some (lit "p")) (lit "urn:y").
Proof. eexists; split; vm_compute; reflexivity. Qed.
