(** * Namespace declarations written by the visitor *)
From Coq Require Import NArith ZArith String List Bool Lia Arith Permutation.
From Verif Require Import PyStr PyErr SerModel SerSpec SerStream SerPrint SerVisit SerRead SerTree.
Import ListNotations.
Open Scope N_scope.

(** ** Dictionaries *)
Lemma okey_eqb_spec : forall a b, reflect (a = b) (okey_eqb a b).
Proof.
  intros [a|] [b|]; cbn; try (constructor; congruence).
  destruct (str_eqb_spec a b); constructor; congruence.
Qed.
Lemma okey_eqb_refl : forall a, okey_eqb a a = true.
Proof. intro a. destruct (okey_eqb_spec a a); congruence. Qed.

Lemma dget_dset : forall d k v k', dget (dset d k v) k' = if okey_eqb k k' then Some v else dget d k'.
Proof.
  induction d as [|[a w] d IH]; intros k v k'; cbn [dset dget]; [reflexivity|].
  destruct (okey_eqb_spec a k) as [->|Hn]; cbn [dget].
  - destruct (okey_eqb_spec k k'); reflexivity.
  - rewrite IH. destruct (okey_eqb_spec a k') as [->|]; [|reflexivity].
    destruct (okey_eqb_spec k k'); [congruence|reflexivity].
Qed.
Lemma dset_keys : forall d k v x, In x (map fst (dset d k v)) -> x = k \/ In x (map fst d).
Proof.
  induction d as [|[a w] d IH]; intros k v x; cbn [dset map]; [cbn; intuition congruence|].
  destruct (okey_eqb_spec a k) as [->|Hn]; cbn [map In fst]; [intuition|].
  intros [->|H]; [auto|]. apply IH in H. intuition.
Qed.
Lemma dset_nodup : forall d k v, NoDup (map fst d) -> NoDup (map fst (dset d k v)).
Proof.
  induction d as [|[a w] d IH]; intros k v H; cbn [dset map]; [repeat constructor; intros []|].
  inversion H as [|? ? Hn Hd]; subst. destruct (okey_eqb_spec a k) as [->|Hak]; cbn [map fst]; constructor; auto.
  intro Hin. apply dset_keys in Hin as [->|Hin]; congruence.
Qed.
Lemma filter_nodup : forall (f : option str * str -> bool) d, NoDup (map fst d) -> NoDup (map fst (filter f d)).
Proof.
  induction d as [|e d IH]; intro H; cbn [filter]; [constructor|]. inversion H as [|? ? Hn Hd]; subst.
  destruct (f e); [|auto]. cbn [map]. constructor; [|auto].
  intro Hin. apply Hn. apply in_map_iff in Hin as (x & <- & Hx). apply filter_In in Hx as [Hx _]. now apply in_map.
Qed.
Lemma dget_In : forall d k v, dget d k = Some v -> In (k, v) d.
Proof.
  induction d as [|[a w] d IH]; intros k v; cbn [dget]; [discriminate|].
  destruct (okey_eqb_spec a k) as [->|]; intro H; [left; congruence|right; auto].
Qed.
Lemma In_dget : forall d k v, NoDup (map fst d) -> In (k, v) d -> dget d k = Some v.
Proof.
  induction d as [|[a w] d IH]; intros k v Hd Hin; [destruct Hin|]. inversion Hd as [|? ? Hn Hd']; subst. cbn [dget].
  destruct Hin as [E|Hin].
  - inversion E; subst. now rewrite okey_eqb_refl.
  - destruct (okey_eqb_spec a k) as [->|]; [|auto]. exfalso. apply Hn. apply in_map_iff. exists (k, v). auto.
Qed.
Lemma dget_None : forall d k, dget d k = None <-> ~ In k (map fst d).
Proof.
  induction d as [|[a w] d IH]; intro k; cbn [dget map In fst]; [tauto|].
  destruct (okey_eqb_spec a k) as [->|]; [split; [discriminate|tauto]|]. rewrite IH. tauto.
Qed.
Lemma dget_filter : forall f d k, NoDup (map fst d) ->
  dget (filter f d) k = match dget d k with Some v => if f (k, v) then Some v else None | None => None end.
Proof.
  induction d as [|[a w] d IH]; intros k H; [reflexivity|]. inversion H as [|? ? Hn Hd]; subst. cbn [filter dget].
  destruct (okey_eqb_spec a k) as [->|Hak].
  - destruct (f (k, w)); cbn [dget]; [now rewrite okey_eqb_refl|].
    rewrite IH by assumption. apply dget_None in Hn. cbn [fst] in Hn. now rewrite Hn.
  - destruct (f (a, w)); cbn [dget]; [|now apply IH].
    destruct (okey_eqb_spec a k); [congruence|]. now apply IH.
Qed.
Lemma dget_ddel : forall d k k', dget (ddel d k) k' = if okey_eqb k k' then None else dget d k'.
Proof.
  intros d k k'. unfold ddel. induction d as [|[a w] d IH]; cbn [filter dget fst].
  - destruct (okey_eqb k k'); reflexivity.
  - destruct (okey_eqb_spec a k) as [->|Hak]; cbn [negb dget].
    + rewrite IH. destruct (okey_eqb_spec k k'); reflexivity.
    + destruct (okey_eqb_spec a k') as [->|]; [|assumption].
      destruct (okey_eqb_spec k k'); [congruence|reflexivity].
Qed.
Lemma dget_dupdate : forall e d k, NoDup (map fst e) ->
  dget (dupdate d e) k = match dget e k with Some v => Some v | None => dget d k end.
Proof.
  unfold dupdate. induction e as [|[a w] e IH]; intros d k H; [reflexivity|]. inversion H as [|? ? Hn He]; subst.
  cbn [fold_left fst snd]. rewrite IH by assumption. cbn [dget]. rewrite dget_dset.
  destruct (okey_eqb_spec a k) as [->|]; [|reflexivity]. cbn [fst] in Hn. apply dget_None in Hn. now rewrite Hn.
Qed.

(** ** In-scope namespaces *)
Definition usable (d : option str * str) : bool :=
  negb ((match snd d with [] => true | _ => false end) && (match fst d with None => true | _ => false end)).

Lemma inscope_level_get : forall decls acc k, NoDup (map fst decls) ->
  dget (inscope_level acc decls) k = match dget acc k with Some v => Some v | None => dget (filter usable decls) k end.
Proof.
  unfold inscope_level. induction decls as [|[a w] decls IH]; intros acc k H; cbn [fold_left filter].
  - destruct (dget acc k); reflexivity.
  - inversion H as [|? ? Hn Hd]; subst. unfold usable at 1.
    destruct ((match snd (a, w) with [] => true | _ => false end) && (match fst (a, w) with None => true | _ => false end)); cbn [negb].
    + now rewrite IH.
    + rewrite IH by assumption. cbn [fst snd]. cbn [dget]. destruct (dget acc a) as [va|] eqn:Ea.
      * destruct (dget acc k) eqn:Ek; [reflexivity|]. destruct (okey_eqb_spec a k) as [->|]; [congruence|reflexivity].
      * rewrite dget_dset. destruct (okey_eqb_spec a k) as [->|]; [now rewrite Ea|reflexivity].
Qed.
Lemma inscope_level_nodup : forall decls acc, NoDup (map fst acc) -> NoDup (map fst (inscope_level acc decls)).
Proof.
  unfold inscope_level. induction decls as [|[a w] decls IH]; intros acc H; cbn [fold_left]; [assumption|].
  apply IH. destruct (_ && _); [assumption|]. destruct (dget acc _); [assumption|]. now apply dset_nodup.
Qed.
Lemma inscope_nodup : forall chain, NoDup (map fst (inscope chain)).
Proof.
  intro chain. unfold inscope.
  assert (H : NoDup (map fst [(Some (lit "xml"), XML_NAMESPACE)])) by (repeat constructor; intros []).
  revert H. generalize [(Some (lit "xml"), XML_NAMESPACE)]. induction chain as [|d chain IH]; intros acc H; cbn [fold_left]; [assumption|].
  apply IH. now apply inscope_level_nodup.
Qed.

(** The nearest usable declaration of a prefix. *)
Fixpoint lookup (chain : list nsdict) (k : option str) : option str :=
  match chain with
  | [] => None
  | d :: chain' => match dget (filter usable d) k with Some v => Some v | None => lookup chain' k end
  end.
Lemma inscope_get : forall chain k, Forall legal_decls chain ->
  dget (inscope chain) k = if okey_eqb k (Some (lit "xml")) then Some XML_NAMESPACE else lookup chain k.
Proof.
  intros chain k Hc. unfold inscope.
  assert (H : forall acc, dget (fold_left inscope_level chain acc) k = match dget acc k with Some v => Some v | None => lookup chain k end).
  { induction Hc as [|d chain [Hd _] Hc IH]; intro acc; cbn [fold_left lookup].
    - destruct (dget acc k); reflexivity.
    - rewrite IH, inscope_level_get by assumption. destruct (dget acc k); [reflexivity|].
      destruct (dget (filter usable d) k); reflexivity. }
  rewrite H. cbn [dget].
  destruct (okey_eqb_spec (Some (lit "xml")) k) as [<-|Hn]; [now rewrite okey_eqb_refl|].
  destruct (okey_eqb_spec k (Some (lit "xml"))); [congruence|reflexivity].
Qed.

Definition legal_bind (k : option str) (v : str) : Prop :=
  match k with
  | None => v <> xml_uri /\ v <> xmlns_uri
  | Some p => ncname p /\ p <> lit "xmlns" /\ v <> [] /\ v <> xmlns_uri /\ (p = lit "xml" <-> v = xml_uri)
  end.
Lemma legal_decls_bind : forall d k v, legal_decls d -> In (k, v) d -> legal_bind k v /\ chars v.
Proof.
  intros d k v [_ HF] Hin. rewrite Forall_forall in HF. specialize (HF _ Hin). cbn [fst snd] in HF.
  destruct HF as [Hc HF]. split; [|exact Hc]. destruct k; exact HF.
Qed.

Lemma lookup_In : forall chain k v, lookup chain k = Some v -> (exists d, In d chain /\ In (k, v) d) /\ usable (k, v) = true.
Proof.
  induction chain as [|d chain IH]; intros k v; cbn [lookup]; [discriminate|].
  destruct (dget (filter usable d) k) as [w|] eqn:E; intro H.
  - inversion H; subst. apply dget_In in E. apply filter_In in E as [E1 E2]. split; [|exact E2]. exists d. split; [now left|assumption].
  - destruct (IH _ _ H) as [(d' & ? & ?) ?]. split; [|assumption]. exists d'. split; [now right|assumption].
Qed.
Lemma lookup_legal : forall chain k v, Forall legal_decls chain -> lookup chain k = Some v -> legal_bind k v /\ chars v /\ v <> [].
Proof.
  intros chain k v Hc H. apply lookup_In in H as [(d & Hd & Hin) Hu]. rewrite Forall_forall in Hc.
  destruct (legal_decls_bind d k v (Hc _ Hd) Hin) as [Hb Hch]. repeat split; auto.
  intros ->. destruct k as [p|]; [|discriminate]. destruct Hb as (_ & _ & Hne & _). congruence.
Qed.

Lemma declared_get : forall decls sc k, NoDup (map fst decls) ->
  declared sc decls k = match dget decls k with Some [] => None | Some u => Some u | None => sc k end.
Proof.
  unfold declared. induction decls as [|[a w] decls IH]; intros sc k H; cbn [fold_left]; [reflexivity|].
  inversion H as [|? ? Hn Hd]; subst. rewrite IH by assumption. cbn [fst snd dget] in *. apply dget_None in Hn.
  assert (EB : forall v, bind_scope sc a v k = if okey_eqb a k then v else sc k).
  { intro v. unfold bind_scope, okey_eqb. destruct a, k; try reflexivity. }
  rewrite EB. destruct (okey_eqb_spec a k) as [->|]; [rewrite Hn; destruct w; reflexivity|].
  destruct (dget decls k); reflexivity.
Qed.

Lemma scope_prefix : forall chain p, Forall legal_decls chain -> p <> lit "xml" ->
  scope_of chain (Some p) = lookup chain (Some p).
Proof.
  intros chain p Hc Hp. induction Hc as [|d chain Hd Hc IH].
  - unfold scope_of. cbn [fold_right lookup]. unfold scope0. destruct (str_eqb_spec p (lit "xml")); [contradiction|reflexivity].
  - cbn [scope_of fold_right lookup]. fold (scope_of chain). pose proof Hd as [Hnd _].
    rewrite declared_get, dget_filter by assumption. destruct (dget d (Some p)) as [v|] eqn:E; [|exact IH].
    apply dget_In in E. destruct (legal_decls_bind _ _ _ Hd E) as [(_ & _ & Hne & _) _].
    destruct v as [|c v]; [congruence|]. reflexivity.
Qed.
Lemma scope_xml : forall chain, Forall legal_decls chain -> scope_of chain (Some (lit "xml")) = Some xml_uri.
Proof.
  intros chain Hc. induction Hc as [|d chain Hd Hc IH]; [reflexivity|].
  cbn [scope_of fold_right]. fold (scope_of chain). pose proof Hd as [Hnd _]. rewrite declared_get by assumption.
  destruct (dget d (Some (lit "xml"))) as [v|] eqn:E; [|exact IH].
  apply dget_In in E. destruct (legal_decls_bind _ _ _ Hd E) as [(_ & _ & _ & _ & Hx) _].
  rewrite (proj1 Hx eq_refl). reflexivity.
Qed.
Lemma scope_default : forall chain u, Forall legal_decls chain -> scope_of chain None = Some u -> lookup chain None = Some u /\ u <> [].
Proof.
  intros chain u Hc. induction Hc as [|d chain Hd Hc IH]; [discriminate|].
  cbn [scope_of fold_right lookup]. fold (scope_of chain). pose proof Hd as [Hnd _]. rewrite declared_get, dget_filter by assumption.
  destruct (dget d None) as [[|c v]|] eqn:E.
  - discriminate.
  - intro H. inversion H; subst. split; [reflexivity|discriminate].
  - exact IH.
Qed.

(** ** The declarations written on an element *)
Definition key_of (q : str) : option str := match prefix_of q with Some (c :: p) => Some (c :: p) | _ => None end.

Section Step.
  Variables (chain : list nsdict) (cur : nsdict) (ns : option str) (q : str) (attrs : list attr).
  Hypothesis Hchain : Forall legal_decls chain.
  Hypothesis Hattrs : Forall (fun a => a_ns a <> Some xmlns_uri) attrs.

  Definition ns0 : nsdict := ddel (inscope chain) (Some (lit "xml")).
  Definition ns2 : nsdict :=
    if truthy ns || truthy (dget ns0 None) then
      if match dget ns0 (key_of q) with Some v => ostr_eqb (Some v) ns | None => false end
      then ns0 else dset ns0 (key_of q) (oget ns)
    else ns0.
  Definition differs (kv : option str * str) : bool := negb (okey_eqb (dget cur (fst kv)) (Some (snd kv))).

  Lemma visit_namespaces_eq : visit_namespaces chain cur ns q attrs = filter differs ns2.
  Proof.
    unfold visit_namespaces. cbv zeta.
    assert (E : forall d, fold_left (fun d a => if ostr_eqb (a_ns a) (Some XMLNS_NAMESPACE) then
        if okey_eqb (dget cur (if truthy (prefix_of (a_qname a)) then Some (local_of (a_qname a)) else None)) (Some (a_value a)) then d
        else dset d (if truthy (prefix_of (a_qname a)) then Some (local_of (a_qname a)) else None) (a_value a)
      else d) attrs d = d).
    { clear - Hattrs. induction Hattrs as [|a l Ha Hl IH]; intro d; [reflexivity|]. cbn [fold_left].
      unfold ostr_eqb. destruct (okey_eqb_spec (a_ns a) (Some XMLNS_NAMESPACE)); [contradiction|]. apply IH. exact Hl. }
    rewrite E. reflexivity.
  Qed.

  Lemma ns0_nodup : NoDup (map fst ns0).
  Proof. unfold ns0, ddel. apply filter_nodup, inscope_nodup. Qed.
  Lemma ns2_nodup : NoDup (map fst ns2).
  Proof.
    unfold ns2. destruct (_ || _); [|apply ns0_nodup]. destruct (match dget ns0 (key_of q) with Some _ => _ | None => _ end); [apply ns0_nodup|].
    apply dset_nodup, ns0_nodup.
  Qed.
  Lemma vn_nodup : NoDup (map fst (visit_namespaces chain cur ns q attrs)).
  Proof. rewrite visit_namespaces_eq. apply filter_nodup, ns2_nodup. Qed.

  Lemma ns0_get : forall k, dget ns0 k = if okey_eqb k (Some (lit "xml")) then None else lookup chain k.
  Proof.
    intro k. unfold ns0. rewrite dget_ddel, inscope_get by assumption.
    destruct (okey_eqb_spec (Some (lit "xml")) k) as [<-|Hn]; [now rewrite okey_eqb_refl|].
    destruct (okey_eqb_spec k (Some (lit "xml"))); [congruence|reflexivity].
  Qed.

  (** Every declaration written comes from an ancestor or is that of the element's own name. *)
  Lemma vn_In : forall k v, In (k, v) (visit_namespaces chain cur ns q attrs) ->
    lookup chain k = Some v \/ (k = key_of q /\ v = oget ns).
  Proof.
    intros k v. rewrite visit_namespaces_eq. intro H. apply filter_In in H as [H _].
    apply (In_dget _ _ _ ns2_nodup) in H.
    assert (HN : dget ns0 k = Some v -> lookup chain k = Some v).
    { rewrite ns0_get. destruct (okey_eqb k (Some (lit "xml"))); [discriminate|auto]. }
    unfold ns2 in H. destruct (_ || _); [|auto]. destruct (match dget ns0 (key_of q) with Some _ => _ | None => _ end); [auto|].
    rewrite dget_dset in H. destruct (okey_eqb_spec (key_of q) k); [right; split; congruence|auto].
  Qed.

  (** The namespaces in force after the start tag. *)
  Lemma cur_get : forall k, dget (dupdate cur (visit_namespaces chain cur ns q attrs)) k =
    match dget ns2 k with Some v => Some v | None => dget cur k end.
  Proof.
    intro k. rewrite dget_dupdate by apply vn_nodup. rewrite visit_namespaces_eq, dget_filter by apply ns2_nodup.
    unfold differs. cbn [fst snd]. destruct (dget ns2 k) as [v|]; [|reflexivity].
    destruct (okey_eqb_spec (dget cur k) (Some v)); [assumption|reflexivity].
  Qed.
End Step.

(** ** Reading declarations *)
Lemma decl_of_nsattr : forall k v, k <> Some [] -> decl_of (fst (nsattr' (k, v))) = Some k.
Proof.
  intros [[|c p]|] v H; [congruence| |reflexivity].
  unfold nsattr', nsattr. cbn [fst]. unfold decl_of.
  destruct (str_eqb_spec (lit "xmlns:" ++ c :: p) (lit "xmlns")) as [E|_]; [vm_compute in E; discriminate|].
  reflexivity.
Qed.
Lemma decl_of_inj : forall n m k, decl_of n = Some k -> decl_of m = Some k -> n = m.
Proof.
  assert (H : forall n k, decl_of n = Some k -> n = match k with None => lit "xmlns" | Some p => lit "xmlns:" ++ p end).
  { intros n k. unfold decl_of. destruct (str_eqb_spec n (lit "xmlns")) as [->|_]; [intro E; inversion E; reflexivity|].
    destruct (prefixb (lit "xmlns:") n) eqn:E; [|discriminate]. apply prefixb_spec in E as [r ->]. intro E. inversion E; reflexivity. }
  intros n m k Hn Hm. rewrite (H _ _ Hn), (H _ _ Hm). reflexivity.
Qed.

Definition bound (v : str) : option str := match v with [] => None | _ => Some v end.
Lemma bind_scope_get : forall sc a v k, bind_scope sc a v k = if okey_eqb a k then v else sc k.
Proof. intros sc a v k. unfold bind_scope, okey_eqb. destruct a, k; reflexivity. Qed.

Lemma declare_spec : forall atts sc, NoDup (map fst atts) ->
  (forall n v k, In (n, v) atts -> decl_of n = Some k -> legal_bind k v) ->
  exists sc', declare sc atts = Some sc' /\
    (forall n v k, In (n, v) atts -> decl_of n = Some k -> sc' k = bound v) /\
    (forall k, (forall n v, In (n, v) atts -> decl_of n <> Some k) -> sc' k = sc k).
Proof.
  induction atts as [|[n v] atts IH]; intros sc Hnd HL.
  - exists sc. split; [reflexivity|]. split; [intros ? ? ? []|auto].
  - inversion Hnd as [|? ? Hn Hd]; subst. cbn [declare].
    assert (HL' : forall m w k, In (m, w) atts -> decl_of m = Some k -> legal_bind k w) by (intros; eapply HL; [right|]; eauto).
    assert (Hother : forall k, decl_of n = Some k -> forall m w, In (m, w) atts -> decl_of m <> Some k).
    { intros k Hk m w Hin Hm. apply Hn. rewrite (decl_of_inj n m k Hk Hm). apply in_map_iff. exists (m, w). auto. }
    destruct (decl_of n) as [k|] eqn:Ek.
    + pose proof (HL n v k (or_introl eq_refl) Ek) as Hb.
      destruct (IH (bind_scope sc k (bound v)) Hd HL') as (sc' & E & H1 & H2).
      assert (HD : match k with
        | None => if str_eqb v xml_uri || str_eqb v xmlns_uri then None
                  else declare (bind_scope sc None (match v with [] => None | _ => Some v end)) atts
        | Some p => match v with [] => None | _ =>
            if str_eqb p (lit "xmlns") || str_eqb v xmlns_uri || negb (Bool.eqb (str_eqb p (lit "xml")) (str_eqb v xml_uri))
            then None else declare (bind_scope sc (Some p) (Some v)) atts end
        end = Some sc').
      { destruct k as [p|].
        - destruct Hb as (_ & Hp & Hv & Hx & Hxx). destruct v as [|c v]; [congruence|].
          destruct (str_eqb_spec p (lit "xmlns")); [contradiction|]. destruct (str_eqb_spec (c :: v) xmlns_uri); [contradiction|].
          cbn [orb].
          assert (HE : Bool.eqb (str_eqb p (lit "xml")) (str_eqb (c :: v) xml_uri) = true).
          { destruct (str_eqb_spec p (lit "xml")), (str_eqb_spec (c :: v) xml_uri); try reflexivity; tauto. }
          rewrite HE. exact E.
        - destruct Hb as [Hv1 Hv2]. destruct (str_eqb_spec v xml_uri); [contradiction|]. destruct (str_eqb_spec v xmlns_uri); [contradiction|].
          exact E. }
      exists sc'. split; [destruct k as [p|]; [destruct v; [exact HD|exact HD]|exact HD]|]. split.
      * intros m w j [Em|Hin] Hj; [|eauto]. inversion Em; subst. rewrite Ek in Hj. inversion Hj; subst.
        rewrite H2 by (apply Hother; reflexivity). rewrite bind_scope_get. now rewrite okey_eqb_refl.
      * intros j Hj. rewrite H2 by (intros m w Hin; apply (Hj m w); now right).
        rewrite bind_scope_get. destruct (okey_eqb_spec k j) as [->|]; [|reflexivity].
        exfalso. apply (Hj n v); [now left|assumption].
    + destruct (IH sc Hd HL') as (sc' & E & H1 & H2). exists sc'. split; [exact E|]. split.
      * intros m w j [Em|Hin] Hj; [|eauto]. inversion Em; subst. congruence.
      * intros j Hj. apply H2. intros m w Hin. apply (Hj m w). now right.
Qed.

(** Attributes: the declarations are skipped, order does not matter. *)
Lemma resolve_atts_decls : forall sc nsd atts, Forall (fun d => fst d <> Some []) nsd ->
  resolve_atts sc (map nsattr' nsd ++ atts) = resolve_atts sc atts.
Proof.
  intros sc nsd atts H. induction H as [|[k v] nsd Hk H IH]; [reflexivity|]. cbn [map app].
  change (nsattr' (k, v)) with (fst (nsattr' (k, v)), v) at 1. cbn [resolve_atts]. rewrite decl_of_nsattr by assumption. exact IH.
Qed.
Lemma resolve_atts_perm : forall sc a b, Permutation a b -> forall x, resolve_atts sc a = Some x ->
  exists y, resolve_atts sc b = Some y /\ Permutation x y.
Proof.
  induction 1 as [|[n v] a b P IH|[n v] [m w] a|a b c P1 IH1 P2 IH2]; intros x H.
  - exists x. split; [assumption|reflexivity].
  - cbn [resolve_atts] in H |- *. destruct (decl_of n); [now apply IH|].
    destruct (resolve_att sc n) as [e|]; [|discriminate]. destruct (resolve_atts sc a) as [l|] eqn:E; [|discriminate].
    inversion H; subst. destruct (IH _ eq_refl) as (y & -> & P'). eexists; split; [reflexivity|]. now constructor.
  - cbn [resolve_atts] in H |- *. destruct (decl_of n), (decl_of m).
    + exists x. split; [assumption|reflexivity].
    + exists x. split; [assumption|reflexivity].
    + exists x. split; [assumption|reflexivity].
    + destruct (resolve_att sc m) as [f|]; [|discriminate H || (destruct (resolve_att sc n); discriminate)].
      destruct (resolve_att sc n) as [e|]; [|discriminate].
      destruct (resolve_atts sc a) as [l|]; [|discriminate]. inversion H; subst.
      eexists; split; [reflexivity|]. constructor.
  - destruct (IH1 _ H) as (y & Hy & Py). destruct (IH2 _ Hy) as (z & Hz & Pz). exists z. split; [assumption|]. now transitivity y.
Qed.

Lemma ename_eqb_eq : forall a b, ename_eqb a b = true <-> a = b.
Proof.
  intros [u l] [v m]. unfold ename_eqb. cbn [fst snd]. destruct u as [u|], v as [v|]; rewrite ?andb_true_iff, ?str_eqb_eq; intuition congruence.
Qed.
Lemma nodup_enames_ok : forall l, NoDup l -> nodup_enames l = true.
Proof.
  induction 1 as [|n l Hn Hl IH]; [reflexivity|]. cbn [nodup_enames]. rewrite IH, andb_true_r.
  apply negb_true_iff. destruct (existsb (ename_eqb n) l) eqn:E; [|reflexivity].
  apply existsb_exists in E as (m & Hm & E). apply ename_eqb_eq in E. subst. contradiction.
Qed.

(** ** The attributes handed to the printer *)
Lemma aset_new : forall d k v, ~ In k (map fst d) -> aset d k v = d ++ [(k, Some v)].
Proof.
  induction d as [|[a w] d IH]; intros k v H; [reflexivity|]. cbn [aset app]. cbn [map In fst] in H.
  destruct (str_eqb_spec a k); [subst; tauto|]. rewrite IH by tauto. reflexivity.
Qed.
Definition plain_attrs (attrs : list attr) : list (str * str) := map (fun a => (a_qname a, a_value a)) attrs.
Lemma visit_attributes_eq : forall attrs, Forall (fun a => a_ns a <> Some xmlns_uri) attrs -> NoDup (map a_qname attrs) ->
  visit_attributes attrs = map some_att (plain_attrs attrs).
Proof.
  intros attrs HF. unfold visit_attributes.
  assert (G : forall d, NoDup (map fst d ++ map a_qname attrs) ->
    fold_left (fun d a => if ostr_eqb (a_ns a) (Some XMLNS_NAMESPACE) then d else aset d (a_qname a) (a_value a)) attrs d =
    d ++ map some_att (plain_attrs attrs)).
  { clear - HF. induction HF as [|a l Ha Hl IH]; intros d HN; cbn [fold_left plain_attrs map]; [now rewrite app_nil_r|].
    unfold ostr_eqb. destruct (okey_eqb_spec (a_ns a) (Some XMLNS_NAMESPACE)); [contradiction|].
    cbn [map] in HN. rewrite aset_new.
    2:{ intro Hin. apply NoDup_remove_2 in HN. apply HN. apply in_or_app. now left. }
    rewrite IH. { unfold some_att at 2. cbn [fst snd]. rewrite <- app_assoc. reflexivity. }
    rewrite map_app. cbn [map fst]. rewrite <- app_assoc. exact HN. }
  intro HN. apply (G []). exact HN.
Qed.

Lemma plain_un_some : forall l, map un_some (map some_att l) = l.
Proof. exact un_some_some. Qed.

Section W.
  Variable ordn : list (option str * str) -> list (option str * str).
  Variable orda : list (str * option str) -> list (str * option str).
  Hypothesis ordn_ok : forall l, Permutation (ordn l) l.
  Hypothesis orda_ok : forall l, Permutation (orda l) l.

  Lemma written_perm : forall canon nss attrs, Forall (fun a => a_ns a <> Some xmlns_uri) attrs -> NoDup (map a_qname attrs) ->
    Permutation (written_attrs canon (ordn nss) (map un_some (orda (visit_attributes attrs)))) (map nsattr' nss ++ plain_attrs attrs).
  Proof.
    intros canon nss attrs HF HN. rewrite written_attrs_perm. apply Permutation_app.
    - apply Permutation_map, ordn_ok.
    - rewrite (orda_ok (visit_attributes attrs)). rewrite visit_attributes_eq by assumption. now rewrite un_some_some.
  Qed.
End W.

(** ** Legality of what is written *)
Lemma name_char_prefix : forall q, is_name q = true -> forall p, key_of q = Some p -> forallb name_char p = true /\ p <> [].
Proof.
  intros q Hq p. unfold key_of, prefix_of. destruct (break1 58 q) as [[a b]|] eqn:E; [|discriminate].
  apply break1_Some in E as [-> _]. destruct a as [|c a]; [discriminate|]. intro H. inversion H; subst. split; [|discriminate].
  destruct (is_name_inv _ Hq) as (_ & _ & _ & _ & HF). rewrite forallb_app in HF. now apply andb_prop in HF as [HF _].
Qed.
Definition good_key (k : option str) : Prop := match k with Some p => forallb name_char p = true /\ p <> [] | None => True end.
Lemma legal_bind_key : forall k v, legal_bind k v -> good_key k.
Proof.
  intros [p|] v; [|cbn; auto]. intros ((Hp & _) & _). destruct (is_name_inv _ Hp) as (c & s & -> & _ & HF). split; [exact HF|discriminate].
Qed.
Lemma nsattr_name : forall k v, good_key k -> is_name (fst (nsattr' (k, v))) = true.
Proof.
  intros [[|c p]|] v H; [destruct H; congruence| |reflexivity]. destruct H as [H _].
  unfold nsattr', nsattr. cbn [fst]. change (lit "xmlns:" ++ c :: p) with (120 :: (lit "mlns:" ++ c :: p)).
  cbn [is_name]. change (name_start 120) with true. cbn [andb]. rewrite forallb_app, H. reflexivity.
Qed.
Lemma good_key_ne : forall k, good_key k -> k <> Some [].
Proof. intros k H ->. destruct H; congruence. Qed.

Lemma nsattr_nodup : forall nss, Forall (fun d => good_key (fst d)) nss -> NoDup (map fst nss) -> NoDup (map fst (map nsattr' nss)).
Proof.
  induction nss as [|[k v] nss IH]; intros HF HN; [constructor|]. inversion HF as [|? ? Hk HF']; subst. inversion HN as [|? ? Hn HN']; subst.
  cbn [map]. constructor; [|auto]. intro Hin. apply Hn. rewrite map_map in Hin. apply in_map_iff in Hin as ([k' v'] & E & Hin).
  rewrite Forall_forall in HF'. pose proof (HF' _ Hin) as Hk'. cbn [fst] in *.
  assert (Some k = Some k') as EE.
  { rewrite <- (decl_of_nsattr k v) by now apply good_key_ne. rewrite <- (decl_of_nsattr k' v') by now apply good_key_ne. now rewrite E. }
  inversion EE; subst. apply in_map_iff. exists (k', v'). auto.
Qed.

Lemma nodup_app_disj : forall (A : Type) (a b : list A), NoDup a -> NoDup b -> (forall x, In x a -> ~ In x b) -> NoDup (a ++ b).
Proof.
  intros A a b Ha Hb H. induction Ha as [|x a Hx Ha IH]; [assumption|]. cbn [app]. constructor.
  - rewrite in_app_iff. intros [Hin|Hin]; [contradiction|]. apply (H x); [now left|assumption].
  - apply IH. intros y Hy. apply H. now right.
Qed.

(** The declarations of one element, legal names and values. *)
Lemma vn_good : forall chain cur ns q attrs, Forall legal_decls chain -> Forall (fun a => a_ns a <> Some xmlns_uri) attrs ->
  is_name q = true -> (forall u, ns = Some u -> chars u) ->
  forall k v, In (k, v) (visit_namespaces chain cur ns q attrs) -> good_key k /\ chars v.
Proof.
  intros chain cur ns q attrs Hc Ha Hq Hns k v Hin. apply vn_In in Hin as [Hin|[-> ->]]; auto.
  - destruct (lookup_legal _ _ _ Hc Hin) as (Hb & Hch & _). split; [eapply legal_bind_key; eauto|assumption].
  - split.
    + destruct (key_of q) as [p|] eqn:E; [|exact I]. exact (name_char_prefix q Hq p E).
    + destruct ns as [u|]; [apply Hns; reflexivity|constructor].
Qed.

Definition decl_free (a : attr) : Prop :=
  is_name (a_qname a) = true /\ chars (a_value a) /\ decl_of (a_qname a) = None /\ a_ns a <> Some xmlns_uri.

Lemma all_atts_legal : forall chain cur ns q attrs, Forall legal_decls chain -> Forall decl_free attrs ->
  NoDup (map a_qname attrs) -> is_name q = true -> (forall u, ns = Some u -> chars u) ->
  legal_atts (map nsattr' (visit_namespaces chain cur ns q attrs) ++ plain_attrs attrs).
Proof.
  intros chain cur ns q attrs Hc HF HN Hq Hns.
  assert (Ha : Forall (fun a => a_ns a <> Some xmlns_uri) attrs) by (eapply Forall_impl; [|exact HF]; intros a (_ & _ & _ & H); exact H).
  pose proof (vn_good chain cur ns q attrs Hc Ha Hq Hns) as HG. split.
  - apply Forall_app. split.
    + rewrite Forall_forall. intros x Hx. apply in_map_iff in Hx as ([k v] & <- & Hx). destruct (HG _ _ Hx) as [G1 G2].
      split; [now apply nsattr_name|exact G2].
    + unfold plain_attrs. rewrite Forall_map. eapply Forall_impl; [|exact HF]. intros a (H1 & H2 & _). auto.
  - rewrite map_app. apply nodup_app_disj.
    + apply nsattr_nodup; [|now apply vn_nodup]. rewrite Forall_forall. intros [k v] Hx. apply (HG k v Hx).
    + unfold plain_attrs. rewrite map_map. cbn [fst]. exact HN.
    + intros x Hx Hy. rewrite map_map in Hx. apply in_map_iff in Hx as ([k v] & E & Hx).
      unfold plain_attrs in Hy. rewrite map_map in Hy. apply in_map_iff in Hy as (a & E2 & Hy). cbn [fst] in E2.
      rewrite Forall_forall in HF. destruct (HF _ Hy) as (_ & _ & Hd & _). destruct (HG _ _ Hx) as [G1 _].
      rewrite E2, <- E, decl_of_nsattr in Hd by now apply good_key_ne. discriminate.
Qed.

Lemma legal_atts_perm : forall a b, Permutation a b -> legal_atts a -> legal_atts b.
Proof.
  intros a b P [HF HN]. split.
  - eapply Permutation_Forall; eauto.
  - eapply Permutation_NoDup; [apply Permutation_map; exact P|exact HN].
Qed.

Section Printed.
  Variable cd : codec.
  Hypothesis Hsound : sound_codec cd.
  Variable ordn : list (option str * str) -> list (option str * str).
  Variable orda : list (str * option str) -> list (str * option str).
  Hypothesis ordn_ok : forall l, Permutation (ordn l) l.
  Hypothesis orda_ok : forall l, Permutation (orda l) l.

  Lemma attrs_no_xmlns : forall attrs, Forall decl_free attrs -> Forall (fun a => a_ns a <> Some xmlns_uri) attrs.
  Proof. intros attrs HF. eapply Forall_impl; [|exact HF]. intros a (_ & _ & _ & H). exact H. Qed.

  Lemma printed_legal : forall canon n chain cur, Forall legal_decls chain -> legal_dom n ->
    legal (printed ordn orda canon chain cur n).
  Proof.
    intros canon n. induction n as [ns q d a k IH|s|s|t d] using node_ind2; intros chain cur Hc Hl; inversion Hl; subst; cbn [printed]; try (constructor; assumption).
    cbv zeta. assert (Hc' : Forall legal_decls (d :: chain)) by (constructor; assumption). constructor.
    - assumption.
    - eapply legal_atts_perm; [symmetry; apply written_perm; auto using attrs_no_xmlns|]. now apply all_atts_legal.
    - rewrite Forall_map. rewrite Forall_forall in IH |- *. intros x Hx. apply IH; auto.
      match goal with H : Forall legal_dom k |- _ => rewrite Forall_forall in H; auto end.
  Qed.

  (** Encodable raw strings. *)
  Definition enc (s : str) : Prop := encode cd s <> None.
  Lemma enc_app : forall a b, enc (a ++ b) <-> enc a /\ enc b.
  Proof.
    intros a b. unfold enc. rewrite encode_app. destruct (encode cd a), (encode cd b); intuition congruence.
  Qed.
  Lemma enc_ascii : forall s, Forall (fun c => c < 128) s -> enc s.
  Proof. intros s H. unfold enc. destruct (sound_ascii cd s Hsound H) as [bs ->]. discriminate. Qed.

  Lemma enc_nsattr : forall k v, good_key k -> (forall p, k = Some p -> enc p) -> enc (fst (nsattr' (k, v))).
  Proof.
    intros [[|c p]|] v Hk He; [destruct Hk; congruence| |].
    - unfold nsattr', nsattr. cbn [fst]. apply enc_app. split; [apply enc_ascii; ascii|]. now apply He.
    - apply enc_ascii. ascii.
  Qed.
  Lemma enc_prefix : forall q p, enc q -> key_of q = Some p -> enc p.
  Proof.
    intros q p Hq. unfold key_of, prefix_of. destruct (break1 58 q) as [[a b]|] eqn:E; [|discriminate].
    apply break1_Some in E as [-> _]. destruct a; [discriminate|]. intro H. inversion H; subst. now apply enc_app in Hq as [Hq _].
  Qed.
  Lemma decl_strings_In : forall d p v, In (Some p, v) d -> In p (decl_strings d).
  Proof. intros d p v H. unfold decl_strings. apply in_flat_map. exists (Some p, v). split; [assumption|now left]. Qed.

  Lemma printed_wfr : forall canon n chain cur, Forall legal_decls chain -> legal_dom n ->
    Forall enc (flat_map decl_strings chain) -> Forall enc (raw_strings n) ->
    wfr cd (printed ordn orda canon chain cur n).
  Proof.
    intros canon n. induction n as [ns q d a k IH|s|s|t d] using node_ind2; intros chain cur Hc Hl He Hr; inversion Hl; subst; cbn [printed].
    - cbv zeta. assert (Hc' : Forall legal_decls (d :: chain)) by (constructor; assumption).
      cbn [raw_strings] in Hr. inversion Hr as [|? ? Hq Hr']; subst. apply Forall_app in Hr' as [Hd Hr']. apply Forall_app in Hr' as [Ha Hk].
      assert (He' : Forall enc (flat_map decl_strings (d :: chain))) by (cbn [flat_map]; apply Forall_app; auto).
      cbn [wfr]. repeat split.
      + destruct q; discriminate.
      + exact Hq.
      + assert (HP := written_perm ordn orda ordn_ok orda_ok canon (visit_namespaces (d :: chain) cur ns q a) a ltac:(now apply attrs_no_xmlns) ltac:(assumption)).
        assert (HLA : legal_atts (map nsattr' (visit_namespaces (d :: chain) cur ns q a) ++ plain_attrs a)) by now apply all_atts_legal.
        eapply Permutation_Forall; [symmetry; exact HP|].
        rewrite Forall_forall. intros [n v] Hin. split.
        * cbn [fst]. apply in_app_iff in Hin as [Hin|Hin].
          -- apply in_map_iff in Hin as ([kk w] & E & Hin). replace n with (fst (nsattr' (kk, w))) by now rewrite E.
             destruct (vn_good (d :: chain) cur ns q a Hc' (attrs_no_xmlns _ ltac:(eassumption)) ltac:(assumption) ltac:(assumption) kk w Hin) as [HG _].
             apply enc_nsattr; [assumption|]. intros p ->.
             apply vn_In in Hin as [Hin|[Ek _]]; auto using attrs_no_xmlns.
             ++ apply lookup_In in Hin as [(d' & Hd' & Hin) _]. rewrite Forall_forall in He'. apply He'.
                apply in_flat_map. exists d'. split; [assumption|]. eapply decl_strings_In; eauto.
             ++ symmetry in Ek. eapply enc_prefix; eauto.
          -- unfold plain_attrs in Hin. apply in_map_iff in Hin as (x & E & Hin). inversion E; subst.
             rewrite Forall_forall in Ha. apply Ha. now apply in_map.
        * cbn [snd]. destruct HLA as [HLA _]. rewrite Forall_forall in HLA. apply (HLA _ Hin).
      + apply wfr_all. rewrite Forall_map. rewrite Forall_forall in IH |- *. intros x Hx. apply IH; auto.
        * match goal with H : Forall legal_dom k |- _ => rewrite Forall_forall in H; auto end.
        * rewrite Forall_forall in Hk |- *. intros y Hy. apply Hk. apply in_flat_map. eauto.
    - assumption.
    - cbn [raw_strings] in Hr. now inversion Hr.
    - cbn [raw_strings] in Hr. inversion Hr as [|? ? H1 H2]; subst. inversion H2; subst. split; assumption.
  Qed.
End Printed.

(** ** The namespace of every name *)
Definition in_force (chain : list nsdict) (cur : nsdict) (sc : scope) : Prop :=
  (forall p, sc (Some p) = dget cur (Some p)) /\
  (sc None = match dget cur None with Some (c :: u) => Some (c :: u) | _ => None end) /\
  (forall c u, dget cur None = Some (c :: u) -> lookup chain None <> None) /\
  dget cur (Some (lit "xml")) = Some xml_uri.

Lemma split_qname_local : forall q p l, split_qname q = Some (p, l) -> p = prefix_of q /\ l = local q /\ key_of q = p.
Proof.
  intros q p l. unfold split_qname, prefix_of, local, key_of, prefix_of. destruct (break1 58 q) as [[a b]|].
  - destruct (is_name a) eqn:Ea; [|discriminate]. destruct (is_name b && negb (mem 58 b)) eqn:Eb; [|cbn [andb]; rewrite Eb; discriminate].
    cbn [andb]. rewrite Eb. intro H. inversion H; subst. destruct a; [discriminate|]. auto.
  - intro H. inversion H; subst. auto.
Qed.

Section Ns.
  Variable ordn : list (option str * str) -> list (option str * str).
  Variable orda : list (str * option str) -> list (str * option str).
  Hypothesis ordn_ok : forall l, Permutation (ordn l) l.
  Hypothesis orda_ok : forall l, Permutation (orda l) l.

  (** After the start tag the written scope agrees with the tree's. *)
  Lemma step_scope : forall canon chain cur sc ns q attrs atts, Forall legal_decls chain -> Forall decl_free attrs ->
    NoDup (map a_qname attrs) -> is_name q = true -> (forall u, ns = Some u -> chars u) ->
    in_force (tl chain) cur sc -> resolve_elem (scope_of chain) q = Some (ns, local q) ->
    atts = written_attrs canon (ordn (visit_namespaces chain cur ns q attrs)) (map un_some (orda (visit_attributes attrs))) ->
    exists sc', declare sc atts = Some sc' /\
      in_force chain (dupdate cur (visit_namespaces chain cur ns q attrs)) sc' /\
      resolve_elem sc' q = Some (ns, local q) /\
      (forall p u, scope_of chain (Some p) = Some u -> sc' (Some p) = Some u).
  Proof.
    intros canon chain cur sc ns q attrs atts Hc HF HN Hq Hns (F1 & F2 & F3 & F4) HR ->.
    set (nss := visit_namespaces chain cur ns q attrs).
    assert (Ha : Forall (fun a => a_ns a <> Some xmlns_uri) attrs) by now apply attrs_no_xmlns.
    assert (HP := written_perm ordn orda ordn_ok orda_ok canon nss attrs Ha HN).
    set (atts := written_attrs canon (ordn nss) (map un_some (orda (visit_attributes attrs)))) in *.
    assert (HLA : legal_atts atts) by (eapply legal_atts_perm; [symmetry; exact HP|now apply all_atts_legal]).
    (* what the element's name means *)
    unfold resolve_elem in HR. destruct (split_qname q) as [[pq lq]|] eqn:Esq; [|discriminate].
    destruct (split_qname_local _ _ _ Esq) as (Epq & Elq & Ekq).
    assert (HNS : (pq = None /\ ns = scope_of chain None) \/ (exists p u, pq = Some p /\ ns = Some u /\ scope_of chain (Some p) = Some u)).
    { destruct pq as [p|]; [right|left; split; [reflexivity|congruence]].
      destruct (scope_of chain (Some p)) as [u|] eqn:E; [|discriminate]. exists p, u. inversion HR; subst. auto. }
    assert (N0 := ns0_get chain Hc).
    assert (Hdef0 : dget (ns0 chain) None = lookup chain None) by (rewrite N0; reflexivity).
    assert (LNE : forall v, lookup chain None = Some v -> exists c w, v = c :: w).
    { intros v Hv. destruct (lookup_legal _ _ _ Hc Hv) as (_ & _ & Hne). destruct v; [congruence|eauto]. }
    (* ns2 *)
    assert (N2p : forall p, p <> lit "xml" -> dget (ns2 chain ns q) (Some p) = lookup chain (Some p)).
    { intros p Hp. assert (E0 : dget (ns0 chain) (Some p) = lookup chain (Some p)).
      { rewrite N0. destruct (okey_eqb_spec (Some p) (Some (lit "xml"))); [congruence|reflexivity]. }
      unfold ns2. rewrite Ekq. destruct (truthy ns || truthy (dget (ns0 chain) None)); [|exact E0].
      destruct (match dget (ns0 chain) pq with Some v => ostr_eqb (Some v) ns | None => false end) eqn:EC; [exact E0|].
      rewrite dget_dset. destruct (okey_eqb_spec pq (Some p)) as [->|]; [|exact E0]. exfalso.
      destruct HNS as [[? _]|(p' & u & E1 & E2 & E3)]; [congruence|]. inversion E1; subst p'.
      rewrite scope_prefix in E3 by assumption. rewrite E0, E3, E2 in EC. unfold ostr_eqb in EC. rewrite okey_eqb_refl in EC. discriminate. }
    assert (N2x : dget (ns2 chain ns q) (Some (lit "xml")) = None \/ dget (ns2 chain ns q) (Some (lit "xml")) = Some xml_uri).
    { assert (E0 : dget (ns0 chain) (Some (lit "xml")) = None) by (rewrite N0; reflexivity).
      unfold ns2. destruct (truthy ns || truthy (dget (ns0 chain) None)); [|auto].
      destruct (match dget (ns0 chain) (key_of q) with Some v => ostr_eqb (Some v) ns | None => false end); [auto|].
      rewrite dget_dset. destruct (okey_eqb_spec (key_of q) (Some (lit "xml"))) as [Ek|]; [|auto]. right.
      destruct HNS as [[? _]|(p' & u & E1 & E2 & E3)]; [congruence|].
      assert (p' = lit "xml") by congruence. subst p'. rewrite scope_xml in E3 by assumption. rewrite E2. cbn [oget]. congruence. }
    assert (N2d : (pq <> None -> dget (ns2 chain ns q) None = lookup chain None) /\
      (pq = None -> match dget (ns2 chain ns q) None with
                    | Some [] => ns = None /\ lookup chain None <> None
                    | Some v => ns = Some v /\ lookup chain None = Some v
                    | None => ns = None /\ lookup chain None = None
                    end)).
    { split.
      - intro Hp. unfold ns2. rewrite Ekq. destruct (truthy ns || truthy (dget (ns0 chain) None)); [|exact Hdef0].
        destruct (match dget (ns0 chain) pq with Some v => ostr_eqb (Some v) ns | None => false end); [exact Hdef0|].
        rewrite dget_dset. destruct (okey_eqb_spec pq None); [congruence|exact Hdef0].
      - intros ->. destruct HNS as [[_ E]|(p' & u & E1 & _)]; [|discriminate].
        unfold ns2. rewrite Ekq, Hdef0. destruct ns as [u|].
        + symmetry in E. destruct (scope_default _ _ Hc E) as [EL Hu]. destruct u as [|c u]; [congruence|].
          cbn [truthy orb]. rewrite EL. unfold ostr_eqb. rewrite okey_eqb_refl. rewrite Hdef0, EL. auto.
        + cbn [truthy orb]. destruct (lookup chain None) as [v|] eqn:EL.
          * destruct (LNE _ eq_refl) as (c & w & ->). cbn [truthy]. cbn [ostr_eqb okey_eqb oget].
            rewrite dget_dset, okey_eqb_refl. split; [reflexivity|discriminate].
          * cbn [truthy]. rewrite Hdef0. auto. }
    (* the scope after the tag *)
    assert (HD : exists sc', declare sc atts = Some sc' /\
      (forall n v k, In (n, v) atts -> decl_of n = Some k -> sc' k = bound v) /\
      (forall k, (forall n v, In (n, v) atts -> decl_of n <> Some k) -> sc' k = sc k)).
    { apply declare_spec; [apply HLA|]. intros n v k Hin Hd. apply (Permutation_in _ HP) in Hin.
      apply in_app_iff in Hin as [Hin|Hin].
      2:{ exfalso. unfold plain_attrs in Hin. apply in_map_iff in Hin as (a & E & Hin). inversion E; subst.
          rewrite Forall_forall in HF. destruct (HF _ Hin) as (_ & _ & Hn & _). congruence. }
      apply in_map_iff in Hin as ([k' v'] & E & Hin). 
      destruct (vn_good chain cur ns q attrs Hc Ha Hq Hns k' v' Hin) as [HG _].
      assert (E' : n = fst (nsattr' (k', v')) /\ v = v') by (rewrite E; split; [reflexivity|inversion E; reflexivity]). destruct E' as [-> ->].
      rewrite decl_of_nsattr in Hd by now apply good_key_ne. inversion Hd; subst k'.
      unfold nss in Hin. rewrite visit_namespaces_eq in Hin by assumption. apply filter_In in Hin as [Hin Hdf].
      apply (In_dget _ _ _ (ns2_nodup chain ns q)) in Hin.
      destruct k as [p|].
      - destruct (str_eq_dec p (lit "xml")) as [->|Hp].
        + destruct N2x as [N2x|N2x]; [congruence|]. assert (v' = xml_uri) by congruence. subst v'. exfalso.
          unfold differs in Hdf. cbn [fst snd] in Hdf. rewrite F4, okey_eqb_refl in Hdf. discriminate.
        + rewrite N2p in Hin by assumption. apply (lookup_legal _ _ _ Hc Hin).
      - destruct N2d as [N2d1 N2d2]. destruct pq as [p|].
        + rewrite N2d1 in Hin by discriminate. apply (lookup_legal _ _ _ Hc Hin).
        + specialize (N2d2 eq_refl). rewrite Hin in N2d2. destruct v' as [|c w].
          * split; discriminate.
          * destruct N2d2 as [_ EL]. apply (lookup_legal _ _ _ Hc EL). }
    destruct HD as (sc' & ED & D1 & D2). exists sc'. split; [exact ED|].
    (* pointwise: sc' is what cur' says *)
    assert (HIn : forall k v, In (k, v) nss -> sc' k = bound v).
    { intros k v Hin. destruct (vn_good chain cur ns q attrs Hc Ha Hq Hns k v Hin) as [HG _].
      apply (D1 (fst (nsattr' (k, v))) v k); [|apply decl_of_nsattr; now apply good_key_ne].
      apply (Permutation_in _ (Permutation_sym HP)). apply in_or_app. left. apply in_map_iff. exists (k, v). auto. }
    assert (HOut : forall k, ~ In k (map fst nss) -> sc' k = sc k).
    { intros k Hk. apply D2. intros n v Hin Hd. apply (Permutation_in _ HP) in Hin. apply in_app_iff in Hin as [Hin|Hin].
      - apply in_map_iff in Hin as ([k' v'] & E & Hin). destruct (vn_good chain cur ns q attrs Hc Ha Hq Hns k' v' Hin) as [HG _].
        assert (E' : n = fst (nsattr' (k', v'))) by now rewrite E. subst n.
        rewrite decl_of_nsattr in Hd by now apply good_key_ne. inversion Hd; subst k'.
        apply Hk. apply in_map_iff. exists (k, v'). auto.
      - unfold plain_attrs in Hin. apply in_map_iff in Hin as (a & E & Hin). inversion E; subst.
        rewrite Forall_forall in HF. destruct (HF _ Hin) as (_ & _ & Hn & _). congruence. }
    assert (CG := cur_get chain cur ns q attrs Ha). fold nss in CG.
    assert (NG : forall k, dget nss k = match dget (ns2 chain ns q) k with
        | Some v => if differs cur (k, v) then Some v else None | None => None end).
    { intro k. unfold nss. rewrite visit_namespaces_eq by assumption. apply dget_filter, ns2_nodup. }
    assert (SC : forall k, sc' k = match dget (dupdate cur nss) k with
        | Some v => if okey_eqb k None then bound v else match dget nss k with Some v => bound v | None => sc k end
        | None => sc k end).
    { intro k. rewrite CG. destruct (dget nss k) as [v|] eqn:En.
      - rewrite (HIn k v (dget_In _ _ _ En)). rewrite NG in En. destruct (dget (ns2 chain ns q) k) as [w|]; [|discriminate].
        destruct (differs cur (k, w)); [|discriminate]. inversion En; subst. destruct (okey_eqb k None); reflexivity.
      - rewrite (HOut k) by now apply dget_None. rewrite NG in En.
        destruct (dget (ns2 chain ns q) k) as [w|] eqn:E2.
        + destruct (differs cur (k, w)) eqn:Edf; [discriminate|]. unfold differs in Edf. cbn [fst snd] in Edf. apply negb_false_iff in Edf.
          destruct (okey_eqb_spec (dget cur k) (Some w)) as [Ecur|]; [|discriminate].
          destruct (okey_eqb_spec k None) as [->|]; [|reflexivity]. rewrite F2, Ecur. destruct w; reflexivity.
        + destruct (dget cur k) as [w|] eqn:Ecur; [|reflexivity].
          destruct (okey_eqb_spec k None) as [->|]; [|reflexivity]. rewrite F2, Ecur. destruct w; reflexivity. }
    assert (SP : forall p, sc' (Some p) = dget (dupdate cur nss) (Some p)).
    { intro p. rewrite CG. destruct (dget nss (Some p)) as [v|] eqn:En.
      - rewrite (HIn _ v (dget_In _ _ _ En)). pose proof En as En2. rewrite NG in En2.
        destruct (dget (ns2 chain ns q) (Some p)) as [w|] eqn:E2; [|discriminate].
        destruct (differs cur (Some p, w)) eqn:Edf; [|discriminate]. inversion En2; subst w.
        destruct v as [|c v]; [|reflexivity]. exfalso.
        destruct (str_eq_dec p (lit "xml")) as [->|Hp].
        + destruct N2x as [N|N]; rewrite N in E2; discriminate.
        + rewrite N2p in E2 by assumption. destruct (lookup_legal _ _ _ Hc E2) as (_ & _ & Hne). congruence.
      - rewrite (HOut _) by now apply dget_None. rewrite F1. rewrite NG in En.
        destruct (dget (ns2 chain ns q) (Some p)) as [w|] eqn:E2; [|reflexivity].
        destruct (differs cur (Some p, w)) eqn:Edf; [discriminate|]. unfold differs in Edf. cbn [fst snd] in Edf. apply negb_false_iff in Edf.
        destruct (okey_eqb_spec (dget cur (Some p)) (Some w)) as [Ecur|]; [assumption|discriminate]. }
    assert (SD : sc' None = match dget (dupdate cur nss) None with Some (c :: u) => Some (c :: u) | _ => None end).
    { rewrite SC. destruct (dget (dupdate cur nss) None) as [v|] eqn:Ed.
      - rewrite okey_eqb_refl. destruct v; reflexivity.
      - rewrite F2. rewrite CG in Ed. destruct (dget (ns2 chain ns q) None); [discriminate|]. now rewrite Ed. }
    assert (Mono : lookup (tl chain) None <> None -> lookup chain None <> None).
    { destruct chain as [|d0 ch]; [auto|]. cbn [tl lookup]. destruct (dget (filter usable d0) None); [discriminate|auto]. }
    assert (SF : forall p u, scope_of chain (Some p) = Some u -> sc' (Some p) = Some u).
    { intros p u Hu. rewrite SP, CG. destruct (str_eq_dec p (lit "xml")) as [->|Hp].
      - rewrite scope_xml in Hu by assumption. inversion Hu; subst. destruct N2x as [-> | ->]; [assumption|reflexivity].
      - rewrite N2p by assumption. rewrite scope_prefix in Hu by assumption. now rewrite Hu. }
    split; [|split; [|exact SF]].
    - repeat split.
      + exact SP.
      + exact SD.
      + intros c u. rewrite CG. destruct N2d as [N2d1 N2d2]. destruct pq as [p|].
        * rewrite N2d1 by discriminate. destruct (lookup chain None) eqn:EL; [discriminate|]. intro Hcur.
          apply F3 in Hcur. apply Mono in Hcur. congruence.
        * specialize (N2d2 eq_refl). destruct (dget (ns2 chain ns q) None) as [[|c' w]|].
          -- discriminate.
          -- destruct N2d2 as [_ EL]. rewrite EL. discriminate.
          -- intro Hcur. apply F3 in Hcur. apply Mono in Hcur. destruct N2d2; congruence.
      + rewrite CG. destruct N2x as [-> | ->]; [assumption|reflexivity].
    - unfold resolve_elem. rewrite Esq. destruct HNS as [[-> E]|(p & u & -> & -> & E)].
      + f_equal. f_equal; [|assumption]. rewrite SD, CG. destruct N2d as [_ N2d2]. specialize (N2d2 eq_refl).
        destruct (dget (ns2 chain ns q) None) as [[|c w]|].
        * destruct N2d2 as [En _]. now rewrite En.
        * destruct N2d2 as [En _]. now rewrite En.
        * destruct N2d2 as [En EL]. rewrite En. destruct (dget cur None) as [[|c w]|] eqn:Ecur; try reflexivity.
          exfalso. pose proof (Mono (F3 c w eq_refl)). contradiction.
      + rewrite (SF p u E). now rewrite Elq.
  Qed.
End Ns.
