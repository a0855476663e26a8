(** * Canonical output does not depend on any order *)
From Coq Require Import NArith ZArith String List Bool Lia Arith Permutation.
From Verif Require Import PyStr PyErr Utf8 SerModel SerSpec SerStream SerPrint SerVisit SerRead SerTree SerNs SerTop SerFail.
Import ListNotations.
Open Scope N_scope.

Lemma str_leb_refl : forall a, str_leb a a = true.
Proof. induction a as [|x a IH]; [reflexivity|]. cbn [str_leb]. rewrite N.eqb_refl, IH. apply orb_true_r. Qed.
Lemma str_leb_total : forall a b, str_leb a b = false -> str_leb b a = true.
Proof.
  induction a as [|x a IH]; intros [|y b] H; try discriminate; try reflexivity. cbn [str_leb] in *.
  apply orb_false_iff in H as [H1 H2]. rewrite N.ltb_ge in H1. destruct (N.ltb_spec y x); [reflexivity|]. assert (x = y) by lia. subst.
  rewrite N.eqb_refl in *. cbn in *. now apply IH.
Qed.
Lemma str_leb_antisym : forall a b, str_leb a b = true -> str_leb b a = true -> a = b.
Proof.
  induction a as [|x a IH]; intros [|y b] H1 H2; try discriminate; try reflexivity. cbn [str_leb] in *.
  destruct (N.ltb_spec x y); destruct (N.ltb_spec y x); try lia; destruct (N.eqb_spec x y); destruct (N.eqb_spec y x); try lia; try discriminate.
  subst. cbn in *. f_equal. now apply IH.
Qed.
Lemma str_leb_trans : forall a b c, str_leb a b = true -> str_leb b c = true -> str_leb a c = true.
Proof.
  induction a as [|x a IH]; intros [|y b] [|z c] H1 H2; try discriminate; try reflexivity. cbn [str_leb] in *.
  apply orb_true_iff in H1, H2. rewrite N.ltb_lt, andb_true_iff, N.eqb_eq in *.
  apply orb_true_iff. rewrite N.ltb_lt, andb_true_iff, N.eqb_eq.
  destruct H1 as [H1|[-> H1]], H2 as [H2|[-> H2]]; try (left; lia). right. split; [reflexivity|]. eauto.
Qed.

Definition somev (a : str * option str) : Prop := exists w, snd a = Some w.
Lemma attr_leb_total : forall a b, attr_leb a b = false -> attr_leb b a = true.
Proof.
  intros a b H. unfold attr_leb in *. destruct (str_eqb_spec (fst a) (fst b)) as [E|E]; destruct (str_eqb_spec (fst b) (fst a)) as [E2|E2]; try congruence; now apply str_leb_total.
Qed.
Lemma attr_leb_antisym : forall a b, somev a -> somev b -> attr_leb a b = true -> attr_leb b a = true -> a = b.
Proof.
  intros [n o] [m p] [v Hv] [w Hw] H1 H2. cbn in Hv, Hw. subst. unfold attr_leb in *. cbn [fst snd oget] in *.
  destruct (str_eqb_spec n m) as [E|E]; destruct (str_eqb_spec m n) as [E2|E2]; try congruence.
  - subst. do 2 f_equal. now apply str_leb_antisym.
  - exfalso. apply E. now apply str_leb_antisym.
Qed.
Lemma attr_leb_trans : forall a b c, attr_leb a b = true -> attr_leb b c = true -> attr_leb a c = true.
Proof.
  intros a b c H1 H2. unfold attr_leb in *.
  destruct (str_eqb_spec (fst a) (fst b)) as [E1|E1]; destruct (str_eqb_spec (fst b) (fst c)) as [E2|E2]; destruct (str_eqb_spec (fst a) (fst c)) as [E3|E3]; try congruence.
  - eapply str_leb_trans; eauto.
  - exfalso. apply E2. apply str_leb_antisym; [assumption|]. now rewrite <- E3.
  - eapply str_leb_trans; eauto.
Qed.

Lemma insert_comm : forall a b l, somev a -> somev b -> insert_attr a (insert_attr b l) = insert_attr b (insert_attr a l).
Proof.
  intros a b l Ha Hb. induction l as [|c l IH]; cbn [insert_attr].
  - destruct (attr_leb a b) eqn:E1, (attr_leb b a) eqn:E2; try reflexivity.
    + now rewrite (attr_leb_antisym a b Ha Hb E1 E2).
    + apply attr_leb_total in E1. congruence.
  - destruct (attr_leb b c) eqn:Eb, (attr_leb a c) eqn:Ea; cbn [insert_attr]; rewrite ?Ea, ?Eb.
    + destruct (attr_leb a b) eqn:E1, (attr_leb b a) eqn:E2; try reflexivity.
      * now rewrite (attr_leb_antisym a b Ha Hb E1 E2).
      * apply attr_leb_total in E1. congruence.
    + destruct (attr_leb a b) eqn:E1; [|reflexivity]. rewrite (attr_leb_trans a b c E1 Eb) in Ea. discriminate.
    + destruct (attr_leb b a) eqn:E2; [|reflexivity]. rewrite (attr_leb_trans b a c E2 Ea) in Eb. discriminate.
    + now rewrite IH.
Qed.
Lemma sort_perm_eq : forall a b, Permutation a b -> all_some a -> sort_attrs a = sort_attrs b.
Proof.
  induction 1 as [|x a b P IH|x y a|a b c P1 IH1 P2 IH2]; intro H; [reflexivity| | |].
  - inversion H; subst. cbn [sort_attrs fold_right]. fold (sort_attrs a) (sort_attrs b). now rewrite IH.
  - inversion H as [|? ? H1 H2]; subst. inversion H2; subst. cbn [sort_attrs fold_right]. fold (sort_attrs a). now apply insert_comm.
  - rewrite IH1 by assumption. apply IH2. eapply all_some_perm; eauto.
Qed.

(** ** Dictionaries *)
Lemma dget_perm : forall d e, Permutation d e -> NoDup (map fst d) -> forall k, dget d k = dget e k.
Proof.
  intros d e P H k. assert (He : NoDup (map fst e)) by (eapply Permutation_NoDup; [apply Permutation_map; exact P|assumption]).
  destruct (dget d k) as [v|] eqn:E.
  - symmetry. apply In_dget; [assumption|]. eapply Permutation_in; [exact P|]. now apply dget_In.
  - symmetry. apply dget_None. intro Hin. apply dget_None in E. apply E. eapply Permutation_in; [apply Permutation_map, Permutation_sym; exact P|assumption].
Qed.
Lemma dget_eq_perm : forall d e, NoDup (map fst d) -> NoDup (map fst e) -> (forall k, dget d k = dget e k) -> Permutation d e.
Proof.
  intros d e Hd He H. apply NoDup_Permutation.
  - eapply NoDup_map_inv; exact Hd.
  - eapply NoDup_map_inv; exact He.
  - intros [k v]. split; intro Hin.
    + apply dget_In. rewrite <- H. now apply In_dget.
    + apply dget_In. rewrite H. now apply In_dget.
Qed.
Lemma legal_decls_perm : forall d e, Permutation d e -> legal_decls d -> legal_decls e.
Proof. intros d e P [H1 H2]. split; [eapply Permutation_NoDup; [apply Permutation_map; exact P|assumption]|now rewrite <- P]. Qed.
Lemma chain_legal : forall c c', Forall2 (@Permutation _) c c' -> Forall legal_decls c -> Forall legal_decls c'.
Proof. induction 1 as [|d e c c' P H IH]; intro HL; [constructor|]. inversion HL; subst. constructor; [eapply legal_decls_perm; eauto|auto]. Qed.
Lemma lookup_perm : forall c c', Forall2 (@Permutation _) c c' -> Forall legal_decls c -> forall k, lookup c k = lookup c' k.
Proof.
  induction 1 as [|d e c c' P H IH]; intros HL k; [reflexivity|]. inversion HL as [|? ? [HN _] HL']; subst. cbn [lookup].
  rewrite (dget_perm (filter usable d) (filter usable e)); [|now apply filter_perm|now apply filter_nodup]. destruct (dget (filter usable e) k); [reflexivity|]. now apply IH.
Qed.

Section C.
  Variables (ordn ordn' : list (option str * str) -> list (option str * str)) (orda orda' : list (str * option str) -> list (str * option str)).
  Hypothesis ordn_ok : forall l, Permutation (ordn l) l.
  Hypothesis ordn_ok' : forall l, Permutation (ordn' l) l.
  Hypothesis orda_ok : forall l, Permutation (orda l) l.
  Hypothesis orda_ok' : forall l, Permutation (orda' l) l.

  Lemma vn_perm : forall c c' cur cur' ns q a a', Forall2 (@Permutation _) c c' -> Forall legal_decls c ->
    (forall k, dget cur k = dget cur' k) -> Permutation a a' -> Forall (fun a => a_ns a <> Some xmlns_uri) a ->
    Permutation (visit_namespaces c cur ns q a) (visit_namespaces c' cur' ns q a').
  Proof.
    intros c c' cur cur' ns q a a' PC HL HC PA HA. assert (HL' := chain_legal _ _ PC HL).
    assert (HA' : Forall (fun a => a_ns a <> Some xmlns_uri) a') by now rewrite <- PA.
    apply dget_eq_perm; [now apply vn_nodup|now apply vn_nodup|]. intro k.
    rewrite !visit_namespaces_eq by assumption. rewrite !dget_filter by (now apply ns2_nodup).
    assert (E0 : forall k, dget (ns0 c) k = dget (ns0 c') k).
    { intro k0. rewrite !ns0_get by assumption. rewrite (lookup_perm c c' PC HL). reflexivity. }
    assert (E2 : dget (ns2 c ns q) k = dget (ns2 c' ns q) k).
    { unfold ns2. rewrite !E0. destruct (truthy ns || truthy (dget (ns0 c') None)); [|apply E0].
      destruct (match dget (ns0 c') (key_of q) with Some v => _ | None => _ end); [apply E0|]. rewrite !dget_dset. now rewrite E0. }
    rewrite E2. destruct (dget (ns2 c' ns q) k); [|reflexivity]. unfold differs. cbn [fst snd]. now rewrite HC.
  Qed.

  Lemma start_canon : forall wide q l l' a a' p, Permutation l l' -> Permutation a a' -> all_some a ->
    start_element wide Canon q l a p = start_element wide Canon q l' a' p.
  Proof.
    intros wide q l l' a a' p PL PA HA. unfold start_element, start_element0. cbn [canon_of].
    rewrite (sort_perm_eq (map nsattr l) (map nsattr l')); [|now apply Permutation_map|apply nsattr_all_some].
    now rewrite (sort_perm_eq a a').
  Qed.

  Lemma visit_canon : forall wide n n', same_dom n n' -> forall c c' cur cur' p, Forall2 (@Permutation _) c c' -> Forall legal_decls c ->
    (forall k, dget cur k = dget cur' k) -> legal_dom n ->
    visit wide Canon ordn orda c cur n p = visit wide Canon ordn' orda' c' cur' n' p.
  Proof.
    intros wide n. induction n as [ns q d a k IH|s|s|t d] using node_ind2; intros n' HS c c' cur cur' p PC HL HC HD; inversion HS as [| | |? ? ? d' ? a' ? k' PD PA HK]; subst; try reflexivity.
    inversion HD as [| | |? ? ? ? ? Hq Hns Hdd HF HN HKL]; subst. cbn [visit]. cbv zeta.
    assert (HA : Forall (fun a => a_ns a <> Some xmlns_uri) a) by now apply attrs_no_xmlns.
    assert (PC' : Forall2 (@Permutation _) (d :: c) (d' :: c')) by (constructor; assumption).
    assert (HL' : Forall legal_decls (d :: c)) by (constructor; assumption).
    assert (PV := vn_perm (d :: c) (d' :: c') cur cur' ns q a a' PC' HL' HC PA HA).
    assert (HA' : Forall (fun a => a_ns a <> Some xmlns_uri) a') by now rewrite <- PA.
    assert (HN' : NoDup (map a_qname a')) by (eapply Permutation_NoDup; [apply Permutation_map; exact PA|assumption]).
    assert (PVA : Permutation (visit_attributes a) (visit_attributes a')).
    { rewrite !visit_attributes_eq by assumption. apply Permutation_map, Permutation_map. exact PA. }
    rewrite (start_canon wide q (ordn (visit_namespaces (d :: c) cur ns q a)) (ordn' (visit_namespaces (d' :: c') cur' ns q a'))
       (orda (visit_attributes a)) (orda' (visit_attributes a'))).
    - destruct (start_element wide Canon q _ _ p) as [p1|]; [|reflexivity]. cbn [bind].
      assert (HC' : forall k, dget (dupdate cur (visit_namespaces (d :: c) cur ns q a)) k = dget (dupdate cur' (visit_namespaces (d' :: c') cur' ns q a')) k).
      { intro k0. rewrite (dget_dupdate (visit_namespaces (d :: c) cur ns q a)) by (now apply vn_nodup). rewrite (dget_dupdate (visit_namespaces (d' :: c') cur' ns q a')) by (apply vn_nodup; assumption).
        rewrite (dget_perm _ _ PV) by now apply vn_nodup. now rewrite HC. }
      set (cu := dupdate cur _) in *. set (cu' := dupdate cur' _) in *. clearbody cu cu'.
      match goal with |- bind ?x _ = bind ?y _ => assert (EQ : x = y); [|now rewrite EQ] end.
      clear - IH HK HKL HC' PC' HL'. revert p1. induction HK as [|n n' k k' Hn HK IHk]; intro p1; [reflexivity|].
      inversion IH as [|? ? IHn IH']; subst. inversion HKL as [|? ? Ln HKL']; subst.
      rewrite (IHn n' Hn (d :: c) (d' :: c') cu cu' p1 PC' HL' HC' Ln). destruct (visit wide Canon ordn' orda' (d' :: c') cu' n' p1); [|reflexivity]. cbn [bind]. now apply IHk.
    - rewrite ordn_ok. rewrite ordn_ok'. exact PV.
    - rewrite orda_ok. rewrite orda_ok'. exact PVA.
    - eapply all_some_perm; [symmetry; apply orda_ok|apply visit_attributes_some].
  Qed.
End C.
