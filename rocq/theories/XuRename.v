(** * Proofs about the XUpdate commands: rename *)
From Coq Require Import NArith ZArith String List Bool Lia Arith.
From Verif Require Import PyStr PyErr DomModel DomSpec DomInv DomCells DomOps DomStep DomProps XuModel XuSpec XuProofs XuInsert XuEdit.
Import ListNotations.
Local Open Scope nat_scope.

Lemma ename_eqb_eq a b : ename_eqb a b = true <-> a = b.
Proof.
  destruct a as [[x|] y], b as [[x'|] y']; unfold ename_eqb; cbn [fst snd]; rewrite ?andb_true_iff, ?str_eqb_eq; split; try discriminate.
  - intros [-> ->]. reflexivity.
  - intros [= -> ->]. auto.
  - intros ->. reflexivity.
  - intros [= ->]. reflexivity.
Qed.
Lemma attr_list_dattrs d p : attr_list (d_store d) p = dattrs d p. Proof. reflexivity. Qed.

(** Copying attributes of distinct names. *)
Lemma set_attributes_ok e atts : forall d, dforest d -> dkind d e = Some KElement -> NoDup (map fst (attributes d e ++ atts)) ->
  exists d', fold_left (fun d a => set_attribute d e a) atts d = d' /\ dforest d' /\ len d <= len d' /\ kept d d' /\ same_data d d' /\
  (forall j, dkids d' j = dkids d j) /\ (forall j, node_in d j -> dparent d' j = dparent d j) /\ (forall j, node_in d j -> j <> e -> dattrs d' j = dattrs d j) /\
  attributes d' e = attributes d e ++ atts.
Proof.
  induction atts as [|a atts IH]; intros d F K ND; cbn [fold_left].
  - exists d. rewrite app_nil_r. repeat (split; [first [reflexivity|assumption|apply Nat.le_refl|intros i I; auto; fail|intros i; reflexivity|intros i I; reflexivity|intros i I J; reflexivity]|]). reflexivity.
  - assert (set_attribute d e a = new_attr d e a) as ->.
    { unfold set_attribute. rewrite attr_list_dattrs. destruct (find _ (dattrs d e)) as [i|] eqn:FI; [|reflexivity]. exfalso. apply find_some in FI. destruct FI as [I E]. apply ename_eqb_eq in E.
      rewrite map_app in ND. cbn [map] in ND. apply NoDup_remove_2 in ND. apply ND. apply in_app_iff. left. rewrite <- E. unfold attributes. rewrite map_map. cbn [fst]. now apply (in_map (d_name d)). }
    destruct (new_attr_ok d e a F K) as [d1 [-> [F1 [L1 [K1 [D1 [X1 [P1 [A1 [B1 _]]]]]]]]]].
    assert (dkind d1 e = Some KElement) as K2 by (destruct (K1 e) as [_ [E _]]; [eapply kind_in; exact K|congruence]).
    assert (forall i, node_in d i -> node_in d1 i) as IN by (intros i I; now apply K1).
    destruct (IH d1 F1 K2) as [d' [E [F' [L' [K' [D' [X' [P' [A' B']]]]]]]]]. { rewrite B1, <- app_assoc. exact ND. }
    exists d'. split; [exact E|]. split; [exact F'|]. split; [lia|].
    split; [|split; [|split; [|split; [|split]]]].
    + intros i I. destruct (K1 i I) as [I2 [P Q]]. destruct (K' i I2) as [I3 [R S]]. repeat split; [assumption|congruence|congruence].
    + intros i I. rewrite (D' i), (D1 i); auto.
    + intros j. now rewrite X', X1.
    + intros j I. rewrite P', P1; auto.
    + intros j I N. rewrite A', A1; auto.
    + now rewrite B', B1, <- app_assoc.
Qed.

Lemma above_moved (G : nat -> Prop) par cs e q : (forall x, G x -> par x <> Some e) -> (forall x y, par x = Some y -> G y) -> G q ->
  above (fun i => if is_member cs i then Some e else par i) e q -> exists c, In c cs /\ above_or_self par c q.
Proof.
  intros NE UP Gq A. revert Gq. induction A as [b P|b z P A IH]; intros Gb; cbn beta in P.
  - destruct (is_member cs b) eqn:M; [apply is_member_in in M; exists b; split; [exact M|now left]|]. now apply NE in P.
  - destruct (is_member cs b) eqn:M; [apply is_member_in in M; exists b; split; [exact M|now left]|]. destruct (IH (UP _ _ P)) as [c [I Q]]. exists c. split; [exact I|]. right. destruct Q as [->|Q]; [now apply above_parent|eapply above_up; eauto].
Qed.
Lemma attributes_ext (K : nat -> Prop) d d' i : dforest d -> ext K d d' -> node_in d i -> attributes d' i = attributes d i.
Proof.
  intros F X I. unfold attributes. rewrite (x_attrs _ _ _ X i I). apply map_ext_in. intros a J. pose proof (attr_in d i a F J) as Ia. destruct (x_kept _ _ _ X a Ia) as [_ [_ Q]]. now rewrite Q, (x_data _ _ _ X a Ia).
Qed.
Lemma above_trans par a b c : above par a b -> above par b c -> above par a c.
Proof. intros A. induction 1 as [c P|c q P B IH]; [eapply above_up; eauto|eapply above_up; eauto]. Qed.

Section Rename.
  Variables (d0 : doc) (nm : ename) (ts : list nat).
  Hypothesis F : dforest d0.
  Hypothesis sel : selection d0 ts.
  Definition hit (done : list nat) (t : nat) : bool := is_member done t && is_kind d0 KElement t.
  Definition now_called (done : list nat) (new : nat -> nat) (i : nat) : nat := if hit done i then new i else i.
  Hypothesis simple : forall t, In t ts -> dkind d0 t <> Some KAttr /\ dkind d0 t <> Some KPI.
  Hypothesis inside : forall t, In t ts -> dkind d0 t = Some KElement -> exists p, In t (dkids d0 p).
  Hypothesis distinct : forall t, In t ts -> dkind d0 t = Some KElement -> NoDup (map fst (attributes d0 t)).

  Record rinv (done : list nat) (new : nat -> nat) (d : doc) : Prop := {
    r_forest : dforest d;
    r_len : len d0 <= len d;
    r_kept : kept d0 d;
    r_data : same_data d0 d;
    r_attrs : same_attrs d0 d;
    r_kids : forall p, node_in d0 p -> dkids d (now_called done new p) = map (now_called done new) (dkids d0 p);
    r_old : forall t, hit done t = true -> dkids d t = [] /\ dparent d t = None;
    r_par : forall i, node_in d0 i -> hit done i = false -> dkind d0 i <> Some KAttr -> dparent d i = option_map (now_called done new) (dparent d0 i);
    r_apar : forall i, dkind d0 i = Some KAttr -> dparent d i = dparent d0 i;
    r_new : forall t, hit done t = true -> len d0 <= new t /\ dkind d (new t) = Some KElement /\ d_name d (new t) = nm /\ attributes d (new t) = attributes d0 t;
    r_newpar : forall t, hit done t = true -> dparent d (new t) = option_map (now_called done new) (dparent d0 t);
    r_inj : forall t u, hit done t = true -> hit done u = true -> new t = new u -> t = u
  }.
  Definition setn (f : nat -> nat) (t v i : nat) : nat := if i =? t then v else f i.
  Lemma hit_cons t done i : i <> t -> hit (t :: done) i = hit done i.
  Proof. intros N. unfold hit. cbn [is_member existsb]. apply Nat.eqb_neq in N as ->. reflexivity. Qed.
  Lemma hit_in d1 done i : hit done i = true -> incl done d1 -> In i d1 /\ dkind d0 i = Some KElement.
  Proof. unfold hit. rewrite andb_true_iff, is_member_in, is_kind_true. intros [I K] J. split; [now apply J|exact K]. Qed.
  Lemma called_inj done new d i j : rinv done new d -> node_in d0 i -> node_in d0 j -> now_called done new i = now_called done new j -> i = j.
  Proof.
    intros R Ii Ij. unfold now_called. change (i < len d0) in Ii. change (j < len d0) in Ij. destruct (hit done i) eqn:Hi, (hit done j) eqn:Hj; intros E; auto.
    - eapply (r_inj _ _ _ R); eauto.
    - destruct (r_new _ _ _ R i Hi). lia.
    - destruct (r_new _ _ _ R j Hj). lia.
  Qed.

  Lemma step_rename done new d t : rinv done new d -> ~ In t done -> In t ts -> dkind d0 t = Some KElement -> exists d' e, rename_one nm d t = (d', Ok tt) /\ rinv (t :: done) (setn new t e) d'.
  Proof.
    intros R N T KE. pose proof (proj2 sel t T) as It. change (t < len d0) in It. destruct (inside t T KE) as [p Ip]. pose proof (distinct t T KE) as DN.
    pose proof (r_forest _ _ _ R) as Fd. pose proof (kid_parent d0 p t F Ip) as Pt0. pose proof (kids_of_kid d0 p t F Ip) as Lp. destruct (r_kept _ _ _ R t It) as [It' [Kt' _]]. change (t < len d) in It'.
    assert (hit done t = false) as Ht by (unfold hit; apply is_member_not in N as ->; reflexivity).
    set (rn := now_called done new) in *. set (q := rn p).
    assert (dparent d t = Some q) as Pt. { rewrite (r_par _ _ _ R t It Ht) by congruence. now rewrite Pt0. }
    assert (rn t = t) as Rt by (unfold rn, now_called; now rewrite Ht).
    assert (attributes d t = attributes d0 t) as AT.
    { unfold attributes. rewrite (r_attrs _ _ _ R t It). apply map_ext_in. intros a I. pose proof (attr_in d0 t a F I) as Ia. destruct (r_kept _ _ _ R a Ia) as [_ [_ Q]]. now rewrite Q, (r_data _ _ _ R a Ia). }
    unfold rename_one. rewrite type_kind. unfold dkind in Kt', KE. rewrite Kt', KE. unfold dparent in Pt. rewrite Pt. fold (dparent d t) in Pt. fold (dkind d0 t) in KE. fold (dkind d t) in Kt'. fold (dkind d0 t) in Kt'. rewrite attr_list_dattrs.
    change (map (fun a => (d_name d a, data_of (d_store d) a)) (dattrs d t)) with (attributes d t). rewrite AT.
    destruct (create d KElement nm []) as [d1 e] eqn:EC. destruct (create_ok _ _ _ _ _ _ Fd EC) as [Ee [F1 [L1 [X1 [P1 [KD1 [K1 [N1 [D1 [KC1 A1]]]]]]]]]]. clear EC.
    assert (attributes d1 e = []) as AE by (unfold attributes; now rewrite A1).
    destruct (set_attributes_ok e (attributes d0 t) d1 F1 K1) as [d2 [E2 [F2 [L2 [KP2 [D2 [X2 [P2 [A2 B2]]]]]]]]]. { now rewrite AE. }
    rewrite E2. clear E2. rewrite AE in B2. cbn [app] in B2.
    assert (e < len d1) as Le1 by lia.
    assert (ext (fun _ => True) d d2) as X12.
    { split.
      - lia.
      - intros i I. destruct (x_kept _ _ _ X1 i I) as [I2 [P Q]]. destruct (KP2 i I2) as [I3 [R' S]]. repeat split; [assumption|congruence|congruence].
      - intros i I. rewrite (D2 i), (x_data _ _ _ X1 i I); [reflexivity|]. now apply (x_kept _ _ _ X1).
      - intros i I. rewrite (A2 i), (x_attrs _ _ _ X1 i I); [reflexivity|now apply (x_kept _ _ _ X1)|]. change (i < len d) in I. lia.
      - intros z I _. now rewrite X2, KD1. }
    assert (forall i, i < len d -> dparent d2 i = dparent d i) as PP. { intros i I. rewrite P2, P1; [reflexivity|]. change (i < len d1). lia. }
    destruct (KP2 e Le1) as [Le2 [Ke2 Ne2]]. change (e < len d2) in Le2. rewrite K1 in Ke2. rewrite N1 in Ne2.
    assert (dparent d2 e = None) as PE. { rewrite P2, P1 by exact Le1. destruct (dparent d e) as [z|] eqn:Z; [|reflexivity]. apply parent_of_in in Z. lia. }
    assert (dkids d2 e = []) as KE2 by (now rewrite X2).
    assert (dkids d2 t = map rn (dkids d0 t)) as KT2. { rewrite X2, KD1. rewrite <- Rt at 1. now apply (r_kids _ _ _ R). }
    set (cs := map rn (dkids d0 t)) in *.
    assert (dcontainer d2 e) as Ce2 by (exists KElement; split; [exact Ke2|reflexivity]).
    assert (dcontainer d2 t) as Ct2. { eapply ext_container; [exact X12|]. exists KElement. split; [unfold dkind in *; congruence|reflexivity]. }
    assert (t <> e) as NTE by lia.
    assert (forall x, dparent d2 x <> Some e \/ dkind d2 x = Some KAttr) as NKE.
    { intros x. destruct (dparent d2 x) as [z|] eqn:Z; [|left; discriminate]. destruct (Nat.eq_dec z e) as [->|]; [|left; congruence]. right. destruct (dkind d2 x) as [k|] eqn:KX.
      2: { apply parent_of_in in Z. unfold dkind, kind_of in KX. destruct (get (d_store d2) x) eqn:G; [discriminate|]. apply nth_error_None in G. unfold len in Z. lia. }
      destruct k; try reflexivity; exfalso; assert (In x (dkids d2 e)) as J by (apply (f_link _ F2); split; [exact Z|unfold dkind in KX; congruence]); rewrite KE2 in J; destruct J. }
    destruct (move_all_ok (append_node (Some e)) e t [] (places_append e) NTE) with (cs := cs) (fuel := fuel_of d2) (d := d2) (a := @nil nat) as [d3 [E3 [F3 [X3 [Kp3 [Kr3 [Pa3 L3]]]]]]].
    { rewrite <- KT2. now apply kids_fuel. } { exact F2. } { exact Ce2. } { exact Ct2. } { exact KE2. } { exact KT2. }
    { intros c I [->|A]; [|inversion A; congruence]. rewrite <- KT2 in I. pose proof (kid_parent d2 t e F2 I). congruence. }
    rewrite E3. cbn [andthen app] in *. rewrite app_nil_r in Kp3.
    assert (forall c, In c cs -> dparent d2 c = Some t) as PCS by (intros c I; rewrite <- KT2 in I; now apply kid_parent).
    assert (is_member cs t = false) as MT. { apply is_member_not. intros I. apply PCS in I. rewrite PP in I by exact It'. apply (f_acyclic _ Fd t). apply above_parent. exact I. }
    assert (is_member cs e = false) as ME. { apply is_member_not. intros I. apply PCS in I. congruence. }
    assert (dparent d3 t = Some q) as Pt3 by (rewrite Pa3, MT, PP; assumption).
    assert (dparent d3 e = None) as Pe3 by (now rewrite Pa3, ME).
    assert (q < len d) as Lq by (eapply parent_in; eauto). assert (q <> e) as NQE by lia.
    assert (len d <= len d3) as L03 by (rewrite L3; lia).
    assert (dkind d3 t = Some KElement /\ dkind d3 e = Some KElement) as [Kt3 Ke3].
    { split; [destruct (x_kept _ _ _ X3 t) as [_ [Q _]]; [change (t < len d2); lia|]; destruct (x_kept _ _ _ X12 t It') as [_ [Q' _]]; congruence|]. destruct (x_kept _ _ _ X3 e Le2) as [_ [Q _]]. congruence. }
    assert (In t (dkids d3 q)) as Iq3. { apply (f_link _ F3). split; [exact Pt3|]. unfold dkind in Kt3. congruence. }
    assert (dkids d3 q = dkids d q) as Kq3. { rewrite (x_kids _ _ _ X3 q); [rewrite X2, KD1; reflexivity|change (q < len d2); lia|]. split; [exact NQE|]. intros ->. apply (f_acyclic _ Fd t). apply above_parent. exact Pt. }
    assert (safe (d_store d3) (Replace q t e)) as SF.
    { right. split; [intros k Kk; unfold dkind in Ke3; rewrite Ke3 in Kk; injection Kk as <-; reflexivity|]. split; [|unfold dparent in Pe3; congruence].
      intros [E|A]; [congruence|].
      destruct (above_moved (fun x => dkind d2 x <> Some KAttr) (dparent d2) cs e q) as [c [Ic Ac]].
      - intros x G. destruct (NKE x) as [Q|Q]; [exact Q|contradiction].
      - intros x y P. destruct (f_parent _ F2 _ _ P) as [k [Q C]]. unfold dkind. rewrite Q. intros [= ->]. discriminate C.
      - destruct (f_parent _ Fd _ _ Pt) as [k [Q C]]. destruct (x_kept _ _ _ X12 q Lq) as [_ [Q' _]]. rewrite Q'. unfold dkind. rewrite Q. intros [= ->]. discriminate C.
      - eapply above_ext; [|exact A]. intros i. symmetry. apply Pa3.
      - pose proof (PCS c Ic) as Pc. apply (f_acyclic _ F2 t). assert (above (dparent d2) t q) as TQ. { destruct Ac as [->|Ac]; [now apply above_parent|]. eapply above_trans; [apply above_parent; exact Pc|exact Ac]. }
        apply (above_trans _ _ q); [exact TQ|]. apply above_parent. change (dparent d2 t = Some q). rewrite PP by exact It'. exact Pt. }
    assert (container (d_store d3) q) as Cq3 by (exact (f_parent _ F3 _ _ Pt3)).
    assert (exists_node (d_store d3) t) as Et3 by (change (t < len d3); lia). assert (exists_node (d_store d3) e) as Ee3 by (change (e < len d3); lia).
    destruct (C19_replace_partial (d_store d3) q t e F3 Cq3 Et3 Ee3 SF) as [Y _]. destruct (Y Iq3 NTE) as [s4 [E4 [F4 ED]]]. clear Y.
    rewrite (on_edited _ _ _ E4). set (d4 := {| d_store := s4; d_name := d_name d3 |}). exists d4, e. split; [reflexivity|].
    assert (ext (fun x => x <> q) d3 d4) as X4. { eapply edited_ext; [exact ED|]. intros x I Nx. cbn beta. apply Nat.eqb_neq in Nx as ->. apply without_other; [exact F3|]. unfold dparent in Pe3. rewrite Pe3. discriminate. }
    assert (dkids d4 q = map (fun x => if x =? t then e else x) (dkids d q)) as Kq4.
    { unfold dkids at 1. unfold d4. cbn [d_store]. rewrite (edited_kids _ _ _ _ q ED) by (change (q < len d3); lia). cbn beta. rewrite Nat.eqb_refl, without_other; [|exact F3|unfold dparent in Pe3; rewrite Pe3; discriminate]. unfold substitute. unfold dkids in Kq3. now rewrite Kq3. }
    assert (forall x, x < len d -> x <> q -> x <> t -> dkids d4 x = dkids d x) as Kx4.
    { intros x I N1' N2'. rewrite (x_kids _ _ _ X4 x); [|change (x < len d3); lia|exact N1']. rewrite (x_kids _ _ _ X3 x); [|change (x < len d2); lia|split; [lia|exact N2']]. now rewrite X2, KD1. }
    assert (t <> q) as NTQ. { intros E. apply (f_acyclic _ Fd t). apply above_parent. unfold dparent in Pt. rewrite Pt. now f_equal. }
    assert (dkids d4 e = cs) as Ke4. { rewrite (x_kids _ _ _ X4 e); [exact Kp3|change (e < len d3); lia|congruence]. }
    assert (dkids d4 t = []) as Kt4. { rewrite (x_kids _ _ _ X4 t); [exact Kr3|change (t < len d3); lia|exact NTQ]. }
    assert (forall i, dparent d4 i = if i =? e then Some q else if i =? t then None else if is_member cs i then Some e else dparent d2 i) as P4.
    { intros i. unfold dparent at 1. unfold d4. cbn [d_store]. rewrite (e_par _ _ _ _ ED). unfold set_par. destruct (i =? e); [reflexivity|]. destruct (i =? t); [reflexivity|]. apply Pa3. }
    change (dforest d4) in F4. clear ED E4 E3 SF. clearbody d4. clear s4.
    assert (ext (fun _ => False) d2 d4) as X24. { eapply ext_trans; [eapply ext_weak; [|exact X3]; intros ? ? []|eapply ext_weak; [|exact X4]; intros ? ? []]. }
    assert (ext (fun _ => False) d d4) as X04. { eapply ext_trans; [eapply ext_weak; [|exact X12]; intros ? ? []|exact X24]. }
    assert (forall u, hit done u = true -> len d0 <= new u < len d) as NW.
    { intros u Hu. destruct (r_new _ _ _ R u Hu) as [A [B _]]. split; [exact A|]. exact (kind_in d _ _ B). }
    assert (forall x, x < len d0 -> rn x < len d) as RL. { intros x I. unfold rn, now_called. destruct (hit done x) eqn:Hx; [now apply NW|]. pose proof (r_len _ _ _ R). lia. }
    pose proof (r_len _ _ _ R) as L0d.
    assert (forall x, now_called (t :: done) (setn new t e) x = if x =? t then e else rn x) as RN'.
    { intros x. unfold now_called, rn, setn. destruct (Nat.eqb_spec x t) as [->|Nx]; [|rewrite (hit_cons t done x Nx); unfold now_called; now destruct (hit done x)].
      unfold hit. cbn [is_member existsb]. rewrite Nat.eqb_refl. cbn [orb andb]. apply is_kind_true in KE as ->. reflexivity. }
    assert (forall x, x < len d0 -> x <> t -> rn x <> t) as RT. { intros x I Nx E. apply Nx. eapply called_inj; [exact R|exact I|exact It|]. fold rn. congruence. }
    assert (forall i, i < len d0 -> hit done i = false -> is_member cs i = true -> In i (dkids d0 t)) as CS0.
    { intros i I H M. apply is_member_in in M. unfold cs in M. apply in_map_iff in M. destruct M as [c [E J]]. unfold rn, now_called in E. destruct (hit done c) eqn:Hc; [apply NW in Hc; lia|]. now subst i. }
    assert (forall i, i < len d0 -> hit done i = true -> is_member cs i = false) as CS1.
    { intros i I H. apply is_member_not. intros M. unfold cs in M. apply in_map_iff in M. destruct M as [c [E J]]. unfold rn, now_called in E. destruct (hit done c) eqn:Hc; [apply NW in Hc; lia|]. subst c. congruence. }
    assert (forall i, hit done i = true -> i <> t) as HN by (intros i H E; subst i; congruence).
    assert (forall i, hit done i = true -> i < len d0) as HL. { intros i H. destruct (hit_in done done i H (fun x y => y)) as [_ K]. exact (kind_in d0 _ _ K). }
    assert (hit (t :: done) t = true) as Htt. { unfold hit. cbn [is_member existsb]. rewrite Nat.eqb_refl. apply is_kind_true in KE as ->. reflexivity. }
    split.
    + exact F4.
    + pose proof (x_len _ _ _ X04). lia.
    + intros i I. destruct (r_kept _ _ _ R i I) as [I2 [P Q]]. destruct (x_kept _ _ _ X04 i I2) as [I3 [P' Q']]. repeat split; [assumption|congruence|congruence].
    + intros i I. rewrite (x_data _ _ _ X04 i); [now apply (r_data _ _ _ R)|]. now apply (r_kept _ _ _ R).
    + intros i I. rewrite (x_attrs _ _ _ X04 i); [now apply (r_attrs _ _ _ R)|]. now apply (r_kept _ _ _ R).
    + intros p0 I0. rewrite RN'. destruct (Nat.eqb_spec p0 t) as [->|N0].
      * rewrite Ke4. unfold cs. apply map_ext_in. intros c Ic. rewrite RN'. destruct (Nat.eqb_spec c t) as [->|]; [|reflexivity]. pose proof (kid_parent d0 t t F Ic) as Z. exfalso. apply (f_acyclic _ F t). now apply above_parent.
      * destruct (Nat.eq_dec p0 p) as [->|Np].
        { change (rn p) with q. rewrite Kq4. unfold q, rn at 1. rewrite (r_kids _ _ _ R p Lp), map_map. apply map_ext_in. intros c Ic. fold rn. rewrite RN'. pose proof (kid_in d0 p c F Ic) as Lc.
          destruct (Nat.eqb_spec c t) as [->|Nc]; [rewrite Rt, Nat.eqb_refl; reflexivity|]. pose proof (RT c Lc Nc) as Z. apply Nat.eqb_neq in Z as ->. reflexivity. }
        rewrite Kx4; [|now apply RL|intros E; apply Np; eapply called_inj; [exact R|exact I0|exact Lp|exact E]|now apply RT].
        unfold rn at 1. rewrite (r_kids _ _ _ R p0 I0). apply map_ext_in. intros c Ic. rewrite RN'. destruct (Nat.eqb_spec c t) as [->|]; [|reflexivity]. pose proof (kid_parent d0 p0 t F Ic). congruence.
    + intros i H. destruct (Nat.eq_dec i t) as [->|Ni]; [split; [exact Kt4|]; rewrite P4, Nat.eqb_refl; apply Nat.eqb_neq in NTE as ->; reflexivity|].
      rewrite hit_cons in H by exact Ni. pose proof (HL i H) as Li. destruct (r_old _ _ _ R i H) as [A B]. split.
      * rewrite Kx4; [exact A|lia| |exact Ni]. intros E. unfold q, rn, now_called in E. destruct (hit done p) eqn:Hp; [apply NW in Hp; lia|congruence].
      * rewrite P4, (CS1 i Li H). assert (i <> e) as Z by lia. apply Nat.eqb_neq in Z as ->. apply Nat.eqb_neq in Ni as ->. rewrite PP by lia. exact B.
    + intros i I H KA. change (i < len d0) in I. assert (i <> t) as Ni by (intros E; subst i; congruence). rewrite hit_cons in H by exact Ni. rewrite P4. assert (i <> e) as Z by lia. apply Nat.eqb_neq in Z as ->. pose proof Ni as Z. apply Nat.eqb_neq in Z as ->.
      assert (rn i = i) as Ri by (unfold rn, now_called; now rewrite H).
      destruct (is_member cs i) eqn:M.
      * apply CS0 in M; [|exact I|exact H]. rewrite (kid_parent d0 t i F M). cbn [option_map]. now rewrite RN', Nat.eqb_refl.
      * rewrite PP by lia. rewrite (r_par _ _ _ R i I H KA). destruct (dparent d0 i) as [z|] eqn:Pi; [|reflexivity]. cbn [option_map]. rewrite RN'. destruct (Nat.eqb_spec z t) as [->|]; [|reflexivity].
        exfalso. apply is_member_not in M. apply M. unfold cs. rewrite <- Ri. apply in_map. apply (f_link _ F). split; assumption.
    + intros i KA. pose proof (kind_in d0 _ _ KA) as I. change (i < len d0) in I. rewrite P4. assert (i <> e) as Z by lia. apply Nat.eqb_neq in Z as ->. assert (i <> t) as Z by congruence. apply Nat.eqb_neq in Z as ->.
      destruct (is_member cs i) eqn:M.
      * exfalso. assert (hit done i = false) as Hi. { destruct (hit done i) eqn:Hi; [|reflexivity]. destruct (hit_in done done i Hi (fun x y => y)). congruence. } apply CS0 in M; [|exact I|exact Hi]. apply (f_link _ F) in M. unfold dkind in KA. tauto.
      * rewrite PP by lia. now apply (r_apar _ _ _ R).
    + intros u H. unfold setn. destruct (Nat.eqb_spec u t) as [->|Nu].
      * split; [lia|]. destruct (x_kept _ _ _ X24 e Le2) as [_ [P Q]]. split; [congruence|]. split; [congruence|]. rewrite (attributes_ext _ _ _ _ F2 X24 Le2). exact B2.
      * rewrite hit_cons in H by exact Nu. destruct (r_new _ _ _ R u H) as [A [B [C D]]]. split; [exact A|]. pose proof (NW u H) as [_ W]. destruct (x_kept _ _ _ X04 _ W) as [_ [P Q]]. split; [congruence|]. split; [congruence|]. rewrite (attributes_ext _ _ _ _ Fd X04 W). exact D.
    + intros u H. unfold setn at 1. destruct (Nat.eqb_spec u t) as [->|Nu].
      * rewrite P4, Nat.eqb_refl, Pt0. cbn [option_map]. rewrite RN'. destruct (Nat.eqb_spec p t) as [E|]; [|reflexivity]. exfalso. apply (f_acyclic _ F t). apply above_parent. subst p. exact Pt0.
      * rewrite hit_cons in H by exact Nu. pose proof (NW u H) as [W1 W2]. rewrite P4. assert (new u <> e) as Z by lia. apply Nat.eqb_neq in Z as ->. assert (new u <> t) as Z by lia. apply Nat.eqb_neq in Z as ->.
        assert (rn u = new u) as Ru by (unfold rn, now_called; now rewrite H). pose proof (HL u H) as Lu.
        destruct (is_member cs (new u)) eqn:M.
        { apply is_member_in in M. unfold cs in M. rewrite <- Ru in M. apply in_map_iff in M. destruct M as [c [E J]]. assert (c = u) as -> by (eapply called_inj; [exact R|exact (kid_in d0 t c F J)|exact Lu|exact E]).
          rewrite (kid_parent d0 t u F J). cbn [option_map]. now rewrite RN', Nat.eqb_refl. }
        rewrite PP by lia. rewrite (r_newpar _ _ _ R u H). destruct (dparent d0 u) as [z|] eqn:Pu; [|reflexivity]. cbn [option_map]. rewrite RN'. destruct (Nat.eqb_spec z t) as [->|]; [|reflexivity].
        exfalso. apply is_member_not in M. apply M. unfold cs. rewrite <- Ru. apply in_map. apply (f_link _ F). split; [exact Pu|]. destruct (hit_in done done u H (fun x y => y)) as [_ K]. unfold dkind in K. congruence.
    + intros u v Hu Hv. unfold setn. destruct (Nat.eqb_spec u t) as [->|Nu], (Nat.eqb_spec v t) as [->|Nv]; intros E; auto.
      * rewrite hit_cons in Hv by exact Nv. apply NW in Hv. lia.
      * rewrite hit_cons in Hu by exact Nu. apply NW in Hu. lia.
      * rewrite hit_cons in Hu by exact Nu. rewrite hit_cons in Hv by exact Nv. eapply (r_inj _ _ _ R); eauto.
  Qed.

  Lemma rinv_start : rinv [] (fun i => i) d0.
  Proof.
    assert (forall i, now_called [] (fun i => i) i = i) as E by reflexivity.
    split; try (intros ? H; discriminate H); try (intros ? ? H; discriminate H).
    - exact F.
    - reflexivity.
    - intros i I. auto.
    - intros i I. reflexivity.
    - intros i I. reflexivity.
    - intros p I. rewrite E. rewrite (map_ext _ (fun x => x) E). symmetry. apply map_id.
    - intros i I _ _. destruct (dparent d0 i); reflexivity.
    - reflexivity.
  Qed.
  Lemma hit_other t done i : dkind d0 t <> Some KElement -> hit (t :: done) i = hit done i.
  Proof. intros K. destruct (Nat.eq_dec i t) as [->|N]; [|now apply hit_cons]. unfold hit. destruct (is_kind d0 KElement t) eqn:E; [now apply is_kind_true in E|]. now rewrite !andb_false_r. Qed.
  Lemma rinv_ext done done' new d : (forall i, hit done' i = hit done i) -> rinv done new d -> rinv done' new d.
  Proof.
    intros E [A B C D G H I J K L M N]. assert (forall i, now_called done' new i = now_called done new i) as R by (intros i; unfold now_called; now rewrite E).
    split; auto.
    - intros p P. rewrite R. rewrite (map_ext _ _ R). now apply H.
    - intros t. rewrite E. apply I.
    - intros i Q. rewrite E. intros X Y. rewrite (J i Q X Y). destruct (dparent d0 i); [cbn; now rewrite R|reflexivity].
    - intros t. rewrite E. apply L.
    - intros t. rewrite E. intros X. rewrite (M t X). destruct (dparent d0 t); [cbn; now rewrite R|reflexivity].
    - intros t u. rewrite !E. apply N.
  Qed.
  Lemma rename_loop : forall l done new d, NoDup l -> incl l ts -> (forall x, In x l -> ~ In x done) -> rinv done new d ->
    exists d' new', for_each (rename_one nm) l d = (d', Ok tt) /\ rinv (rev l ++ done) new' d'.
  Proof.
    induction l as [|t l IH]; intros done new d ND IN DJ U; cbn [for_each rev app].
    - exists d, new. auto.
    - inversion ND as [|? ? N1 N2]; subst. assert (In t ts) as T by (apply IN; now left). assert (~ In t done) as N by (apply DJ; now left). pose proof (proj2 sel t T) as It.
      assert (exists d1 new1, rename_one nm d t = (d1, Ok tt) /\ rinv (t :: done) new1 d1) as [d1 [new1 [E1 U1]]].
      { destruct (is_kind d0 KElement t) eqn:KE.
        - apply is_kind_true in KE. destruct (step_rename done new d t U N T KE) as [d1 [e [E1 U1]]]. eauto.
        - assert (dkind d0 t <> Some KElement) as KN by (intros Q; apply is_kind_true in Q; congruence). exists d, new. split; [|eapply rinv_ext; [|exact U]; intros i; now apply hit_other].
          destruct (simple t T) as [S1 S2]. destruct (r_kept _ _ _ U t It) as [It' [Kt _]]. unfold rename_one. rewrite type_kind. fold (dkind d t). rewrite Kt.
          destruct (dkind d0 t) as [[]|] eqn:Q; try reflexivity; try congruence. exfalso. unfold dkind, kind_of in Q. destruct (get (d_store d0) t) eqn:G; [discriminate|]. apply nth_error_None in G. unfold node_in, exists_node in It. lia. }
      rewrite E1. cbn [andthen]. destruct (IH (t :: done) new1 d1 N2) as [d' [new' [E' U']]]; [intros x I; apply IN; now right|intros x I [<-|J]; [contradiction|]; apply (DJ x); [now right|exact J]|exact U1|].
      exists d', new'. split; [exact E'|]. now rewrite <- app_assoc.
  Qed.
  Lemma rename_ok : ts <> [] -> exists d' new, rename (Ok nm) ts d0 = (d', Ok tt) /\ renamed d0 d' nm ts new.
  Proof.
    intros NE. destruct (rename_loop ts [] (fun i => i) d0 (proj1 sel) (incl_refl _)) as [d' [new [E U]]]; [intros x _ []|exact rinv_start|].
    rewrite app_nil_r in U. apply (rinv_ext (rev ts) ts) in U.
    2: { intros i. unfold hit. f_equal. apply eq_true_iff_eq. rewrite !is_member_in, <- in_rev. reflexivity. }
    exists d', new. split; [unfold rename; destruct ts; [contradiction|exact E]|].
    assert (forall i, called d0 ts new i = now_called ts new i) as CE by reflexivity.
    assert (forall i, refilled d0 ts i = hit ts i) as HE by reflexivity.
    split.
    - apply (r_forest _ _ _ U).
    - apply (r_kept _ _ _ U).
    - apply (r_data _ _ _ U).
    - apply (r_attrs _ _ _ U).
    - intros t H. destruct (r_new _ _ _ U t H) as [A B]. split; [|exact B]. intros X. change (new t < len d0) in X. lia.
    - intros t u. apply (r_inj _ _ _ U).
    - intros p I. apply (r_kids _ _ _ U p I).
    - intros i I K. change (called d0 ts new) with (now_called ts new). unfold now_called at 1. destruct (hit ts i) eqn:H; [now apply (r_newpar _ _ _ U)|now apply (r_par _ _ _ U)].
    - intros t H. apply (r_old _ _ _ U t H).
  Qed.
End Rename.

(** Renaming an attribute *)
Lemma set_attribute_ok d p a : dforest d -> dkind d p = Some KElement -> NoDup (map fst (attributes d p)) ->
  exists d', set_attribute d p a = d' /\ dforest d' /\ NoDup (map fst (attributes d' p)) /\ In a (attributes d' p) /\
    (forall b, fst b <> fst a -> (In b (attributes d' p) <-> In b (attributes d p))) /\
    (forall q, node_in d q -> q <> p -> attributes d' q = attributes d q) /\
    (forall q, dkids d' q = dkids d q) /\ kept d d' /\
    (forall q, node_in d q -> dkind d q <> Some KAttr -> ddata d' q = ddata d q).
Proof.
  intros F K ND. unfold set_attribute. rewrite attr_list_dattrs. destruct (find _ (dattrs d p)) as [i|] eqn:FI.
  - apply find_some in FI. destruct FI as [I E]. apply ename_eqb_eq in E.
    pose proof (attr_in d p i F I) as LI.
    destruct (set_data_ok d i (snd a) F) as [d' [ED [F' [L [NM [KD [DA [KI [AT PA]]]]]]]]]. exists d'.
    assert (forall x, ddata d' x = if x =? i then snd a else ddata d x) as DA' by (intros x; rewrite DA; assert (i <? len d = true) as -> by (apply Nat.ltb_lt; exact LI); now rewrite andb_true_r).
    assert (forall q, attributes d' q = map (fun x => (d_name d x, if x =? i then snd a else ddata d x)) (dattrs d q)) as AS by (intros q; unfold attributes; rewrite AT; apply map_ext; intros x; now rewrite NM, DA').
    assert (NoDup (map (d_name d) (dattrs d p))) as ND' by (unfold attributes in ND; rewrite map_map in ND; exact ND).
    split; [exact ED|]. split; [exact F'|]. rewrite AS. split; [|split; [|split; [|split; [|split; [|split]]]]].
    + rewrite map_map. exact ND'.
    + apply in_map_iff. exists i. rewrite Nat.eqb_refl, E. split; [now destruct a|exact I].
    + intros b N. unfold attributes. rewrite !in_map_iff. split; intros [x [EX IX]]; exists x; (split; [|exact IX]); destruct (Nat.eqb_spec x i) as [Y|NE]; try exact EX; exfalso; subst b; rewrite Y in N; cbn [fst] in N; congruence.
    + intros q Q N. rewrite AS. unfold attributes. apply map_ext_in. intros x X. destruct (Nat.eqb_spec x i) as [->|NE]; [|reflexivity].
      exfalso. apply N. apply (f_alink _ F) in X. apply (f_alink _ F) in I. destruct X as [X _], I as [I _]. congruence.
    + exact KI.
    + intros j J. unfold node_in, exists_node in *. fold (len d) in J. fold (len d'). rewrite L, KD, NM. auto.
    + intros q Q N. rewrite DA'. destruct (Nat.eqb_spec q i) as [->|NE]; [|reflexivity]. exfalso. apply N. apply (f_alink _ F) in I. apply I.
  - assert (~ In (fst a) (map fst (attributes d p))) as NI.
    { unfold attributes. rewrite map_map. cbn [fst]. intros I. apply in_map_iff in I. destruct I as [x [E I]]. apply (find_none _ _ FI) in I. assert (ename_eqb (d_name d x) (fst a) = true) as T by now apply ename_eqb_eq. congruence. }
    destruct (new_attr_ok d p a F K) as [d' [E [F' [L [KP [SD [KD [PA [AT [B _]]]]]]]]]]. exists d'. split; [exact E|]. split; [exact F'|]. rewrite B.
    split; [|split; [|split; [|split; [|split; [|split]]]]].
    + rewrite map_app. cbn [map]. apply NoDup_Add with (a := fst a) (l := map fst (attributes d p)); [|now split]. rewrite <- (app_nil_r (map fst (attributes d p))) at 1. apply Add_app.
    + apply in_app_iff. right. now left.
    + intros b N. rewrite in_app_iff. split; [|now left]. intros [H|[H|[]]]; [exact H|]. now subst b.
    + intros q Q N. unfold attributes. rewrite AT by assumption. apply map_ext_in. intros x X. pose proof (attr_in d q x F X) as X'. rewrite (SD x X'). destruct (KP x X') as [_ [_ ->]]. reflexivity.
    + exact KD.
    + exact KP.
    + intros q Q _. now apply SD.
Qed.
Lemma rename_attribute_ok d p t nm : dforest d -> In t (dattrs d p) -> NoDup (map fst (attributes d p)) ->
  exists d', rename (Ok nm) [t] d = (d', Ok tt) /\ dforest d' /\
    NoDup (map fst (attributes d' p)) /\ In (nm, ddata d t) (attributes d' p) /\
    (forall a, fst a <> nm -> (In a (attributes d' p) <-> In a (attributes d p))) /\
    (forall q, node_in d q -> q <> p -> attributes d' q = attributes d q) /\
    (forall q, dkids d' q = dkids d q) /\ kept d d' /\
    (forall q, node_in d q -> dkind d q <> Some KAttr -> ddata d' q = ddata d q).
Proof.
  intros F I ND. pose proof (f_aparent _ F _ _ I) as K. destruct (set_attribute_ok d p (nm, ddata d t) F K ND) as [d' [E R]]. exists d'. split; [|exact R].
  apply (f_alink _ F) in I. destruct I as [P KA]. unfold rename. cbn [for_each]. unfold rename_one. rewrite P.
  assert (type_of (d_store d) t = Some KAttr) as -> by exact KA. fold (ddata d t). now rewrite E.
Qed.
