(** * Proofs about the XML writer *)
From Coq Require Import NArith ZArith String List Bool Lia Arith Permutation.
From Verif Require Import PyStr PyErr XsModel SerModel SerSpec SerStream SerPrint SerVisit SerRead SerTree SerNs SerTop XwModel XwSpec.
Import ListNotations.
Open Scope N_scope.

(** ** Dictionaries *)
Lemma wget_wset : forall d k v k', wget (wset d k v) k' = if okey_eqb k k' then Some v else wget d k'.
Proof.
  induction d as [|[a b] d IH]; intros k v k'; cbn [wset wget]; [reflexivity|].
  destruct (okey_eqb_spec a k) as [->|Hn]; cbn [wget].
  - destruct (okey_eqb_spec k k'); reflexivity.
  - rewrite IH. destruct (okey_eqb_spec a k') as [->|]; [|reflexivity].
    destruct (okey_eqb_spec k k'); [congruence|reflexivity].
Qed.
Lemma wset_keys : forall d k v x, In x (map fst (wset d k v)) <-> x = k \/ In x (map fst d).
Proof.
  induction d as [|[a b] d IH]; intros k v x; cbn [wset map fst In]; [intuition|].
  destruct (okey_eqb_spec a k) as [->|Hn]; cbn [map fst In]; [intuition|]. rewrite IH. intuition.
Qed.
Lemma wset_nodup : forall d k v, NoDup (map fst d) -> NoDup (map fst (wset d k v)).
Proof.
  induction d as [|[a b] d IH]; intros k v H; cbn [wset map fst] in *; [repeat constructor; auto|].
  inversion H; subst. destruct (okey_eqb_spec a k) as [->|Hn]; cbn [map fst]; constructor; auto.
  rewrite wset_keys. intuition.
Qed.
Lemma wget_In : forall d k v, wget d k = Some v -> In (k, v) d.
Proof.
  induction d as [|[a b] d IH]; intros k v; cbn [wget]; [discriminate|].
  destruct (okey_eqb_spec a k) as [->|]; [intro H; inversion H; now left|right; auto].
Qed.
Lemma In_wget : forall d k v, NoDup (map fst d) -> In (k, v) d -> wget d k = Some v.
Proof.
  induction d as [|[a b] d IH]; intros k v Hn Hin; [destruct Hin|]. destruct Hin as [E|Hin]; inversion Hn; subst; cbn [wget].
  - inversion E; subst. now rewrite okey_eqb_refl.
  - destruct (okey_eqb_spec a k) as [->|]; [|now apply IH]. exfalso. apply H1. apply in_map_iff. exists (k, v). auto.
Qed.
Lemma wget_None : forall d k, wget d k = None <-> ~ In k (map fst d).
Proof.
  induction d as [|[a b] d IH]; intro k; cbn [wget map fst In]; [tauto|].
  destruct (okey_eqb_spec a k) as [->|Hn]; [split; [discriminate|tauto]|]. rewrite IH. tauto.
Qed.
Lemma wset_In : forall d k v x y, NoDup (map fst d) -> In (x, y) (wset d k v) -> (x = k /\ y = v) \/ In (x, y) d.
Proof.
  intros d k v x y Hn Hin. apply In_wget in Hin; [|now apply wset_nodup]. rewrite wget_wset in Hin.
  destruct (okey_eqb_spec k x) as [->|]; [left; split; [reflexivity|congruence]|right; now apply wget_In].
Qed.
Lemma wupdate_nodup : forall e d, NoDup (map fst d) -> NoDup (map fst (wupdate d e)).
Proof. induction e as [|[k v] e IH]; intros d H; [exact H|]. apply (IH (wset d k v)). now apply wset_nodup. Qed.
Lemma wupdate_In : forall e d x y, NoDup (map fst d) -> In (x, y) (wupdate d e) -> In (x, y) e \/ In (x, y) d.
Proof.
  induction e as [|[k v] e IH]; intros d x y H Hin; [now right|].
  destruct (IH (wset d k v) x y ltac:(now apply wset_nodup) Hin) as [G|G]; [left; now right|].
  apply wset_In in G as [[-> ->]|G]; [left; now left|now right|assumption].
Qed.
Lemma wget_wupdate : forall e d k, NoDup (map fst e) -> wget (wupdate d e) k = match wget e k with Some v => Some v | None => wget d k end.
Proof.
  induction e as [|[a b] e IH]; intros d k Hn; [reflexivity|]. inversion Hn; subst.
  change (wupdate d ((a, b) :: e)) with (wupdate (wset d a b) e). rewrite IH by assumption. cbn [wget]. rewrite wget_wset.
  destruct (okey_eqb_spec a k) as [->|]; [|reflexivity].
  rewrite (proj2 (wget_None e k)) by assumption. reflexivity.
Qed.

Lemma wkey_eqb_spec : forall a b, reflect (a = b) (wkey_eqb a b).
Proof.
  intros [a1 a2] [b1 b2]. unfold wkey_eqb. cbn [fst snd]. destruct (okey_eqb_spec a1 b1); [|right; congruence].
  destruct (str_eqb_spec a2 b2); [left; congruence|right; congruence].
Qed.
Lemma wput_keys : forall d k v x, In x (map fst (wput d k v)) <-> x = k \/ In x (map fst d).
Proof.
  induction d as [|[a b] d IH]; intros k v x; cbn [wput map fst In]; [intuition|].
  destruct (wkey_eqb_spec a k) as [->|Hn]; cbn [map fst In]; [intuition|]. rewrite IH. intuition.
Qed.
Lemma wput_nodup : forall d k v, NoDup (map fst d) -> NoDup (map fst (wput d k v)).
Proof.
  induction d as [|[a b] d IH]; intros k v H; cbn [wput map fst] in *; [repeat constructor; auto|].
  inversion H; subst. destruct (wkey_eqb_spec a k) as [->|Hn]; cbn [map fst]; constructor; auto.
  rewrite wput_keys. intuition.
Qed.
Lemma wput_In : forall d k v x y, NoDup (map fst d) -> (In (x, y) (wput d k v) <-> (x = k /\ y = v) \/ (x <> k /\ In (x, y) d)).
Proof.
  induction d as [|[a b] d IH]; intros k v x y Hn; cbn [wput]; cbn [map fst] in Hn.
  - cbn [In]. split; [intros [E|[]]; inversion E; auto|intros [[-> ->]|[_ []]]; auto].
  - inversion Hn; subst. destruct (wkey_eqb_spec a k) as [->|Hk]; cbn [In].
    + split.
      * intros [E|Hin]; [inversion E; auto|]. right. split; [|auto]. intros ->. apply H1. apply in_map_iff. exists (k, y). auto.
      * intros [[-> ->]|[Hx [E|Hin]]]; [auto|inversion E; congruence|auto].
    + rewrite IH by assumption. split.
      * intros [E|[[-> ->]|[Hx Hin]]]; [inversion E; subst; auto|auto|auto].
      * intros [[-> ->]|[Hx [E|Hin]]]; auto.
Qed.

(** ** Names *)
Lemma ncname_ne : forall p, ncname p -> p <> [].
Proof. intros p [H _] ->. discriminate. Qed.
Lemma is_name_colon : forall p l, is_name p = true -> is_name l = true -> is_name (p ++ 58 :: l) = true.
Proof.
  intros p l Hp Hl. destruct (is_name_inv _ Hp) as (c & s & -> & Hc & HF). destruct (is_name_inv _ Hl) as (e & t & -> & He & HG).
  cbn [app is_name]. rewrite Hc. cbn [andb]. cbn [forallb] in HF. apply andb_prop in HF as [_ HF].
  rewrite forallb_app, HF. cbn [forallb andb] in HG |- *. now rewrite HG.
Qed.
Lemma break_none58 : forall l, ~ In 58 l -> break1 58 l = None.
Proof. induction l as [|c l IH]; intro H; [reflexivity|]. cbn [break1]. destruct (c =? 58) eqn:E; [apply N.eqb_eq in E; exfalso; apply H; now left|]. rewrite IH; [reflexivity|]. intro; apply H; now right. Qed.
Lemma break_some58 : forall p l, ~ In 58 p -> break1 58 (p ++ 58 :: l) = Some (p, l).
Proof.
  induction p as [|c p IH]; intros l H; [reflexivity|]. cbn [app break1]. destruct (c =? 58) eqn:E; [apply N.eqb_eq in E; exfalso; apply H; now left|].
  rewrite IH; [reflexivity|]. intro; apply H; now right.
Qed.
Lemma split_qn : forall p l, (forall q, p = Some q -> ncname q) -> ncname l -> XsModel.split_qname (qn p l) = (p, l).
Proof.
  intros [p|] l Hp [_ Hl]; unfold XsModel.split_qname, qn; [|now rewrite break_none58].
  destruct (Hp p eq_refl) as [_ Hpn]. now rewrite break_some58.
Qed.
Lemma ssplit_qn : forall p l, (forall q, p = Some q -> ncname q) -> ncname l -> SerSpec.split_qname (qn p l) = Some (p, l).
Proof.
  intros [p|] l Hp [Hl1 Hl]; unfold SerSpec.split_qname, qn; [|now rewrite break_none58].
  destruct (Hp p eq_refl) as [Hp1 Hpn]. rewrite break_some58 by assumption. rewrite Hp1, Hl1.
  destruct (mem 58 l) eqn:E; [apply mem_In in E; contradiction|reflexivity].
Qed.
Lemma qn_name : forall p l, (forall q, p = Some q -> ncname q) -> ncname l -> is_name (qn p l) = true.
Proof. intros [p|] l Hp [Hl _]; [|exact Hl]. destruct (Hp p eq_refl) as [Hq _]. now apply is_name_colon. Qed.
Lemma qn_truthy : forall p l, ncname l -> truthy (Some (qn p l)) = true /\ qn p l <> [].
Proof. intros p l Hl. assert (qn p l <> []) by (destruct p as [[|c p]|]; cbn; try discriminate; now apply ncname_ne). destruct (qn p l); [congruence|]. split; [reflexivity|congruence]. Qed.
Lemma decl_of_qn : forall p l, (forall q, p = Some q -> ncname q /\ q <> lit "xmlns") -> ncname l -> (p = None -> l <> lit "xmlns") -> decl_of (qn p l) = None.
Proof.
  intros p l Hp [_ Hl] Hd. unfold decl_of. destruct p as [p|].
  - destruct (Hp p eq_refl) as [[_ Hpn] Hx]. cbn [qn]. destruct (str_eqb_spec (p ++ 58 :: l) (lit "xmlns")) as [E|_].
    + exfalso. assert (In 58 (lit "xmlns")) by (rewrite <- E, in_app_iff; right; now left). vm_compute in H. intuition discriminate.
    + destruct (prefixb (lit "xmlns:") (p ++ 58 :: l)) eqn:E; [|reflexivity]. exfalso. apply prefixb_spec in E as [r E].
      assert (break1 58 (p ++ 58 :: l) = Some (lit "xmlns", r)) as E2 by (rewrite E; reflexivity).
      rewrite break_some58 in E2 by assumption. inversion E2; congruence.
  - cbn [qn]. destruct (str_eqb_spec l (lit "xmlns")); [exfalso; now apply Hd|].
    destruct (prefixb (lit "xmlns:") l) eqn:E; [|reflexivity]. exfalso. apply prefixb_spec in E as [r ->].
    apply Hl. rewrite in_app_iff. left. vm_compute. tauto.
Qed.

(** ** Generated prefixes *)
Lemma dec_str_inj : forall m n, dec_str m = dec_str n -> m = n.
Proof. intros m n H. pose proof (number_dec_str m) as A. rewrite H, number_dec_str in A. congruence. Qed.
Lemma generated_inj : forall m n, generated m = generated n -> m = n.
Proof. intros m n H. unfold generated in H. apply app_inv_head in H. apply dec_str_inj in H. lia. Qed.
Lemma generate_spec : forall f n d,
  match generate f n d with
  | Ok p => exists k, p = generated k /\ wget d (Some p) = None
  | Err _ => forall k, (n <= k < n + f)%nat -> wget d (Some (generated k)) <> None
  end.
Proof.
  induction f as [|f IH]; intros n d; cbn [generate]; [intros; lia|].
  destruct (wget d (Some (generated n))) as [v|] eqn:E; [|exists n; auto].
  specialize (IH (S n) d). destruct (generate f (S n) d); [exact IH|]. intros k Hk.
  destruct (Nat.eq_dec k n) as [->|]; [congruence|apply IH; lia].
Qed.
Lemma generate_ok : forall d, exists k, generate (S (List.length d)) 0 d = Ok (generated k) /\ wget d (Some (generated k)) = None.
Proof.
  intro d. pose proof (generate_spec (S (List.length d)) 0 d) as H. destruct (generate _ 0 d) as [p|e].
  - destruct H as (k & -> & H). eauto.
  - exfalso. assert (HI : incl (map (fun k => Some (generated k)) (seq 0 (S (List.length d)))) (map fst d)).
    { intros x Hx. apply in_map_iff in Hx as (k & <- & Hk). apply in_seq in Hk. specialize (H k ltac:(lia)).
      destruct (in_dec (fun a b => Bool.reflect_dec _ _ (okey_eqb_spec a b)) (Some (generated k)) (map fst d)); [assumption|].
      now apply wget_None in n. }
    apply NoDup_incl_length in HI; [rewrite !map_length, seq_length in HI; lia|].
    apply FinFun.Injective_map_NoDup; [|apply seq_NoDup]. intros a b E. apply generated_inj. congruence.
Qed.
Lemma generated_ncname : forall n, ncname (generated n) /\ generated n <> lit "xmlns" /\ generated n <> lit "xml" /\ Forall (fun c => c < 128) (generated n).
Proof.
  intro n. unfold generated. pose proof (dec_str_digits (N.of_nat n)) as H.
  assert (HP : Forall (fun c => name_char c = true /\ c <> 58 /\ c < 128) (lit "org.4suite.4xslt.ns" ++ dec_str (N.of_nat n))).
  { apply Forall_app. split.
    - apply Forall_forall. intros c Hc. assert (Hf : forallb (fun c => name_char c && negb (c =? 58) && (c <? 128)) (lit "org.4suite.4xslt.ns") = true) by (vm_compute; reflexivity).
      rewrite forallb_forall in Hf. specialize (Hf c Hc). apply andb_prop in Hf as [Hf H3]. apply andb_prop in Hf as [H1 H2].
      apply negb_true_iff, N.eqb_neq in H2. apply N.ltb_lt in H3. auto.
    - eapply Forall_impl; [|exact H]. intros c Hc. cbv beta in Hc. unfold name_char, between. split; [|lia].
      assert ((48 <=? c) && (c <=? 57) = true) as -> by (apply andb_true_intro; split; apply N.leb_le; lia).
      now rewrite !orb_true_r. }
  split; [split|split; [|split]].
  - change (lit "org.4suite.4xslt.ns" ++ dec_str (N.of_nat n)) with (111 :: (lit "rg.4suite.4xslt.ns" ++ dec_str (N.of_nat n))) in *.
    cbn [is_name]. change (name_start 111) with true. cbn [andb]. apply forallb_forall. intros c Hc. rewrite Forall_forall in HP. apply HP. now right.
  - intro Hin. rewrite Forall_forall in HP. destruct (HP _ Hin) as (_ & F & _). congruence.
  - intro E. apply (f_equal (@List.length N)) in E. rewrite app_length in E. vm_compute in E. lia.
  - intro E. apply (f_equal (@List.length N)) in E. rewrite app_length in E. vm_compute in E. lia.
  - eapply Forall_impl; [|exact HP]. now intros c (_ & _ & ?).
Qed.

(** ** The bindings of an element *)
Section W.
  Variable cd : codec.
  Variable ordn : wdict -> wdict.
  Variable orda : wattrs -> wattrs.
  Hypothesis cd_ok : sound_codec cd.
  Hypothesis ordn_ok : forall l, Permutation (ordn l) l.
  Hypothesis orda_ok : forall l, Permutation (orda l) l.

  Definition xmlnsk : option str := Some (lit "xmlns").
  Definition gooddict (d : wdict) : Prop :=
    NoDup (map fst d) /\ wget d (Some (lit "xml")) = Some (Some xml_uri) /\ wget d xmlnsk = Some (Some xmlns_uri) /\
    (forall k v, In (k, v) d -> k <> xmlnsk -> binding k v) /\
    (forall p, In (Some p) (map fst d) -> encode cd p <> None).
  Definition wflat (d : wdict) (k : option str) : option str := match wget d k with Some v => named v | None => None end.
  Definition agree (d : wdict) (sc : scope) : Prop := forall k, k <> xmlnsk -> sc k = wflat d k.
  Definition extends (d d' : wdict) : Prop := forall k v, wget d k = Some v -> wget d' k = Some v.

  Lemma wget_key : forall d k v, wget d k = Some v -> In k (map fst d).
  Proof. intros d k v H. apply wget_In in H. apply in_map_iff. exists (k, v). auto. Qed.

  Lemma reuse_spec : forall d u, NoDup (map fst d) ->
    match reuse ordn d u with
    | Some p => p <> [] /\ wget d (Some p) = Some (Some u)
    | None => forall p, p <> [] -> wget d (Some p) <> Some (Some u)
    end.
  Proof.
    intros d u Hn. unfold reuse. destruct (find _ (ordn d)) as [[k v]|] eqn:E.
    - apply find_some in E as [Hin E]. cbn [fst snd] in E. apply andb_prop in E as [E1 E2].
      apply (Permutation_in _ (ordn_ok d)) in Hin. cbn [fst]. destruct k as [[|c p]|]; try discriminate.
      split; [discriminate|]. destruct (okey_eqb_spec v (Some u)) as [->|]; [|discriminate]. now apply In_wget.
    - intros p Hp Hw. apply wget_In in Hw. apply (Permutation_in _ (Permutation_sym (ordn_ok d))) in Hw.
      pose proof (find_none _ _ E _ Hw) as F. cbn [fst snd] in F. rewrite okey_eqb_refl, andb_true_r in F. destruct p; [congruence|discriminate].
  Qed.

  Lemma gooddict_bound : forall d p u, gooddict d -> u <> xmlns_uri -> wget d (Some p) = Some (Some u) -> ncname p /\ p <> lit "xmlns" /\ encode cd p <> None.
  Proof.
    intros d p u (G1 & G2 & G3 & G4 & G5) Hu Hw.
    assert (Hx : Some p <> xmlnsk) by (intro E; rewrite E, G3 in Hw; congruence).
    pose proof (G4 _ _ (wget_In _ _ _ Hw) Hx) as (B1 & B2 & _). split; [exact B1|]. split; [exact B2|]. apply G5. now apply wget_key in Hw.
  Qed.
  Lemma gooddict_new : forall d p u, gooddict d -> wget d (Some p) = None -> ncname p -> encode cd p <> None -> uri u ->
    (forall q, q <> [] -> wget d (Some q) <> Some (Some u)) -> gooddict (wset d (Some p) (Some u)) /\ extends d (wset d (Some p) (Some u)).
  Proof.
    intros d p u (G1 & G2 & G3 & G4 & G5) Hp Hn He Hu Hno.
    assert (Hx : Some p <> xmlnsk) by (intro E; rewrite E, G3 in Hp; discriminate).
    assert (Hy : p <> lit "xml") by (intros ->; rewrite G2 in Hp; discriminate).
    assert (Hz : u <> xml_uri) by (intros ->; apply (Hno (lit "xml")); [discriminate|assumption]).
    split.
    - split; [now apply wset_nodup|]. split; [|split; [|split]].
      + rewrite wget_wset. destruct (okey_eqb_spec (Some p) (Some (lit "xml"))); [congruence|assumption].
      + rewrite wget_wset. destruct (okey_eqb_spec (Some p) xmlnsk); [congruence|assumption].
      + intros k v Hin Hk. apply wset_In in Hin as [[-> ->]|Hin]; [|now apply G4|assumption].
        cbn [binding]. split; [assumption|]. split; [unfold xmlnsk in Hx; congruence|]. split; [assumption|]. tauto.
      + intros q Hq. apply wset_keys in Hq as [E|Hq]; [congruence|now apply G5].
    - intros k v Hk. rewrite wget_wset. destruct (okey_eqb_spec (Some p) k) as [<-|]; [congruence|assumption].
  Qed.

  Lemma choose_spec : forall d prefix u, gooddict d -> uri u -> (forall p, prefix = Some p -> ncname p /\ encode cd p <> None) ->
    exists p d', choose_prefix ordn d prefix u = Ok (p, d') /\ ncname p /\ p <> lit "xmlns" /\ encode cd p <> None /\
      gooddict d' /\ extends d d' /\ wget d' (Some p) = Some (Some u).
  Proof.
    intros d prefix u HG Hu Hp. pose proof HG as (G1 & _). pose proof (reuse_spec d u G1) as HR.
    assert (Hux : u <> xmlns_uri) by apply Hu.
    assert (HRe : forall p, reuse ordn d u = Some p -> exists q d', Ok (p, d) = Ok (q, d') /\ ncname q /\ q <> lit "xmlns" /\ encode cd q <> None /\
      gooddict d' /\ extends d d' /\ wget d' (Some q) = Some (Some u)).
    { intros p E. rewrite E in HR. destruct HR as [_ HR]. exists p, d. split; [reflexivity|].
      destruct (gooddict_bound d p u HG Hux HR) as (B1 & B2 & B3). repeat (split; [assumption|]). split; [now intros k v|assumption]. }
    assert (HGe : reuse ordn d u = None -> exists q d', make_prefix d u = Ok (q, d') /\ ncname q /\ q <> lit "xmlns" /\ encode cd q <> None /\
      gooddict d' /\ extends d d' /\ wget d' (Some q) = Some (Some u)).
    { intros E. rewrite E in HR. unfold make_prefix. destruct (generate_ok d) as (k & -> & Hk). cbn [bind].
      destruct (generated_ncname k) as (N1 & N2 & N3 & N4).
      assert (NE : encode cd (generated k) <> None) by (destruct (sound_ascii cd _ cd_ok N4) as [bs ->]; discriminate).
      destruct (gooddict_new d (generated k) u HG Hk N1 NE Hu HR) as [D1 D2].
      eexists. eexists. split; [reflexivity|]. repeat (split; [assumption|]). rewrite wget_wset, okey_eqb_refl. reflexivity. }
    unfold choose_prefix. destruct (negb (truthy prefix) || okey_eqb prefix (Some (lit "xmlns"))) eqn:EA.
    { destruct (reuse ordn d u) as [p|] eqn:E; [now apply HRe|now apply HGe]. }
    apply orb_false_iff in EA as [EA1 EA2]. destruct prefix as [p|]; [|discriminate]. destruct (Hp p eq_refl) as [Pn Pe]. cbn [oget].
    destruct (wget d (Some p)) as [v|] eqn:EW.
    - destruct (okey_eqb_spec v (Some u)) as [->|].
      + exists p, d. split; [reflexivity|]. destruct (gooddict_bound d p u HG Hux EW) as (B1 & B2 & B3). repeat (split; [assumption|]). split; [now intros k v|assumption].
      + destruct (reuse ordn d u) as [q|] eqn:E; [now apply HRe|now apply HGe].
    - destruct (reuse ordn d u) as [q|] eqn:E; [now apply HRe|].
      destruct (gooddict_new d p u HG EW Pn Pe Hu HR) as [D1 D2].
      exists p, (wset d (Some p) (Some u)). split; [reflexivity|]. split; [assumption|]. split.
      { intros ->. rewrite okey_eqb_refl in EA2. discriminate. }
      split; [assumption|]. split; [assumption|]. split; [assumption|]. rewrite wget_wset, okey_eqb_refl. reflexivity.
  Qed.

  (** ** Attributes *)
  Definition enc_att (a : watt) : Prop := encode cd (t_local a) <> None /\ forall p, t_prefix a = Some p -> encode cd p <> None.
  Definition entry_ok (d : wdict) (e : wkey * (str * str)) : Prop :=
    let '((ns, l), (nm, v)) := e in
    ncname l /\ encode cd l <> None /\ chars v /\
    match ns with
    | None => nm = l /\ l <> lit "xmlns"
    | Some u => exists q, nm = qn (Some q) l /\ ncname q /\ q <> lit "xmlns" /\ encode cd q <> None /\ wget d (Some q) = Some (Some u)
    end.
  Lemma entry_extends : forall d d' e, extends d d' -> entry_ok d e -> entry_ok d' e.
  Proof.
    intros d d' [[ns l] [nm v]] Hx. unfold entry_ok. intros (H1 & H2 & H3 & H4). repeat (split; [assumption|]).
    destruct ns as [u|]; [|assumption]. destruct H4 as (q & Q1 & Q2 & Q3 & Q4 & Q5). exists q. repeat (split; [assumption|]). now apply Hx.
  Qed.
  Definition holds (atts : wattrs) (l : list watt) : Prop :=
    NoDup (map fst atts) /\
    forall k v, (exists nm, In (k, (nm, v)) atts) <-> (exists a, In a (last_wins l) /\ ename a = k /\ t_value a = v).

  Lemma last_wins_In : forall l a, In a (last_wins l) -> In a l.
  Proof.
    induction l as [|b l IH]; intros a; cbn [last_wins]; [tauto|]. destruct (existsb _ l); [right; auto|]. intros [->|H]; [now left|right; auto].
  Qed.
  Lemma last_wins_app : forall l a x, In x (last_wins (l ++ [a])) <-> x = a \/ (In x (last_wins l) /\ ename x <> ename a).
  Proof.
    induction l as [|b l IH]; intros a x; [cbn; intuition|]. cbn [app last_wins]. rewrite existsb_app. cbn [existsb]. rewrite orb_false_r.
    destruct (ename_eqb (ename b) (ename a)) eqn:Eba.
    - rewrite orb_true_r, IH. apply ename_eqb_eq in Eba. destruct (existsb _ l); [tauto|]. cbn [In].
      split; [tauto|]. intros [H|[[->|H] Hn]]; [tauto|congruence|tauto].
    - rewrite orb_false_r. assert (ename b <> ename a) by (intro E; apply ename_eqb_eq in E; congruence).
      destruct (existsb _ l); [apply IH|]. cbn [In]. rewrite IH. split.
      + intros [->|[->|H1]]; [right; split; [now left|assumption]|now left|tauto].
      + intros [->|[[->|H1] H2]]; [right; now left|now left|tauto].
  Qed.
  Lemma last_wins_nodup : forall l, NoDup (map ename (last_wins l)).
  Proof.
    induction l as [|a l IH]; [constructor|]. cbn [last_wins]. destruct (existsb (fun b => ename_eqb (ename a) (ename b)) l) eqn:E; [assumption|].
    cbn [map]. constructor; [|assumption]. intro Hin. apply in_map_iff in Hin as (b & Eb & Hb). apply last_wins_In in Hb.
    assert (existsb (fun b => ename_eqb (ename a) (ename b)) l = true) by (apply existsb_exists; exists b; split; [assumption|apply ename_eqb_eq; congruence]). congruence.
  Qed.
  Lemma holds_put : forall atts l a nm, holds atts l -> holds (wput atts (ename a) (nm, t_value a)) (l ++ [a]).
  Proof.
    intros atts l a nm [H1 H2]. split; [now apply wput_nodup|]. intros k v. split.
    - intros (m & Hin). apply wput_In in Hin as [[-> E]|[Hk Hin]]; [| |assumption].
      + inversion E; subst. exists a. split; [apply last_wins_app; now left|auto].
      + destruct (proj1 (H2 k v) (ex_intro _ m Hin)) as (b & B1 & B2 & B3). exists b. split; [|auto]. apply last_wins_app. right. split; [assumption|congruence].
    - intros (b & Hb & E1 & E2). apply last_wins_app in Hb as [->|[Hb Hn]].
      + exists nm. apply wput_In; [assumption|]. left. split; [congruence|congruence].
      + destruct (proj2 (H2 k v) (ex_intro _ b (conj Hb (conj E1 E2)))) as (m & Hm). exists m. apply wput_In; [assumption|]. right. split; [congruence|assumption].
  Qed.

  Lemma attribute_ok : forall a l w d rest, proper_att a -> enc_att a -> truthy (w_name w) = true -> w_nss w = d :: rest -> gooddict d ->
    holds (w_atts w) l -> Forall (entry_ok d) (w_atts w) ->
    exists d' atts', w_attribute ordn (qn (t_prefix a) (t_local a)) (t_value a) (t_ns a) w =
        Ok {| w_p := w_p w; w_need_doctype := w_need_doctype w; w_name := w_name w; w_nss := d' :: rest; w_atts := atts' |} /\
      gooddict d' /\ extends d d' /\ holds atts' (l ++ [a]) /\ Forall (entry_ok d') atts'.
  Proof.
    intros a l w d rest (A1 & A2 & A3 & A4) (E1 & E2) Hn Hd HG HH HF. unfold w_attribute. rewrite Hn. cbn [negb].
    rewrite split_qn by assumption. destruct (t_ns a) as [u|] eqn:En.
    - rewrite Hd. destruct (choose_spec d (t_prefix a) u HG A4) as (p & d' & -> & P1 & P2 & P3 & P4 & P5 & P6); [intros q Hq; split; [now apply A1|now apply E2]|].
      cbn [bind fst snd]. destruct p as [|c p]; [now apply ncname_ne in P1|].
      eexists. eexists. split; [reflexivity|]. split; [assumption|]. split; [assumption|]. split.
      + rewrite <- En. change (t_ns a, t_local a) with (ename a). now apply holds_put.
      + apply Forall_forall. intros [[ns l0] [nm v]] Hin. apply wput_In in Hin as [[Ek Ev]|[_ Hin]]; [| |apply HH].
        * inversion Ek; subst. inversion Ev; subst. cbn [entry_ok]. repeat (split; [assumption|]). exists (c :: p). split; [reflexivity|]. auto.
        * rewrite Forall_forall in HF. eapply entry_extends; [exact P5|]. now apply (HF _ Hin).
    - exists d. eexists. split; [rewrite Hd; reflexivity|]. split; [assumption|]. split; [now intros k v|]. split.
      + rewrite <- En. change (t_ns a, t_local a) with (ename a). now apply holds_put.
      + apply Forall_forall. intros [[ns l0] [nm v]] Hin. apply wput_In in Hin as [[Ek Ev]|[_ Hin]]; [| |apply HH].
        * inversion Ek; subst. inversion Ev; subst. cbn [entry_ok]. auto.
        * rewrite Forall_forall in HF. now apply (HF _ Hin).
  Qed.

  Definition set_dict (w : writer) (d : wdict) (rest : list wdict) (atts : wattrs) : writer :=
    {| w_p := w_p w; w_need_doctype := w_need_doctype w; w_name := w_name w; w_nss := d :: rest; w_atts := atts |}.

  Lemma attributes_ok : forall m l w d rest, Forall proper_att m -> Forall enc_att m -> truthy (w_name w) = true -> w_nss w = d :: rest -> gooddict d ->
    holds (w_atts w) l -> Forall (entry_ok d) (w_atts w) ->
    exists d' atts',
      w_attributes ordn (map (fun a => ((qn (t_prefix a) (t_local a), t_ns a), t_value a)) m) w = Ok (set_dict w d' rest atts') /\
      gooddict d' /\ extends d d' /\ holds atts' (l ++ m) /\ Forall (entry_ok d') atts'.
  Proof.
    induction m as [|a m IH]; intros l w d rest Hp He Hn Hd HG HH HF.
    - exists d, (w_atts w). rewrite app_nil_r. split; [destruct w; cbn in *; unfold set_dict; cbn; now rewrite Hd|]. split; [assumption|]. split; [now intros k v|auto].
    - inversion Hp; subst. inversion He; subst. cbn [map w_attributes].
      destruct (attribute_ok a l w d rest) as (d1 & atts1 & -> & G1 & X1 & H1' & F1); try assumption. cbn [bind].
      destruct (IH (l ++ [a]) {| w_p := w_p w; w_need_doctype := w_need_doctype w; w_name := w_name w; w_nss := d1 :: rest; w_atts := atts1 |} d1 rest) as (d' & atts' & -> & G & X & HH' & FF); try assumption; try reflexivity.
      exists d', atts'. split; [reflexivity|]. split; [assumption|]. split; [intros k v Hk; now apply X, X1|]. split; [|assumption].
      rewrite <- app_assoc in HH'. exact HH'.
  Qed.

  (** ** Printer steps *)
  Definition step (p : printer) (t : str) (p' : printer) : Prop := goodp cd p' /\ okelem p' /\ emits (p_x p) (p_x p') t.
  Lemma step_trans : forall p t p1 u p2, step p t p1 -> step p1 u p2 -> step p (t ++ u) p2.
  Proof. intros p t p1 u p2 (G1 & O1 & E1) (G2 & O2 & E2). split; [assumption|]. split; [assumption|]. eapply emits_trans; eauto. Qed.
  Lemma step_refl : forall p, goodp cd p -> okelem p -> step p [] p.
  Proof. intros p G O. split; [assumption|]. split; [assumption|]. apply emits_nil. Qed.
  Lemma out_to_step : forall p t e l ci r, goodp cd p -> e <> Some [] -> out p t e l ci r -> exists p', r = Ok p' /\ step p t p' /\ p_elem p' = e.
  Proof.
    intros p t e l ci r [Hcd Hr] He (x' & E & ->). eexists. split; [reflexivity|]. split; [|reflexivity].
    split; [split; [cbn; now rewrite (emits_cd _ _ _ E)|cbn; eapply emits_ready; eauto]|]. split; [exact He|exact E].
  Qed.

  (** ** The declarations written *)
  Lemma new_In : forall d up k v, In (k, v) (new_namespaces ordn d up) ->
    exists v0, In (k, v0) d /\ v = oget v0 /\ wget up k <> Some v0.
  Proof.
    intros d up k v H. unfold new_namespaces in H. apply in_map_iff in H as ([k' v'] & E & H). apply filter_In in H as [H1 H2].
    cbn [fst snd] in *. inversion E; subst. apply (Permutation_in _ (ordn_ok d)) in H1. exists v'. split; [assumption|]. split; [reflexivity|].
    intro F. rewrite F, okey_eqb_refl in H2. discriminate.
  Qed.
  Lemma In_new : forall d up k v0, In (k, v0) d -> wget up k <> Some v0 -> In (k, oget v0) (new_namespaces ordn d up).
  Proof.
    intros d up k v0 H1 H2. unfold new_namespaces. apply in_map_iff. exists (k, v0). split; [reflexivity|]. apply filter_In.
    split; [now apply (Permutation_in _ (Permutation_sym (ordn_ok d)))|]. cbn [fst snd]. destruct (wget up k) as [v|]; [|reflexivity].
    destruct (okey_eqb_spec v v0); [congruence|reflexivity].
  Qed.
  Lemma new_nodup : forall d up, NoDup (map fst d) -> NoDup (map fst (new_namespaces ordn d up)).
  Proof.
    intros d up H. unfold new_namespaces. rewrite map_map. cbn [fst].
    assert (H' : NoDup (map fst (ordn d))) by (eapply Permutation_NoDup; [apply Permutation_map, Permutation_sym, ordn_ok|exact H]).
    revert H'. generalize (ordn d). intro l. induction l as [|[k v] l IH]; intro H'; [constructor|]. inversion H'; subst. cbn [filter].
    destruct (match wget up (fst (k, v)) with Some _ => _ | None => _ end); [|auto]. cbn [map fst]. constructor; [|auto].
    intro Hin. apply H2. apply in_map_iff in Hin as ([k' v'] & E & Hin). apply filter_In in Hin as [Hin _]. apply in_map_iff. exists (k', v'). auto.
  Qed.
  Lemma binding_legal : forall k v, binding k v -> legal_bind k (oget v) /\ chars (oget v) /\ bound (oget v) = named v.
  Proof.
    intros [p|] [u|]; cbn [binding legal_bind oget named bound]; try tauto.
    - intros (B1 & B2 & (B3 & B4 & B5) & B6). destruct u; [congruence|]. auto 8.
    - intros (B1 & B2 & B3). destruct u; auto.
    - intros _. split; [split; discriminate|]. split; [constructor|reflexivity].
  Qed.

  Definition sub (up d : wdict) : Prop := forall k, wget d k = None -> wget up k = None.

  (** What the start tag of an element declares, and what its names mean then. *)
  Lemma start_tag : forall d up atts, gooddict d -> gooddict up -> sub up d -> NoDup (map fst atts) -> Forall (entry_ok d) atts ->
    let nsd := new_namespaces ordn d up in
    let pat := map snd (orda atts) in
    legal_atts (map nsattr' nsd ++ pat) /\ Forall (wf_att cd) (map nsattr' nsd ++ pat) /\
    (forall wr sc, Permutation wr (map nsattr' nsd ++ pat) -> agree up sc ->
      exists sc' xa, declare sc wr = Some sc' /\ agree d sc' /\ resolve_atts sc' wr = Some xa /\
        Permutation xa (map (fun e => (fst e, snd (snd e))) atts)).
  Proof.
    intros d up atts HG HU Hs Hn HF nsd pat. pose proof HG as (G1 & G2 & G3 & G4 & G5). pose proof HU as (U1 & U2 & U3 & U4 & U5).
    assert (HB : forall k v, In (k, v) nsd -> legal_bind k v /\ chars v /\ k <> xmlnsk).
    { intros k v Hin. apply new_In in Hin as (v0 & H1 & -> & H3).
      assert (k <> xmlnsk) by (intros ->; apply In_wget in H1; [rewrite G3 in H1; congruence|assumption]).
      pose proof (G4 _ _ H1 H) as B. apply binding_legal in B as (B1 & B2 & _). auto. }
    assert (HP : forall nm v, In (nm, v) pat -> exists ns l, In ((ns, l), (nm, v)) atts).
    { intros nm v Hin. apply in_map_iff in Hin as ([[ns l] [nm' v']] & E & Hin). cbn [snd] in E. inversion E; subst.
      apply (Permutation_in _ (orda_ok atts)) in Hin. eauto. }
    rewrite Forall_forall in HF.
    assert (HE : forall ns l nm v, In ((ns, l), (nm, v)) atts -> is_name nm = true /\ chars v /\ decl_of nm = None /\ encode cd nm <> None).
    { intros ns l nm v Hin. specialize (HF _ Hin). cbn [entry_ok] in HF. destruct HF as (E1 & E2 & E3 & E4). destruct ns as [u|].
      - destruct E4 as (q & E4 & Q1 & Q2 & Q3 & Q4). rewrite E4.
        split; [apply qn_name; [intros ? [= <-]; assumption|assumption]|]. split; [assumption|]. split.
        + apply decl_of_qn; [intros ? [= <-]; auto|assumption|discriminate].
        + cbn [qn]. apply enc_app. split; [assumption|]. change (58 :: l) with (lit ":" ++ l). apply enc_app. split; [apply enc_ascii; [assumption|ascii]|assumption].
      - destruct E4 as [-> E4]. split; [apply E1|]. split; [assumption|]. split; [|assumption].
        apply (decl_of_qn None); [discriminate|assumption|auto]. }
    assert (HK : forall ns l nm v ns' l' v', In ((ns, l), (nm, v)) atts -> In ((ns', l'), (nm, v')) atts -> (ns, l) = (ns', l')).
    { intros ns l nm v ns' l' v' H1 H2. pose proof (HF _ H1) as F1. pose proof (HF _ H2) as F2. cbn [entry_ok] in F1, F2.
      destruct F1 as (A1 & A2 & A3 & A4), F2 as (B1 & B2 & B3 & B4).
      assert (HQ : exists q, nm = qn q l /\ (forall p, q = Some p -> ncname p) /\ ns = match q with Some p => wflat d (Some p) | None => None end /\ (q = None <-> ns = None)).
      { destruct ns as [u|].
        - destruct A4 as (q & -> & Q1 & Q2 & Q3 & Q4). exists (Some q). split; [reflexivity|]. split; [intros ? [= <-]; assumption|].
          split; [|split; discriminate]. unfold wflat. rewrite Q4. cbn [named].
          destruct u; [|reflexivity]. pose proof (G4 _ _ (wget_In _ _ _ Q4) ltac:(unfold xmlnsk; congruence)) as (_ & _ & (_ & F & _) & _). congruence.
        - destruct A4 as [-> _]. exists None. split; [reflexivity|]. split; [discriminate|]. split; [reflexivity|tauto]. }
      assert (HQ' : exists q, nm = qn q l' /\ (forall p, q = Some p -> ncname p) /\ ns' = match q with Some p => wflat d (Some p) | None => None end).
      { destruct ns' as [u|].
        - destruct B4 as (q & -> & Q1 & Q2 & Q3 & Q4). exists (Some q). split; [reflexivity|]. split; [intros ? [= <-]; assumption|].
          unfold wflat. rewrite Q4. cbn [named].
          destruct u; [|reflexivity]. pose proof (G4 _ _ (wget_In _ _ _ Q4) ltac:(unfold xmlnsk; congruence)) as (_ & _ & (_ & F & _) & _). congruence.
        - destruct B4 as [-> _]. exists None. split; [reflexivity|]. split; [discriminate|]. reflexivity. }
      destruct HQ as (q & E & Q1 & Q2 & _), HQ' as (q' & E' & Q1' & Q2').
      pose proof (split_qn q l Q1 A1) as S1. pose proof (split_qn q' l' Q1' B1) as S2. rewrite <- E in S1. rewrite <- E' in S2. rewrite S1 in S2.
      inversion S2; subst. reflexivity. }
    assert (HLA : legal_atts (map nsattr' nsd ++ pat)).
    { split.
      - apply Forall_app. split; apply Forall_forall.
        + intros x Hx. apply in_map_iff in Hx as ([k v] & <- & Hx). destruct (HB _ _ Hx) as (B1 & B2 & _). split; [apply nsattr_name; eapply legal_bind_key; eauto|assumption].
        + intros [nm v] Hx. destruct (HP _ _ Hx) as (ns & l & Hin). destruct (HE _ _ _ _ Hin) as (E1 & E2 & _). auto.
      - rewrite map_app. apply nodup_app_disj.
        + apply nsattr_nodup; [|now apply new_nodup]. apply Forall_forall. intros [k v] Hx. eapply legal_bind_key, (HB _ _ Hx).
        + unfold pat. rewrite map_map.
          assert (HN : NoDup (map fst (orda atts))) by (eapply Permutation_NoDup; [apply Permutation_map, Permutation_sym, orda_ok|exact Hn]).
          assert (HI : forall x, In x (orda atts) -> In x atts) by (intros x; apply Permutation_in, orda_ok).
          revert HN HI. generalize (orda atts). intro l. induction l as [|[[ns l0] [nm v]] l IH]; intros HN HI; [constructor|]. inversion HN; subst. cbn [map fst snd].
          constructor; [|apply IH; [assumption|intros x Hx; apply HI; now right]]. intro Hin. apply H1. apply in_map_iff in Hin as ([[ns' l'] [nm' v']] & E & Hin). cbn [fst snd] in E. subst nm'.
          apply in_map_iff. exists ((ns', l'), (nm, v')). split; [|assumption]. cbn [fst]. symmetry. eapply HK; [apply HI; now left|apply HI; right; exact Hin].
        + intros x Hx Hy. rewrite map_map in Hx. apply in_map_iff in Hx as ([k v] & E & Hx). apply in_map_iff in Hy as ([nm w] & E2 & Hy). cbn [fst] in E2. subst nm.
          destruct (HP _ _ Hy) as (ns & l & Hin). destruct (HE _ _ _ _ Hin) as (_ & _ & Hd & _). destruct (HB _ _ Hx) as (B1 & _ & _).
          rewrite <- E, decl_of_nsattr in Hd by (apply good_key_ne; eapply legal_bind_key; eauto). discriminate. }
    split; [exact HLA|]. split.
    { apply Forall_app. split; apply Forall_forall.
      - intros x Hx. apply in_map_iff in Hx as ([k v] & <- & Hx). destruct (HB _ _ Hx) as (B1 & B2 & _). split; [|exact B2].
        apply enc_nsattr; [assumption|eapply legal_bind_key; eauto|]. intros p ->. apply new_In in Hx as (v0 & Hx & _). apply G5. apply in_map_iff. exists (Some p, v0). auto.
      - intros [nm v] Hx. destruct (HP _ _ Hx) as (ns & l & Hin). destruct (HE _ _ _ _ Hin) as (E1 & E2 & _ & E4). split; assumption. }
    intros wr sc HW HA.
    assert (HLW : legal_atts wr) by (eapply legal_atts_perm; [symmetry; exact HW|exact HLA]).
    assert (HD : forall n v k, In (n, v) wr -> decl_of n = Some k -> In (k, v) nsd).
    { intros n v k Hin Hk. apply (Permutation_in _ HW) in Hin. apply in_app_iff in Hin as [Hin|Hin].
      - apply in_map_iff in Hin as ([k' v'] & E & Hin). destruct (HB _ _ Hin) as (B1 & _). 
        assert (E1 : fst (nsattr' (k', v')) = n) by now rewrite E. assert (E2 : v' = v) by (apply (f_equal snd) in E; exact E).
        rewrite <- E1 in Hk. rewrite decl_of_nsattr in Hk by (apply good_key_ne; eapply legal_bind_key; eauto). congruence.
      - destruct (HP _ _ Hin) as (ns & l & Hx). destruct (HE _ _ _ _ Hx) as (_ & _ & F & _). congruence. }
    destruct (declare_spec wr sc (proj2 HLW)) as (sc' & ED & D1 & D2).
    { intros n v k Hin Hk. apply (HB k v). eauto. }
    assert (HA' : agree d sc').
    { intros k Hk. unfold wflat. destruct (wget d k) as [v0|] eqn:E.
      - pose proof (G4 _ _ (wget_In _ _ _ E) Hk) as B. apply binding_legal in B as (B1 & B2 & B3).
        destruct (wget up k) as [v1|] eqn:E1.
        + destruct (okey_eqb_spec v1 v0) as [->|Hne].
          * rewrite D2; [rewrite HA by assumption; unfold wflat; now rewrite E1|]. intros n v Hin Hd. apply HD with (k := k) in Hin; [|assumption].
            apply new_In in Hin as (v2 & H1 & _ & H3). apply In_wget in H1; [|assumption]. congruence.
          * assert (Hin : In (k, oget v0) nsd) by (apply In_new; [now apply wget_In|congruence]).
            rewrite (D1 (fst (nsattr' (k, oget v0))) (oget v0) k); [exact B3| |apply decl_of_nsattr, good_key_ne; eapply legal_bind_key; eauto].
            apply (Permutation_in _ (Permutation_sym HW)). apply in_app_iff. left. apply in_map_iff. exists (k, oget v0). split; [reflexivity|assumption].
        + assert (Hin : In (k, oget v0) nsd) by (apply In_new; [now apply wget_In|congruence]).
          rewrite (D1 (fst (nsattr' (k, oget v0))) (oget v0) k); [exact B3| |apply decl_of_nsattr, good_key_ne; eapply legal_bind_key; eauto].
          apply (Permutation_in _ (Permutation_sym HW)). apply in_app_iff. left. apply in_map_iff. exists (k, oget v0). split; [reflexivity|assumption].
      - rewrite D2; [rewrite HA by assumption; unfold wflat; now rewrite (Hs _ E)|].
        intros n v Hin Hd. apply HD with (k := k) in Hin; [|assumption]. apply new_In in Hin as (v2 & H1 & _ & H3). apply In_wget in H1; [congruence|assumption]. }
    (* attributes *)
    assert (HR : forall l, (forall x, In x l -> In x atts) -> resolve_atts sc' (map snd l) = Some (map (fun e => (fst e, snd (snd e))) l)).
    { induction l as [|[[ns l0] [nm v]] l IH]; intro HI; [reflexivity|]. cbn [map fst snd resolve_atts].
      pose proof (HI _ (or_introl eq_refl)) as Hx. destruct (HE _ _ _ _ Hx) as (_ & _ & Hdn & _). rewrite Hdn.
      assert (HRA : resolve_att sc' nm = Some (ns, l0)).
      { specialize (HF _ Hx). cbn [entry_ok] in HF. destruct HF as (E1 & E2 & E3 & E4). unfold resolve_att. destruct ns as [u|].
        - destruct E4 as (q & -> & Q1 & Q2 & Q3 & Q4). rewrite ssplit_qn; [|intros ? [= <-]; assumption|assumption].
          rewrite HA' by (unfold xmlnsk; congruence). unfold wflat. rewrite Q4. cbn [named].
          destruct u; [|reflexivity]. pose proof (G4 _ _ (wget_In _ _ _ Q4) ltac:(unfold xmlnsk; congruence)) as (_ & _ & (_ & F & _) & _). congruence.
        - destruct E4 as [-> _]. pose proof (ssplit_qn None l0 ltac:(discriminate) E1) as SS. cbn [qn] in SS. now rewrite SS. }
      rewrite HRA, IH; [reflexivity|]. intros x Hin. apply HI. now right. }
    assert (HRR : resolve_atts sc' (map nsattr' nsd ++ pat) = Some (map (fun e => (fst e, snd (snd e))) (orda atts))).
    { rewrite resolve_atts_decls; [apply HR; intro x; apply Permutation_in, orda_ok|]. apply Forall_forall. intros [k v] Hin. cbn [fst]. apply good_key_ne. eapply legal_bind_key, (HB _ _ Hin). }
    destruct (resolve_atts_perm sc' _ _ (Permutation_sym HW) _ HRR) as (xa & EX & PX).
    exists sc', xa. split; [assumption|]. split; [assumption|]. split; [assumption|]. rewrite <- PX. apply Permutation_map, orda_ok.
  Qed.
End W.
