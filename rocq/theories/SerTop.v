(** * Whole outputs: from trees to bytes and back *)
From Coq Require Import NArith ZArith String List Bool Lia Arith Permutation.
From Verif Require Import PyStr PyErr Utf8 SerModel SerSpec SerStream SerPrint SerVisit SerRead SerTree SerNs.
Import ListNotations.
Open Scope N_scope.

(** ** Expanded trees *)
Section XnodeInd.
  Variable P : xnode -> Prop.
  Hypothesis HE : forall u l a k, Forall P k -> P (XElem u l a k).
  Hypothesis HT : forall s, P (XText s).
  Hypothesis HC : forall s, P (XComment s).
  Hypothesis HP : forall t d, P (XPI t d).
  Fixpoint xnode_ind2 (n : xnode) : P n :=
    match n with
    | XElem u l a k => HE u l a k ((fix go l : Forall P l := match l with [] => Forall_nil _ | x :: l' => Forall_cons _ (xnode_ind2 x) (go l') end) k)
    | XText s => HT s
    | XComment s => HC s
    | XPI t d => HP t d
    end.
End XnodeInd.

Fixpoint xmerge (n : xnode) (rest : list xnode) : list xnode :=
  match n with
  | XText s => xadd_text s rest
  | XElem u l a k => XElem u l a (fold_right xmerge [] k) :: rest
  | _ => n :: rest
  end.
Fixpoint xtree (n : node) : xnode :=
  match n with
  | NElem ns q _ attrs kids => XElem ns (local q) (map (fun a => ((a_ns a, local (a_qname a)), a_value a)) attrs) (map xtree kids)
  | NText s => XText s
  | NComment s => XComment s
  | NPI t d => XPI t d
  end.
Lemma expanded_xmerge : forall n rest, expanded n rest = xmerge (xtree n) rest.
Proof.
  induction n as [ns q d a k IH|s|s|t d] using node_ind2; intro rest; try reflexivity.
  cbn [expanded xtree xmerge]. do 2 f_equal. induction IH as [|n k Hn Hk IHk]; [reflexivity|]. cbn [fold_right map]. rewrite Hn. now f_equal.
Qed.

Lemma resolve_fix : forall sc l,
  (fix go (l : list rnode) : option (list xnode) :=
     match l with
     | [] => Some []
     | k :: l' => match resolve sc k, go l' with Some x, Some xs => Some (x :: xs) | _, _ => None end
     end) l = resolve_all sc l.
Proof. induction l as [|k l IH]; [reflexivity|]. cbn [resolve_all]. now rewrite IH. Qed.
Lemma resolve_elem_eq : forall sc q atts kids, resolve sc (RElem q atts kids) =
  match declare sc atts with
  | None => None
  | Some sc' =>
    match resolve_elem sc' q, resolve_atts sc' atts, resolve_all sc' kids with
    | Some (u, l), Some xa, Some xk => if nodup_enames (map fst xa) then Some (XElem u l xa xk) else None
    | _, _, _ => None
    end
  end.
Proof. intros. cbn [resolve]. destruct (declare sc atts); [|reflexivity]. now rewrite resolve_fix. Qed.

Lemma resolve_add_text : forall sc s l, resolve_all sc (add_text s l) = option_map (xadd_text s) (resolve_all sc l).
Proof.
  intros sc [|c s] l.
  - cbn. destruct (resolve_all sc l); reflexivity.
  - destruct l as [|[q a k|u|d|t d|x y z] l].
    + reflexivity.
    + cbn [add_text]. cbn [resolve_all]. change (resolve sc (RText (c :: s))) with (Some (XText (c :: s))). cbv iota.
      rewrite resolve_elem_eq. destruct (declare sc a) as [sc'|]; [|reflexivity].
      destruct (resolve_elem sc' q) as [[? ?]|]; [|reflexivity]. destruct (resolve_atts sc' a); [|reflexivity].
      destruct (resolve_all sc' k); [|reflexivity]. destruct (nodup_enames _); [|reflexivity]. destruct (resolve_all sc l); reflexivity.
    + cbn. destruct (resolve_all sc l); reflexivity.
    + cbn. destruct (resolve_all sc l); reflexivity.
    + cbn. destruct (resolve_all sc l); reflexivity.
    + reflexivity.
Qed.

Lemma resolve_merge : forall n sc l, resolve_all sc (merge n l) =
  match resolve sc n, resolve_all sc l with Some x, Some xs => Some (xmerge x xs) | _, _ => None end.
Proof.
  induction n as [q a k IH|s|d|t d|x y z] using rnode_ind2; intros sc l; try reflexivity.
  - assert (HK : forall sc, resolve_all sc (fold_right merge [] k) = option_map (fold_right xmerge []) (resolve_all sc k)).
    { clear - IH. intro sc. induction IH as [|n k Hn Hk IHk]; [reflexivity|]. cbn [fold_right resolve_all]. rewrite Hn, IHk.
      destruct (resolve sc n), (resolve_all sc k); reflexivity. }
    cbn [merge resolve_all]. rewrite !resolve_elem_eq. destruct (declare sc a) as [sc'|]; [|reflexivity].
    destruct (resolve_elem sc' q) as [[u m]|]; [|reflexivity]. destruct (resolve_atts sc' a) as [xa|]; [|reflexivity].
    rewrite HK. destruct (resolve_all sc' k); [|reflexivity]. cbn [option_map]. destruct (nodup_enames (map fst xa)); reflexivity.
  - cbn [merge]. rewrite resolve_add_text. cbn [resolve]. destruct (resolve_all sc l); reflexivity.
Qed.

Lemma same_add_text : forall s l l', Forall2 same_tree l l' -> Forall2 same_tree (xadd_text s l) (xadd_text s l').
Proof.
  intros [|c s] l l' H; [assumption|]. destruct H as [|x y l l' Hx Hl]; [repeat constructor|].
  destruct Hx; cbn [xadd_text]; repeat constructor; auto.
Qed.
Lemma same_xmerge : forall x y, same_tree x y -> forall l l', Forall2 same_tree l l' -> Forall2 same_tree (xmerge x l) (xmerge y l').
Proof.
  induction x as [u m a k IH|s|s|t d] using xnode_ind2; intros y Hs l l' Hl; inversion Hs; subst; cbn [xmerge].
  - constructor; [|assumption]. constructor; [assumption|].
    match goal with H : Forall2 same_tree k ?k' |- _ => revert IH; induction H as [|n n' k1 k2 Hn Hk IHk] end; intro IH; [constructor|].
    inversion IH; subst. cbn [fold_right]. apply H1; auto. apply IHk; [|assumption]. 
    constructor; assumption.
  - now apply same_add_text.
  - constructor; [constructor|assumption].
  - constructor; [constructor|assumption].
Qed.

Section T.
  Variable ordn : list (option str * str) -> list (option str * str).
  Variable orda : list (str * option str) -> list (str * option str).
  Hypothesis ordn_ok : forall l, Permutation (ordn l) l.
  Hypothesis orda_ok : forall l, Permutation (orda l) l.

  Lemma printed_resolves : forall canon n chain cur sc, Forall legal_decls chain -> legal_dom n ->
    in_force chain cur sc -> consistent (scope_of chain) n ->
    exists x, resolve sc (printed ordn orda canon chain cur n) = Some x /\ same_tree x (xtree n).
  Proof.
    intros canon n. induction n as [ns q d a k IH|s|s|t d] using node_ind2; intros chain cur sc Hc Hl Hf Hcon;
      try (eexists; split; [reflexivity|constructor]).
    inversion Hl as [| | |? ? ? ? ? Hq Hns Hd HF HN HK]; subst.
    cbn [consistent] in Hcon. cbv zeta in Hcon. change (declared (scope_of chain) d) with (scope_of (d :: chain)) in Hcon.
    destruct Hcon as (HE & HA & HU & HKC).
    assert (Hc' : Forall legal_decls (d :: chain)) by (constructor; assumption).
    destruct (step_scope ordn orda ordn_ok orda_ok canon (d :: chain) cur sc ns q a _ Hc' HF HN Hq Hns Hf HE eq_refl) as (sc' & ED & Hf' & HE' & HS).
    set (nss := visit_namespaces (d :: chain) cur ns q a) in *.
    assert (Ha : Forall (fun a => a_ns a <> Some xmlns_uri) a) by now apply attrs_no_xmlns.
    assert (HP := written_perm ordn orda ordn_ok orda_ok canon nss a Ha HN).
    cbn [printed]. cbv zeta. fold nss. rewrite resolve_elem_eq, ED, HE'.
    (* attributes *)
    assert (HR : resolve_atts sc' (map nsattr' nss ++ plain_attrs a) = Some (map (fun a => ((a_ns a, local (a_qname a)), a_value a)) a)).
    { rewrite resolve_atts_decls.
      - unfold plain_attrs. clear - HF HA HS. induction a as [|x a IHa]; [reflexivity|].
        inversion HF as [|? ? Hx HF']; subst. inversion HA as [|? ? Rx HA']; subst. cbn [map resolve_atts].
        destruct Hx as (_ & _ & Hdx & _). rewrite Hdx.
        assert (Rx' : resolve_att sc' (a_qname x) = Some (a_ns x, local (a_qname x))).
        { unfold resolve_att in Rx |- *. destruct (split_qname (a_qname x)) as [[[p|] l]|]; [|exact Rx|discriminate].
          destruct (scope_of (d :: chain) (Some p)) as [u|] eqn:Eu; [|discriminate]. now rewrite (HS p u Eu). }
        rewrite Rx'. rewrite IHa by assumption. reflexivity.
      - rewrite Forall_forall. intros [k0 v0] Hin. cbn [fst].
        destruct (vn_good (d :: chain) cur ns q a Hc' Ha Hq Hns k0 v0 Hin) as [HG _]. now apply good_key_ne. }
    destruct (resolve_atts_perm sc' _ _ (Permutation_sym HP) _ HR) as (xa & EX & PX). rewrite EX.
    (* children *)
    assert (HKK : exists xk, resolve_all sc' (map (printed ordn orda canon (d :: chain) (dupdate cur nss)) k) = Some xk /\ Forall2 same_tree xk (map xtree k)).
    { clear - IH HK HKC Hf' Hc'. induction k as [|n k IHk]; [exists []; split; [reflexivity|constructor]|].
      inversion IH as [|? ? Hn IH']; subst. inversion HK as [|? ? Ln HK']; subst. destruct HKC as [Cn HKC].
      destruct (IHk IH' HKC HK') as (xk & E & F). destruct (Hn (d :: chain) (dupdate cur nss) sc' Hc' Ln Hf' Cn) as (x & Ex & Fx).
      exists (x :: xk). cbn [map resolve_all]. rewrite Ex, E. split; [reflexivity|]. constructor; assumption. }
    destruct HKK as (xk & EK & FK). rewrite EK.
    rewrite nodup_enames_ok.
    2:{ eapply Permutation_NoDup; [apply Permutation_map; exact PX|]. rewrite map_map. cbn [fst]. exact HU. }
    eexists. split; [reflexivity|]. cbn [xtree]. constructor; [now symmetry|assumption].
  Qed.

  (** The same tree, declarations aside. *)
  Lemma undeclare_merge : forall n l, map undeclare (merge n l) = merge (undeclare n) (map undeclare l).
  Proof.
    induction n as [q a k IH|s|d|t d|x y z] using rnode_ind2; intro l; try reflexivity.
    - cbn [merge undeclare map]. do 2 f_equal. clear - IH. induction IH as [|n k Hn Hk IHk]; [reflexivity|].
      cbn [fold_right map]. rewrite Hn. now f_equal.
    - cbn [merge undeclare]. destruct s as [|c s]; [reflexivity|]. destruct l as [|[q a k|u|d|t d|x y z] l]; reflexivity.
  Qed.
  Lemma undeclare_merge_all : forall l, map undeclare (merge_all l) = merge_all (map undeclare l).
  Proof. unfold merge_all. induction l as [|n l IH]; [reflexivity|]. cbn [fold_right map]. rewrite undeclare_merge. now f_equal. Qed.

  Lemma same_read_merge : forall x y, same_read x y -> forall l l', Forall2 same_read l l' -> Forall2 same_read (merge x l) (merge y l').
  Proof.
    induction x as [q a k IH|s|d|t d|? ? ?] using rnode_ind2; intros y Hs l l' Hl; inversion Hs; subst; cbn [merge].
    - constructor; [|assumption]. constructor; [assumption|].
      match goal with H : Forall2 same_read k ?k' |- _ => clear - IH H; revert IH; induction H as [|n n' k1 k2 Hn Hk IHk] end; intro IH; [constructor|].
      inversion IH as [|? ? H1 H2]; subst. cbn [fold_right]. apply H1; auto.
    - destruct s as [|c s]; [assumption|]. destruct Hl as [|x' y' l l' Hx Hl]; [repeat constructor|].
      destruct Hx; cbn [add_text]; repeat constructor; auto.
    - constructor; [constructor|assumption].
    - constructor; [constructor|assumption].
  Qed.

  Lemma filter_perm : forall (A : Type) (f : A -> bool) a b, Permutation a b -> Permutation (filter f a) (filter f b).
  Proof.
    induction 1 as [|x a b P IH|x y a|a b c P1 IH1 P2 IH2]; cbn [filter].
    - constructor.
    - destruct (f x); [now constructor|assumption].
    - destruct (f x), (f y); try reflexivity. constructor.
    - now transitivity (filter f b).
  Qed.
  Lemma filter_none : forall (A : Type) (f : A -> bool) l, (forall x, In x l -> f x = false) -> filter f l = [].
  Proof.
    induction l as [|x l IH]; intro H; [reflexivity|]. cbn [filter]. rewrite H by now left. apply IH. intros; apply H; now right.
  Qed.
  Lemma filter_all : forall (A : Type) (f : A -> bool) l, (forall x, In x l -> f x = true) -> filter f l = l.
  Proof.
    induction l as [|x l IH]; intro H; [reflexivity|]. cbn [filter]. rewrite H by now left. rewrite IH; [reflexivity|]. intros; apply H; now right.
  Qed.

  Lemma printed_same : forall canon n chain cur, Forall legal_decls chain -> legal_dom n ->
    same_read (undeclare (printed ordn orda canon chain cur n)) (as_read n).
  Proof.
    intros canon n. induction n as [ns q d a k IH|s|s|t d] using node_ind2; intros chain cur Hc Hl; [|constructor|constructor|constructor].
    inversion Hl as [| | |? ? ? ? ? Hq Hns Hd HF HN HK]; subst. cbn [printed undeclare as_read]. cbv zeta.
    set (nss := visit_namespaces (d :: chain) cur ns q a).
    assert (Hc' : Forall legal_decls (d :: chain)) by (constructor; assumption).
    assert (Ha : Forall (fun a => a_ns a <> Some xmlns_uri) a) by now apply attrs_no_xmlns.
    constructor.
    - rewrite (filter_perm _ _ _ _ (written_perm ordn orda ordn_ok orda_ok canon nss a Ha HN)).
      rewrite filter_app, filter_none, filter_all; [reflexivity| |].
      + intros x Hx. unfold plain_attrs in Hx. apply in_map_iff in Hx as (y & <- & Hy). rewrite Forall_forall in HF.
        destruct (HF _ Hy) as (_ & _ & Hn & _). cbn [fst]. now rewrite Hn.
      + intros x Hx. apply in_map_iff in Hx as ([k0 v0] & <- & Hy).
        destruct (vn_good (d :: chain) cur ns q a Hc' Ha Hq Hns k0 v0 Hy) as [HG _].
        rewrite decl_of_nsattr by now apply good_key_ne. reflexivity.
    - rewrite map_map. clearbody nss. clear - IH HK Hc'. induction k as [|n k IHk]; [constructor|].
      inversion IH as [|? ? Hn IH']; subst. inversion HK as [|? ? Ln HK']; subst. cbn [map]. constructor; [now apply Hn|now apply IHk].
  Qed.
End T.

(** ** XML characters only *)
Lemma name_char_xml : forall c, name_char c = true -> xml_char c = true.
Proof.
  intros c. unfold name_char, name_start, xml_char, between.
  repeat rewrite ?orb_true_iff, ?andb_true_iff, ?N.leb_le, ?N.eqb_eq. intro H.
  assert (32 <= c <= 55295 \/ 57344 <= c <= 65533 \/ 65536 <= c <= 1114111) by lia. lia.
Qed.
Lemma ascii_xml : forall c, 32 <= c -> c < 128 -> xml_char c = true.
Proof. intros c H1 H2. unfold xml_char, between. repeat rewrite ?orb_true_iff, ?andb_true_iff, ?N.leb_le, ?N.eqb_eq. lia. Qed.
Lemma name_chars : forall s, is_name s = true -> chars s.
Proof. intros s H. apply Forall_forall. intros c Hc. apply name_char_xml. eapply is_name_chars; eauto. Qed.
Lemma chars_app : forall a b, chars (a ++ b) <-> chars a /\ chars b.
Proof. intros; apply Forall_app. Qed.
Lemma esc_chars : forall cd m f c, serializer_map m f -> xml_char c = true -> chars (esc cd m c).
Proof.
  intros cd m f c Hm Hc. unfold esc.
  assert (HC : chars (escc cd c)).
  { unfold escc. destruct (cd c); [repeat constructor; assumption|]. unfold charref. rewrite !chars_app. repeat split.
    - repeat constructor.
    - apply Forall_forall. intros d Hd. pose proof (dec_str_digits c) as HD. rewrite Forall_forall in HD. apply HD in Hd. apply ascii_xml; lia.
    - repeat constructor. }
  destruct Hm; [unfold text_entities|unfold attr_entities_quot|unfold attr_entities_apos]; splitmap c; try assumption; repeat constructor.
Qed.
Lemma escs_chars : forall cd m f s, serializer_map m f -> chars s -> chars (flat_map (esc cd m) s).
Proof.
  intros cd m f s Hm Hs. induction Hs as [|c s Hc Hs IH]; [constructor|]. cbn [flat_map]. apply chars_app.
  split; [eapply esc_chars; eauto|assumption].
Qed.
Ltac litchars := repeat (constructor; [vm_compute; reflexivity|]); constructor.
Lemma attrs_chars_ok : forall cd canon atts, legal_atts atts -> chars (attrs_chars cd canon atts).
Proof.
  intros cd canon atts [HF _]. induction HF as [|[n v] atts [Hn Hv] HF IH]; [constructor|].
  unfold attrs_chars. cbn [flat_map]. apply chars_app. split; [|exact IH]. unfold attr_chars. cbn [fst snd] in *.
  constructor; [reflexivity|]. apply chars_app. split; [now apply name_chars|].
  constructor; [reflexivity|]. constructor; [unfold quote_of; destruct (use_apos canon v); reflexivity|].
  apply chars_app. split; [eapply escs_chars; [apply amap_sm|assumption]|].
  constructor; [unfold quote_of; destruct (use_apos canon v); reflexivity|constructor].
Qed.
Lemma node_chars_ok : forall cd canon n, legal n -> chars (node_chars cd canon n).
Proof.
  intros cd canon n. induction n as [q a k IH|s|d|t d|x y z] using rnode_ind2; intro Hl; inversion Hl as [? Hs|? Hd|? ? Hp|? ? ? Hq Ha Hk]; subst; cbn [node_chars].
  - assert (HK : chars (flat_map (node_chars cd canon) k)).
    { apply Forall_forall. intros c Hc. apply in_flat_map in Hc as (n & Hn & Hc). rewrite Forall_forall in IH, Hk.
      pose proof (IH n Hn (Hk n Hn)) as HC. unfold chars in HC. rewrite Forall_forall in HC. auto. }
    assert (HQ := name_chars q Hq). constructor; [reflexivity|]. apply chars_app. split; [assumption|]. apply chars_app.
    split; [now apply attrs_chars_ok|].
    assert (HX : chars (62 :: flat_map (node_chars cd canon) k ++ lit "</" ++ q ++ lit ">")).
    { constructor; [reflexivity|]. rewrite !chars_app. repeat split; try assumption; litchars. }
    destruct canon; [exact HX|]. destruct k; [litchars|exact HX].
  - eapply escs_chars; [constructor|assumption].
  - destruct Hd as (Hd & _). rewrite !chars_app. repeat split; try assumption; litchars.
  - destruct Hp as (Ht & _ & Hd & _). rewrite !chars_app. repeat split; try litchars; [now apply name_chars|].
    destruct d; [constructor|]. constructor; [reflexivity|assumption].
Qed.
Lemma nodes_chars_ok : forall cd canon l, Forall legal l -> chars (nodes_chars cd canon l).
Proof.
  intros cd canon l Hl. apply Forall_forall. intros c Hc. apply in_flat_map in Hc as (n & Hn & Hc).
  rewrite Forall_forall in Hl. pose proof (node_chars_ok cd canon n (Hl n Hn)) as HC. unfold chars in HC. rewrite Forall_forall in HC. auto.
Qed.

(** ** New streams *)
Lemma new_good : forall cd, sound_codec cd -> goodp cd (printer_new (xmlstream_new cd)).
Proof. intros cd H. split; [reflexivity|]. repeat split. exact H. Qed.

Definition cur0 : nsdict := [(Some (lit "xml"), XML_NAMESPACE)].

Lemma in_force0 : forall chain, in_force chain cur0 scope0.
Proof.
  intro chain. repeat split.
  - intro p. unfold scope0, cur0. cbn [dget okey_eqb]. destruct (str_eqb_spec p (lit "xml")) as [->|Hn]; [reflexivity|].
    destruct (str_eqb_spec (lit "xml") p); [congruence|reflexivity].
  - intros c u H. discriminate.
Qed.
