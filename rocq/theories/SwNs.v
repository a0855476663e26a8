(** * The structure writer: what is written is legal and means the structure *)
From Coq Require Import NArith ZArith String List Bool Lia Arith Permutation.
From Verif Require Import PyStr PyErr XsModel SerModel SerSpec SerStream SerPrint SerVisit SerRead SerTree SerNs SerTop SwModel SwSpec SwWrite.
Import ListNotations.
Open Scope N_scope.

Definition keyopt (p : str) : option str := match p with [] => None | _ => Some p end.
Definition keyed (d : str * str) : option str * str := (keyopt (fst d), snd d).

Lemma nsattr_keyed : forall new, map nsattr' (nsd_of new) = map nsattr' (map keyed new).
Proof.
  intro new. unfold nsd_of. rewrite !map_map. apply map_ext. intros [[|c p] u]; reflexivity.
Qed.

Lemma heads_items : forall content decls rest, heads content decls rest ->
  decls = map keyed (ns_items content) /\
  (forall x r, rest = x :: r -> lead_of content = Some x) /\
  (rest = [] -> lead_of content = None) /\
  (forall pre, flat_map (swritten pre) content = flat_map (swritten pre) rest) /\
  (forall (P : obj -> Prop), (forall p u, P (ONS p u)) -> Forall P rest -> Forall P content) /\
  (forall P : obj -> Prop, Forall P content -> Forall P rest).
Proof.
  induction 1 as [p u r d r' H IH| |x r Hx].
  - destruct IH as (-> & I1 & I2 & I3 & I4 & I5). cbn [ns_items map lead_of flat_map swritten app].
    split; [destruct p; reflexivity|]. repeat split; auto.
    intros P H0. inversion H0; subst. auto.
  - repeat split; auto. discriminate.
  - split; [destruct x; try reflexivity; now destruct (Hx prefix ns)|]. repeat split; auto.
    + intros y r0 E. injection E as <- <-. destruct x; try reflexivity. now destruct (Hx prefix ns).
    + discriminate.
Qed.

Lemma counts_true : forall x, counts x <-> true_obj x = true.
Proof. intros [| |[|]| |[|] [|]| | |]; cbn; intuition congruence. Qed.

Lemma qprefix_key : forall q, is_name q = true -> SerSpec.split_qname q <> None -> keyopt (qprefix q) = prefix q /\ prefix q <> Some [].
Proof.
  intros q Hq Hs. unfold qprefix, prefix, XsModel.split_qname, SerSpec.split_qname in *.
  destruct (break1 58 q) as [[p l]|]; [|split; [reflexivity|discriminate]]. cbn [fst].
  destruct p as [|c p]; [exfalso; apply Hs; reflexivity|]. split; [reflexivity|discriminate].
Qed.

Lemma pget_rev : forall new pre k, NoDup (map fst new) ->
  pget (pupdate pre new) k = match pget new k with Some v => Some v | None => pget pre k end.
Proof.
  unfold pupdate. induction new as [|[a v] new IH]; intros pre k Hd; [reflexivity|]. inversion Hd as [|? ? Hn Hd']; subst.
  cbn [rev]. rewrite <- app_assoc. cbn [app]. rewrite IH by assumption. cbn [pget fst].
  destruct (str_eqb_spec a k) as [->|Hne]; [|reflexivity].
  assert (EN : pget new k = None).
  { clear - Hn. cbn [fst] in Hn. induction new as [|[b w] new IH]; [reflexivity|]. cbn [pget map fst] in *.
    destruct (str_eqb_spec b k) as [->|]; [exfalso; apply Hn; now left|]. apply IH. intro; apply Hn; now right. }
  now rewrite EN.
Qed.
Lemma keyopt_inj : forall a b, keyopt a = keyopt b -> a = b.
Proof. intros [|? ?] [|? ?]; cbn; congruence. Qed.
Lemma dget_keyed : forall new k, dget (map keyed new) (keyopt k) = pget new k.
Proof.
  induction new as [|[a v] new IH]; intro k; [reflexivity|]. cbn [map dget pget keyed fst snd].
  change (keyed (a, v)) with (keyopt a, v). cbn [dget]. rewrite IH.
  destruct (okey_eqb_spec (keyopt a) (keyopt k)) as [E|E]; destruct (str_eqb_spec a k) as [E2|E2]; try reflexivity.
  - now apply keyopt_inj in E.
  - now subst.
Qed.
Lemma nodup_keyed : forall new, NoDup (map fst (map keyed new)) -> NoDup (map fst new).
Proof.
  induction new as [|[a v] new IH]; intro H; [constructor|]. cbn [map fst keyed] in *. inversion H as [|? ? Hn Hd]; subst.
  constructor; [|auto]. intro Hin. apply Hn. apply in_map_iff in Hin as ([b w] & E & Hin). cbn [fst] in E. subst.
  change (keyopt a) with (fst (keyed (a, w))). apply in_map, in_map. exact Hin.
Qed.

(** The declarations written on an element, and the scope they make. *)
Lemma new_decls : forall pre sc ns q content decls rest, heads content decls rest -> is_name q = true -> SerSpec.split_qname q <> None ->
  legal_decls (decls ++ own ns q) ->
  (forall k v, pget pre k = Some v -> sc (keyopt k) = ns_of v) ->
  legal_decls (map keyed (new_prefixes pre ns q content)) /\
  (forall k, declared sc (map keyed (new_prefixes pre ns q content)) k = declared sc (decls ++ own ns q) k) /\
  (forall k v, pget (pupdate pre (new_prefixes pre ns q content)) k = Some v -> declared sc (decls ++ own ns q) (keyopt k) = ns_of v).
Proof.
  intros pre sc ns q content decls rest Hh Hq Hs Hl Hp.
  destruct (heads_items _ _ _ Hh) as (-> & _). destruct (qprefix_key q Hq Hs) as [Hk _].
  assert (HN : (exists u, ns = Some u /\ pget pre (qprefix q) = Some u /\ map keyed (new_prefixes pre ns q content) = map keyed (ns_items content)) \/
               map keyed (new_prefixes pre ns q content) = map keyed (ns_items content) ++ own ns q).
  { unfold new_prefixes, own. destruct ns as [u|]; [|right; now rewrite !app_nil_r].
    destruct (pget pre (qprefix q)) as [v|] eqn:E.
    - destruct (str_eqb_spec v u) as [->|]; [left; exists u; rewrite app_nil_r; auto|].
      right. rewrite map_app. cbn [map]. unfold keyed at 2. cbn [fst snd]. now rewrite Hk.
    - right. rewrite map_app. cbn [map]. unfold keyed at 2. cbn [fst snd]. now rewrite Hk. }
  assert (HL : legal_decls (map keyed (new_prefixes pre ns q content))).
  { destruct HN as [(u & -> & _ & ->)| -> ]; [|exact Hl]. destruct Hl as [L1 L2]. apply Forall_app in L2 as [L2 _]. split; [|exact L2].
    rewrite map_app in L1. clear - L1. induction (map fst (map keyed (ns_items content))) as [|x l IH]; [constructor|].
    cbn [app] in L1. inversion L1 as [|? ? H1 H2]; subst. constructor; [|auto]. intro Hx. apply H1. apply in_or_app. now left. }
  assert (HS : forall k, declared sc (map keyed (new_prefixes pre ns q content)) k = declared sc (map keyed (ns_items content) ++ own ns q) k).
  { intro k. destruct HN as [(u & -> & E & E2)|E2]; rewrite E2; [|reflexivity].
    destruct HL as [L0 _]. rewrite E2 in L0. destruct Hl as [L1 _]. rewrite !declared_get by assumption.
    assert (HD : forall l m k, dget (l ++ m) k = match dget l k with Some v => Some v | None => dget m k end).
    { clear. induction l as [|[a v] l IH]; intros m k; [reflexivity|]. cbn [app dget]. destruct (okey_eqb a k); auto. }
    rewrite HD. destruct (dget (map keyed (ns_items content)) k); [reflexivity|].
    unfold own. cbn [dget]. destruct (okey_eqb_spec (prefix q) k) as [<-|]; [|reflexivity].
    apply Hp in E. rewrite Hk in E. rewrite E. destruct u; reflexivity. }
  split; [exact HL|]. split; [exact HS|].
  intros k v. destruct HL as [L0 _]. rewrite pget_rev by now apply nodup_keyed. rewrite <- HS.
  rewrite declared_get by assumption. rewrite dget_keyed.
  destruct (pget (new_prefixes pre ns q content) k) as [w|]; [|apply Hp]. intro E. injection E as ->. destruct v; reflexivity.
Qed.

(** Attributes and declarations together. *)
Definition sw_att (a : (option str * str) * str) : Prop :=
  is_name (snd (fst a)) = true /\ chars (snd a) /\ decl_of (snd (fst a)) = None.
Lemma sw_atts_legal : forall new atts, legal_decls (map keyed new) -> Forall sw_att atts -> NoDup (map (fun a => snd (fst a)) atts) ->
  legal_atts (map nsattr' (nsd_of new) ++ map att_of atts).
Proof.
  intros new atts Hl HF HN. rewrite nsattr_keyed. set (D := map keyed new) in *.
  assert (HG : forall k v, In (k, v) D -> good_key k /\ chars v).
  { intros k v Hin. destruct (legal_decls_bind _ _ _ Hl Hin) as [Hb Hc]. split; [eapply legal_bind_key; eauto|exact Hc]. }
  split.
  - apply Forall_app. split.
    + rewrite Forall_forall. intros x Hx. apply in_map_iff in Hx as ([k v] & <- & Hx). destruct (HG _ _ Hx) as [G1 G2].
      split; [now apply nsattr_name|exact G2].
    + rewrite Forall_map. eapply Forall_impl; [|exact HF]. intros a (H1 & H2 & _). auto.
  - rewrite map_app. apply nodup_app_disj.
    + apply nsattr_nodup; [|apply Hl]. rewrite Forall_forall. intros [k v] Hx. apply (HG k v Hx).
    + rewrite map_map. exact HN.
    + intros x Hx Hy. rewrite map_map in Hx. apply in_map_iff in Hx as ([k v] & E & Hx).
      rewrite map_map in Hy. apply in_map_iff in Hy as (a & E2 & Hy).
      rewrite Forall_forall in HF. destruct (HF _ Hy) as (_ & _ & Hd). destruct (HG _ _ Hx) as [G1 _].
      cbn [att_of fst] in E2. rewrite E2, <- E, decl_of_nsattr in Hd by now apply good_key_ne. discriminate.
Qed.

Definition agree (pre : pdict) (sc scw : scope) : Prop :=
  (forall k, scw k = sc k) /\ (forall k v, pget pre k = Some v -> sc (keyopt k) = ns_of v).

Lemma denotes_cons : forall sc x l xs, denotes sc (x :: l) xs -> exists a b, xs = a ++ b /\ denotes sc [x] a /\ denotes sc l b.
Proof.
  intros sc x l xs H. inversion H; subst.
  - eexists [_], _. split; [reflexivity|]. split; [|eassumption]. econstructor; eauto. constructor.
  - exists [], xs. split; [reflexivity|]. split; [|assumption]. constructor. constructor.
  - eexists [_], _. split; [reflexivity|]. split; [|eassumption]. constructor. constructor.
  - eexists [_], _. split; [reflexivity|]. split; [|eassumption]. constructor. constructor.
  - eexists [_], _. split; [reflexivity|]. split; [|eassumption]. constructor. constructor.
  - exists (ys ++ []), xs0. split; [now rewrite app_nil_r|]. split; [|eassumption]. constructor; [assumption|constructor].
  - exists (ys ++ []), xs0. split; [now rewrite app_nil_r|]. split; [|eassumption]. constructor; [assumption|constructor].
Qed.

Lemma resolve_all_app : forall sc a b xa xb, resolve_all sc a = Some xa -> resolve_all sc b = Some xb -> resolve_all sc (a ++ b) = Some (xa ++ xb).
Proof.
  induction a as [|n a IH]; intros b xa xb Ha Hb; [injection Ha as <-; exact Hb|]. cbn [app resolve_all] in *.
  destruct (resolve sc n); [|discriminate]. destruct (resolve_all sc a) as [l|] eqn:E; [|discriminate]. injection Ha as <-.
  rewrite (IH b l xb eq_refl Hb). reflexivity.
Qed.

Definition means (o : obj) : Prop := forall sc pre scw, legal_struct sc o -> agree pre sc scw ->
  no_root o /\ Forall legal (swritten pre o) /\
  (forall xs, denotes sc [o] xs -> exists ys, resolve_all scw (swritten pre o) = Some ys /\ Forall2 same_tree ys xs).

Lemma means_all : forall l, Forall means l -> forall sc pre scw, Forall (legal_struct sc) l -> agree pre sc scw ->
  Forall no_root l /\ Forall legal (flat_map (swritten pre) l) /\
  (forall xs, denotes sc l xs -> exists ys, resolve_all scw (flat_map (swritten pre) l) = Some ys /\ Forall2 same_tree ys xs).
Proof.
  induction 1 as [|o l Hx Hl IH]; intros sc pre scw HL HA.
  - split; [constructor|]. split; [constructor|]. intros xs H. inversion H; subst. exists []. split; [reflexivity|constructor].
  - inversion HL; subst. destruct (Hx sc pre scw) as (R1 & L1 & M1); auto. destruct (IH sc pre scw) as (R2 & L2 & M2); auto.
    split; [now constructor|]. split; [cbn [flat_map]; now apply Forall_app|].
    intros xs H. apply denotes_cons in H as (a & b & -> & Ha & Hb).
    destruct (M1 _ Ha) as (ya & E1 & F1). destruct (M2 _ Hb) as (yb & E2 & F2).
    exists (ya ++ yb). split; [cbn [flat_map]; now apply resolve_all_app|now apply Forall2_app].
Qed.

Lemma heads_fun : forall c d r, heads c d r -> forall d' r', heads c d' r' -> d = d' /\ r = r'.
Proof.
  induction 1 as [p u r d r' H IH| |x r Hx]; intros d0 r0 H0; inversion H0; subst; try (split; reflexivity).
  - match goal with H : heads r _ _ |- _ => destruct (IH _ _ H) as [-> ->] end. split; reflexivity.
  - exfalso. match goal with H : forall _ _, ONS _ _ <> _ |- _ => eapply H; reflexivity end.
  - exfalso. eapply Hx; reflexivity.
Qed.

(** One element: its children are given with what they mean. *)
Lemma elem_means : forall sc pre scw ns q a c decls rest K,
  legal_struct sc (OE ns q a c) -> heads c decls rest -> agree pre sc scw ->
  (forall scw', agree (pupdate pre (new_prefixes pre ns q c)) (declared sc (decls ++ own ns q)) scw' ->
     Forall legal K /\
     (forall kids, denotes (declared sc (decls ++ own ns q)) rest kids -> exists ys, resolve_all scw' K = Some ys /\ Forall2 same_tree ys kids)) ->
  Forall legal [RElem q (written_attrs false (nsd_of (new_prefixes pre ns q c)) (map att_of a)) K] /\
  (forall xs, denotes sc [OE ns q a c] xs -> exists ys,
     resolve_all scw [RElem q (written_attrs false (nsd_of (new_prefixes pre ns q c)) (map att_of a)) K] = Some ys /\ Forall2 same_tree ys xs).
Proof.
  intros sc pre scw ns q a c decls rest K HL Hh HA HKK. inversion HL; subst.
  match goal with H : heads c ?d ?r, H' : Forall (legal_struct _) ?r |- _ => destruct (heads_fun _ _ _ Hh _ _ H) as [<- <-]; clear H; rename H' into HK end.
  match goal with H : legal_decls _ |- _ => rename H into HD end.
  match goal with H : is_name q = true |- _ => rename H into Hq end.
  match goal with H : SerSpec.split_qname q <> None |- _ => rename H into Hs end.
  match goal with H : forall p, ns = None -> _ |- _ => rename H into Hb end.
  match goal with H : forall x r, rest = x :: r -> _ |- _ => clear H end.
  match goal with H : Forall _ a |- _ => rename H into Ha end.
  match goal with H : NoDup (map (fun _ => _) a) |- _ => rename H into Hn1 end.
  match goal with H : NoDup (map (att_name _) a) |- _ => rename H into Hn2 end.
  destruct HA as [A1 A2].
  destruct (new_decls pre sc ns q c decls rest Hh Hq Hs HD A2) as (N1 & N2 & N3).
  set (new := new_prefixes pre ns q c) in *. set (sc' := declared sc (decls ++ own ns q)) in *.
  assert (Ha' : Forall sw_att a) by (eapply Forall_impl; [|exact Ha]; intros x (X1 & X2 & X3 & _); repeat split; assumption).
  assert (HLA := sw_atts_legal new a N1 Ha' Hn1).
  (* the scope read back *)
  assert (HSC : exists scw', declare scw (written_attrs false (nsd_of new) (map att_of a)) = Some scw' /\ forall k, scw' k = sc' k).
  { assert (HP := written_attrs_perm false (nsd_of new) (map att_of a)).
    destruct (legal_atts_perm _ _ (Permutation_sym HP) HLA) as [_ HND].
    destruct (declare_spec (written_attrs false (nsd_of new) (map att_of a)) scw HND) as (scw' & E & D1 & D2).
    - intros n v k Hin Hk. apply (Permutation_in _ HP) in Hin. rewrite nsattr_keyed in Hin. apply in_app_iff in Hin as [Hin|Hin].
      + apply in_map_iff in Hin as ([k0 v0] & E0 & Hin). destruct (legal_decls_bind _ _ _ N1 Hin) as [Hbd _].
        assert (E1 : decl_of (fst (nsattr' (k0, v0))) = Some k0) by (apply decl_of_nsattr, good_key_ne; eapply legal_bind_key; eauto).
        rewrite E0 in E1. cbn [fst] in E1. rewrite Hk in E1. injection E1 as ->.
        assert (E2 : snd (nsattr' (k0, v0)) = v) by now rewrite E0. cbn [nsattr' snd] in E2. subst. exact Hbd.
      + apply in_map_iff in Hin as (x & E0 & Hin). rewrite Forall_forall in Ha'. destruct (Ha' _ Hin) as (_ & _ & Hd).
        injection E0 as E1 _. rewrite E1 in Hd. congruence.
    - exists scw'. split; [exact E|]. intro k. rewrite <- N2. destruct N1 as [N1' N1''] eqn:EN. rewrite declared_get by assumption.
      destruct (dget (map keyed new) k) as [v|] eqn:EG.
      + pose proof (dget_In _ _ _ EG) as Hin. destruct (legal_decls_bind _ _ _ N1 Hin) as [Hbd _].
        rewrite (D1 (fst (nsattr' (k, v))) v k).
        * destruct v; reflexivity.
        * apply (Permutation_in _ (Permutation_sym HP)). rewrite nsattr_keyed. apply in_or_app. left.
          change (fst (nsattr' (k, v)), v) with (nsattr' (k, v)). now apply in_map.
        * apply decl_of_nsattr, good_key_ne. eapply legal_bind_key; eauto.
      + rewrite (D2 k); [apply A1|]. intros n v Hin Hk. apply (Permutation_in _ HP) in Hin. rewrite nsattr_keyed in Hin.
        apply in_app_iff in Hin as [Hin|Hin].
        * apply in_map_iff in Hin as ([k0 v0] & E0 & Hin). destruct (legal_decls_bind _ _ _ N1 Hin) as [Hbd _].
          assert (E1 : decl_of (fst (nsattr' (k0, v0))) = Some k0) by (apply decl_of_nsattr, good_key_ne; eapply legal_bind_key; eauto).
          rewrite E0 in E1. cbn [fst] in E1. rewrite Hk in E1. injection E1 as ->.
          apply (In_dget _ _ _ N1') in Hin. congruence.
        * apply in_map_iff in Hin as (x & E0 & Hin). rewrite Forall_forall in Ha'. destruct (Ha' _ Hin) as (_ & _ & Hd).
          injection E0 as E1 _. rewrite E1 in Hd. congruence. }
  destruct HSC as (scw' & ESC & HSC).
  destruct (HKK scw' (conj HSC N3)) as [L M].
  split.
  { constructor; [|constructor]. constructor; [exact Hq| |exact L].
    eapply legal_atts_perm; [|exact HLA]. symmetry. apply written_attrs_perm. }
  intros xs Hd. inversion Hd as [|? ? ? ? ? d2 r2 kids l2 xs2 sc2 Hh2 E2 Hk2 Hl2| | | | | |]; subst. inversion Hl2; subst.
  destruct (heads_fun _ _ _ Hh _ _ Hh2) as [<- <-]. fold sc' in Hk2 |- *.
  destruct (M _ Hk2) as (ys & EY & FY).
  cbn [resolve_all]. rewrite resolve_elem_eq, ESC, EY.
  assert (HE : resolve_elem scw' q = Some (match ns with Some u => ns_of u | None => sc' (prefix q) end, local q)).
  { unfold resolve_elem. unfold SerSpec.split_qname in Hs |- *. unfold local, prefix in *. rewrite !HSC.
    destruct (break1 58 q) as [[px lc]|] eqn:EB.
    - destruct (is_name px && is_name lc && negb (mem 58 lc)); [|congruence].
      assert (HU : sc' (Some px) = match ns with Some u => ns_of u | None => sc' (Some px) end /\ sc' (Some px) <> None).
      { destruct ns as [u|]; [|split; [reflexivity|now apply Hb]].
        assert (HI : In (Some px, u) (decls ++ own (Some u) q)) by (unfold own, prefix; rewrite EB; apply in_or_app; right; now left).
        destruct (legal_decls_bind _ _ _ HD HI) as [(_ & _ & Hu & _) _].
        unfold sc'. destruct HD as [HD1 _]. rewrite declared_get by assumption. rewrite (In_dget _ _ _ HD1 HI).
        destruct u; [congruence|]. split; [reflexivity|discriminate]. }
      destruct HU as [HU1 HU2]. rewrite HSC. destruct (sc' (Some px)) as [v|] eqn:EV; [|congruence]. destruct ns; [rewrite <- HU1|]; reflexivity.
    - f_equal. f_equal. destruct ns as [u|]; [|reflexivity].
      assert (HI : In (None, u) (decls ++ own (Some u) q)) by (unfold own, prefix; rewrite EB; apply in_or_app; right; now left).
      unfold sc'. destruct HD as [HD1 _]. rewrite declared_get by assumption. rewrite (In_dget _ _ _ HD1 HI). destruct u; reflexivity. }
  rewrite HE.
  assert (HR : resolve_atts scw' (map nsattr' (nsd_of new) ++ map att_of a) = Some (map (fun x => (att_name sc' x, snd x)) a)).
  { rewrite nsattr_keyed, resolve_atts_decls.
    - clear - Ha HSC. induction Ha as [|x a (X1 & X2 & X3 & X4) Ha IH]; [reflexivity|]. cbn [map resolve_atts].
      change (att_of x) with (snd (fst x), snd x). cbn [resolve_atts]. rewrite X3.
      assert (RX : resolve_att scw' (snd (fst x)) = Some (att_name sc' x)).
      { rewrite <- X4. unfold resolve_att. destruct (SerSpec.split_qname (snd (fst x))) as [[[p|] l]|]; [|reflexivity|reflexivity]. now rewrite HSC. }
      rewrite RX, IH. reflexivity.
    - rewrite Forall_forall. intros [k v] Hin. destruct (legal_decls_bind _ _ _ N1 Hin) as [Hbd _]. cbn [fst].
      apply good_key_ne. eapply legal_bind_key; eauto. }
  destruct (resolve_atts_perm scw' _ _ (Permutation_sym (written_attrs_perm false (nsd_of new) (map att_of a))) _ HR) as (xa & EX & PX). rewrite EX.
  rewrite nodup_enames_ok.
  2:{ eapply Permutation_NoDup; [apply Permutation_map; exact PX|]. rewrite map_map. cbn [fst]. exact Hn2. }
  eexists. split; [reflexivity|]. constructor; [|constructor]. constructor; [now symmetry|assumption].
Qed.

Lemma all_means : forall o, means o.
Proof.
  induction o as [ns q a c IH|p u|s|s|g l IH|r IH|b s|c IH] using obj_ind2; intros sc pre scw HL HA.
  1:{ pose proof HL as HL0. inversion HL0; subst.
    match goal with H : heads c ?d ?r |- _ => rename H into Hh; rename d into decls; rename r into rest end.
    match goal with H : Forall (legal_struct _) rest |- _ => rename H into HK end.
    match goal with H : forall x r, rest = x :: r -> _ |- _ => rename H into Hc end.
    destruct (heads_items _ _ _ Hh) as (_ & I1 & I2 & I3 & I4 & I5).
    assert (EK : forall pr, match lead_of c with Some x => if true_obj x then flat_map (swritten pr) c else [] | None => [] end
                 = flat_map (swritten pr) rest).
    { intro pr. destruct rest as [|x rest']; [rewrite (I2 eq_refl); reflexivity|]. rewrite (I1 _ _ eq_refl).
      rewrite (proj1 (counts_true x) (Hc _ _ eq_refl)). apply I3. }
    cbn [swritten]. cbv zeta. rewrite EK.
    assert (HM : forall scw', agree (pupdate pre (new_prefixes pre ns q c)) (declared sc (decls ++ own ns q)) scw' ->
      Forall no_root rest /\ Forall legal (flat_map (swritten (pupdate pre (new_prefixes pre ns q c))) rest) /\
      (forall kids, denotes (declared sc (decls ++ own ns q)) rest kids -> exists ys,
        resolve_all scw' (flat_map (swritten (pupdate pre (new_prefixes pre ns q c))) rest) = Some ys /\ Forall2 same_tree ys kids)).
    { intros scw' HA'. now apply means_all; [apply I5| |]. }
    split.
    { constructor. apply I4; [constructor|]. eapply HM. split; [reflexivity|].
      destruct (new_decls pre sc ns q c decls rest Hh) as (_ & _ & N3); try assumption. apply HA. }
    eapply elem_means; eauto. intros scw' HA'. apply HM. exact HA'. }
  all: inversion HL; subst.
  - split; [constructor|]. split; [constructor|]. intros xs H. inversion H; subst.
    match goal with H : denotes _ [] _ |- _ => inversion H; subst end. exists []. split; [reflexivity|constructor].
  - split; [constructor|]. split; [cbn [swritten]; constructor; [now constructor|constructor]|]. intros xs H0. inversion H0; subst.
    match goal with H : denotes _ [] _ |- _ => inversion H; subst end. exists [XText s]. split; [reflexivity|repeat constructor].
  - split; [constructor|]. split; [cbn [swritten]; constructor; [now constructor|constructor]|]. intros xs H0. inversion H0; subst.
    match goal with H : denotes _ [] _ |- _ => inversion H; subst end. exists [XText s]. split; [reflexivity|repeat constructor].
  - match goal with H : Forall (legal_struct sc) l |- _ => destruct (means_all l IH sc pre scw H HA) as (R & L & M) end.
    split; [now constructor|]. split; [exact L|]. intros xs H0. inversion H0; subst.
    match goal with H : denotes _ [] _ |- _ => inversion H; subst end. rewrite app_nil_r. auto.
  - match goal with H : legal_struct sc r |- _ => destruct (IH sc pre scw H HA) as (R & L & M) end.
    split; [now constructor|]. split; [exact L|]. intros xs H0. inversion H0; subst.
    match goal with H : denotes _ [] _ |- _ => inversion H; subst end. rewrite app_nil_r. auto.
  - split; [constructor|]. split; [cbn [swritten]; constructor; [now constructor|constructor]|]. intros xs H0. inversion H0; subst.
    match goal with H : denotes _ [] _ |- _ => inversion H; subst end. exists [XText s]. split; [reflexivity|repeat constructor].
Qed.
