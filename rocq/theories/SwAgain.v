(** * The structure writer: a structure after it has been fed *)
From Coq Require Import NArith ZArith String List Bool Lia Arith Permutation.
From Verif Require Import PyStr PyErr XsModel SerModel SerSpec SerRead SerTree SerNs SwModel SwSpec SwWrite SwNs.
Import ListNotations.
Open Scope N_scope.

Lemma declared_ext : forall d sc sc2, (forall k, sc k = sc2 k) -> forall k, declared sc d k = declared sc2 d k.
Proof.
  unfold declared. induction d as [|[a v] d IH]; intros sc sc2 H k; [apply H|]. cbn [fold_left]. apply IH.
  intro j. rewrite !bind_scope_get. destruct (okey_eqb _ _); [reflexivity|apply H].
Qed.
Lemma att_name_ext : forall sc sc2, (forall k, sc k = sc2 k) -> forall a, att_name sc a = att_name sc2 a.
Proof. intros sc sc2 H [[[u|] q] v]; unfold att_name; cbn [fst snd]; [reflexivity|]. destruct (prefix q); [now rewrite H|reflexivity]. Qed.
Lemma resolve_att_ext : forall sc sc2, (forall k, sc k = sc2 k) -> forall q, resolve_att sc q = resolve_att sc2 q.
Proof. intros sc sc2 H q. unfold resolve_att. destruct (SerSpec.split_qname q) as [[[p|] l]|]; try reflexivity. now rewrite H. Qed.

Lemma denotes_ext : forall sc l xs, denotes sc l xs -> forall sc2, (forall k, sc k = sc2 k) -> denotes sc2 l xs.
Proof.
  induction 1 as [sc|sc ns q a c d r kids l xs sc' Hh -> Hk IHk Hl IHl|sc p u l xs H IH|sc s l xs H IH|sc s l xs H IH|sc b s l xs H IH|sc g i l ys xs H IH H2 IH2|sc r l ys xs H IH H2 IH2];
    intros sc2 HE; try (constructor; auto; fail).
  assert (HE' := declared_ext (d ++ own ns q) sc sc2 HE).
  assert (E1 : match ns with Some u => ns_of u | None => declared sc (d ++ own ns q) (prefix q) end =
               match ns with Some u => ns_of u | None => declared sc2 (d ++ own ns q) (prefix q) end) by (destruct ns; [reflexivity|apply HE']).
  assert (E2 : map (fun x => (att_name (declared sc (d ++ own ns q)) x, snd x)) a = map (fun x => (att_name (declared sc2 (d ++ own ns q)) x, snd x)) a).
  { apply map_ext. intro x. now rewrite (att_name_ext _ _ HE'). }
  rewrite E1, E2. econstructor; eauto.
Qed.

Lemma legal_ext : forall o sc sc2, (forall k, sc k = sc2 k) -> legal_struct sc o -> legal_struct sc2 o.
Proof.
  induction o as [ns q a c IH|px u|s|s|g l IH|r IH|b s|c IH] using obj_ind2; intros sc sc2 HE HL; inversion HL; subst; try (constructor; auto; fail).
  - match goal with H : heads c ?d ?r |- _ => rename H into Hh; rename d into decls; rename r into rest end.
    assert (HE' := declared_ext (decls ++ own ns q) sc sc2 HE).
    eapply ls_elem; [exact Hh|reflexivity|assumption|assumption|assumption| | |assumption| |assumption|].
    + intros p E1 E2. rewrite <- HE'. eauto.
    + eapply Forall_impl; [|match goal with H : Forall _ a |- _ => exact H end]. intros x (X1 & X2 & X3 & X4).
      rewrite <- (att_name_ext _ _ HE'), <- (resolve_att_ext _ _ HE'). auto.
    + erewrite map_ext; [eassumption|]. intro x. symmetry. apply att_name_ext. exact HE'.
    + destruct (heads_items _ _ _ Hh) as (_ & _ & _ & _ & _ & I5). apply I5 in IH.
      match goal with H : Forall (legal_struct _) rest |- _ => rename H into HK end. clear - IH HK HE'.
      induction HK; inversion IH; subst; constructor; eauto.
  - constructor. match goal with H : Forall (legal_struct _) l |- _ => rename H into HK end. clear - IH HK HE.
    induction HK; inversion IH; subst; constructor; eauto.
  - constructor. eauto.
Qed.

Definition agree2 (pre : pdict) (sc : scope) : Prop :=
  (forall k, k <> lit "xml" -> sc (keyopt k) = match pget pre k with Some v => ns_of v | None => None end) /\
  (forall k v, pget pre k = Some v -> chars v /\ legal_bind (keyopt k) v /\ sc (keyopt k) = ns_of v).

Lemma agree2_0 : agree2 [] scope0.
Proof.
  split; [|discriminate]. intros k Hk. cbn [pget]. destruct k as [|c k]; [reflexivity|]. unfold keyopt, scope0.
  destruct (str_eqb_spec (c :: k) (lit "xml")); [contradiction|reflexivity].
Qed.

Lemma agree2_step : forall pre sc ns q content decls rest, heads content decls rest -> is_name q = true -> SerSpec.split_qname q <> None ->
  legal_decls (decls ++ own ns q) -> agree2 pre sc ->
  agree2 (pupdate pre (new_prefixes pre ns q content)) (declared sc (decls ++ own ns q)).
Proof.
  intros pre sc ns q content decls rest Hh Hq Hs Hl [A1 A2].
  destruct (new_decls pre sc ns q content decls rest Hh Hq Hs Hl) as (N1 & N2 & N3); [intros k v E; now apply A2|].
  set (new := new_prefixes pre ns q content) in *. assert (HND := nodup_keyed _ (proj1 N1)).
  split.
  - intros k Hk. destruct (pget (pupdate pre new) k) as [v|] eqn:E; [now apply N3|].
    rewrite <- N2. rewrite declared_get by apply N1. rewrite dget_keyed. rewrite pget_rev in E by assumption.
    destruct (pget new k); [discriminate|]. rewrite A1 by assumption. now rewrite E.
  - intros k v E. pose proof (N3 _ _ E) as E3. rewrite pget_rev in E by assumption. destruct (pget new k) as [w|] eqn:EN.
    + injection E as ->. rewrite <- dget_keyed in EN. apply dget_In in EN. destruct (legal_decls_bind _ _ _ N1 EN). auto.
    + destruct (A2 _ _ E) as (B1 & B2 & _). auto.
Qed.

Lemma fed_ns : forall pr p u, fed pr (ONS p u) = ONS p u.
Proof. reflexivity. Qed.
Lemma heads_fed : forall pr c d r, heads c d r -> heads (map (fed pr) c) d (map (fed pr) r).
Proof.
  induction 1 as [p u r d r' H IH| |x r Hx]; cbn [map]; [rewrite fed_ns; now constructor|constructor|].
  constructor. intros p u. destruct x; cbn [fed]; try discriminate. exfalso. eapply Hx; reflexivity.
Qed.
Lemma counts_fed : forall pr x, counts x -> counts (fed pr x).
Proof. intros pr [| | | |[|] [|]| | |] H; cbn in *; auto. Qed.
Lemma fed_names : forall o pr, name_strings (fed pr o) = name_strings o.
Proof.
  assert (HA : forall l, Forall (fun o => forall pr, name_strings (fed pr o) = name_strings o) l -> forall pr, flat_map name_strings (map (fed pr) l) = flat_map name_strings l).
  { induction 1 as [|o l Ho Hl IH]; intro pr; [reflexivity|]. cbn [map flat_map]. now rewrite Ho, IH. }
  induction o as [ns q a c IH|px u|s|s|g l IH|r IH|b s|c IH] using obj_ind2; intro pr; cbn [fed name_strings]; auto.
  do 2 f_equal. destruct (lead_of c) as [x|]; [|reflexivity]. destruct (true_obj x); [|reflexivity]. now apply HA.
Qed.

Definition again (o : obj) : Prop := forall sc pre, legal_struct sc o -> settled o -> agree2 pre sc ->
  legal_struct sc (fed pre o) /\ (forall xs, denotes sc [o] xs -> denotes sc [fed pre o] xs).
Lemma again_all : forall l, Forall again l -> forall sc pre, Forall (legal_struct sc) l -> Forall settled l -> agree2 pre sc ->
  Forall (legal_struct sc) (map (fed pre) l) /\ (forall xs, denotes sc l xs -> denotes sc (map (fed pre) l) xs).
Proof.
  assert (HC : forall sc x a l b, denotes sc [x] a -> denotes sc l b -> denotes sc (x :: l) (a ++ b)).
  { intros sc x a l b Ha Hb. inversion Ha; subst;
    match goal with H : denotes _ [] _ |- _ => inversion H; subst end; cbn [app]; rewrite ?app_nil_r; try (constructor; assumption).
    econstructor; eauto. }
  induction 1 as [|o l Ho Hl IH]; intros sc pre HL HS HA; [split; [constructor|auto]|].
  inversion HL; subst. inversion HS; subst. destruct (Ho sc pre) as [A1 A2]; auto. destruct (IH sc pre) as [B1 B2]; auto.
  split; [constructor; assumption|]. intros xs H. apply denotes_cons in H as (a & b & -> & Ha & Hb). cbn [map]. apply HC; auto.
Qed.

Lemma all_again : forall o, again o.
Proof.
  induction o as [ns q a c IH|px u|s|s|g l IH|r IH|b s|c IH] using obj_ind2; intros sc pre HL HS HA; inversion HL; subst; inversion HS; subst;
    try (split; [exact HL|auto]; fail).
  - match goal with H : heads c ?d ?r, H' : Forall (legal_struct _) ?r |- _ => rename H into Hh; rename d into decls; rename r into rest; rename H' into HK end.
    match goal with H : heads c ?d ?r, H' : Forall settled ?r |- _ => destruct (heads_fun _ _ _ Hh _ _ H) as [<- <-]; clear H; rename H' into HSK end.
    match goal with H : legal_decls _ |- _ => rename H into HD end.
    match goal with H : is_name q = true |- _ => rename H into Hq end.
    match goal with H : SerSpec.split_qname q <> None |- _ => rename H into Hs end.
    match goal with H : forall p, ns = None -> _ |- _ => rename H into Hb end.
    match goal with H : forall x r, rest = x :: r -> _ |- _ => rename H into Hc end.
    match goal with H : Forall _ a |- _ => rename H into Ha end.
    match goal with H : NoDup (map (fun _ => _) a) |- _ => rename H into Hn1 end.
    match goal with H : NoDup (map (att_name _) a) |- _ => rename H into Hn2 end.
    match goal with H : ns = None -> _ |- _ => rename H into Hse end.
    assert (HA' := agree2_step pre sc ns q c decls rest Hh Hq Hs HD HA).
    set (pr := pupdate pre (new_prefixes pre ns q c)) in *. set (sc' := declared sc (decls ++ own ns q)) in *.
    destruct (heads_items _ _ _ Hh) as (_ & I1 & I2 & I3 & I4 & I5).
    destruct (again_all rest (I5 _ IH) sc' pr HK HSK HA') as [K1 K2].
    destruct (qprefix_key q Hq Hs) as [Hk Hk0].
    set (u0 := match ns with None => match pget pre (qprefix q) with Some u => u | None => [] end | Some u => u end).
    assert (EF : fed pre (OE ns q a c) = OE (Some u0) q a (map (fed pr) c)).
    { cbn [fed]. cbv zeta. fold pr. f_equal; [unfold u0; destruct ns; reflexivity|].
      destruct rest as [|x rest'].
      - rewrite (I2 eq_refl). specialize (I2 eq_refl). clearbody pr. clear - I2. induction c as [|y c IHc]; [reflexivity|].
        destruct y; try discriminate. cbn [map]. rewrite fed_ns. f_equal. apply IHc. exact I2.
      - rewrite (I1 _ _ eq_refl). rewrite (proj1 (counts_true x) (Hc _ _ eq_refl)). reflexivity. }
    rewrite EF.
    assert (HO : legal_decls (decls ++ own (Some u0) q) /\ (forall k, declared sc (decls ++ own (Some u0) q) k = sc' k)).
    { destruct ns as [u|]; [split; [exact HD|reflexivity]|]. destruct (Hse eq_refl) as [Hnd Hnx]. unfold own in HD. rewrite app_nil_r in HD.
      assert (Hqx : qprefix q <> lit "xml") by (intro E; rewrite E in Hk; apply Hnx; rewrite <- Hk; reflexivity).
      assert (ES : sc (prefix q) = ns_of u0).
      { rewrite <- Hk. rewrite (proj1 HA) by exact Hqx. unfold u0. destruct (pget pre (qprefix q)); reflexivity. }
      assert (HNDd : NoDup (map fst (decls ++ own (Some u0) q))).
      { rewrite map_app. apply nodup_app_disj; [apply HD|repeat constructor; intros []|]. intros y Hy [E|[]]. cbn in E. subst. contradiction. }
      assert (EX : forall k, declared sc (decls ++ own (Some u0) q) k = sc' k).
      { intro k. unfold sc'. unfold own at 2. rewrite app_nil_r. rewrite !declared_get by (assumption || apply HD).
        assert (HDG : forall l m k, dget (l ++ m) k = match dget l k with Some v => Some v | None => dget m k end).
        { clear. induction l as [|[a v] l IH]; intros m k; [reflexivity|]. cbn [app dget]. destruct (okey_eqb a k); auto. }
        rewrite HDG. destruct (dget decls k); [reflexivity|]. unfold own. cbn [dget]. destruct (okey_eqb_spec (prefix q) k) as [<-|]; [|reflexivity].
        rewrite ES. destruct u0; reflexivity. }
      split; [|exact EX]. split; [exact HNDd|]. apply Forall_app. split; [apply HD|]. constructor; [|constructor]. cbn [fst snd].
      destruct (pget pre (qprefix q)) as [u|] eqn:EP.
      - destruct (proj2 HA _ _ EP) as (B1 & B2 & _). rewrite Hk in B2. unfold u0. split; [exact B1|]. destruct (prefix q); exact B2.
      - unfold u0. split; [constructor|]. destruct (prefix q) as [p|] eqn:Eq; [|split; discriminate].
        exfalso. apply (Hb p eq_refl eq_refl). rewrite <- EX. rewrite declared_get by assumption.
        rewrite (In_dget _ (Some p) u0 HNDd); [unfold u0; reflexivity|]. apply in_or_app. right. unfold own. rewrite Eq. now left. }
    destruct HO as [HO1 HO2]. assert (HO3 : forall k, sc' k = declared sc (decls ++ own (Some u0) q) k) by (intro; symmetry; apply HO2).
    split.
    + eapply ls_elem; [apply heads_fed; exact Hh|reflexivity|assumption|assumption|exact HO1|discriminate| |assumption| | |].
      * eapply Forall_impl; [|exact Ha]. intros x (X1 & X2 & X3 & X4). rewrite (att_name_ext _ _ HO2), (resolve_att_ext _ _ HO2). auto.
      * erewrite map_ext; [exact Hn2|]. intro x. apply att_name_ext. exact HO2.
      * intros x r E. destruct rest as [|y rest']; [discriminate|]. injection E as <- <-. apply counts_fed. eapply Hc; reflexivity.
      * eapply Forall_impl; [|exact K1]. intros x. apply legal_ext. exact HO3.
    + intros xs Hd. inversion Hd as [|? ? ? ? ? d2 r2 kids l2 xs2 sc2 Hh2 E2 Hk2 Hl2| | | | | |]; subst. inversion Hl2; subst.
      destruct (heads_fun _ _ _ Hh _ _ Hh2) as [<- <-]. fold sc' in Hk2 |- *.
      assert (E1 : match ns with Some u => ns_of u | None => sc' (prefix q) end = ns_of u0).
      { destruct ns as [u|]; [reflexivity|]. rewrite HO3. rewrite declared_get by apply HO1.
        rewrite (In_dget _ (prefix q) u0 (proj1 HO1)); [destruct u0; reflexivity|]. apply in_or_app. right. now left. }
      rewrite E1. erewrite (map_ext (fun x => (att_name sc' x, snd x))).
      2:{ intro x. rewrite (att_name_ext _ _ HO3). reflexivity. }
      eapply (dn_elem sc (Some u0)); [apply heads_fed; exact Hh|reflexivity| |constructor].
      eapply denotes_ext; [apply K2; exact Hk2|exact HO3].
  - match goal with H : Forall (legal_struct sc) l, H' : Forall settled l |- _ => destruct (again_all l IH sc pre H H' HA) as [B1 B2] end.
    split; [constructor; exact B1|]. intros xs H. inversion H; subst. cbn [fed]. constructor; auto.
  - match goal with H : legal_struct sc r, H' : settled r |- _ => destruct (IH sc pre H H' HA) as [B1 B2] end.
    split; [constructor; exact B1|]. intros xs H. inversion H; subst. cbn [fed]. constructor; auto.
Qed.
