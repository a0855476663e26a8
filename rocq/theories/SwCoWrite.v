(** * Feeding with a cursor: the tree written and what it means *)
From Coq Require Import NArith ZArith String List Bool Lia Arith Permutation.
From Verif Require Import PyStr PyErr XsModel SerModel SerSpec SerStream SerPrint SerVisit SerRead SerTree SerNs SerTop SerDoc SerDocs SwModel SwSpec SwWrite SwNs SwProofs SwCoModel SwCoSpec SwCoProofs.
Import ListNotations.
Open Scope N_scope.

Section C.
  Variable vs : list obj.
  Hypothesis Hvs : forall p u r, vs <> ONS p u :: r.

  Fixpoint cwritten (pre : pdict) (c : cobj) : list rnode :=
    match c with
    | CItem o => swritten pre o
    | CElem ns q a content =>
      let new := new_prefixes pre ns q (map seen content) in
      [RElem q (written_attrs false (nsd_of new) (map att_of a))
         (match lead_of (map seen content) with
          | Some x => if true_obj x then flat_map (fun x => cwritten (below (pupdate pre new) x) x) content else []
          | None => []
          end)]
    | CCursor ns q a => [RElem q (written_attrs false (nsd_of (new_prefixes pre ns q [])) (map att_of a)) (flat_map (swritten []) vs)]
    | CRoot _ => []
    end.
  Definition call_written (pr : pdict) (l : list cobj) : list rnode := flat_map (fun x => cwritten (below pr x) x) l.

  (** Seen and filled objects have the same head. *)
  Lemma ns_seen : forall l, ns_items (map (filled vs) l) = ns_items (map seen l).
  Proof. induction l as [|x l IH]; [reflexivity|]. destruct x as [o| | |]; cbn [map ns_items filled seen]; try reflexivity. destruct o; try reflexivity. now rewrite IH. Qed.
  Lemma lead_seen : forall l x, lead_of (map seen l) = Some x -> exists y, lead_of (map (filled vs) l) = Some y /\ true_obj y = true_obj x.
  Proof.
    induction l as [|c l IH]; intros x H; [discriminate|]. destruct c as [o| | |]; cbn [map lead_of filled seen] in *; try (injection H as <-; eauto; fail).
    destruct o; try (injection H as <-; eauto; fail). now apply IH.
  Qed.
  Lemma new_seen : forall pre ns q l, new_prefixes pre ns q (map (filled vs) l) = new_prefixes pre ns q (map seen l).
  Proof. intros. unfold new_prefixes. now rewrite ns_seen. Qed.

  Lemma vs_heads : forall d r, heads vs d r -> d = [] /\ r = vs.
  Proof. intros d r H. inversion H; subst; try (split; reflexivity). exfalso. eapply Hvs. reflexivity. Qed.
  Lemma new_vs : forall pre ns q, new_prefixes pre ns q vs = new_prefixes pre ns q [].
  Proof. intros. unfold new_prefixes. destruct vs as [|x r]; [reflexivity|]. destruct x; try reflexivity. exfalso. eapply Hvs. reflexivity. Qed.

  Definition cmeans (c : cobj) : Prop := forall sc pre scw, legal_struct sc (filled vs c) -> agree pre sc scw ->
    live c /\ no_root (filled vs c) /\ Forall legal (cwritten pre c) /\
    (forall xs, denotes sc [filled vs c] xs -> exists ys, resolve_all scw (cwritten pre c) = Some ys /\ Forall2 same_tree ys xs).
  Lemma agree_nil : forall pre sc scw, agree pre sc scw -> agree [] sc scw.
  Proof. intros pre sc scw [A _]. split; [exact A|discriminate]. Qed.

  Lemma cmeans_all : forall l, Forall cmeans l -> forall sc pre scw, Forall (legal_struct sc) (map (filled vs) l) -> agree pre sc scw ->
    Forall live l /\ Forall no_root (map (filled vs) l) /\ Forall legal (call_written pre l) /\
    (forall xs, denotes sc (map (filled vs) l) xs -> exists ys, resolve_all scw (call_written pre l) = Some ys /\ Forall2 same_tree ys xs).
  Proof.
    induction 1 as [|o l Hx Hl IH]; intros sc pre scw HL HA.
    - split; [constructor|]. split; [constructor|]. split; [constructor|]. intros xs H. inversion H; subst. exists []. split; [reflexivity|constructor].
    - cbn [map] in HL. inversion HL; subst. destruct (Hx sc (below pre o) scw) as (V1 & R1 & L1 & M1); auto.
      { destruct o; [exact HA| | |]; eapply agree_nil; eauto. }
      destruct (IH sc pre scw) as (V2 & R2 & L2 & M2); auto.
      split; [now constructor|]. split; [cbn [map]; now constructor|]. split; [unfold call_written; cbn [flat_map]; now apply Forall_app|].
      intros xs H. cbn [map] in H. apply denotes_cons in H as (a & b & -> & Ha & Hb).
      destruct (M1 _ Ha) as (ya & E1 & F1). destruct (M2 _ Hb) as (yb & E2 & F2).
      exists (ya ++ yb). split; [unfold call_written; cbn [flat_map]; now apply resolve_all_app|now apply Forall2_app].
  Qed.

  Lemma heads_filled : forall c decls rest, heads (map (filled vs) c) decls rest -> exists c', rest = map (filled vs) c' /\
    (forall P : cobj -> Prop, Forall P c -> Forall P c') /\
    (forall P : cobj -> Prop, (forall p u, P (CItem (ONS p u))) -> Forall P c' -> Forall P c) /\
    (forall pr, call_written pr c = call_written pr c').
  Proof.
    induction c as [|x c IH]; intros decls rest H; cbn [map] in H; inversion H; subst.
    - exists []. repeat split; auto.
    - match goal with H : heads (map _ c) _ _ |- _ => destruct (IH _ _ H) as (c' & E & P1 & P2 & P3) end.
      destruct x as [o| | |]; try discriminate. cbn [filled] in *. subst o. exists c'. split; [exact E|]. split.
      + intros P HP. inversion HP; subst. auto.
      + split; [intros P Hn HP; constructor; auto|]. intro pr. apply P3.
    - exists (x :: c). repeat split; auto.
  Qed.

  Lemma all_cmeans : forall c, cmeans c.
  Proof.
    induction c as [o|ns q a c IH|ns q a|c IH] using cobj_ind2; intros sc pre scw HL HA.
    - split; [constructor|]. now apply all_means.
    - cbn [filled] in *. pose proof HL as HL0. inversion HL0; subst.
      match goal with H : heads _ ?d ?r |- _ => rename H into Hh; rename d into decls; rename r into rest end.
      match goal with H : Forall (legal_struct _) rest |- _ => rename H into HK end.
      match goal with H : forall x r, rest = x :: r -> _ |- _ => rename H into Hc end.
      destruct (heads_items _ _ _ Hh) as (_ & I1 & I2 & _ & I4 & _).
      destruct (heads_filled _ _ _ Hh) as (c' & -> & P1 & P2 & P3).
      assert (HM : forall scw', agree (pupdate pre (new_prefixes pre ns q (map (filled vs) c))) (declared sc (decls ++ own ns q)) scw' ->
        Forall live c' /\ Forall no_root (map (filled vs) c') /\ Forall legal (call_written (pupdate pre (new_prefixes pre ns q (map (filled vs) c))) c') /\
        (forall kids, denotes (declared sc (decls ++ own ns q)) (map (filled vs) c') kids -> exists ys,
          resolve_all scw' (call_written (pupdate pre (new_prefixes pre ns q (map (filled vs) c))) c') = Some ys /\ Forall2 same_tree ys kids)).
      { intros scw' HA'. now apply cmeans_all; [apply P1| |]. }
      assert (HX : agree (pupdate pre (new_prefixes pre ns q (map (filled vs) c))) (declared sc (decls ++ own ns q)) (declared sc (decls ++ own ns q))).
      { split; [reflexivity|]. destruct (new_decls pre sc ns q (map (filled vs) c) decls (map (filled vs) c') Hh) as (_ & _ & N3); try assumption. apply HA. }
      destruct (HM _ HX) as (V & R & _). clear HX.
      assert (HT : forall x, lead_of (map seen c) = Some x -> true_obj x = true).
      { intros x Hx. destruct (lead_seen _ _ Hx) as (y & E & ET). rewrite <- ET. destruct (map (filled vs) c') as [|z r] eqn:EZ.
        - rewrite (I2 eq_refl) in E. discriminate.
        - rewrite (I1 _ _ eq_refl) in E. injection E as <-. apply counts_true. eapply Hc. reflexivity. }
      split; [constructor; [exact HT|]; apply P2; [constructor|exact V]|].
      split; [constructor; apply I4; [constructor|exact R]|].
      assert (EW : cwritten pre (CElem ns q a c) = [RElem q (written_attrs false (nsd_of (new_prefixes pre ns q (map (filled vs) c))) (map att_of a))
        (call_written (pupdate pre (new_prefixes pre ns q (map (filled vs) c))) c')]).
      { cbn [cwritten]. cbv zeta. rewrite new_seen. do 2 f_equal. rewrite <- P3. destruct (lead_of (map seen c)) as [x|] eqn:EL.
        - now rewrite (HT x eq_refl).
        - generalize (pupdate pre (new_prefixes pre ns q (map seen c))). intro pr. clear - EL. symmetry. induction c as [|y c IHc]; [reflexivity|]. cbn [map lead_of] in EL. destruct y as [o| | |]; cbn [seen] in EL; try discriminate.
          destruct o; try discriminate. exact (IHc EL). }
      rewrite EW. eapply elem_means; eauto. intros scw' HA'. apply HM. exact HA'.
    - cbn [filled] in *. pose proof HL as HL0. inversion HL0; subst.
      match goal with H : heads _ ?d ?r |- _ => rename H into Hh; rename d into decls; rename r into rest end.
      match goal with H : Forall (legal_struct _) rest |- _ => rename H into HK end.
      destruct (vs_heads _ _ Hh) as [-> ->].
      assert (HM : forall sc' scw', Forall (legal_struct sc') vs -> (forall k, scw' k = sc' k) -> Forall no_root vs /\ Forall legal (flat_map (swritten []) vs) /\
        (forall kids, denotes sc' vs kids -> exists ys, resolve_all scw' (flat_map (swritten []) vs) = Some ys /\ Forall2 same_tree ys kids)).
      { intros sc' scw' H1 H2. apply means_all; [apply Forall_forall; intros; apply all_means|exact H1|]. split; [exact H2|discriminate]. }
      split; [constructor|]. split; [constructor; eapply HM; [exact HK|reflexivity]|].
      cbn [cwritten]. rewrite <- new_vs. eapply elem_means; eauto. intros scw' HA'. eapply HM; [exact HK|]. apply HA'.
    - inversion HL.
  Qed.

  (** ** Encodable names *)
  Variable cd : codec.
  Hypothesis Hcd : sound_codec cd.

  Lemma elem_wfr : forall q new a K, legal (RElem q (written_attrs false (nsd_of new) (map att_of a)) K) ->
    encodable cd q -> Forall (encodable cd) (map (fun x : option str * str * str => snd (fst x)) a) ->
    (forall p u, In (p, u) new -> encodable cd p) -> Forall (wfr cd) K ->
    wfr cd (RElem q (written_attrs false (nsd_of new) (map att_of a)) K).
  Proof.
    intros q new a K HL Eq Ea En Hk. inversion HL as [| | |? ? ? Lq La Lk]; subst.
    cbn [wfr]. split; [intros ->; discriminate|]. split; [exact Eq|]. split; [|now apply wfr_all].
    assert (HP := written_attrs_perm false (nsd_of new) (map att_of a)). eapply Permutation_Forall; [symmetry; exact HP|].
    destruct La as [La _]. apply (Permutation_Forall HP) in La. rewrite Forall_forall in La |- *. intros x Hx.
    split; [|apply La; exact Hx]. apply in_app_iff in Hx as [Hx|Hx].
    - apply in_map_iff in Hx as (d & <- & Hd). unfold nsd_of in Hd. apply in_map_iff in Hd as ([p u] & <- & Hd). cbn [fst snd].
      pose proof (En _ _ Hd) as HEp.
      destruct p as [|c0 p]; [apply enc_ascii; [exact Hcd|ascii]|]. unfold nsattr', nsattr. cbn [fst].
      apply enc_app. split; [apply enc_ascii; [exact Hcd|ascii]|exact HEp].
    - apply in_map_iff in Hx as (y & <- & Hy). rewrite Forall_forall in Ea. apply Ea. cbn [att_of fst].
      change (snd (fst y)) with ((fun a0 : option str * str * str => snd (fst a0)) y). now apply in_map.
  Qed.

  Lemma cwritten_wfr : forall c pre, Forall legal (cwritten pre c) -> Forall (encodable cd) (name_strings (filled vs c)) -> Forall (wfr cd) (cwritten pre c).
  Proof.
    assert (HA : forall l, Forall (fun c => forall pre, Forall legal (cwritten pre c) -> Forall (encodable cd) (name_strings (filled vs c)) -> Forall (wfr cd) (cwritten pre c)) l ->
      forall pr, Forall legal (call_written pr l) -> Forall (encodable cd) (flat_map name_strings (map (filled vs) l)) -> Forall (wfr cd) (call_written pr l)).
    { induction 1 as [|o l Ho Hl IH]; intros pr H1 H2; [constructor|]. unfold call_written in *. cbn [flat_map map] in *.
      apply Forall_app in H1 as [A1 A2]. apply Forall_app in H2 as [B1 B2]. apply Forall_app. split; auto. }
    induction c as [o|ns q a c IH|ns q a|c IH] using cobj_ind2; intros pre HL HE; cbn [filled name_strings] in HE.
    - now apply swritten_wfr.
    - cbn [cwritten] in *. cbv zeta in *. inversion HL as [|? ? HL1 _]; subst. inversion HE as [|? ? Eq HE']; subst. apply Forall_app in HE' as [Ea Ec].
      inversion HL1 as [| | |? ? ? _ _ Lk]; subst.
      constructor; [|constructor]. apply elem_wfr; auto.
      + intros p u Hin. rewrite <- new_seen in Hin. apply new_names in Hin as [H| ->]; [rewrite Forall_forall in Ec; auto|now apply enc_qprefix].
      + destruct (lead_of _) as [x|]; [|constructor]. destruct (true_obj x); [|constructor]. now apply HA.
    - cbn [cwritten] in *. inversion HL as [|? ? HL1 _]; subst. inversion HE as [|? ? Eq HE']; subst. apply Forall_app in HE' as [Ea Ec].
      inversion HL1 as [| | |? ? ? _ _ Lk]; subst.
      constructor; [|constructor]. apply elem_wfr; auto.
      + intros p u Hin. rewrite <- new_vs in Hin. apply new_names in Hin as [H| ->]; [rewrite Forall_forall in Ec; auto|now apply enc_qprefix].
      + pose proof (swritten_wfr cd Hcd (OSeq true vs) [] Lk Ec) as H. exact H.
    - constructor.
  Qed.

  (** ** The characters written *)
  Variable st : style.
  Hypothesis Hst : st <> Canon.
  Variable enc : str.

  Lemma start_eq : forall new q a p, start true st new q a p = start_element true st q (nsd_of new) (map some_att (map att_of a)) p.
  Proof. intros. unfold start. rewrite map_map. reflexivity. Qed.

  Definition couts_at (c : cobj) : Prop := forall pre p, goodp cd p -> okelem p -> live c -> no_root (filled vs c) -> Forall (wfr cd) (cwritten pre c) ->
    outs cd st p (cwritten pre c) (cfeed st enc vs pre c p).
  Lemma couts_all : forall l, Forall couts_at l -> forall pr p, goodp cd p -> okelem p -> Forall live l -> Forall no_root (map (filled vs) l) ->
    Forall (wfr cd) (call_written pr l) -> outs cd st p (call_written pr l) (cfeed_all st enc vs pr l p).
  Proof.
    induction 1 as [|o l Hx Hl IH]; intros pr p Hg Ho HV HR HW; [now apply outs_nil|]. cbn [cfeed_all]. unfold call_written in *. cbn [flat_map] in *.
    inversion HV; subst. cbn [map] in HR. inversion HR; subst. apply Forall_app in HW as [W1 W2]. apply outs_app; auto.
  Qed.
  Lemma vs_outs : forall p, goodp cd p -> okelem p -> Forall no_root vs -> Forall (wfr cd) (flat_map (swritten []) vs) ->
    outs cd st p (flat_map (swritten []) vs) (feed_all true st enc [] vs p).
  Proof. intros p Hg Ho HR HW. apply feed_all_outs; auto. apply Forall_forall. intros o _ pre0 p0 G0 O0 R0 W0. now apply feed_outs. Qed.

  Lemma all_couts : forall c, couts_at c.
  Proof.
    induction c as [o|ns q a c IH|ns q a|c IH] using cobj_ind2; intros pre p Hg Ho HV HR HW.
    - cbn [cfeed cwritten] in *. now apply feed_outs.
    - cbn [cfeed cwritten filled] in *. cbv zeta in *. inversion HV as [| |? ? ? ? HT HV']; subst. inversion HR; subst.
      set (new := new_prefixes pre ns q (map seen c)) in *.
      inversion HW as [|? ? W1 _]; subst. cbn [wfr] in W1. destruct W1 as (Hq0 & Hq & Ha & Hk). apply wfr_all in Hk. rewrite start_eq.
      eapply (outs_elem cd st Hst p q (nsd_of new) (map att_of a) _
        (fun p1 => match lead_of (map seen c) with Some x => if true_obj x then _ else Ok p1 | None => Ok p1 end)); auto.
      intros p1 Hg1 Ho1. destruct (lead_of (map seen c)) as [x|]; [|now apply outs_nil]. destruct (true_obj x); [|now apply outs_nil].
      rewrite cfeed_fix. apply couts_all; auto.
    - cbn [cfeed cwritten filled] in *. inversion HR; subst. inversion HW as [|? ? W1 _]; subst. cbn [wfr] in W1. destruct W1 as (Hq0 & Hq & Ha & Hk). apply wfr_all in Hk.
      rewrite start_eq. apply (outs_elem cd st Hst p q _ (map att_of a) _ (feed_all true st enc [] vs)); auto.
      intros p1 Hg1 Ho1. now apply vs_outs.
    - inversion HV.
  Qed.
End C.

Lemma co_document : forall cd dec indent enc content vs xs,
  sound_codec cd -> decodes cd dec -> legal_encname enc ->
  list_sum (map cursors content) = 1%nat -> (forall p u r, vs <> ONS p u :: r) ->
  Forall (legal_struct scope0) (map (filled vs) content) -> denotes scope0 (map (filled vs) content) xs -> one_element xs ->
  Forall (encodable cd) (flat_map name_strings (map (filled vs) content)) ->
  exists bs, co_encode true indent false enc (xmlstream_new cd) (CRoot content) vs = Ok bs /\ reads_back dec indent enc bs xs.
Proof.
  intros cd dec ind enc content vs xs Hcd Hd He HC Hvs HL Hx H1 HE.
  set (st := if ind then Pretty else Plain). assert (Hst : st <> Canon) by (unfold st; destruct ind; discriminate).
  assert (HM : Forall (cmeans vs) content) by (apply Forall_forall; intros; now apply all_cmeans).
  destruct (cmeans_all vs content HM scope0 [] scope0 HL agree0) as (V & R & L & M). destruct (M _ Hx) as (ys & EY & FY).
  assert (HW : Forall (wfr cd) (call_written vs [] content)).
  { clear - Hcd L HE Hvs. unfold call_written in *. induction content as [|c content IH]; [constructor|]. cbn [flat_map map] in *.
    apply Forall_app in L as [A1 A2]. apply Forall_app in HE as [B1 B2]. apply Forall_app. split; [|auto]. now apply cwritten_wfr. }
  destruct (body_document cd dec ind enc _ ys xs (cfeed_all st enc vs [] content) Hcd Hd He L EY FY H1) as (bs & RB & EB).
  { intros p Hg Ho. apply couts_all; auto. apply Forall_forall. intros. now apply all_couts. }
  exists bs. split; [|exact RB]. unfold co_encode, get_printer.
  replace (if ind then Ok Pretty else Ok Plain) with (@Ok style st) by (unfold st; destruct ind; reflexivity).
  cbn [bind]. destruct (start_document false enc (lit "1.0") (printer_new (xmlstream_new cd))) as [p1|e] eqn:E1; [|discriminate]. cbn [bind] in EB.
  destruct (cfeed_all st enc vs [] content p1) as [p2|e] eqn:E2; [|discriminate]. cbn [bind] in EB.
  destruct (end_document false p2) as [p3|e] eqn:E3; [|discriminate].
  assert (Ec : canon_of st = false) by (unfold st; destruct ind; reflexivity).
  destruct (root_session st enc vs content (printer_new (xmlstream_new cd)) p1 p2 p3 V HC) as (r & r1 & S1 & S2 & S3); try (rewrite Ec); auto.
  rewrite S1. cbn [bind]. rewrite S2. cbn [bind]. rewrite S3. exact EB.
Qed.
