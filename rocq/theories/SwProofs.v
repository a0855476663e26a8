(** * The structure writer: whole documents, and structures fed again *)
From Coq Require Import NArith ZArith String List Bool Lia Arith Permutation.
From Verif Require Import PyStr PyErr XsModel SerModel SerSpec SerStream SerPrint SerVisit SerRead SerTree SerNs SerTop SerDoc SerDocs SwModel SwSpec SwWrite SwNs.
Import ListNotations.
Open Scope N_scope.

Definition encodable (cd : codec) (s : str) : Prop := encode cd s <> None.

Section E.
  Variable cd : codec.
  Hypothesis Hcd : sound_codec cd.

  Lemma ns_items_names : forall content p u, In (p, u) (ns_items content) -> In p (flat_map name_strings content).
  Proof.
    induction content as [|x content IH]; intros p u H; [destruct H|]. destruct x; cbn [ns_items] in H; try (destruct H; fail).
    cbn [flat_map name_strings app]. destruct H as [E|H]; [injection E as -> ->; now left|right; eauto].
  Qed.
  Lemma new_names : forall pre ns q content p u, In (p, u) (new_prefixes pre ns q content) ->
    In p (flat_map name_strings content) \/ p = qprefix q.
  Proof.
    intros pre ns q content p u H. unfold new_prefixes in H. apply in_app_iff in H as [H|H]; [left; eapply ns_items_names; eauto|].
    destruct ns; [|destruct H]. destruct (pget pre (qprefix q)); [destruct (str_eqb _ _)|]; try (destruct H; fail);
      destruct H as [E|[]]; injection E as <- _; now right.
  Qed.
  Lemma enc_qprefix : forall q, encodable cd q -> encodable cd (qprefix q).
  Proof.
    intros q H. unfold qprefix, XsModel.split_qname. destruct (break1 58 q) as [[a b]|] eqn:E; cbn [fst]; [|discriminate].
    apply break1_Some in E as [-> _]. now apply enc_app in H as [H _].
  Qed.

  Lemma swritten_wfr : forall o pre, Forall legal (swritten pre o) -> Forall (encodable cd) (name_strings o) -> Forall (wfr cd) (swritten pre o).
  Proof.
    assert (HA : forall l, Forall (fun o => forall pre, Forall legal (swritten pre o) -> Forall (encodable cd) (name_strings o) -> Forall (wfr cd) (swritten pre o)) l ->
      forall pre, Forall legal (flat_map (swritten pre) l) -> Forall (encodable cd) (flat_map name_strings l) -> Forall (wfr cd) (flat_map (swritten pre) l)).
    { induction 1 as [|o l Ho Hl IH]; intros pre H1 H2; [constructor|]. cbn [flat_map] in *. apply Forall_app in H1 as [A1 A2]. apply Forall_app in H2 as [B1 B2].
      apply Forall_app. split; auto. }
    induction o as [ns q a c IH|px u|s|s|g l IH|r IH|b s|c IH] using obj_ind2; intros pre HL HE; cbn [swritten name_strings] in *; try (constructor; fail).
    - cbv zeta in *. set (new := new_prefixes pre ns q c) in *. inversion HL as [|? ? HL1 _]; subst. inversion HL1 as [| | |? ? ? Lq La Lk]; subst.
      inversion HE as [|? ? Eq HE']; subst. apply Forall_app in HE' as [Ea Ec].
      constructor; [|constructor]. cbn [wfr]. split; [intros ->; discriminate|]. split; [exact Eq|]. split.
      + assert (HP := written_attrs_perm false (nsd_of new) (map att_of a)). eapply Permutation_Forall; [symmetry; exact HP|].
        destruct La as [La _]. apply (Permutation_Forall HP) in La. rewrite Forall_forall in La |- *. intros x Hx.
        split; [|apply La; exact Hx]. apply in_app_iff in Hx as [Hx|Hx].
        * apply in_map_iff in Hx as (d & <- & Hd). unfold nsd_of in Hd. apply in_map_iff in Hd as ([p u] & <- & Hd). cbn [fst snd].
          apply new_names in Hd. assert (HEp : encodable cd p).
          { destruct Hd as [Hd| ->]; [rewrite Forall_forall in Ec; auto|now apply enc_qprefix]. }
          destruct p as [|c0 p]; [apply enc_ascii; [exact Hcd|ascii]|]. unfold nsattr', nsattr. cbn [fst].
          apply enc_app. split; [apply enc_ascii; [exact Hcd|ascii]|exact HEp].
        * apply in_map_iff in Hx as (y & <- & Hy). rewrite Forall_forall in Ea. apply Ea. cbn [att_of fst].
          change (snd (fst y)) with ((fun a0 : option str * str * str => snd (fst a0)) y). now apply in_map.
      + apply wfr_all. destruct (lead_of c) as [x|]; [|constructor]. destruct (true_obj x); [|constructor]. now apply HA.
    - inversion HL as [|? ? H1 _]; subst. inversion H1; subst. constructor; [assumption|constructor].
    - inversion HL as [|? ? H1 _]; subst. inversion H1; subst. constructor; [assumption|constructor].
    - now apply HA.
    - now apply IH.
    - inversion HL as [|? ? H1 _]; subst. inversion H1; subst. constructor; [assumption|constructor].
  Qed.
End E.

Definition one_element (xs : list xnode) : Prop := exists u n a k, joined_all xs = [XElem u n a k].

(** The tree that is read back from a document. *)
Definition reads_back (dec : list N -> option str) (indent : bool) (enc : str) (bs : list N) (xs : list xnode) : Prop :=
  exists t l l' ys, dec bs = Some t /\ read_document t = Some (Some (lit "1.0", enc), l') /\
    (if indent then Forall2 spaced1 l l' else l' = l) /\
    resolve_all scope0 l = Some ys /\ Forall2 same_tree ys (joined_all xs).

Lemma agree0 : agree [] scope0 scope0.
Proof. split; [reflexivity|]. intros k v H. discriminate. Qed.

Lemma joined_xmerge : forall l, joined_all l = fold_right xmerge [] l.
Proof. reflexivity. Qed.

Lemma resolve_merge_all : forall sc W ys, resolve_all sc W = Some ys -> resolve_all sc (merge_all W) = Some (fold_right xmerge [] ys).
Proof.
  unfold merge_all. induction W as [|n W IH]; intros ys H; [injection H as <-; reflexivity|]. cbn [resolve_all] in H. cbn [fold_right].
  destruct (resolve sc n) as [x|] eqn:E; [|discriminate]. destruct (resolve_all sc W) as [xs|] eqn:E2; [|discriminate]. injection H as <-.
  rewrite resolve_merge, (IH xs eq_refl), E. reflexivity.
Qed.
Lemma same_merge_all : forall ys xs, Forall2 same_tree ys xs -> Forall2 same_tree (fold_right xmerge [] ys) (fold_right xmerge [] xs).
Proof. induction 1; [constructor|]. cbn [fold_right]. now apply same_xmerge. Qed.

Lemma body_document : forall cd dec indent enc W ys xs body,
  sound_codec cd -> decodes cd dec -> legal_encname enc ->
  Forall legal W -> resolve_all scope0 W = Some ys -> Forall2 same_tree ys xs -> one_element xs ->
  (forall p, goodp cd p -> okelem p -> outs cd (if indent : bool then Pretty else Plain) p W (body p)) ->
  exists bs, reads_back dec indent enc bs xs /\
    rmap (fun p => x_out (p_x p))
      (do p1 <- start_document false enc (lit "1.0") (printer_new (xmlstream_new cd)) ; do p2 <- body p1 ; end_document false p2) = Ok bs.
Proof.
  intros cd dec ind enc W ys xs body Hcd Hd He L EY FY (u & n & a & k & H1) HB.
  set (st := if ind then Pretty else Plain) in *.
  set (p0 := printer_new (xmlstream_new cd)). assert (G0 : goodp cd p0) by now apply new_good.
  assert (O1 : out p0 (decl_chars enc ++ [10]) (p_elem p0) (p_level p0) (p_can_indent p0) (start_document false enc (lit "1.0") p0)).
  { unfold start_document.
    assert (EA : decl_chars enc ++ [10] = (lit "<?xml version=""" ++ lit "1.0" ++ lit """ encoding=""" ++ enc ++ lit """") ++ (lit "?>" ++ [10])).
    { unfold decl_chars. rewrite <- !app_assoc. reflexivity. }
    rewrite EA. eapply out_bind; [exact G0|eapply p_ascii_out; [exact G0|]|].
    - rewrite !Forall_app. repeat split; try ascii. now apply encname_ascii.
    - intros p1 Hp <- <- <-. eapply p_ascii_out; [exact Hp|ascii]. }
  apply out_step in O1 as (p1 & E1 & EM1 & El1 & Lv1 & Ci1).
  assert (G1 := goodp_emits cd _ _ _ G0 EM1).
  assert (Ok1 : okelem p1) by (unfold okelem; rewrite El1; discriminate).
  pose proof (HB p1 G1 Ok1) as O2. unfold outs in O2.
  rewrite El1, Lv1, Ci1 in O2. change (p_elem p0) with (@None str) in O2. change (p_level p0) with 0%Z in O2. change (p_can_indent p0) with false in O2.
  assert (HWe : W <> []).
  { intro E. rewrite E in EY. injection EY as <-. inversion FY; subst. discriminate. }
  assert (EP : pend p1 = []) by (unfold pend, is_open; now rewrite El1).
  rewrite EP in O2. replace (match W with [] => @None str | _ => None end) with (@None str) in O2 by now destruct W.
  replace (match W with [] => [] | _ => [] ++ nodes_chars cd false (fst (tr st 0 false W)) end) with (nodes_chars cd false (fst (tr st 0 false W))) in O2 by (destruct W; [congruence|reflexivity]).
  apply out_step in O2 as (p2 & E2 & EM2 & El2 & Lv2 & Ci2).
  set (V := fst (tr st 0 false W)) in *.
  assert (HV : Forall legal V).
  { unfold V, tr, st. destruct ind; [|exact L]. apply indent_all_legal; [|exact L]. apply Forall_forall. intros m _ lvl ci. apply indent_legal. }
  pose proof (emits_trans _ _ _ _ _ EM1 EM2) as EM. destruct EM as (b & EB & Eb).
  exists b. split; cycle 1.
  { rewrite E1. cbn [bind]. rewrite E2. cbn [bind].
    rewrite end_document_closed by exact El2. cbn [rmap bind]. f_equal. rewrite Eb. reflexivity. }
  pose proof (resolve_merge_all scope0 W ys EY) as EM. set (l := merge_all W) in *.
  pose proof (same_merge_all _ _ FY) as FM. rewrite <- (joined_xmerge xs) in FM.
  (* one element at the top *)
  assert (HT : exists q0 a0 k0, l = [RElem q0 a0 k0]).
  { rewrite H1 in FM. inversion FM as [|y ? ys' ? Hy Hys E0]; subst. inversion Hys; subst. rewrite <- E0 in EM.
    destruct l as [|m [|m2 l']]; cbn [resolve_all] in EM; try discriminate.
    - destruct (resolve scope0 m) as [y'|] eqn:Em; [|discriminate]. injection EM as ->. inversion Hy; subst. 
      destruct m; try discriminate; eauto.
    - destruct (resolve scope0 m); [|discriminate]. destruct (resolve scope0 m2); [|discriminate].
      destruct (resolve_all scope0 l'); discriminate. }
  destruct HT as (q0 & a0 & k0 & HT).
  assert (HTL : Forall (fun m => is_rtext m = false) l) by (rewrite HT; repeat constructor).
  assert (HS : top_ok (merge_all V) /\ (if ind then Forall2 spaced1 l (filter nws (merge_all V)) else filter nws (merge_all V) = l)).
  { unfold V, tr, st. destruct ind.
    - assert (HSp : spaced false l (merge_all (fst (indent_all 0 false W)))).
      { unfold l, merge_all. apply spread_all; [apply Forall_forall; intros m Hm; apply spread_node; rewrite Forall_forall in L; auto|constructor]. }
      now apply spaced_top in HSp.
    - cbn [fst]. fold l. now apply textless_nws. }
  destruct HS as [HS1 HS2].
  assert (HS3 : length (filter is_elem (filter nws (merge_all V))) = 1%nat).
  { destruct ind; [rewrite (spaced_elems _ _ HS2)|rewrite HS2]; rewrite HT; reflexivity. }
  exists (decl_chars enc ++ [10] ++ nodes_chars cd false V), l, (filter nws (merge_all V)), (fold_right xmerge [] ys).
  split.
  { apply Hd; [|rewrite <- EB; f_equal; now rewrite <- app_assoc].
    rewrite !chars_app. split; [now apply decl_chars_ok|]. split; [repeat constructor|now apply nodes_chars_ok]. }
  split.
  { apply (document_read cd enc None None [] V Hcd He HV HS1 HS3). discriminate. }
  split; [exact HS2|]. split; [exact EM|exact FM].
Qed.

Lemma feed_document : forall cd dec indent enc content xs,
  sound_codec cd -> decodes cd dec -> legal_encname enc ->
  Forall (legal_struct scope0) content -> denotes scope0 content xs -> one_element xs ->
  Forall (encodable cd) (flat_map name_strings content) ->
  exists bs, struct_encode true indent false enc (xmlstream_new cd) (ORoot content) = Ok bs /\ reads_back dec indent enc bs xs.
Proof.
  intros cd dec ind enc content xs Hcd Hd He HL Hx H1 HE.
  set (st := if ind then Pretty else Plain). assert (Hst : st <> Canon) by (unfold st; destruct ind; discriminate).
  assert (HM : Forall means content) by (apply Forall_forall; intros; apply all_means).
  destruct (means_all content HM scope0 [] scope0 HL agree0) as (R & L & M). destruct (M _ Hx) as (ys & EY & FY).
  assert (HW : Forall (wfr cd) (flat_map (swritten []) content)).
  { pose proof (swritten_wfr cd Hcd (OSeq true content) [] L HE) as H. exact H. }
  assert (HF : Forall (fun o => forall pre p, goodp cd p -> okelem p -> no_root o -> Forall (wfr cd) (swritten pre o) ->
    outs cd st p (swritten pre o) (feed true st enc pre o p)) content) by (apply Forall_forall; intros; now apply feed_outs).
  destruct (body_document cd dec ind enc _ ys xs (feed_all true st enc [] content) Hcd Hd He L EY FY H1) as (bs & RB & EB).
  { intros p Hg Ho. now apply feed_all_outs. }
  exists bs. split; [|exact RB]. rewrite <- EB. unfold struct_encode, get_printer.
  replace (if ind then Ok Pretty else Ok Plain) with (@Ok style st) by (unfold st; destruct ind; reflexivity).
  cbn [bind feed]. replace (canon_of st) with false by (unfold st; destruct ind; reflexivity).
  destruct (start_document false enc (lit "1.0") _) as [p1|e]; cbn [bind]; [|reflexivity]. now rewrite feed_fix.
Qed.
