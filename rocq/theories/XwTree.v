(** * The XML writer on whole trees *)
From Coq Require Import NArith ZArith String List Bool Lia Arith Permutation.
From Verif Require Import PyStr PyErr XsModel SerModel SerSpec SerStream SerPrint SerVisit SerRead SerTree SerNs SerTop XwModel XwSpec XwProofs.
Import ListNotations.
Open Scope N_scope.

Section WnodeInd.
  Variable P : wnode -> Prop.
  Hypothesis HE : forall p l ns nss a m k, Forall P k -> P (WElem p l ns nss a m k).
  Hypothesis HT : forall s, P (WText s).
  Hypothesis HC : forall s, P (WComment s).
  Hypothesis HP : forall t d, P (WPI t d).
  Fixpoint wnode_ind2 (n : wnode) : P n :=
    match n with
    | WElem p l ns nss a m k => HE p l ns nss a m k ((fix go l : Forall P l := match l with [] => Forall_nil _ | x :: l' => Forall_cons _ (wnode_ind2 x) (go l') end) k)
    | WText s => HT s
    | WComment s => HC s
    | WPI t d => HP t d
    end.
End WnodeInd.

Fixpoint wtree (n : wnode) : xnode :=
  match n with
  | WElem _ l ns _ atts more kids =>
    XElem ns l (map (fun a => (ename a, t_value a)) (last_wins (atts ++ more))) (map wtree kids)
  | WText s => XText s
  | WComment s => XComment s
  | WPI t d => XPI t (trim d)
  end.
Lemma meant_xmerge : forall n rest, meant n rest = xmerge (wtree n) rest.
Proof.
  induction n as [p l ns nss a m k IH|s|s|t d] using wnode_ind2; intro rest; try reflexivity.
  cbn [meant wtree xmerge]. do 2 f_equal. induction IH as [|n k Hn Hk IHk]; [reflexivity|]. cbn [fold_right map]. rewrite Hn. now f_equal.
Qed.

Lemma span_ext : forall (f g : N -> bool) s, (forall c, f c = g c) -> span f s = span g s.
Proof. intros f g s H. induction s as [|c s IH]; [reflexivity|]. cbn [span]. now rewrite H, IH. Qed.
Lemma strip_trim : forall s, xml_strip true true s = trim s.
Proof.
  intro s. unfold xml_strip, trim, skip_ws. assert (HX : forall c, is_xmlspace c = ws c).
  { intro c. unfold is_xmlspace, ws. destruct (c =? 32); [now rewrite !orb_true_r|now rewrite !orb_false_r]. }
  now rewrite !(span_ext is_xmlspace ws _ HX).
Qed.
Lemma replace_crlf_id : forall n s, (List.length s <= n)%nat -> contains [13; 10] s = false -> replace_crlf s = s.
Proof.
  induction n as [|n IH]; intros s Hn H; [destruct s; [reflexivity|cbn in Hn; lia]|].
  destruct s as [|c [|e s]]; [reflexivity|reflexivity|].
  change (contains [13; 10] (c :: e :: s)) with (prefixb [13; 10] (c :: e :: s) || contains [13; 10] (e :: s)) in H.
  apply orb_false_iff in H as [H1 H2]. change (replace_crlf (c :: e :: s)) with (if (c =? 13) && (e =? 10) then 13 :: replace_crlf s else c :: replace_crlf (e :: s)). cbn [prefixb] in H1. rewrite (N.eqb_sym c 13), (N.eqb_sym e 10).
  rewrite andb_true_r in H1. rewrite H1. f_equal. apply IH; [cbn in Hn |- *; lia|exact H2].
Qed.

Lemma se_eq : forall st, st <> Pretty -> forall q a b p, start_element true st q a b p = start_element0 true (canon_of st) q a b p.
Proof. intros [| |] H; try congruence; reflexivity. Qed.
Lemma ee_eq : forall st, st <> Pretty -> forall q p, end_element st q p = end_element0 (canon_of st) q p.
Proof. intros [| |] H; try congruence; reflexivity. Qed.

Section T.
  Variable cd : codec.
  Variable st : style.
  Variables public system : option str.
  Variable ordn : wdict -> wdict.
  Variable orda : wattrs -> wattrs.
  Hypothesis cd_ok : sound_codec cd.
  Hypothesis ordn_ok : forall l, Permutation (ordn l) l.
  Hypothesis orda_ok : forall l, Permutation (orda l) l.
  Hypothesis st_ok : st <> Pretty.
  Hypothesis sys_ok : truthy system = false.
  Let canon := canon_of st.
  Let step := step cd.
  Let gooddict := gooddict cd.
  Notation complete := (complete_element true st ordn orda).
  Notation runs := (run true st public system ordn orda).
  Notation does := (do_call true st public system ordn orda).

  Lemma run_app : forall a b w, runs (a ++ b) w = bind (runs a w) (runs b).
  Proof. induction a as [|c a IH]; intros b w; [reflexivity|]. cbn [app run]. destruct (does c w); [apply IH|reflexivity]. Qed.
  Lemma run_attrs : forall m tl w, runs (map (fun a => Attribute (qn (t_prefix a) (t_local a)) (t_value a) (t_ns a)) m ++ tl) w =
    bind (w_attributes ordn (map (fun a => ((qn (t_prefix a) (t_local a), t_ns a), t_value a)) m) w) (runs tl).
  Proof. induction m as [|a m IH]; intros tl w; [reflexivity|]. cbn [map app run w_attributes do_call]. destruct (w_attribute _ _ _ _ w); [apply IH|reflexivity]. Qed.

  Definition completes (c : call) : bool := match c with Attribute _ _ _ | Namespace _ _ => false | _ => true end.
  Lemma complete_none : forall w, w_name w = None -> complete w = Ok w.
  Proof. intros w H. unfold complete_element. now rewrite H. Qed.
  Lemma does_complete : forall c w w1, completes c = true -> complete w = Ok w1 -> w_name w1 = None -> does c w = does c w1.
  Proof.
    intros c w w1 Hc E En. pose proof (complete_none w1 En) as E1.
    destruct c; try discriminate; cbn [do_call]; unfold w_start_element, w_end_element, w_text, w_comment, w_pi; now rewrite E, E1.
  Qed.
  Lemma calls_head : forall n, exists c l, calls n = c :: l /\ completes c = true.
  Proof. intros [p l ns nss a m k|s|s|t d]; cbn [calls]; eauto. Qed.
  Lemma runs_complete : forall kids q w w1, complete w = Ok w1 -> w_name w1 = None ->
    runs (flat_map calls kids ++ [EndElement q]) w = runs (flat_map calls kids ++ [EndElement q]) w1.
  Proof.
    intros kids q w w1 E En. destruct kids as [|n kids].
    - cbn [flat_map app run]. now rewrite (does_complete (EndElement q) w w1).
    - cbn [flat_map]. destruct (calls_head n) as (c & l & -> & Hc). cbn [app run]. now rewrite (does_complete c w w1).
  Qed.

  Lemma doctype_step : forall name p, goodp cd p -> okelem p -> exists p1 t, doctype canon name public system p = Ok p1 /\ step p t p1 /\ pend p = t ++ pend p1.
  Proof.
    intros name p Hg Ho. unfold doctype. destruct canon.
    - exists p, []. split; [reflexivity|]. split; [now apply step_refl|reflexivity].
    - destruct (out_to_step cd p _ None _ _ _ Hg ltac:(discriminate) (close_tag_out cd p Hg Ho)) as (p1 & -> & S1 & E1).
      exists p1, (pend p). cbn [bind]. rewrite sys_ok, andb_false_r. split; [reflexivity|]. split; [exact S1|].
      unfold pend at 3. unfold is_open. rewrite E1. now rewrite app_nil_r.
  Qed.

  (** The state between two nodes. *)
  Definition between_nodes (w : writer) (d : wdict) (rest : list wdict) : Prop :=
    w_name w = None /\ w_atts w = [] /\ w_nss w = d :: rest /\ gooddict d /\ goodp cd (w_p w) /\ okelem (w_p w).
  Definition node_ok (n : wnode) : Prop := forall w d rest, between_nodes w d rest -> proper canon n -> Forall (fun s => encode cd s <> None) (names_of n) ->
    exists w' r, runs (calls n) w = Ok w' /\ between_nodes w' d rest /\
      step (w_p w) (pend (w_p w) ++ node_chars cd canon r) (w_p w') /\ p_elem (w_p w') = None /\ legal r /\
      is_elem r = welement n /\
      forall sc, agree d sc -> (exists x, resolve sc r = Some x /\ same_tree x (wtree n)) /\ (welement n = true -> bindings_kept sc r n).

  Lemma nodes_ok : forall l, Forall node_ok l -> forall w d rest, between_nodes w d rest -> Forall (proper canon) l ->
    Forall (fun s => encode cd s <> None) (flat_map names_of l) ->
    exists w' rs, runs (flat_map calls l) w = Ok w' /\ between_nodes w' d rest /\
      step (w_p w) (match rs with [] => [] | _ => pend (w_p w) ++ flat_map (node_chars cd canon) rs end) (w_p w') /\
      p_elem (w_p w') = match rs with [] => p_elem (w_p w) | _ => None end /\ Forall legal rs /\
      forall sc, agree d sc -> (exists xs, resolve_all sc rs = Some xs /\ Forall2 same_tree xs (map wtree l)) /\ Forall2 (bindings_kept sc) (elements rs) (filter welement l).
  Proof.
    induction 1 as [|n l Hn Hl IH]; intros w d rest HB HP HE.
    - exists w, []. split; [reflexivity|]. split; [exact HB|]. destruct HB as (B1 & B2 & B3 & B4 & B5 & B6).
      split; [now apply step_refl|]. split; [reflexivity|]. split; [constructor|]. intros sc _. split; [exists []; split; [reflexivity|constructor]|constructor].
    - inversion HP; subst. cbn [flat_map] in HE. apply Forall_app in HE as [HE1 HE2].
      destruct (Hn w d rest HB H1 HE1) as (w1 & r & R1 & B1 & S1 & P1 & L1 & I1 & M1).
      destruct (IH w1 d rest B1 H2 HE2) as (w2 & rs & R2 & B2 & S2 & P2 & L2 & M2).
      exists w2, (r :: rs). cbn [flat_map]. rewrite run_app, R1. cbn [bind]. split; [exact R2|]. split; [exact B2|]. split.
      + rewrite app_assoc. eapply step_trans; [exact S1|]. unfold pend, is_open in S2. rewrite P1 in S2. cbn [app] in S2. destruct rs; exact S2.
      + split; [destruct rs; congruence|]. split; [now constructor|]. intros sc Ha.
        destruct (M1 sc Ha) as ((x & X1 & X2) & K1). destruct (M2 sc Ha) as ((xs & Y1 & Y2) & K2). split.
        * exists (x :: xs). cbn [resolve_all map]. rewrite X1, Y1. split; [reflexivity|now constructor].
        * unfold elements in *. cbn [filter]. rewrite I1. destruct (welement n); [constructor; [now apply K1|exact K2]|exact K2].
  Qed.

  Lemma between_good : forall w d rest, between_nodes w d rest -> goodp cd (w_p w) /\ okelem (w_p w).
  Proof. intros w d rest (_ & _ & _ & _ & H). exact H. Qed.

  Lemma leaf_ok : forall w d rest t f p', between_nodes w d rest -> f (w_p w) = Ok p' -> step (w_p w) t p' ->
    exists w', (do w1 <- complete w ; rmap (with_p w1) (f (w_p w1))) = Ok w' /\ between_nodes w' d rest /\ w_p w' = p'.
  Proof.
    intros w d rest t f p' (B1 & B2 & B3 & B4 & B5 & B6) Hf (S1 & S2 & S3). rewrite complete_none by assumption. cbn [bind]. rewrite Hf. cbn [rmap].
    eexists. split; [reflexivity|]. split; [|reflexivity]. unfold between_nodes, with_p. cbn. auto 8.
  Qed.

  Lemma text_ok : forall s, node_ok (WText s).
  Proof.
    intros s w d rest HB HP HE. inversion HP; subst. destruct (between_good _ _ _ HB) as [Hg Ho].
    assert (ET : text true st (if canon_of st then replace_crlf s else s) (w_p w) = text0 true s false (w_p w)).
    { assert ((if canon_of st then replace_crlf s else s) = s) as ->.
      { unfold canon in *. destruct (canon_of st); [|reflexivity]. apply (replace_crlf_id (List.length s)); [lia|auto]. }
      destruct st; try congruence; reflexivity. }
    destruct (out_to_step cd (w_p w) _ None _ _ _ Hg ltac:(discriminate) (text0_out cd (w_p w) s Hg Ho H0)) as (p' & E & S1 & E1).
    destruct (leaf_ok w d rest _ (text true st (if canon_of st then replace_crlf s else s)) p' HB ltac:(rewrite ET; exact E) S1) as (w' & R & B & <-).
    exists w', (RText s). cbn [calls run do_call]. unfold w_text. rewrite R. cbn [bind]. split; [reflexivity|]. split; [exact B|]. split; [exact S1|].
    split; [exact E1|]. split; [now constructor|]. split; [reflexivity|]. intros sc _. split; [|discriminate]. eexists. split; [reflexivity|constructor].
  Qed.
  Lemma comment_ok : forall s, node_ok (WComment s).
  Proof.
    intros s w d rest HB HP HE. inversion HP; subst. destruct (between_good _ _ _ HB) as [Hg Ho]. inversion HE; subst.
    assert (ET : comment st s (w_p w) = comment0 s (w_p w)) by (destruct st; try congruence; reflexivity).
    destruct (out_to_step cd (w_p w) _ None _ _ _ Hg ltac:(discriminate) (comment0_out cd (w_p w) s Hg Ho H2)) as (p' & E & S1 & E1).
    destruct (leaf_ok w d rest _ (comment st s) p' HB ltac:(rewrite ET; exact E) S1) as (w' & R & B & <-).
    exists w', (RComment s). cbn [calls run do_call]. unfold w_comment. rewrite R. cbn [bind]. split; [reflexivity|]. split; [exact B|]. split; [exact S1|].
    split; [exact E1|]. split; [now constructor|]. split; [reflexivity|]. intros sc _. split; [|discriminate]. eexists. split; [reflexivity|constructor].
  Qed.
  Lemma pi_ok : forall t s, node_ok (WPI t s).
  Proof.
    intros t s w d rest HB HP HE. inversion HP; subst. destruct (between_good _ _ _ HB) as [Hg Ho]. inversion HE as [|? ? HE1 HE2]; subst. inversion HE2; subst.
    assert (ET : processing_instruction st t (xml_strip true true s) (w_p w) = processing_instruction0 t (trim s) (w_p w)) by (rewrite strip_trim; destruct st; try congruence; reflexivity).
    destruct (out_to_step cd (w_p w) _ None _ _ _ Hg ltac:(discriminate) (pi0_out cd (w_p w) t (trim s) Hg Ho HE1 H2)) as (p' & E & S1 & E1).
    destruct (leaf_ok w d rest _ (processing_instruction st t (xml_strip true true s)) p' HB ltac:(rewrite ET; exact E) S1) as (w' & R & B & <-).
    exists w', (RPI t (trim s)). cbn [calls run do_call]. unfold w_pi. rewrite R. cbn [bind]. split; [reflexivity|]. split; [exact B|]. split; [exact S1|].
    split; [exact E1|]. split; [now constructor|]. split; [reflexivity|]. intros sc _. split; [|discriminate]. eexists. split; [reflexivity|constructor].
  Qed.

  Lemma binding_ncname : forall p ns, binding p ns -> forall q, p = Some q -> ncname q /\ q <> lit "xmlns" /\ exists u, ns = Some u /\ uri u.
  Proof. intros p ns H q ->. destruct ns as [u|]; [|destruct H]. destruct H as (H1 & H2 & H3 & _). eauto. Qed.

  (** The bindings at the start of an element. *)
  Lemma start_dict : forall d p l ns nss, gooddict d -> ncname l -> binding p ns -> NoDup (map fst nss) -> Forall (fun b => binding (fst b) (snd b)) nss ->
    (forall q, In (Some q) (map fst nss) \/ p = Some q -> encode cd q <> None) ->
    let d1 := wset (wupdate d nss) p ns in
    gooddict d1 /\ sub d d1 /\ wget d1 p = Some ns /\ (forall k v, In (k, v) nss -> k <> p -> wget d1 k = Some v).
  Proof.
    intros d p l ns nss (G1 & G2 & G3 & G4 & G5) Hl Hb Hn HF HE d1.
    assert (W1 : wget d1 p = Some ns) by (unfold d1; rewrite wget_wset, okey_eqb_refl; reflexivity).
    assert (W2 : forall k, k <> p -> wget d1 k = match wget nss k with Some v => Some v | None => wget d k end).
    { intros k Hk. unfold d1. rewrite wget_wset. destruct (okey_eqb_spec p k); [congruence|]. now apply wget_wupdate. }
    assert (WN : forall k v, wget nss k = Some v -> binding k v).
    { intros k v H. apply wget_In in H. rewrite Forall_forall in HF. exact (HF _ H). }
    assert (ND : NoDup (map fst d1)) by (apply wset_nodup, wupdate_nodup, G1).
    assert (HX : forall k v, wget d1 k = Some v -> (k = p /\ v = ns) \/ (k <> p /\ wget nss k = Some v) \/ (k <> p /\ wget nss k = None /\ wget d k = Some v)).
    { intros k v H. destruct (okey_eqb_spec k p) as [->|Hk]; [left; split; [reflexivity|congruence]|]. right. rewrite W2 in H by assumption.
      destruct (wget nss k); [left; split; [assumption|congruence]|right; auto]. }
    split; [split; [exact ND|split; [|split; [|split]]]|].
    - destruct (okey_eqb_spec (Some (lit "xml")) p) as [E|E].
      + subst p. destruct ns as [u|]; [|destruct Hb]. rewrite W1. destruct Hb as (_ & _ & _ & [B _]). now rewrite B.
      + rewrite W2 by assumption. destruct (wget nss (Some (lit "xml"))) as [v|] eqn:E1; [|exact G2].
        apply WN in E1. destruct v as [u|]; [|destruct E1]. destruct E1 as (_ & _ & _ & [B _]). now rewrite B.
    - destruct (okey_eqb_spec xmlnsk p) as [E|E].
      + subst p. destruct ns as [u|]; [|destruct Hb]. destruct Hb as (_ & B & _). congruence.
      + rewrite W2 by assumption. destruct (wget nss xmlnsk) as [v|] eqn:E1; [|exact G3].
        apply WN in E1. destruct v as [u|]; [|destruct E1]. destruct E1 as (_ & B & _). congruence.
    - intros k v Hin Hk. apply In_wget in Hin; [|exact ND]. apply HX in Hin as [[-> ->]|[[_ H]|(_ & _ & H)]]; [assumption|now apply WN|]. apply G4; [now apply wget_In|assumption].
    - intros q Hq. destruct (wget d1 (Some q)) as [v|] eqn:E; [|now apply wget_None in E].
      apply HX in E as [[E _]|[[_ H]|(_ & _ & H)]].
      + apply HE. now right.
      + apply HE. left. now apply wget_key in H.
      + apply G5. now apply wget_key in H.
    - split; [|split; [exact W1|]].
      + intros k H. destruct (okey_eqb_spec k p) as [->|Hk]; [congruence|]. rewrite W2 in H by assumption. destruct (wget nss k); [discriminate|assumption].
      + intros k v Hin Hk. rewrite W2 by assumption. now rewrite (In_wget nss k v Hn Hin).
  Qed.

  Lemma holds_perm : forall atts l, holds atts l -> Permutation (map (fun e => (fst e, snd (snd e))) atts) (map (fun a => (ename a, t_value a)) (last_wins l)).
  Proof.
    intros atts l [H1 H2]. apply NoDup_Permutation.
    - apply (NoDup_map_inv fst). rewrite map_map. cbn [fst]. exact H1.
    - apply (NoDup_map_inv fst). rewrite map_map. cbn [fst]. apply last_wins_nodup.
    - intros [k v]. specialize (H2 k v). rewrite !in_map_iff. split.
      + intros ([k' [nm v']] & E & Hin). cbn [fst snd] in E. inversion E; subst. destruct (proj1 H2 (ex_intro _ nm Hin)) as (a & A1 & A2 & A3).
        exists a. split; [now rewrite A2, A3|assumption].
      + intros (a & E & Hin). inversion E; subst. destruct (proj2 H2 (ex_intro _ a (conj Hin (conj eq_refl eq_refl)))) as (nm & Hnm). exists (ename a, (nm, t_value a)). auto.
  Qed.

  Lemma elem_ok : forall p l ns nss atts more kids, Forall node_ok kids -> node_ok (WElem p l ns nss atts more kids).
  Proof.
    intros p l ns nss atts more kids IH w d rest HB HP HE. inversion HP as [| | |? ? ? ? ? ? ? Hl Hb Hns Hnd Hbs Ha Hk]; subst.
    pose proof HB as (B1 & B2 & B3 & B4 & B5 & B6). pose proof (binding_ncname p ns Hb) as Hpn.
    assert (Hpn' : forall q, p = Some q -> ncname q) by (intros q Hq; apply (Hpn q Hq)).
    (* encodable names *)
    cbn [names_of] in HE. apply Forall_app in HE as [HEp HE]. inversion HE as [|? ? HEl HE']; subst. apply Forall_app in HE' as [HEn HE'].
    apply Forall_app in HE' as [HEa HEk].
    assert (HEp' : forall q, p = Some q -> encode cd q <> None) by (intros q ->; cbn in HEp; inversion HEp; assumption).
    assert (HEq : encode cd (qn p l) <> None).
    { destruct p as [q|]; [|exact HEl]. cbn [qn]. apply enc_app. split; [now apply HEp'|]. change (58 :: l) with (lit ":" ++ l). apply enc_app.
      split; [apply enc_ascii; [assumption|ascii]|assumption]. }
    assert (HEat : Forall (enc_att cd) (atts ++ more)).
    { apply Forall_forall. intros a Hin. rewrite Forall_forall in HEa. split.
      - apply HEa. apply in_flat_map. exists a. split; [assumption|now left].
      - intros q Hq. apply HEa. apply in_flat_map. exists a. split; [assumption|right]. rewrite Hq. now left. }
    destruct (start_dict d p l ns nss B4 Hl Hb Hnd Hbs) as (D1 & D2 & D3 & D4).
    { intros q [Hq|Hq]; [|now apply HEp']. rewrite Forall_forall in HEn. apply HEn. apply in_flat_map. apply in_map_iff in Hq as ([k v] & Ek & Hq). cbn [fst] in Ek. subst k.
      exists (Some q, v). split; [assumption|now left]. }
    set (d1 := wset (wupdate d nss) p ns) in *.
    (* the start_element call *)
    assert (HD : exists p1 t, (if w_need_doctype w then doctype (canon_of st) (qn p l) public system (w_p w) else Ok (w_p w)) = Ok p1 /\ step (w_p w) t p1 /\ pend (w_p w) = t ++ pend p1).
    { destruct (w_need_doctype w); [now apply doctype_step|]. exists (w_p w), []. split; [reflexivity|]. split; [now apply step_refl|reflexivity]. }
    destruct HD as (p1 & t1 & ED & S1 & EP1). destruct (qn_truthy p l Hl) as [Htr Hne].
    cbn [calls run do_call]. unfold w_start_element. rewrite complete_none by assumption. cbn [bind]. rewrite ED. cbn [bind]. rewrite B3.
    rewrite split_qn by assumption. cbn [fst]. fold d1.
    set (w1 := {| w_p := p1; w_need_doctype := false; w_name := Some (qn p l); w_nss := d1 :: d :: rest; w_atts := w_atts w |}).
    apply Forall_app in Ha as [Ha1 Ha2]. apply Forall_app in HEat as [HEa1 HEa2].
    destruct (attributes_ok cd ordn cd_ok ordn_ok atts [] w1 d1 (d :: rest)) as (d2 & at2 & R2 & G2 & X2 & H2 & F2); try assumption; try reflexivity.
    { cbn [w_atts w1]. rewrite B2. split; [constructor|]. intros k v. split; [intros (nm & [])|intros (a & [] & _)]. }
    { cbn [w_atts w1]. rewrite B2. constructor. }
    rewrite R2. cbn [bind]. rewrite run_attrs. cbn [app] in H2.
    destruct (attributes_ok cd ordn cd_ok ordn_ok more atts (set_dict w1 d2 (d :: rest) at2) d2 (d :: rest)) as (d3 & at3 & R3 & G3 & X3 & H3 & F3); try assumption; try reflexivity.
    rewrite R3. cbn [bind].
    set (w3 := set_dict (set_dict w1 d2 (d :: rest) at2) d3 (d :: rest) at3).
    (* the start tag *)
    assert (Hsub : sub d d3).
    { intros k Hk3. apply D2. destruct (wget d1 k) as [v|] eqn:E; [|reflexivity]. apply X2, X3 in E. congruence. }
    destruct (start_tag cd ordn orda cd_ok ordn_ok orda_ok d3 d at3 G3 B4 Hsub (proj1 H3) F3) as (LA & WA & RA). cbv zeta in LA, WA, RA.
    set (nsd := new_namespaces ordn d3 d) in *. set (pat := map snd (orda at3)) in *.
    assert (Hg1 : goodp cd p1 /\ okelem p1) by (destruct S1 as (? & ? & _); auto). destruct Hg1 as [Hg1 Ho1].
    assert (EST : map (fun a : wkey * (str * str) => (fst (snd a), Some (snd (snd a)))) (orda at3) = map some_att pat).
    { unfold pat. rewrite map_map. reflexivity. }
    assert (Hse : forall a b q, start_element true st (qn p l) a b q = start_element0 true canon (qn p l) a b q) by (intros; now apply se_eq).
    assert (Hne' : Some (qn p l) <> Some []) by congruence.
    destruct (out_to_step cd p1 _ (Some (qn p l)) _ _ _ Hg1 Hne' (start_element0_out cd canon p1 (qn p l) nsd pat Hg1 Ho1 HEq WA)) as (p4 & E4 & S4 & P4).
    set (w4 := {| w_p := p4; w_need_doctype := false; w_name := None; w_nss := d3 :: d :: rest; w_atts := [] |}).
    assert (EC : complete w3 = Ok w4).
    { unfold complete_element. change (w_name w3) with (Some (qn p l)). rewrite Htr. change (w_nss w3) with (d3 :: d :: rest). cbv iota. cbn [oget].
      change (w_atts w3) with at3. change (w_p w3) with p1. rewrite EST. fold nsd. rewrite Hse, E4. reflexivity. }
    rewrite (runs_complete kids (qn p l) w3 w4 EC eq_refl). rewrite run_app.
    (* the children *)
    assert (HB4 : between_nodes w4 d3 (d :: rest)).
    { destruct S4 as (S41 & S42 & _). unfold between_nodes, w4; cbn. auto 8. }
    destruct (nodes_ok kids IH w4 d3 (d :: rest) HB4 Hk HEk) as (w5 & rs & R5 & B5' & S5 & P5 & L5 & M5).
    rewrite R5. cbn [bind run do_call]. destruct B5' as (C1 & C2 & C3 & C4 & C5 & C6). unfold w_end_element. rewrite complete_none by assumption. cbn [bind].
    assert (Hee : end_element st (qn p l) (w_p w5) = end_element0 canon (qn p l) (w_p w5)) by now apply ee_eq.
    destruct (out_to_step cd (w_p w5) _ None _ _ _ C5 ltac:(discriminate) (end_element0_out cd canon (w_p w5) (qn p l) C5 C6 HEq)) as (p6 & E6 & S6 & P6).
    rewrite Hee, E6. cbn [bind]. rewrite C3.
    set (wr := written_attrs canon nsd pat) in *.
    eexists. exists (RElem (qn p l) wr rs). split; [reflexivity|].
    split; [destruct S6 as (S61 & S62 & _); unfold between_nodes; cbn; auto 8|]. cbn [w_p].
    split; [|split; [exact P6|]].
    { (* the characters *)
      assert (HOpen : is_open p4 = true) by (unfold is_open; rewrite P4; destruct (qn p l); congruence).
      assert (HP4 : pend (w_p w4) = lit ">") by (unfold pend; change (w_p w4) with p4; now rewrite HOpen).
      rewrite HP4 in S5. change (w_p w4) with p4 in S5, P5.
      rewrite EP1, <- app_assoc. eapply step_trans; [exact S1|]. cbn [node_chars].
      replace (pend p1 ++ 60 :: qn p l ++ attrs_chars cd canon wr ++ match canon, rs with false, [] => lit "/>" | _, _ => 62 :: flat_map (node_chars cd canon) rs ++ lit "</" ++ qn p l ++ lit ">" end)
        with ((pend p1 ++ 60 :: qn p l ++ attrs_chars cd canon wr) ++ match canon, rs with false, [] => lit "/>" | _, _ => 62 :: flat_map (node_chars cd canon) rs ++ lit "</" ++ qn p l ++ lit ">" end)
        by (rewrite <- (app_assoc (pend p1)); cbn [app]; rewrite <- (app_assoc (qn p l)); reflexivity).
      eapply step_trans; [exact S4|].
      assert (HI5 : is_open (w_p w5) = match rs with [] => true | _ => false end).
      { unfold is_open. rewrite P5. destruct rs; [|reflexivity]. unfold is_open in HOpen. exact HOpen. }
      unfold pend in S6. rewrite HI5 in S6. destruct rs as [|r0 rs].
      - destruct canon; cbn [andb negb] in S6.
        + exact (step_trans cd p4 [] (w_p w5) _ p6 S5 S6).
        + exact (step_trans cd p4 [] (w_p w5) _ p6 S5 S6).
      - cbn [andb app] in S6. pose proof (step_trans cd p4 _ (w_p w5) _ p6 S5 S6) as S7. rewrite <- app_assoc in S7. destruct canon; exact S7. }
    split.
    { constructor; [now apply qn_name| |assumption]. eapply legal_atts_perm; [symmetry; apply written_attrs_perm|exact LA]. }
    split; [reflexivity|]. intros sc Hag.
    destruct (RA wr sc (written_attrs_perm canon nsd pat) Hag) as (sc' & xa & ED' & Hag' & ER & PX).
    destruct (M5 sc' Hag') as ((xs & X1 & X2') & K1).
    assert (HEl' : resolve_elem sc' (qn p l) = Some (ns, l)).
    { unfold resolve_elem. rewrite ssplit_qn by assumption. pose proof (X3 _ _ (X2 _ _ D3)) as W3. destruct p as [q|].
      - destruct (Hpn q eq_refl) as (Q1 & Q2 & u & -> & (_ & U2 & _)). rewrite Hag' by (unfold xmlnsk; congruence). unfold wflat. rewrite W3. cbn [named]. destruct u; [congruence|reflexivity].
      - rewrite Hag' by discriminate. unfold wflat. rewrite W3. destruct ns as [[|c u]|]; [congruence|reflexivity|reflexivity]. }
    split.
    - rewrite resolve_elem_eq, ED', HEl', ER, X1.
      assert (PX' : Permutation xa (map (fun a => (ename a, t_value a)) (last_wins (atts ++ more)))) by (rewrite PX; now apply holds_perm).
      rewrite nodup_enames_ok.
      2:{ eapply Permutation_NoDup; [apply Permutation_sym, Permutation_map; exact PX'|]. rewrite map_map. cbn [fst]. apply last_wins_nodup. }
      eexists. split; [reflexivity|]. cbn [wtree]. constructor; assumption.
    - intros _. econstructor; [reflexivity|exact ED'| |exact K1]. intros k v Hin Hkp.
      assert (k <> xmlnsk).
      { intros ->. rewrite Forall_forall in Hbs. specialize (Hbs _ Hin). cbn [fst snd] in Hbs. destruct v as [u|]; [|destruct Hbs]. destruct Hbs as (_ & F & _). congruence. }
      rewrite Hag' by assumption. unfold wflat. now rewrite (X3 _ _ (X2 _ _ (D4 _ _ Hin Hkp))).
  Qed.

  Theorem all_ok : forall n, node_ok n.
  Proof.
    induction n as [p l ns nss a m k IH|s|s|t d] using wnode_ind2; [now apply elem_ok|apply text_ok|apply comment_ok|apply pi_ok].
  Qed.
End T.
