(** * The structure writer: the characters it writes *)
From Coq Require Import NArith ZArith String List Bool Lia Arith Permutation.
From Verif Require Import PyStr PyErr XsModel SerModel SerSpec SerStream SerPrint SerVisit SwModel.
Import ListNotations.
Open Scope N_scope.

Section ObjInd.
  Variable P : obj -> Prop.
  Hypothesis HE : forall ns q a c, Forall P c -> P (OE ns q a c).
  Hypothesis HN : forall p u, P (ONS p u).
  Hypothesis HT : forall s, P (OText s).
  Hypothesis HD : forall s, P (ONode s).
  Hypothesis HS : forall g l, Forall P l -> P (OSeq g l).
  Hypothesis HC : forall r, P r -> P (OCall r).
  Hypothesis HO : forall b s, P (OOther b s).
  Hypothesis HR : forall c, Forall P c -> P (ORoot c).
  Fixpoint obj_ind2 (o : obj) : P o :=
    let go := fix go l : Forall P l := match l with [] => Forall_nil _ | x :: l' => Forall_cons _ (obj_ind2 x) (go l') end in
    match o with
    | OE ns q a c => HE ns q a c (go c)
    | ONS p u => HN p u
    | OText s => HT s
    | ONode s => HD s
    | OSeq g l => HS g l (go l)
    | OCall r => HC r (obj_ind2 r)
    | OOther b s => HO b s
    | ORoot c => HR c (go c)
    end.
End ObjInd.

(** ** Indentation of sequences *)
Lemma indent_all_app : forall lvl a b ci, indent_all lvl ci (a ++ b) =
  (fst (indent_all lvl ci a) ++ fst (indent_all lvl (snd (indent_all lvl ci a)) b), snd (indent_all lvl (snd (indent_all lvl ci a)) b)).
Proof.
  induction a as [|x a IH]; intros b ci; cbn [app indent_all fst snd]; [now destruct (indent_all lvl ci b)|].
  destruct (indent lvl ci x) as [o c1]. rewrite IH. destruct (indent_all lvl c1 a) as [o2 c2]. cbn [fst snd].
  now rewrite app_assoc.
Qed.
(** What a style makes of a sequence of nodes. *)
Definition tr (st : style) (lvl : Z) (ci : bool) (l : list rnode) : list rnode * bool :=
  match st with Pretty => indent_all lvl ci l | _ => (l, ci) end.
Lemma tr_app : forall st lvl ci a b, tr st lvl ci (a ++ b) =
  (fst (tr st lvl ci a) ++ fst (tr st lvl (snd (tr st lvl ci a)) b), snd (tr st lvl (snd (tr st lvl ci a)) b)).
Proof. intros [] lvl ci a b; try reflexivity. apply indent_all_app. Qed.

Section W.
  Variable cd : codec.
  Variable st : style.
  Hypothesis Hst : st <> Canon.

  Definition outs (p : printer) (W : list rnode) (r : result printer) : Prop :=
    out p (match W with [] => [] | _ => pend p ++ nodes_chars cd false (fst (tr st (p_level p) (p_can_indent p) W)) end)
      (match W with [] => p_elem p | _ => None end) (p_level p) (snd (tr st (p_level p) (p_can_indent p) W)) r.

  Lemma outs_nil : forall p, outs p [] (Ok p).
  Proof. intro p. unfold outs. replace (snd (tr st _ _ [])) with (p_can_indent p) by (destruct st; reflexivity). apply out_ret. Qed.

  Lemma outs_app : forall p A B r k, goodp cd p -> okelem p -> outs p A r ->
    (forall p1, goodp cd p1 -> okelem p1 -> outs p1 B (k p1)) -> outs p (A ++ B) (bind r k).
  Proof.
    intros p A B r k Hg Ho HA HB. unfold outs in *. destruct A as [|a A].
    - cbn [app]. replace (snd (tr st _ _ [])) with (p_can_indent p) in HA by (destruct st; reflexivity).
      match goal with |- out _ ?T _ _ _ _ => change T with ([] ++ T) end.
      eapply out_bind; [exact Hg|exact HA|]. intros p1 Hg1 He1 Hl1 Hc1.
      assert (Ho1 : okelem p1) by (unfold okelem in *; congruence).
      specialize (HB p1 Hg1 Ho1). rewrite Hl1, Hc1 in HB.
      assert (HP : pend p1 = pend p) by (unfold pend, is_open; now rewrite He1). rewrite HP, He1 in HB. exact HB.
    - rewrite tr_app. cbn [fst snd]. rewrite nodes_chars_app, app_assoc.
      change (match (a :: A) ++ B with [] => p_elem p | _ => None end) with (@None str).
      change (match (a :: A) ++ B with [] => [] | _ :: _ => ?X end) with X.
      eapply out_bind; [exact Hg|exact HA|]. intros p1 Hg1 He1 Hl1 Hc1.
      assert (Ho1 : okelem p1) by (unfold okelem; congruence).
      specialize (HB p1 Hg1 Ho1). rewrite Hl1, Hc1 in HB. unfold pend, is_open in HB. rewrite He1 in HB.
      destruct B as [|b B]; [|exact HB].
      replace (nodes_chars cd false (fst (tr st _ _ []))) with (@nil N) by (destruct st; reflexivity). exact HB.
  Qed.

  Lemma outs_text : forall p s, goodp cd p -> okelem p -> Forall (fun c => xml_char c = true) s ->
    outs p [RText s] (text true st s p).
  Proof.
    intros p s Hg Ho Hs. unfold outs. assert (E : nodes_chars cd false [RText s] = flat_map (esc cd text_entities) s)
      by (unfold nodes_chars; cbn [flat_map node_chars]; now rewrite app_nil_r).
    destruct st; [| contradiction |].
    - cbn [tr fst snd text]. rewrite E. now apply text0_out.
    - cbn [tr indent_all indent fst snd text app]. rewrite E.
      rewrite <- (app_nil_r (pend p ++ _)). eapply out_bind; [exact Hg|apply text0_out; [exact Hg|exact Ho|exact Hs]|].
      intros p1 H1 He1 <- _. exists (p_x p1). split; [apply emits_nil|]. unfold set_indent. now rewrite He1.
  Qed.

  Lemma outs_elem : forall p q nsd atts K f, goodp cd p -> okelem p -> q <> [] -> encode cd q <> None ->
    Forall (wf_att cd) (map nsattr' nsd ++ atts) ->
    (forall p1, goodp cd p1 -> okelem p1 -> outs p1 K (f p1)) ->
    outs p [RElem q (written_attrs false nsd atts) K]
      (do p1 <- start_element true st q nsd (map some_att atts) p ; do p2 <- f p1 ; end_element st q p2).
  Proof.
    intros p q nsd atts K f Hg Ho Hq0 Hq Ha HK. set (wa := written_attrs false nsd atts).
    unfold outs in *. destruct st eqn:Est; [| contradiction |].
    - cbn [tr fst snd]. unfold nodes_chars. cbn [flat_map node_chars]. rewrite app_nil_r.
      cbn [start_element canon_of].
      replace (pend p ++ 60 :: q ++ attrs_chars cd false wa ++ match K with [] => lit "/>" | _ => 62 :: flat_map (node_chars cd false) K ++ lit "</" ++ q ++ lit ">" end)
        with ((pend p ++ 60 :: q ++ attrs_chars cd false wa) ++ match K with [] => lit "/>" | _ => 62 :: flat_map (node_chars cd false) K ++ lit "</" ++ q ++ lit ">" end)
        by (rewrite <- (app_assoc (pend p)); cbn [app]; rewrite <- (app_assoc q); reflexivity).
      eapply out_bind; [exact Hg|apply start_element0_out; auto|]. intros p1 Hg1 He1 <- <-.
      assert (Hopen : is_open p1 = true) by (unfold is_open; rewrite He1; destruct q; congruence).
      assert (Ho1 : okelem p1) by (unfold okelem; congruence).
      specialize (HK p1 Hg1 Ho1). cbn [tr fst snd] in HK. unfold pend in HK. rewrite Hopen in HK.
      destruct K as [|x K].
      + change (lit "/>") with ([] ++ lit "/>"). eapply out_bind; [exact Hg1|exact HK|]. intros p2 Hg2 He2 <- <-.
        assert (Ho2 : okelem p2) by (unfold okelem; congruence).
        pose proof (end_element0_out cd false p2 q Hg2 Ho2 Hq) as HE.
        unfold is_open in HE. rewrite He2, He1 in HE. destruct q; [congruence|]. exact HE.
      + change (62 :: flat_map (node_chars cd false) (x :: K) ++ lit "</" ++ q ++ lit ">") with
          ((62 :: flat_map (node_chars cd false) (x :: K)) ++ lit "</" ++ q ++ lit ">").
        eapply out_bind; [exact Hg1|exact HK|]. intros p2 Hg2 He2 <- <-.
        assert (Ho2 : okelem p2) by (unfold okelem; congruence).
        pose proof (end_element0_out cd false p2 q Hg2 Ho2 Hq) as HE.
        unfold pend, is_open in HE. rewrite He2 in HE. exact HE.
    - cbn [tr indent_all]. rewrite indent_elem. destruct (indent_all (p_level p + 1) true K) as [k' ci'] eqn:EI.
      cbn [fst snd]. rewrite app_nil_r.
      rewrite nodes_chars_app. unfold nodes_chars at 2. cbn [flat_map node_chars]. rewrite app_nil_r.
      cbn [start_element].
      match goal with |- out _ (pend p ++ ?I ++ 60 :: q ++ ?A ++ ?X) _ _ _ _ =>
        replace (pend p ++ I ++ 60 :: q ++ A ++ X) with ((pend p ++ I ++ (60 :: q ++ A)) ++ X)
          by (rewrite <- (app_assoc (pend p)), <- (app_assoc I); cbn [app]; rewrite <- (app_assoc q); reflexivity) end.
      eapply out_bind with (e := Some q) (l := (p_level p + 1)%Z) (ci := true); [exact Hg| |].
      { eapply out_bind; [exact Hg|eapply close_tag_out; [exact Hg|exact Ho]|]. intros p1 H1 He1 <- <-.
        eapply out_bind; [exact H1|eapply ind_out; exact H1|]. intros p2 H2 He2 <- _.
        rewrite <- (app_nil_r (60 :: q ++ _)). eapply out_bind; [exact H2| |].
        - assert (Ho2 : okelem p2) by (unfold okelem; congruence).
          pose proof (start_element0_out cd false p2 q nsd atts H2 Ho2 Hq Ha) as HS.
          unfold pend, is_open in HS. rewrite He2, He1 in HS. exact HS.
        - intros p3 H3 He3 <- _. exists (p_x p3). split; [apply emits_nil|]. unfold set_indent. now rewrite He3. }
      intros p1 Hg1 He1 Hl1 Hc1.
      assert (Ho1 : okelem p1) by (unfold okelem; congruence).
      assert (Hopen : is_open p1 = true) by (unfold is_open; rewrite He1; destruct q; congruence).
      specialize (HK p1 Hg1 Ho1). cbn [tr] in HK. rewrite Hl1, Hc1, EI in HK. cbn [fst snd] in HK.
      unfold pend in HK. rewrite Hopen in HK.
      destruct K as [|n0 K].
      + cbn [indent_all] in EI. injection EI as <- <-. change (lit "/>") with ([] ++ lit "/>").
        eapply out_bind; [exact Hg1|exact HK|]. intros p2 Hg2 He2 Hl2 Hc2. cbn [end_element].
        set (p2' := set_indent p2 (p_level p2 - 1) (p_can_indent p2)).
        assert (Hop : is_open p2' = true) by (unfold is_open, p2'; cbn; rewrite He2, He1; destruct q; congruence).
        rewrite Hop, andb_false_r. cbn [bind].
        assert (Hg2' : goodp cd p2') by exact Hg2.
        assert (Ho2 : okelem p2') by (unfold okelem, p2'; cbn; rewrite He2, He1; congruence).
        pose proof (end_element0_out cd false p2' q Hg2' Ho2 Hq) as HE. rewrite Hop in HE. cbn [andb negb] in HE.
        destruct HE as (x' & E & HE). exists x'. split; [exact E|]. rewrite HE. cbn [bind]. unfold set_indent, p2'. cbn.
        do 2 f_equal. lia.
      + assert (Hk' : k' <> []).
        { intro Hn. subst k'. cbn [indent_all] in EI. pose proof (indent_ne (p_level p + 1) true n0) as HN.
          destruct (indent (p_level p + 1) true n0) as [o c1]. destruct (indent_all _ c1 _) as [o2 c2]. injection EI as E1 _.
          cbn [fst] in HN. destruct o; [congruence|discriminate]. }
        destruct k' as [|x k']; [congruence|]. cbn [app].
        change (62 :: flat_map (node_chars cd false) (x :: k' ++ ind_at ci' (p_level p)) ++ lit "</" ++ q ++ lit ">")
          with ([62] ++ nodes_chars cd false ((x :: k') ++ ind_at ci' (p_level p)) ++ lit "</" ++ q ++ lit ">").
        rewrite nodes_chars_app, <- app_assoc, app_assoc.
        eapply out_bind; [exact Hg1|exact HK|]. intros p2 Hg2 He2 Hl2 Hc2. cbn [end_element].
        set (p2' := set_indent p2 (p_level p2 - 1) (p_can_indent p2)).
        assert (Hg2' : goodp cd p2') by exact Hg2.
        assert (Hop : is_open p2' = false) by (unfold is_open, p2'; cbn; now rewrite He2).
        rewrite Hop, andb_true_r.
        assert (HL : p_level p2' = p_level p) by (cbn; lia).
        assert (HC : p_can_indent p2' = ci') by exact Hc2.
        assert (HX : out p2' (nodes_chars cd false (ind_at ci' (p_level p)) ++ lit "</" ++ q ++ lit ">") None (p_level p) true
          (do p1 <- (if p_can_indent p2' then newline_indent p2' else Ok p2');
           do p3 <- end_element0 false q p1; Ok (set_indent p3 (p_level p3) true))).
        { rewrite <- HL, <- HC.
          eapply out_bind; [exact Hg2'|eapply ind_out; exact Hg2'|]. intros p3 Hg3 He3 <- _.
          rewrite <- (app_nil_r (lit "</" ++ q ++ lit ">")).
          assert (Ho3 : okelem p3) by (unfold okelem; rewrite He3; unfold p2'; cbn; congruence).
          eapply out_bind; [exact Hg3| |].
          - pose proof (end_element0_out cd false p3 q Hg3 Ho3 Hq) as HE.
            unfold pend, is_open in HE. rewrite He3 in HE. unfold p2' in HE. cbn [p_elem set_indent] in HE. rewrite He2 in HE. exact HE.
          - intros p4 H4 He4 <- _. exists (p_x p4). split; [apply emits_nil|]. unfold set_indent. now rewrite He4. }
        destruct HX as (x' & E & HX). exists x'. split; [exact E|exact HX].
  Qed.

  (** ** The tree of qualified names that feed writes *)
  Definition nsd_of (new : pdict) : list (option str * str) := map (fun d => (Some (fst d), snd d)) new.
  Definition att_of (a : (option str * str) * str) : str * str := (snd (fst a), snd a).
  Fixpoint swritten (pre : pdict) (o : obj) : list rnode :=
    match o with
    | OE ns q atts content =>
      let new := new_prefixes pre ns q content in
      [RElem q (written_attrs false (nsd_of new) (map att_of atts))
         (match lead_of content with
          | Some x => if true_obj x then flat_map (swritten (pupdate pre new)) content else []
          | None => []
          end)]
    | ONS _ _ => []
    | OText s | ONode s | OOther _ s => [RText s]
    | OSeq _ l => flat_map (swritten pre) l
    | OCall r => swritten pre r
    | ORoot _ => []
    end.

  Inductive no_root : obj -> Prop :=
  | nr_e : forall ns q a c, Forall no_root c -> no_root (OE ns q a c)
  | nr_ns : forall p u, no_root (ONS p u)
  | nr_text : forall s, no_root (OText s)
  | nr_node : forall s, no_root (ONode s)
  | nr_other : forall b s, no_root (OOther b s)
  | nr_seq : forall g l, Forall no_root l -> no_root (OSeq g l)
  | nr_call : forall r, no_root r -> no_root (OCall r).

  Variable enc : str.
  Lemma feed_fix : forall pr l p,
    (fix feed_all (pr : pdict) (l : list obj) (p : printer) : result printer :=
      match l with
      | [] => Ok p
      | x :: l' => do p1 <- feed true st enc pr x p ; feed_all pr l' p1
      end) pr l p = feed_all true st enc pr l p.
  Proof.
    intros pr l. induction l as [|x l IH]; intro p; [reflexivity|]. cbn [feed_all].
    destruct (feed true st enc pr x p); cbn [bind]; [apply IH|reflexivity].
  Qed.

  Lemma feed_all_outs : forall l, Forall (fun o => forall pre p, goodp cd p -> okelem p -> no_root o ->
      Forall (wfr cd) (swritten pre o) -> outs p (swritten pre o) (feed true st enc pre o p)) l ->
    forall pre p, goodp cd p -> okelem p -> Forall no_root l -> Forall (wfr cd) (flat_map (swritten pre) l) ->
    outs p (flat_map (swritten pre) l) (feed_all true st enc pre l p).
  Proof.
    induction 1 as [|o l Hx Hl IH]; intros pre p Hg Ho HR HW; cbn [flat_map feed_all]; [apply outs_nil|].
    inversion HR; subst. cbn [flat_map] in HW. apply Forall_app in HW as [W1 W2].
    apply outs_app; auto.
  Qed.

  Lemma feed_outs : forall o pre p, goodp cd p -> okelem p -> no_root o -> Forall (wfr cd) (swritten pre o) ->
    outs p (swritten pre o) (feed true st enc pre o p).
  Proof.
    induction o as [ns q a c IH|px u|s|s|g l IH|r IH|b s|c IH] using obj_ind2; intros pre p Hg Ho HR HW.
    - cbn [feed]. cbv zeta. cbn [swritten] in *. cbv zeta in *. inversion HR as [? ? ? ? HC| | | | | |]; subst.
      set (new := new_prefixes pre ns q c) in *. inversion HW as [|? ? W1 _]; subst. cbn [wfr] in W1.
      destruct W1 as (Hq0 & Hq & Ha & Hk). apply wfr_all in Hk.
      replace (map (fun a0 : option str * str * str => (snd (fst a0), Some (snd a0))) a) with (map some_att (map att_of a))
        by (rewrite map_map; apply map_ext; intros [[? ?] ?]; reflexivity).
      eapply (outs_elem p q (nsd_of new) (map att_of a) _
        (fun p1 => match lead_of c with Some x => if true_obj x then _ else Ok p1 | None => Ok p1 end)); auto.
      intros p1 Hg1 Ho1. destruct (lead_of c) as [x|]; [|apply outs_nil]. destruct (true_obj x); [|apply outs_nil].
      rewrite feed_fix. now apply feed_all_outs.
    - apply outs_nil.
    - inversion HW; subst. now apply outs_text.
    - inversion HW; subst. now apply outs_text.
    - cbn [feed swritten] in *. rewrite feed_fix. inversion HR; subst. now apply feed_all_outs.
    - inversion HR; subst. now apply IH.
    - inversion HW; subst. now apply outs_text.
    - inversion HR.
  Qed.
End W.
