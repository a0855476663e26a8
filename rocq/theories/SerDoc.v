(** * Outputs of the three printers, pretty printing and documents *)
From Coq Require Import NArith ZArith String List Bool Lia Arith Permutation.
From Verif Require Import PyStr PyErr Utf8 SerModel SerSpec SerStream SerPrint SerVisit SerRead SerTree SerNs SerTop SerFail.
Import ListNotations.
Open Scope N_scope.

(** ** Indentation *)
Lemma legal_newline : forall lvl, legal (newline_text lvl).
Proof.
  intro lvl. constructor. constructor; [reflexivity|]. apply Forall_forall. intros c Hc. apply repeat_spec in Hc. now subst.
Qed.
Lemma legal_ind : forall ci lvl, Forall legal (ind_at ci lvl).
Proof. intros [] lvl; [constructor; [apply legal_newline|constructor]|constructor]. Qed.
Lemma indent_all_legal : forall l, Forall (fun n => forall lvl ci, legal n -> Forall legal (fst (indent lvl ci n))) l ->
  forall lvl ci, Forall legal l -> Forall legal (fst (indent_all lvl ci l)).
Proof.
  induction l as [|n l IH]; intros HF lvl ci Hl; [constructor|]. inversion HF; subst. inversion Hl; subst. cbn [indent_all].
  destruct (indent lvl ci n) as [o ci1] eqn:E1. specialize (IH H2 lvl ci1 H4). destruct (indent_all lvl ci1 l) as [o2 ci2]. cbn [fst] in *.
  apply Forall_app. split; [|assumption]. specialize (H1 lvl ci H3). now rewrite E1 in H1.
Qed.
Lemma indent_legal : forall n lvl ci, legal n -> Forall legal (fst (indent lvl ci n)).
Proof.
  induction n as [q a k IH|s|d|t d|x y z] using rnode_ind2; intros lvl ci Hl;
    try (cbn [indent fst]; apply Forall_app; split; [apply legal_ind|constructor; [exact Hl|constructor]]).
  - rewrite indent_elem. inversion Hl as [| | |? ? ? Hq Ha Hk]; subst. pose proof (indent_all_legal k IH (lvl + 1)%Z true Hk) as HK.
    destruct (indent_all (lvl + 1) true k) as [k' ci']. cbn [fst] in *. apply Forall_app. split; [apply legal_ind|]. constructor; [|constructor].
    constructor; auto. destruct k; [constructor|]. apply Forall_app. split; [assumption|apply legal_ind].
  - constructor; [exact Hl|constructor].
Qed.

Lemma spaced_weak : forall l l', spaced false l l' -> forall b, spaced b l l'.
Proof. intros l l' H b. inversion H; subst; constructor; assumption. Qed.
Lemma spaced_add_text : forall s l l' b, spaced false l l' -> spaced b (add_text s l) (add_text s l').
Proof.
  intros [|c s] l l' b H; [now apply spaced_weak|]. inversion H as [| |? n n' m m' H1 H2| |? u m m' H1]; subst; cbn [add_text].
  - apply sp_text. constructor.
  - inversion H1; subst; (apply sp_text; constructor; [constructor; assumption|assumption]) || (apply sp_text; constructor; [constructor|assumption]).
  - now apply sp_text.
Qed.
Lemma newline_ws : forall k, forallb ws (10 :: repeat 32 k) = true.
Proof. intro k. cbn [forallb]. induction k; [reflexivity|assumption]. Qed.

Definition spread (n : rnode) : Prop := forall lvl ci rest rest', spaced (snd (indent lvl ci n)) rest rest' ->
  spaced ci (merge n rest) (fold_right merge rest' (fst (indent lvl ci n))).
Lemma spread_all : forall l, Forall spread l -> forall lvl ci rest rest', spaced (snd (indent_all lvl ci l)) rest rest' ->
  spaced ci (fold_right merge rest l) (fold_right merge rest' (fst (indent_all lvl ci l))).
Proof.
  induction 1 as [|n l Hn Hl IH]; intros lvl ci rest rest' H; [assumption|]. cbn [indent_all] in *.
  destruct (indent lvl ci n) as [o ci1] eqn:E1. destruct (indent_all lvl ci1 l) as [o2 ci2] eqn:E2. cbn [fst snd fold_right] in *.
  rewrite fold_right_app. specialize (Hn lvl ci (fold_right merge rest l) (fold_right merge rest' o2)). rewrite E1 in Hn. cbn [fst snd] in Hn.
  apply Hn. specialize (IH lvl ci1 rest rest'). rewrite E2 in IH. now apply IH.
Qed.
Lemma spaced_ind : forall ci lvl n n' rest rest', spaced1 n n' -> spaced true rest rest' ->
  spaced ci (n :: rest) (fold_right merge (n' :: rest') (ind_at ci lvl)).
Proof.
  intros ci lvl n n' rest rest' H1 H2. destruct ci; cbn [ind_at fold_right]; [|now constructor].
  unfold newline_text. cbn [merge].
  assert (E : add_text (10 :: repeat 32 (2 * Z.to_nat lvl)) (n' :: rest') = RText (10 :: repeat 32 (2 * Z.to_nat lvl)) :: n' :: rest')
    by (inversion H1; reflexivity).
  rewrite E. apply sp_ws; auto. apply newline_ws.
Qed.
Lemma spread_node : forall n, legal n -> spread n.
Proof.
  induction n as [q a k IH|s|d|t d|x y z] using rnode_ind2; intros Hl lvl ci rest rest' H; inversion Hl as [? Hs|? Hd|? ? Hp|? ? ? Hq Ha Hk]; subst.
  - rewrite indent_elem in *. assert (HK : Forall spread k).
    { rewrite Forall_forall in *. intros; auto. }
    destruct (indent_all (lvl + 1) true k) as [k' ci'] eqn:E. cbn [fst snd] in *. rewrite fold_right_app. cbn [fold_right merge].
    apply spaced_ind; [|exact H]. constructor. destruct k as [|x k].
    + constructor.
    + rewrite fold_right_app. pose proof (spread_all _ HK (lvl + 1)%Z true [] (fold_right merge [] (ind_at ci' lvl))) as HS.
      rewrite E in HS. apply HS. cbn [snd]. destruct ci'; [|constructor]. cbn [ind_at fold_right]. apply sp_end. apply newline_ws.
  - cbn [indent fst snd fold_right merge] in *. now apply spaced_add_text.
  - cbn [indent fst snd] in *. rewrite fold_right_app. cbn [fold_right merge]. apply spaced_ind; [constructor|exact H].
  - cbn [indent fst snd] in *. rewrite fold_right_app. cbn [fold_right merge]. apply spaced_ind; [constructor|exact H].
Qed.

(** ** What is written *)
Section W.
  Variable cd : codec.
  Hypothesis Hcd : sound_codec cd.
  Variable ordn : list (option str * str) -> list (option str * str).
  Variable orda : list (str * option str) -> list (str * option str).
  Hypothesis ordn_ok : forall l, Permutation (ordn l) l.
  Hypothesis orda_ok : forall l, Permutation (orda l) l.

  Definition ptree (st : style) (chain : list nsdict) (n : node) : rnode := printed ordn orda (canon_of st) chain cur0 n.
  Definition written (st : style) (chain : list nsdict) (l : list node) : list rnode :=
    match st with
    | Pretty => fst (indent_all 0 false (map (ptree st chain) l))
    | _ => map (ptree st chain) l
    end.

  Lemma ptree_legal : forall st chain n, Forall legal_decls chain -> legal_dom n -> legal (ptree st chain n).
  Proof. intros. now apply printed_legal. Qed.
  Lemma ptrees_legal : forall st chain l, Forall legal_decls chain -> Forall legal_dom l -> Forall legal (map (ptree st chain) l).
  Proof. intros st chain l Hc Hl. apply Forall_forall. intros x Hx. apply in_map_iff in Hx as (n & <- & Hn). rewrite Forall_forall in Hl. apply ptree_legal; auto. Qed.
  Lemma written_legal : forall st chain l, Forall legal_decls chain -> Forall legal_dom l -> Forall legal (written st chain l).
  Proof.
    intros st chain l Hc Hl. pose proof (ptrees_legal st chain l Hc Hl) as HP.
    destruct st; try exact HP. cbn [written]. apply indent_all_legal; [|exact HP].
    apply Forall_forall. intros n _ lvl ci. apply indent_legal.
  Qed.
  Lemma written_spaced : forall chain l, Forall legal_decls chain -> Forall legal_dom l ->
    spaced false (merge_all (map (ptree Pretty chain) l)) (merge_all (written Pretty chain l)).
  Proof.
    intros chain l Hc Hl. unfold merge_all, written. apply spread_all.
    - pose proof (ptrees_legal Pretty chain l Hc Hl) as HP. rewrite Forall_forall in *. intros x Hx. apply spread_node; auto.
    - constructor.
  Qed.

  Lemma visit_all_written : forall st chain l p p', Forall legal_decls chain -> Forall legal_dom l ->
    goodp cd p -> p_elem p = None -> p_level p = 0%Z -> p_can_indent p = false ->
    visit_all true st ordn orda chain cur0 l p = Ok p' ->
    emits (p_x p) (p_x p') (nodes_chars cd (canon_of st) (written st chain l)) /\ p_elem p' = None.
  Proof.
    intros st chain l p p' Hc Hl Hp He Hlv Hci E.
    assert (HW : Forall (wfr cd) (map (ptree st chain) l)).
    { pose proof (needs_visit_all cd ordn orda orda_ok true st chain cur0 l p (proj1 Hp)) as HN. rewrite E in HN. destruct HN as [HN _].
      pose proof (ptrees_legal st chain l Hc Hl) as HL. rewrite Forall_forall in *. intros x Hx. apply legal_encs_wfr; [auto|]. now apply HN. }
    destruct st.
    - pose proof (visit_all_out cd ordn orda orda_ok Plain ltac:(discriminate) chain cur0 l p Hp He HW) as HO.
      apply out_step in HO as (q & Eq & Em & El & _). rewrite E in Eq. injection Eq as <-. auto.
    - pose proof (visit_all_out cd ordn orda orda_ok Canon ltac:(discriminate) chain cur0 l p Hp He HW) as HO.
      apply out_step in HO as (q & Eq & Em & El & _). rewrite E in Eq. injection Eq as <-. auto.
    - assert (Hok : okelem p) by (unfold okelem; rewrite He; discriminate).
      assert (HS : Forall (pretty_spec cd ordn orda) l) by (apply Forall_forall; intros n _; now apply pretty_out).
      pose proof (pretty_all cd ordn orda l HS chain cur0 p Hp Hok HW) as HO.
      apply out_step in HO as (q & Eq & Em & El & _). rewrite E in Eq. injection Eq as <-.
      rewrite Hlv, Hci in Em. unfold pend, is_open in Em. rewrite He in Em, El.
      destruct l; split; auto.
  Qed.

  Lemma encode_node_written : forall st chain n bs, Forall legal_decls chain -> legal_dom n ->
    xml_encode_node true st ordn orda chain (xmlstream_new cd) n = Ok bs ->
    encode cd (nodes_chars cd (canon_of st) (written st chain [n])) = Some bs.
  Proof.
    intros st chain n bs Hc Hn E. unfold xml_encode_node in E. fold cur0 in E.
    destruct (visit true st ordn orda chain cur0 n (printer_new (xmlstream_new cd))) as [p'|e] eqn:EV; [|discriminate]. cbn in E. injection E as <-.
    assert (EA : visit_all true st ordn orda chain cur0 [n] (printer_new (xmlstream_new cd)) = Ok p').
    { cbn [visit_all]. rewrite EV. reflexivity. }
    apply visit_all_written in EA as [EM _]; auto.
    - destruct EM as (b & E1 & ->). cbn in *. exact E1.
    - now apply new_good.
  Qed.

  Lemma encode_node_error : forall st chain n e, xml_encode_node true st ordn orda chain (xmlstream_new cd) n = Err e -> e = ValueError.
  Proof.
    intros st chain n e E. unfold xml_encode_node in E.
    pose proof (needs_visit cd ordn orda orda_ok true st n chain cur0 (printer_new (xmlstream_new cd)) eq_refl) as HN. fold cur0 in E.
    destruct (visit _ _ _ _ _ _ _ _); [discriminate|]. cbn in E. now injection E as <-.
  Qed.
  Lemma encode_node_ok : forall st chain n, Forall legal_decls chain -> legal_dom n ->
    Forall (fun s => encode cd s <> None) (flat_map decl_strings chain) -> Forall (fun s => encode cd s <> None) (raw_strings n) ->
    exists bs, xml_encode_node true st ordn orda chain (xmlstream_new cd) n = Ok bs.
  Proof.
    intros st chain n Hc Hn H1 H2. unfold xml_encode_node. fold cur0.
    assert (HW : wfr cd (ptree st chain n)) by now apply printed_wfr.
    assert (HG := new_good cd Hcd). assert (HO : okelem (printer_new (xmlstream_new cd))) by discriminate.
    destruct st.
    - destruct (visit_out cd ordn orda orda_ok Plain ltac:(discriminate) n chain cur0 _ HG HO HW) as (x & _ & ->). cbn. eauto.
    - destruct (visit_out cd ordn orda orda_ok Canon ltac:(discriminate) n chain cur0 _ HG HO HW) as (x & _ & ->). cbn. eauto.
    - destruct (pretty_out cd ordn orda orda_ok n chain cur0 _ HG HO HW) as (x & _ & ->). cbn. eauto.
  Qed.

  Lemma ptrees_same : forall st chain l, Forall legal_decls chain -> Forall legal_dom l ->
    Forall2 same_read (map undeclare (merge_all (map (ptree st chain) l))) (merge_all (map as_read l)).
  Proof.
    intros st chain l Hc Hl. rewrite undeclare_merge_all. unfold merge_all. induction Hl as [|n l Hn Hl IH]; [constructor|].
    cbn [map fold_right]. apply same_read_merge; [|exact IH]. now apply printed_same.
  Qed.
  Lemma ptrees_resolve : forall st chain l, Forall legal_decls chain -> Forall legal_dom l -> Forall (consistent (scope_of chain)) l ->
    exists xs, resolve_all scope0 (merge_all (map (ptree st chain) l)) = Some xs /\ Forall2 same_tree xs (fold_right expanded [] l).
  Proof.
    intros st chain l Hc Hl Hk. unfold merge_all. induction Hl as [|n l Hn Hl IH]; [exists []; split; [reflexivity|constructor]|].
    inversion Hk; subst. destruct IH as (xs & E & F); [assumption|]. cbn [map fold_right]. rewrite resolve_merge, E.
    destruct (printed_resolves ordn orda ordn_ok orda_ok (canon_of st) n chain cur0 scope0 Hc Hn (in_force0 chain) H1) as (x & Ex & Fx).
    unfold ptree. rewrite Ex. eexists. split; [reflexivity|]. rewrite expanded_xmerge. now apply same_xmerge.
  Qed.
End W.
