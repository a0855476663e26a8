(** * C69: the tree writer *)
From Coq Require Import NArith ZArith String List Bool Lia Arith Permutation.
From Verif Require Import PyStr PyErr XsModel SerModel SerSpec SerStream SerPrint SerVisit SerRead SerTree SerNs SerTop SerDocs SerCodec SerProps XwModel XwSpec XwProofs XwTree XwProps XcModel XcSpec XcProps TwModel TwSpec.
Import ListNotations.
Open Scope N_scope.

(** ** States *)
Definition kids_of (w : treewriter) : list node := match d_open w with [] => d_kids w | f :: _ => e_kids f end.
Definition with_kids (f : open_elem) (k : list node) : open_elem := {| e_ns := e_ns f; e_name := e_name f; e_decls := e_decls f; e_atts := e_atts f; e_kids := k |}.
Definition put (w : treewriter) (k : list node) (b : str) : treewriter :=
  match d_open w with
  | [] => {| d_kids := k; d_open := []; d_buf := b; d_ended := d_ended w |}
  | f :: l => {| d_kids := d_kids w; d_open := with_kids f k :: l; d_buf := b; d_ended := d_ended w |}
  end.
Definition flush (k : list node) (b : str) : list node := match b with [] => k | _ => NText b :: k end.
Lemma put_same : forall w, put w (kids_of w) (d_buf w) = w.
Proof. intros [k [|[a b c d e] o] b' e']; reflexivity. Qed.
Lemma put_put : forall w k b k' b', put (put w k b) k' b' = put w k' b'.
Proof. intros [dk [|[? ? ? ? ?] o] ? ?] k b k' b'; reflexivity. Qed.
Lemma kids_put : forall w k b, kids_of (put w k b) = k /\ d_buf (put w k b) = b /\ d_ended (put w k b) = d_ended w.
Proof. intros [dk [|[? ? ? ? ?] o] ? ?] k b; auto. Qed.
Lemma complete_put : forall w, complete_text w = put w (flush (kids_of w) (d_buf w)) [].
Proof. intros [dk [|[? ? ? ? ?] o] [|c b] e]; reflexivity. Qed.
Lemma append_put : forall n w, append n w = put w (n :: kids_of w) (d_buf w).
Proof. intros n [dk [|[? ? ? ? ?] o] b e]; reflexivity. Qed.

(** ** Names and attributes *)
Lemma split_plain : forall p l, no_colon l -> (forall q, p = Some q -> no_colon q) -> XsModel.split_qname (qn p l) = (p, l).
Proof.
  intros [p|] l Hl Hp; unfold XsModel.split_qname, qn.
  - rewrite (break_some58 p l (Hp p eq_refl)). reflexivity.
  - now rewrite break_none58.
Qed.
Lemma last_wins_snoc : forall l a, last_wins (l ++ [a]) = filter (fun b => negb (ename_eqb (ename b) (ename a))) (last_wins l) ++ [a].
Proof.
  induction l as [|x l IH]; intro a; [reflexivity|]. cbn [app last_wins]. rewrite existsb_app, IH. cbn [existsb]. rewrite orb_false_r.
  destruct (existsb _ l) eqn:E; cbn [orb]; [reflexivity|]. cbn [filter]. destruct (ename_eqb (ename x) (ename a)); reflexivity.
Qed.
Lemma same_key_ename : forall a b, plain_att a -> plain_att b -> same_key (attribute_node a) (attribute_node b) = ename_eqb (ename a) (ename b).
Proof.
  intros a b [A1 A2] [B1 B2]. unfold same_key, attribute_node. cbn [a_ns a_qname].
  rewrite !split_plain; try assumption; try (intros q Hq; now apply A2); try (intros q Hq; now apply B2). reflexivity.
Qed.
Lemma attrs_set : forall l, Forall plain_att l -> fold_left set_attr (map attribute_node l) [] = map attribute_node (last_wins l).
Proof.
  intro l. induction l as [|a l IH] using rev_ind; intro H; [reflexivity|]. apply Forall_app in H as [H1 H2]. inversion H2 as [|? ? Ha _]; subst.
  rewrite map_app, fold_left_app, IH by assumption. cbn [map fold_left]. unfold set_attr. rewrite last_wins_snoc, map_app. f_equal.
  assert (HL : Forall plain_att (last_wins l)).
  { rewrite Forall_forall in *. intros x Hx. apply H1. eapply last_wins_In. exact Hx. }
  clear - HL Ha. induction HL as [|x m Hx _ IHm]; [reflexivity|]. cbn [map filter]. rewrite same_key_ename by assumption.
  destruct (ename_eqb (ename x) (ename a)); cbn [negb map]; now rewrite IHm.
Qed.
Lemma add_ns : forall nss d, NoDup (map fst d ++ map fst nss) -> (forall k v, In (k, v) nss -> v <> None) ->
  add_namespaces nss d = Ok (d ++ declarations nss).
Proof.
  induction nss as [|[k [u|]] nss IH]; intros d HD HV; cbn [add_namespaces declarations flat_map fst snd].
  - now rewrite app_nil_r.
  - assert (E : dset_ns d k u = d ++ [(k, u)]).
    { assert (Hk : ~ In k (map fst d)). { intro Hin. cbn [map fst] in HD. apply NoDup_remove_2 in HD. apply HD. apply in_or_app. now left. }
      clear - Hk. induction d as [|[k' u'] d IHd]; [reflexivity|]. cbn [dset_ns map fst In app] in *.
      destruct (okey_eqb_spec k' k) as [->|_]; [tauto|]. rewrite IHd by tauto. reflexivity. }
    rewrite E, IH.
    + now rewrite <- app_assoc.
    + rewrite map_app. cbn [map fst]. rewrite <- app_assoc. exact HD.
    + intros k' v' H. apply (HV k'). now right.
  - exfalso. apply (HV k None); [now left|reflexivity].
Qed.

(** ** One node *)
Definition step (s : list node * str) (n : wnode) : list node * str :=
  match n with
  | WText t => (fst s, snd s ++ t)
  | _ => (tree_of n :: flush (fst s) (snd s), [])
  end.
Lemma add_text2 : forall s t l, add_node (NText s) (add_node (NText t) l) = add_node (NText (s ++ t)) l.
Proof.
  intros s t l. destruct t as [|c t]; [now rewrite app_nil_r|]. destruct s as [|c' s]; [reflexivity|].
  cbn [add_node app]. destruct l as [|[ | | | ] l]; cbn [add_node app]; try reflexivity. now rewrite <- app_assoc.
Qed.
Lemma steps_merge : forall nodes k b,
  rev (flush (fst (fold_left step nodes (k, b))) (snd (fold_left step nodes (k, b)))) = rev k ++ merge_text (NText b :: map tree_of nodes).
Proof.
  induction nodes as [|n nodes IH]; intros k b.
  - cbn [fold_left fst snd map merge_text fold_right]. destruct b; cbn [flush add_node rev]; [now rewrite app_nil_r|reflexivity].
  - cbn [fold_left map merge_text fold_right]. fold (merge_text (map tree_of nodes)).
    assert (HO : forall m, (forall t, m <> WText t) -> add_node (tree_of m) (merge_text (map tree_of nodes)) = tree_of m :: merge_text (map tree_of nodes)).
    { intros [ | | | ] Hm; try reflexivity. exfalso. now apply (Hm s). }
    assert (HN : forall m, (forall t, m <> WText t) -> add_node (NText b) (tree_of m :: merge_text (map tree_of nodes)) = rev (flush [] b) ++ tree_of m :: merge_text (map tree_of nodes)).
    { intros [ | | | ] Hm; try (destruct b; reflexivity). exfalso. now apply (Hm s). }
    destruct n as [p l ns nss atts more kids|s|s|t d] eqn:En.
    2:{ cbn [step fst snd]. rewrite IH. cbn [merge_text fold_right tree_of]. fold (merge_text (map tree_of nodes)). now rewrite add_text2. }
    all: rewrite <- En; rewrite HO, HN by (subst; discriminate);
      assert (ES : step (k, b) n = (tree_of n :: flush k b, [])) by (subst; reflexivity); rewrite ES, IH; cbn [merge_text fold_right add_node]; fold (merge_text (map tree_of nodes));
      clear; cbn [rev]; destruct b; cbn [flush rev app]; now rewrite <- ?app_assoc.
Qed.
Lemma run_app : forall l1 l2 w, tw_run (l1 ++ l2) w = (do w' <- tw_run l1 w ; tw_run l2 w').
Proof. induction l1 as [|c l1 IH]; intros l2 w; [reflexivity|]. cbn [app tw_run]. destruct (tw_call c w); cbn [bind]; auto. Qed.
Lemma run_atts : forall more w f l, Forall plain_att more -> d_ended w = false -> d_open w = f :: l -> e_kids f = [] ->
  tw_run (map (fun a => Attribute (qn (t_prefix a) (t_local a)) (t_value a) (t_ns a)) more) w =
  Ok (with_open w ({| e_ns := e_ns f; e_name := e_name f; e_decls := e_decls f; e_atts := fold_left set_attr (map attribute_node more) (e_atts f); e_kids := [] |} :: l)).
Proof.
  induction more as [|a more IH]; intros w f l HP HE HO HK.
  - cbn [map tw_run fold_left]. destruct w as [dk o b e]. cbn in *. subst. destruct f; cbn in *. subst. reflexivity.
  - inversion HP as [|? ? [A1 A2] HP']; subst. cbn [map tw_run tw_call]. unfold tw_attribute. rewrite HE, HO, HK.
    rewrite split_plain by (try assumption; intros q Hq; now apply A2). cbn [fst].
    destruct (t_ns a) as [u|] eqn:EN.
    + cbn [bind]. erewrite IH; [|assumption|exact HE|reflexivity|reflexivity]. cbn [e_ns e_name e_decls e_atts with_open fold_left]. unfold with_open; cbn [d_kids d_buf d_ended].
      replace (attribute_node a) with {| a_ns := Some u; a_qname := qn (t_prefix a) (t_local a); a_value := t_value a |} by (unfold attribute_node; now rewrite EN). reflexivity.
    + destruct (t_prefix a) as [q|] eqn:EP; [exfalso; now apply (proj2 (A2 q eq_refl))|]. cbn [bind]. erewrite IH; [|assumption|exact HE|reflexivity|reflexivity]. cbn [e_ns e_name e_decls e_atts with_open fold_left]. unfold with_open; cbn [d_kids d_buf d_ended].
      replace (attribute_node a) with {| a_ns := None; a_qname := qn None (t_local a); a_value := t_value a |} by (unfold attribute_node; now rewrite EN, EP). reflexivity.
Qed.
Lemma run_node : forall n, askable n -> forall w, d_ended w = false ->
  tw_run (calls n) w = Ok (put w (fst (step (kids_of w, d_buf w) n)) (snd (step (kids_of w, d_buf w) n))).
Proof.
  induction n as [p l ns nss atts more kids IH|s|s|t d] using wnode_ind2; intros HA w HE.
  - inversion HA as [| | |? ? ? ? ? ? H1 H2 H3 H4 H5 H6]; subst.
    assert (HK : forall w', d_ended w' = false -> tw_run (flat_map calls kids) w' = Ok (put w' (fst (fold_left step kids (kids_of w', d_buf w'))) (snd (fold_left step kids (kids_of w', d_buf w'))))).
    { clear - IH H6. induction IH as [|n k Hn _ IHk]; intros w' HE'.
      - cbn. now rewrite put_same.
      - inversion H6 as [|? ? G1 G2]; subst. cbn [flat_map]. rewrite run_app, Hn by assumption. cbn [bind].
        destruct (kids_put w' (fst (step (kids_of w', d_buf w') n)) (snd (step (kids_of w', d_buf w') n))) as (P1 & P2 & P3).
        rewrite IHk by (assumption || congruence). rewrite P1, P2, put_put, <- surjective_pairing. reflexivity. }
    cbn [calls map]. cbn [tw_run tw_call]. unfold tw_start_element. rewrite HE.
    rewrite split_plain by (try assumption; intros q Hq; now apply H2). cbn [fst].
    rewrite add_ns by (assumption). cbn [app bind].
    set (w1 := with_open (complete_text w) _).
    assert (EQ : (match ns with Some _ => Ok w1 | None => match p with Some _ => Err ValueError | None => Ok w1 end end) = Ok w1).
    { destruct ns; [reflexivity|]. destruct p as [q|]; [|reflexivity]. exfalso. now apply (proj2 (H2 q eq_refl)). }
    rewrite EQ. cbn [bind]. clear EQ.
    rewrite run_app. rewrite (run_atts more w1 {| e_ns := ns; e_name := qn p l; e_decls := declarations nss; e_atts := []; e_kids := [] |} (d_open (complete_text w)));
      [|assumption|subst w1; rewrite complete_put; cbn [with_open d_ended]; destruct (kids_put w (flush (kids_of w) (d_buf w)) []) as (_ & _ & ->); exact HE|reflexivity|reflexivity].
    cbn [bind e_ns e_name e_decls e_atts]. rewrite attrs_set by assumption.
    set (w2 := with_open w1 _). rewrite run_app, HK by (subst w2 w1; rewrite complete_put; cbn [with_open d_ended]; destruct (kids_put w (flush (kids_of w) (d_buf w)) []) as (_ & _ & ->); exact HE).
    cbn [bind tw_run tw_call].
    assert (EB : d_buf w2 = []) by (subst w2 w1; rewrite complete_put; cbn [with_open d_buf]; now destruct (kids_put w (flush (kids_of w) (d_buf w)) []) as (_ & -> & _)).
    assert (EK : kids_of w2 = []) by reflexivity. rewrite EB, EK.
    pose proof (steps_merge kids [] []) as SM. set (s := fold_left step kids ([], [])) in *.
    unfold tw_end_element. destruct (kids_put w2 (fst s) (snd s)) as (K1 & K2 & K3). rewrite K3.
    assert (EE : d_ended w2 = false) by (subst w2 w1; rewrite complete_put; cbn [with_open d_ended]; destruct (kids_put w (flush (kids_of w) (d_buf w)) []) as (_ & _ & ->); exact HE).
    rewrite EE, complete_put, K1, K2, put_put. subst w2. unfold put at 1. cbn [with_open d_open]. cbn [with_kids e_name e_ns e_decls e_atts e_kids].
    assert (str_eqb (qn p l) (qn p l) = true) as -> by (destruct (str_eqb_spec (qn p l) (qn p l)); congruence).
    cbn [bind]. f_equal. rewrite append_put. cbn [step fst snd tree_of app].
    rewrite SM. cbn [rev app]. change (merge_text (NText [] :: map tree_of kids)) with (merge_text (map tree_of kids)).
    unfold put at 2. cbn [with_open d_open d_kids d_buf d_ended]. subst w1. rewrite complete_put. unfold put at 2 3 4 5. destruct w as [dk [|f o] b e]; reflexivity.
  - cbn [calls tw_run tw_call]. unfold tw_text. rewrite HE. cbn [bind step fst snd]. f_equal. destruct w as [dk [|[? ? ? ? ?] o] b e]; cbn in *; subst; reflexivity.
  - cbn [calls tw_run tw_call]. unfold tw_leaf. rewrite HE. cbn [bind step fst snd tree_of]. f_equal. rewrite append_put, complete_put.
    destruct (kids_put w (flush (kids_of w) (d_buf w)) []) as (-> & -> & _). now rewrite put_put.
  - cbn [calls tw_run tw_call]. unfold tw_leaf. rewrite HE. cbn [bind step fst snd tree_of]. f_equal. rewrite append_put, complete_put.
    destruct (kids_put w (flush (kids_of w) (d_buf w)) []) as (-> & -> & _). now rewrite put_put.
Qed.
Lemma run_nodes : forall kids, Forall askable kids -> forall w', d_ended w' = false ->
  tw_run (flat_map calls kids) w' = Ok (put w' (fst (fold_left step kids (kids_of w', d_buf w'))) (snd (fold_left step kids (kids_of w', d_buf w')))).
Proof.
  intros kids H. induction H as [|n k Hn _ IHk]; intros w' HE'.
  - cbn. now rewrite put_same.
  - cbn [flat_map]. rewrite run_app, run_node by assumption. cbn [bind].
    destruct (kids_put w' (fst (step (kids_of w', d_buf w') n)) (snd (step (kids_of w', d_buf w') n))) as (P1 & P2 & P3).
    rewrite IHk by congruence. rewrite P1, P2, put_put, <- surjective_pairing. reflexivity.
Qed.

(** The fragment is the tree that was asked for, with adjacent text merged. *)
Theorem C69_built_partial : forall nodes, Forall askable nodes -> fragment (flat_map calls nodes) = Ok (merge_text (map tree_of nodes)).
Proof.
  intros nodes H. unfold fragment. rewrite run_nodes by (assumption || reflexivity). cbn [bind kids_of tw_new d_open d_kids d_buf].
  pose proof (steps_merge nodes [] []) as SM. destruct (fold_left step nodes ([], [])) as [k b]. cbn [fst snd] in *.
  unfold tw_end. cbn [put tw_new d_open d_ended]. rewrite complete_put. cbn [kids_of d_open d_kids d_buf put bind tw_result d_ended]. unfold tw_result. cbn [d_ended d_kids].
  rewrite SM. reflexivity.
Qed.
Print Assumptions C69_built_partial.

(** ** Any calls *)
Definition text_of (w : treewriter) : str :=
  flat_map node_text (rev (d_kids w)) ++ flat_map (fun f => flat_map node_text (rev (e_kids f))) (rev (d_open w)) ++ d_buf w.
Lemma text_put : forall w k b, text_of (put w k b) =
  match d_open w with [] => [] | _ => flat_map node_text (rev (d_kids w)) ++ flat_map (fun f => flat_map node_text (rev (e_kids f))) (rev (tl (d_open w))) end ++ flat_map node_text (rev k) ++ b.
Proof.
  intros [dk [|[e1 e2 e3 e4 e5] o] b0 e0] k b; unfold text_of; cbn [put d_open d_kids d_buf rev flat_map app tl]; [reflexivity|].
  rewrite flat_map_app. cbn [flat_map e_kids with_kids]. now rewrite app_nil_r, <- !app_assoc.
Qed.
Lemma text_same : forall w, text_of w =
  match d_open w with [] => [] | _ => flat_map node_text (rev (d_kids w)) ++ flat_map (fun f => flat_map node_text (rev (e_kids f))) (rev (tl (d_open w))) end ++ flat_map node_text (rev (kids_of w)) ++ d_buf w.
Proof. intro w. rewrite <- (put_same w) at 1. apply text_put. Qed.
Lemma text_flush : forall w, text_of (complete_text w) = text_of w.
Proof.
  intro w. rewrite complete_put, text_put, text_same. f_equal. destruct (d_buf w) as [|c b] eqn:E; cbn [flush]; [reflexivity|].
  cbn [rev]. rewrite flat_map_app. cbn [flat_map node_text]. now rewrite !app_nil_r.
Qed.
Lemma buf_flush : forall w, d_buf (complete_text w) = [].
Proof. intro w. rewrite complete_put. now destruct (kids_put w (flush (kids_of w) (d_buf w)) []) as (_ & -> & _). Qed.
Lemma text_append : forall n w, d_buf w = [] -> text_of (append n w) = text_of w ++ node_text n.
Proof.
  intros n w E. rewrite append_put, text_put, text_same, E. cbn [rev]. rewrite flat_map_app. cbn [flat_map]. now rewrite !app_nil_r, app_assoc.
Qed.
Lemma text_call : forall c w w', tw_call c w = Ok w' -> text_of w' = text_of w ++ text_called [c].
Proof.
  intros c w w'. destruct c as [n u d a|n v u|p u|n|s|s|t s]; cbn [tw_call]; unfold text_called; cbn [flat_map]; rewrite ?app_nil_r; intro H.
  - unfold tw_start_element in H. destruct (d_ended w); [discriminate|].
    assert (HG : exists f, e_kids f = [] /\ w' = with_open (complete_text w) (f :: d_open (complete_text w))).
    { destruct u, (fst (XsModel.split_qname n)); try discriminate H; destruct (add_namespaces d []); try discriminate H; injection H as <-; eexists; split; try reflexivity; reflexivity. }
    destruct HG as (f & EF & ->). rewrite <- (text_flush w). pose proof (buf_flush w) as EB. unfold text_of, with_open in *. cbn [d_kids d_open d_buf rev]. rewrite EB, !app_nil_r, flat_map_app.
    cbn [flat_map]. rewrite EF. cbn. now rewrite app_nil_r.
  - unfold tw_attribute in H. destruct (d_ended w); [discriminate|]. destruct (d_open w) as [|f l] eqn:EO; [injection H as <-; reflexivity|].
    destruct (e_kids f) eqn:EK; [|injection H as <-; reflexivity].
    assert (HG : exists f', e_kids f' = [] /\ w' = with_open w (f' :: l)).
    { destruct u, (fst (XsModel.split_qname n)); try discriminate H; injection H as <-; eexists; split; try reflexivity; reflexivity. }
    destruct HG as (f' & EF & ->). unfold text_of, with_open. cbn [d_kids d_open d_buf rev]. rewrite EO. cbn [rev]. rewrite !flat_map_app. cbn [flat_map]. now rewrite EF, EK.
  - injection H as <-. reflexivity.
  - unfold tw_end_element in H. destruct (d_ended w); [discriminate|]. rewrite <- (text_flush w). pose proof (buf_flush w) as EB. destruct (complete_text w) as [dk [|f l] b e]; cbn [d_open] in *; [discriminate|].
    destruct (str_eqb (e_name f) n); [|discriminate]. injection H as <-. cbn [d_buf] in EB. subst b. rewrite text_append by reflexivity.
    unfold text_of, with_open. cbn [d_kids d_open d_buf rev node_text]. rewrite flat_map_app. cbn [flat_map]. now rewrite !app_nil_r, <- app_assoc.
  - unfold tw_text in H. destruct (d_ended w); [discriminate|]. injection H as <-. unfold text_of. cbn [d_kids d_open d_buf]. now rewrite <- !app_assoc.
  - unfold tw_leaf in H. destruct (d_ended w); [discriminate|]. injection H as <-. rewrite text_append, text_flush by apply buf_flush. cbn [node_text]. now rewrite app_nil_r.
  - unfold tw_leaf in H. destruct (d_ended w); [discriminate|]. injection H as <-. rewrite text_append, text_flush by apply buf_flush. cbn [node_text]. now rewrite app_nil_r.
Qed.
(** Whatever the calls: no text is lost, repeated or moved. *)
Theorem C69_text : forall l f, fragment l = Ok f -> flat_map node_text f = text_called l.
Proof.
  intros l f H. unfold fragment in H. destruct (tw_run l tw_new) as [w|] eqn:E; cbn [bind] in H; [|discriminate].
  assert (HT : forall l w0 w1, tw_run l w0 = Ok w1 -> text_of w1 = text_of w0 ++ text_called l).
  { clear. induction l as [|c l IH]; intros w0 w1 H; cbn [tw_run] in H; [injection H as <-; cbn; now rewrite app_nil_r|].
    destruct (tw_call c w0) as [w'|] eqn:E; cbn [bind] in H; [|discriminate]. rewrite (IH _ _ H), (text_call _ _ _ E), <- app_assoc. f_equal.
    unfold text_called. cbn [flat_map]. now rewrite app_nil_r. }
  apply HT in E. change (text_of tw_new) with (@nil N) in E. cbn [app] in E. rewrite <- E, <- text_flush.
  unfold tw_end in H. destruct (d_ended w); cbn [bind] in H; [discriminate|]. pose proof (buf_flush w) as EB. destruct (complete_text w) as [dk [|g o] b e]; cbn [d_open bind] in *; [|discriminate].
  injection H as <-. cbn [d_buf] in EB. subst b. unfold text_of. cbn. now rewrite app_nil_r.
Qed.
Print Assumptions C69_text.

Fixpoint closes (names : list str) (l : list call) : Prop :=
  match names with
  | [] => nested l
  | n :: ns => exists l0 l1, l = l0 ++ EndElement n :: l1 /\ nested l0 /\ closes ns l1
  end.
Lemma closes_elem : forall names n u d a l0 l1, nested l0 -> closes names l1 -> closes names (StartElement n u d a :: l0 ++ EndElement n :: l1).
Proof.
  intros [|m ns] n u d a l0 l1 H0 H1; cbn [closes] in *; [now apply ne_elem|]. destruct H1 as (l2 & l3 & -> & H2 & H3).
  exists (StartElement n u d a :: l0 ++ EndElement n :: l2), l3. split; [cbn [app]; now rewrite <- app_assoc|]. split; [now apply ne_elem|assumption].
Qed.
Lemma closes_other : forall names c l, (forall n u d a, c <> StartElement n u d a) -> (forall n, c <> EndElement n) -> closes names l -> closes names (c :: l).
Proof.
  intros [|m ns] c l H0 H1 H; cbn [closes] in *; [now apply ne_other|]. destruct H as (l2 & l3 & -> & H2 & H3).
  exists (c :: l2), l3. split; [reflexivity|]. split; [now apply ne_other|assumption].
Qed.
Lemma names_put : forall w k b, map e_name (d_open (put w k b)) = map e_name (d_open w).
Proof. intros [dk [|[? ? ? ? ?] o] ? ?] k b; reflexivity. Qed.
Lemma names_flush : forall w, map e_name (d_open (complete_text w)) = map e_name (d_open w).
Proof. intro w. rewrite complete_put. apply names_put. Qed.
Lemma run_closes : forall l w w', tw_run l w = Ok w' -> d_open w' = [] -> closes (map e_name (d_open w)) l.
Proof.
  induction l as [|c l IH]; intros w w' H HO; cbn [tw_run] in H; [injection H as <-; rewrite HO; constructor|].
  destruct (tw_call c w) as [w1|] eqn:E; cbn [bind] in H; [|discriminate]. specialize (IH _ _ H HO).
  destruct c as [n u d a|n v u|p u|n|s|s|t s]; cbn [tw_call] in E.
  - assert (EN : map e_name (d_open w1) = n :: map e_name (d_open w)).
    { rewrite <- (names_flush w). unfold tw_start_element in E. destruct (d_ended w); [discriminate|].
      destruct u, (fst (XsModel.split_qname n)); try discriminate E; destruct (add_namespaces d []); try discriminate E; injection E as <-; reflexivity. }
    rewrite EN in IH. cbn [closes] in IH. destruct IH as (l0 & l1 & -> & H0 & H1). now apply closes_elem.
  - apply closes_other; try discriminate. replace (map e_name (d_open w)) with (map e_name (d_open w1)); [exact IH|].
    unfold tw_attribute in E. destruct (d_ended w); [discriminate|]. destruct (d_open w) as [|f o] eqn:EO; [injection E as <-; now rewrite EO|].
    destruct (e_kids f) eqn:EK; [|injection E as <-; now rewrite EO]. destruct u, (fst (XsModel.split_qname n)); try discriminate E; injection E as <-; reflexivity.
  - apply closes_other; try discriminate. injection E as <-. exact IH.
  - unfold tw_end_element in E. destruct (d_ended w); [discriminate|]. rewrite <- (names_flush w). destruct (complete_text w) as [dk [|f o] b e]; cbn [d_open] in *; [discriminate|].
    destruct (str_eqb_spec (e_name f) n) as [EF|]; [|discriminate]. injection E as <-. rewrite append_put, names_put in IH. cbn [with_open d_open] in IH. cbn [map closes].
    exists [], l. rewrite EF. split; [reflexivity|]. split; [constructor|exact IH].
  - apply closes_other; try discriminate. unfold tw_text in E. destruct (d_ended w); [discriminate|]. injection E as <-. exact IH.
  - apply closes_other; try discriminate. unfold tw_leaf in E. destruct (d_ended w); [discriminate|]. injection E as <-. now rewrite append_put, names_put, names_flush in IH.
  - apply closes_other; try discriminate. unfold tw_leaf in E. destruct (d_ended w); [discriminate|]. injection E as <-. now rewrite append_put, names_put, names_flush in IH.
Qed.
(** A fragment comes only from calls that are properly nested. *)
Theorem C69_nested : forall l f, fragment l = Ok f -> nested l.
Proof.
  intros l f H. unfold fragment in H. destruct (tw_run l tw_new) as [w|] eqn:E; cbn [bind] in H; [|discriminate].
  apply (run_closes l tw_new w E). unfold tw_end in H. destruct (d_ended w); [discriminate|]. pose proof (names_flush w) as EN.
  destruct (d_open (complete_text w)); [|discriminate]. destruct (d_open w); [reflexivity|discriminate].
Qed.
Print Assumptions C69_nested.

(** ** Copying the fragment *)
Lemma merge_forall : forall (P : node -> Prop) l, (forall s t, P (NText s) -> P (NText t) -> P (NText (s ++ t))) -> Forall P l -> Forall P (merge_text l).
Proof.
  intros P l HP H. induction H as [|n l Hn _ IH]; [constructor|]. cbn [merge_text fold_right]. fold (merge_text l).
  destruct n as [a b c d e|[|c s]|s|t d]; cbn [add_node]; try (constructor; assumption); [assumption|].
  destruct (merge_text l) as [|[a b c' d e|s'|s'|t d] m]; try (constructor; assumption). inversion IH; subst. constructor; auto.
Qed.
Lemma merge_expanded : forall l, fold_right expanded [] (merge_text l) = fold_right expanded [] l.
Proof.
  induction l as [|n l IH]; [reflexivity|]. cbn [merge_text fold_right]. fold (merge_text l). rewrite <- IH.
  destruct n as [a b c d e|[|c s]|s|t d]; try reflexivity. cbn [add_node]. destruct (merge_text l) as [|[a b c' d e|[|c' s']|s'|t d] m]; try reflexivity.
  - cbn [fold_right expanded]. now rewrite app_nil_r.
  - cbn [fold_right expanded]. cbn [app]. unfold xadd_text. destruct (fold_right expanded [] m) as [|[ | | | ] y]; try reflexivity. now rewrite <- app_comm_cons, <- app_assoc.
Qed.
Lemma merge_elems : forall l, filter nelement (merge_text l) = filter nelement l.
Proof.
  induction l as [|n l IH]; [reflexivity|]. cbn [merge_text fold_right filter]. fold (merge_text l). rewrite <- IH.
  destruct n as [a b c d e|[|c s]|s|t d]; cbn [add_node nelement]; try reflexivity. destruct (merge_text l) as [|[ | | | ] m]; reflexivity.
Qed.
Lemma trimmed_kids : forall p l ns nss a m kids, trimmed (WElem p l ns nss a m kids) -> Forall trimmed kids.
Proof. intros p l ns nss a m kids H. cbn [trimmed] in H. induction kids as [|k kids IH]; constructor; [apply H|apply IH, H]. Qed.
Lemma tree_source : forall n, askable n -> proper false n -> trimmed n -> source false (tree_of n) /\ (forall rest, expanded (tree_of n) rest = meant n rest).
Proof.
  induction n as [p l ns nss atts more kids IH|s|s|t d] using wnode_ind2; intros HA HP HT.
  - inversion HA as [| | |? ? ? ? ? ? A1 A2 A3 A4 A5 A6]; subst. inversion HP as [| | |? ? ? ? ? ? ? B1 B2 B3 B4 B5 B6 B7]; subst. cbn [app] in B6.
    assert (HK : Forall (source false) (map tree_of kids) /\ fold_right expanded [] (map tree_of kids) = fold_right meant [] kids).
    { apply trimmed_kids in HT. clear - IH A6 B7 HT. induction IH as [|x k Hx Hk IHk]; [split; [constructor|reflexivity]|].
      inversion A6; subst. inversion B7; subst. inversion HT; subst. destruct IHk as [C D]; try assumption. destruct Hx as [E F]; try assumption.
      split; [constructor; assumption|]. cbn [map fold_right]. now rewrite D, F. }
    destruct HK as [K1 K2].
    assert (Hp : forall r, p = Some r -> ncname r) by (intros r ->; destruct ns; [apply B2|contradiction]).
    assert (HL : Forall proper_att (last_wins more)).
    { rewrite Forall_forall in *. intros x Hx. apply B6. eapply XwProofs.last_wins_In. exact Hx. }
    assert (HN : forall a, proper_att a -> att_name (attribute_node a) = ename a).
    { intros a (X1 & X2 & _). unfold att_name, attribute_node. cbn [a_ns a_qname]. now rewrite (proj2 (split_of_qn _ _ X1 X2)). }
    split.
    + cbn [tree_of app]. constructor; try assumption.
      * split.
        -- clear - A3 A4. induction nss as [|[k [u|]] nss IHn]; [constructor| |exfalso; apply (A4 k None); [now left|reflexivity]].
           cbn [declarations flat_map fst snd app map]. inversion A3 as [|? ? N1 N2]; subst. constructor; [|apply IHn; [assumption|intros k' v' H'; apply (A4 k'); now right]].
           intro Hin. apply N1. apply in_map_iff in Hin as ([k' u'] & E & Hin). cbn [fst] in E. subst k'. apply in_flat_map in Hin as ([k2 [u2|]] & I1 & I2); [|destruct I2].
           destruct I2 as [[= <- <-]|[]]. cbn [fst]. apply in_map_iff. exists (k2, Some u2). auto.
        -- rewrite Forall_forall in *. intros [k u] Hin. apply in_flat_map in Hin as ([k2 [u2|]] & I1 & I2); [|destruct I2]. destruct I2 as [[= <- <-]|[]].
           specialize (B5 _ I1). cbn [fst snd binding] in *. destruct k2; cbn [binding fst snd] in *; unfold uri in *; tauto.
      * rewrite Forall_forall in *. intros x Hx. apply in_map_iff in Hx as (a & <- & Ha). destruct (HL _ Ha) as (X1 & X2 & X3 & X4).
        exists (t_prefix a), (t_local a). unfold attribute_node. cbn [a_qname a_value a_ns]. auto.
      * rewrite map_map. rewrite (map_ext_in _ ename). { apply XwProofs.last_wins_nodup. }
        intros a Ha. apply HN. rewrite Forall_forall in HL. now apply HL.
      * apply merge_forall; [|assumption]. intros s t H1 H2. inversion H1; subst. inversion H2; subst. constructor; [|discriminate]. now apply Forall_app.
    + intro rest. cbn [tree_of expanded meant app]. rewrite merge_expanded, K2, (proj2 (split_of_qn p l Hp B1)), map_map. do 2 f_equal.
      apply map_ext_in. intros a Ha. rewrite Forall_forall in HL. specialize (HN a (HL a Ha)). unfold att_name in HN. rewrite HN. reflexivity.
  - inversion HP; subst. split; [constructor; assumption|reflexivity].
  - inversion HP; subst. split; [constructor; assumption|reflexivity].
  - inversion HP as [| |? ? H|]; subst. cbn [trimmed] in HT. rewrite HT in H. split; [constructor; assumption|]. intro rest. cbn [tree_of expanded meant]. now rewrite HT.
Qed.
Lemma merge_names : forall l, incl (flat_map (fun n => names_of (to_w n)) (merge_text l)) (flat_map (fun n => names_of (to_w n)) l).
Proof.
  induction l as [|n l IH]; [easy|]. cbn [merge_text fold_right flat_map]. fold (merge_text l).
  destruct n as [a b c d e|[|c s]|s|t d]; cbn [add_node]; try (cbn [flat_map]; apply incl_app; [apply incl_appl, incl_refl|apply incl_appr, IH]); [exact IH|].
  destruct (merge_text l) as [|[a b c' d e|s'|s'|t d] m]; exact IH.
Qed.
Lemma tree_names : forall n, askable n -> proper false n -> trimmed n -> incl (names_of (to_w (tree_of n))) (names_of n).
Proof.
  induction n as [p l ns nss atts more kids IH|s|s|t d] using wnode_ind2; intros HA HP HT; try apply incl_refl.
  inversion HA as [| | |? ? ? ? ? ? A1 A2 A3 A4 A5 A6]; subst. inversion HP as [| | |? ? ? ? ? ? ? B1 B2 B3 B4 B5 B6 B7]; subst. cbn [app] in B6.
  assert (Hp : forall r, p = Some r -> ncname r) by (intros r ->; destruct ns; [apply B2|contradiction]).
  cbn [tree_of to_w names_of app]. destruct (split_of_qn p l Hp B1) as [-> ->].
  apply incl_app; [apply incl_appl, incl_refl|apply incl_appr]. apply incl_cons; [now left|apply incl_tl].
  apply incl_app; [apply incl_appl|apply incl_appr; apply incl_app; [apply incl_appl|apply incl_appr]].
  - intros x Hx. apply in_flat_map in Hx as ([k v] & H1 & H2). unfold own_declarations, declarations in H1. apply in_map_iff in H1 as ([k' u] & [= <- <-] & H1).
    apply in_flat_map in H1 as ([k2 [u2|]] & I1 & I2); [|destruct I2]. destruct I2 as [[= <- <-]|[]]. apply in_flat_map. eexists. split; [exact I1|exact H2].
  - intros x Hx. apply in_flat_map in Hx as (w & H1 & H2). rewrite map_map in H1. apply in_map_iff in H1 as (a & <- & H1). apply XwProofs.last_wins_In in H1.
    rewrite Forall_forall in B6. destruct (B6 _ H1) as (X1 & X2 & _). unfold to_watt, attribute_node in H2. cbn [t_local t_prefix a_qname] in H2.
    destruct (split_of_qn _ _ X1 X2) as [Y1 Y2]. rewrite Y1, Y2 in H2. apply in_flat_map. exists a. auto.
  - rewrite flat_map_concat_map, map_map, <- flat_map_concat_map. eapply incl_tran; [apply merge_names|].
    rewrite flat_map_concat_map, map_map, <- flat_map_concat_map. apply trimmed_kids in HT. clear - IH A6 B7 HT. induction IH as [|x k Hx Hk IHk]; [easy|].
    inversion A6; subst. inversion B7; subst. inversion HT; subst. cbn [flat_map]. apply incl_app; [apply incl_appl|apply incl_appr]; auto.
Qed.
Lemma kept_back : forall n, askable n -> proper false n -> forall sc r, bindings_kept sc r (to_w (tree_of n)) -> bindings_kept sc r n.
Proof.
  induction n as [p l ns nss atts more kids IH|s|s|t d] using wnode_ind2; intros HA HP sc r HB; try (inversion HB; fail).
  inversion HA as [| | |? ? ? ? ? ? A1 A2 A3 A4 A5 A6]; subst. inversion HP as [| | |? ? ? ? ? ? ? B1 B2 B3 B4 B5 B6 B7]; subst.
  assert (Hp : forall r, p = Some r -> ncname r) by (intros r' ->; destruct ns; [apply B2|contradiction]).
  cbn [tree_of to_w app] in HB. destruct (split_of_qn p l Hp B1) as [E1 E2]. rewrite E1, E2 in HB.
  inversion HB as [? sc' q ratts rkids ? ? ? ? ? ? ? C1 C2 C3 C4]; subst. econstructor; [reflexivity|exact C2| |].
  - intros k v Hin Hk. apply C3; [|assumption]. destruct v as [u|]; [|exfalso; now apply (A4 k None)].
    unfold own_declarations, declarations. apply in_map_iff. exists (k, u). split; [reflexivity|]. apply in_flat_map. exists (k, Some u). split; [assumption|now left].
  - assert (EF : filter welement (map to_w (merge_text (map tree_of kids))) = map (fun n => to_w (tree_of n)) (filter welement kids)).
    { transitivity (map to_w (filter nelement (merge_text (map tree_of kids)))).
      - clear. induction (merge_text (map tree_of kids)) as [|n m IHm]; [reflexivity|]. cbn [map filter]. destruct n; cbn [to_w welement nelement map]; now rewrite IHm.
      - rewrite merge_elems. clear. induction kids as [|n m IHm]; [reflexivity|]. cbn [map filter]. destruct n; cbn [tree_of nelement welement map]; now rewrite IHm. }
    rewrite EF in C4. clear - C4 IH A6 B7. revert C4. generalize (elements rkids) as rs. induction IH as [|x k Hx Hk IHk]; intros rs C4; cbn [filter map] in *; [inversion C4; constructor|].
    inversion A6; subst. inversion B7; subst. destruct (welement x) eqn:EX; cbn [map] in C4; [|now apply IHk]. inversion C4; subst. constructor; [now apply Hx|now apply IHk].
Qed.
(** C69: a variable that is copied to the output gives what its content would
    have given there: the same tree, and the namespaces that were asked for. *)
Theorem C69_copied_partial : forall cd dec public ordn orda encoding nodes,
  sound_codec cd -> decodes cd dec -> any_dict_order ordn orda ->
  Forall askable nodes -> Forall (proper false) nodes -> Forall trimmed nodes -> encodable cd nodes ->
  exists f, fragment (flat_map calls nodes) = Ok f /\
  exists bs t l xs, write true Plain public None ordn orda encoding true (xmlstream_new cd) (copy_of (SNodeset [IDoc f])) = Ok bs /\
    dec bs = Some t /\ read_content t = Some l /\ resolve_all scope0 l = Some xs /\
    Forall2 same_tree xs (fold_right meant [] nodes) /\
    Forall2 (bindings_kept scope0) (elements l) (filter welement nodes).
Proof.
  intros cd dec public ordn orda encoding nodes Hcd Hd HO HA HP HT HE. exists (merge_text (map tree_of nodes)). split; [now apply C69_built_partial|].
  assert (HS : Forall (source false) (map tree_of nodes) /\ fold_right expanded [] (map tree_of nodes) = fold_right meant [] nodes).
  { clear - HA HP HT. induction HA as [|n l Hn _ IH]; [split; [constructor|reflexivity]|]. inversion HP; subst. inversion HT; subst.
    destruct IH as [A B]; try assumption. destruct (tree_source n) as [C D]; try assumption. split; [constructor; assumption|]. cbn [map fold_right]. now rewrite B, D. }
  destruct HS as [S1 S2].
  assert (S3 : Forall (source false) (merge_text (map tree_of nodes))).
  { apply merge_forall; [|assumption]. intros s t H1 H2. inversion H1; subst. inversion H2; subst. constructor; [|discriminate]. now apply Forall_app. }
  destruct (all_proper _ _ S3) as [P1 P2].
  assert (EC : copy_of (SNodeset [IDoc (merge_text (map tree_of nodes))]) = flat_map calls (map to_w (merge_text (map tree_of nodes)))).
  { unfold copy_of, copy_nodes. cbn [flat_map copy_item]. rewrite app_nil_r. clear. induction (merge_text (map tree_of nodes)) as [|n l IH]; [reflexivity|].
    cbn [map flat_map]. now rewrite calls_to_w, IH. }
  rewrite EC. destruct (C64_written cd dec Plain public None ordn orda encoding true (map to_w (merge_text (map tree_of nodes)))) as (bs & t & l & xs & W1 & W2 & W3 & W4 & W5 & W6);
    try assumption; [discriminate|now right|reflexivity| |].
  { unfold encodable in *. rewrite Forall_forall in *. intros s Hs. apply HE. rewrite flat_map_concat_map, map_map, <- flat_map_concat_map in Hs. apply merge_names in Hs.
    rewrite flat_map_concat_map, map_map, <- flat_map_concat_map in Hs. apply in_flat_map in Hs as (n & N1 & N2). apply in_flat_map. exists n. split; [assumption|]. apply tree_names; auto. }
  exists bs, t, l, xs. repeat (split; [assumption|]). split.
  - rewrite P2, merge_expanded, S2 in W5. exact W5.
  - assert (EF : filter welement (map to_w (merge_text (map tree_of nodes))) = map (fun n => to_w (tree_of n)) (filter welement nodes)).
    { transitivity (map to_w (filter nelement (merge_text (map tree_of nodes)))).
      - clear. induction (merge_text (map tree_of nodes)) as [|n m IHm]; [reflexivity|]. cbn [map filter]. destruct n; cbn [to_w welement nelement map]; now rewrite IHm.
      - rewrite merge_elems. clear. induction nodes as [|n m IHm]; [reflexivity|]. cbn [map filter]. destruct n; cbn [tree_of nelement welement map]; now rewrite IHm. }
    rewrite EF in W6. clear - W6 HA HP. revert W6. generalize (elements l) as rs. induction nodes as [|x k IHk]; intros rs W6; cbn [filter map] in *; [inversion W6; constructor|].
    inversion HA; subst. inversion HP; subst. destruct (welement x) eqn:EX; cbn [map] in W6; [|now apply IHk]. inversion W6; subst. constructor; [now apply kept_back|now apply IHk].
Qed.
Print Assumptions C69_copied_partial.

(** ** What is not so *)
(** Attributes given to start_element are dropped; the XML writer writes them. *)
Theorem C69_attributes_refuted : exists n, proper false n /\ fragment (calls n) = Ok [NElem None (lit "a") [] [] []] /\
  tree_of n = NElem None (lit "a") [] [{| a_ns := None; a_qname := lit "b"; a_value := lit "1" |}] [].
Proof.
  exists (WElem None (lit "a") None [] [{| t_prefix := None; t_local := lit "b"; t_ns := None; t_value := lit "1" |}] [] []). split; [easy_proper|].
  split; vm_compute; reflexivity.
Qed.
Print Assumptions C69_attributes_refuted.
(** xmlns="" on an element in a variable is refused; the XML writer writes it. *)
Theorem C69_undeclared_refuted : exists n, proper false n /\ fragment (calls n) = Err SystemError.
Proof. exists (WElem None (lit "a") None [(None, None)] [] [] []). split; [easy_proper|]. vm_compute; reflexivity. Qed.
Print Assumptions C69_undeclared_refuted.
(** A namespace node that is asked for is dropped, in every fragment. *)
Theorem C69_namespace_refuted : forall l1 l2 p u, fragment (l1 ++ Namespace p u :: l2) = fragment (l1 ++ l2).
Proof. intros l1 l2 p u. unfold fragment. rewrite !run_app. destruct (tw_run l1 tw_new); reflexivity. Qed.
Print Assumptions C69_namespace_refuted.
(** An attribute that comes after other content is ignored, but not when all of
    that content is text. *)
Theorem C69_late_refuted :
  fragment [StartElement (lit "a") None [] []; Comment (lit "x"); Attribute (lit "b") (lit "1") None; EndElement (lit "a")] =
    Ok [NElem None (lit "a") [] [] [NComment (lit "x")]] /\
  fragment [StartElement (lit "a") None [] []; Text (lit "x"); Attribute (lit "b") (lit "1") None; EndElement (lit "a")] =
    Ok [NElem None (lit "a") [] [{| a_ns := None; a_qname := lit "b"; a_value := lit "1" |}] [NText (lit "x")]].
Proof. split; vm_compute; reflexivity. Qed.
Print Assumptions C69_late_refuted.

(** ** A concrete case *)
Definition c69_nodes : list wnode :=
  [WText (lit "x"); WText (lit "y");
   WElem (Some (lit "p")) (lit "a") (Some (lit "u")) [(Some (lit "p"), Some (lit "u")); (None, Some (lit "v"))] []
     [{| t_prefix := None; t_local := lit "k"; t_ns := None; t_value := lit "1" |};
      {| t_prefix := Some (lit "q"); t_local := lit "k"; t_ns := Some (lit "w"); t_value := lit "2" |};
      {| t_prefix := None; t_local := lit "k"; t_ns := None; t_value := lit "3" |}]
     [WText (lit "m"); WText []; WText (lit "n"); WPI (lit "t") (lit "d"); WElem None (lit "b") (Some (lit "v")) [] [] [] [WText []]; WComment (lit "c"); WText (lit "z")]].
Lemma c69_askable : Forall askable c69_nodes.
Proof.
  assert (NC : forall s, forallb (fun c => negb (c =? 58)) s = true -> no_colon s).
  { intros s H Hin. rewrite forallb_forall in H. specialize (H _ Hin). discriminate. }
  assert (HN : forall q, Some (lit "p") = Some q -> no_colon q /\ Some (lit "u") <> None) by (intros q [= <-]; split; [now apply NC|discriminate]).
  constructor; [constructor|]. constructor; [constructor|]. constructor; [|constructor]. apply as_elem.
  - now apply NC.
  - exact HN.
  - constructor; [intros [[=]|[]]|]. constructor; [intros []|constructor].
  - intros k v [[= <- <-]|[[= <- <-]|[]]]; discriminate.
  - repeat apply Forall_cons; try apply Forall_nil; (split; [now apply NC|]); intros p Hp; try discriminate Hp. injection Hp as <-. split; [now apply NC|discriminate].
  - repeat apply Forall_cons; try apply Forall_nil; try constructor; try (now apply NC); try discriminate; try constructor; try (intros ? ? []); constructor.
Qed.
Example C69_case : Forall askable c69_nodes /\ Forall (proper false) c69_nodes /\ Forall trimmed c69_nodes /\
  fragment (flat_map calls c69_nodes) = Ok
    [NText (lit "xy");
     NElem (Some (lit "u")) (lit "p:a") [(Some (lit "p"), lit "u"); (None, lit "v")]
       [{| a_ns := Some (lit "w"); a_qname := lit "q:k"; a_value := lit "2" |}; {| a_ns := None; a_qname := lit "k"; a_value := lit "3" |}]
       [NText (lit "mn"); NPI (lit "t") (lit "d"); NElem (Some (lit "v")) (lit "b") [] [] []; NComment (lit "c"); NText (lit "z")]].
Proof.
  split; [exact c69_askable|]. split; [|split; [|vm_compute; reflexivity]].
  - unfold c69_nodes. easy_proper.
  - repeat (apply Forall_cons; [vm_compute; repeat split|]). apply Forall_nil.
Qed.
Example C69_nested_case : nested (flat_map calls c69_nodes) /\ text_called (flat_map calls c69_nodes) = lit "xymnz" /\
  fragment [StartElement (lit "a") None [] []; StartElement (lit "b") None [] []; EndElement (lit "a"); EndElement (lit "b")] = Err RuntimeError /\
  fragment [StartElement (lit "a") None [] []] = Err RuntimeError.
Proof.
  split; [|repeat split; vm_compute; reflexivity]. eapply C69_nested. apply C69_built_partial. exact c69_askable.
Qed.
