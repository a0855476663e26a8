(** * C64: the XML writer *)
From Coq Require Import NArith ZArith String List Bool Lia Arith Permutation.
From Verif Require Import PyStr PyErr XsModel SerModel SerSpec SerStream SerPrint SerVisit SerRead SerTree SerNs SerTop SerDocs SerCodec SerProps XwModel XwSpec XwProofs XwTree.
Import ListNotations.
Open Scope N_scope.

Definition any_dict_order (ordn : wdict -> wdict) (orda : wattrs -> wattrs) : Prop :=
  (forall l, Permutation (ordn l) l) /\ (forall l, Permutation (orda l) l).
Definition encodable (cd : codec) (nodes : list wnode) : Prop := Forall (fun s => encode cd s <> None) (flat_map names_of nodes).

(** ** Merging text *)
Lemma kept_merge : forall r sc n, bindings_kept sc r n -> forall q a k, r = RElem q a k -> bindings_kept sc (RElem q a (fold_right merge [] k)) n.
Proof.
  assert (HS : forall s l, elements (add_text s l) = elements l).
  { intros [|c s] l; [reflexivity|]. destruct l as [|[] l]; reflexivity. }
  induction r as [q a k IH|s|d|t d|x y z] using rnode_ind2; intros sc n HK q0 a0 k0 E; try discriminate.
  injection E as <- <- <-. inversion HK as [? sc' ? ? ? p l ns nss atts more kids Hq Hd Hb HF]; subst.
  econstructor; [reflexivity|exact Hd|exact Hb|]. clear HK Hd Hb.
  revert kids HF. generalize (filter welement). intros F kids. generalize (F kids). clear F kids.
  induction IH as [|r k Hr Hk IHk]; intros ws HF; [exact HF|]. cbn [fold_right].
  destruct r as [q1 a1 k1|s|d|t d|x y z].
  - change (elements (RElem q1 a1 k1 :: k)) with (RElem q1 a1 k1 :: elements k) in HF. inversion HF as [|? w ? ws' HF1 HF2]; subst.
    cbn [merge]. constructor; [eapply Hr; [exact HF1|reflexivity]|now apply IHk].
  - cbn [merge]. rewrite HS. apply IHk. exact HF.
  - apply IHk. exact HF.
  - apply IHk. exact HF.
  - apply IHk. exact HF.
Qed.
Lemma kept_merge_all : forall sc rs ws, Forall2 (bindings_kept sc) (elements rs) ws -> Forall2 (bindings_kept sc) (elements (merge_all rs)) ws.
Proof.
  assert (HS : forall s l, elements (add_text s l) = elements l).
  { intros [|c s] l; [reflexivity|]. destruct l as [|[] l]; reflexivity. }
  intros sc. induction rs as [|r rs IH]; intros ws H; [exact H|]. unfold merge_all. cbn [fold_right]. fold (merge_all rs).
  destruct r as [q a k|s|d|t d|x y z].
  - change (elements (RElem q a k :: rs)) with (RElem q a k :: elements rs) in H. inversion H; subst. cbn [merge].
    constructor; [eapply kept_merge; [eassumption|reflexivity]|now apply IH].
  - cbn [merge]. rewrite HS. now apply IH.
  - now apply IH.
  - now apply IH.
  - now apply IH.
Qed.
Lemma resolve_merge_all : forall sc rs xs, resolve_all sc rs = Some xs -> resolve_all sc (merge_all rs) = Some (fold_right xmerge [] xs).
Proof.
  intros sc. induction rs as [|r rs IH]; intros xs H; [cbn in H; injection H as <-; reflexivity|]. cbn [resolve_all] in H.
  destruct (resolve sc r) as [x|] eqn:E; [|discriminate]. destruct (resolve_all sc rs) as [ys|] eqn:E2; [|discriminate]. injection H as <-.
  unfold merge_all. cbn [fold_right]. fold (merge_all rs). rewrite resolve_merge, E, (IH _ eq_refl). reflexivity.
Qed.
Lemma same_xmerge_all : forall xs ys, Forall2 same_tree xs ys -> Forall2 same_tree (fold_right xmerge [] xs) (fold_right xmerge [] ys).
Proof. induction 1 as [|x y xs ys H HF IH]; [constructor|]. cbn [fold_right]. now apply same_xmerge. Qed.
Lemma meant_all : forall l, fold_right meant [] l = fold_right xmerge [] (map wtree l).
Proof. induction l as [|n l IH]; [reflexivity|]. cbn [fold_right map]. now rewrite meant_xmerge, IH. Qed.

Definition dict0 : wdict := [(None, None); (Some (lit "xml"), Some XML_NAMESPACE); (Some (lit "xmlns"), Some XMLNS_NAMESPACE)].
Lemma dict0_good : forall cd, sound_codec cd -> gooddict cd dict0.
Proof.
  intros cd Hcd. split; [|split; [reflexivity|split; [reflexivity|split]]].
  - repeat constructor; cbn; intuition discriminate.
  - intros k v [E|[E|[E|[]]]] Hk; injection E as <- <-; [exact I| |exfalso; now apply Hk].
    cbn [binding]. split; [split; [reflexivity|cbn; intuition discriminate]|]. split; [discriminate|]. split; [|tauto].
    split; [litchars|]. split; discriminate.
  - intros p [E|[E|[E|[]]]]; [discriminate| |]; injection E as <-; apply enc_ascii; try assumption; ascii.
Qed.
Lemma agree0 : agree dict0 scope0.
Proof.
  intros [p|] Hk; [|reflexivity]. unfold scope0, wflat, dict0. cbn [wget okey_eqb].
  destruct (str_eqb_spec p (lit "xml")) as [->|Hn]; [reflexivity|]. destruct (str_eqb_spec (lit "xml") p); [congruence|].
  destruct (str_eqb_spec (lit "xmlns") p) as [E|]; [|reflexivity]. exfalso. apply Hk. unfold xmlnsk. congruence.
Qed.

(** ** The output, for any start of the stream *)
Lemma body_written : forall cd st public system ordn orda nodes p0, st <> Pretty -> truthy system = false -> sound_codec cd -> any_dict_order ordn orda ->
  goodp cd p0 -> p_elem p0 = None ->
  Forall (proper (canon_of st)) nodes -> encodable cd nodes ->
  exists w rs, bind (run true st public system ordn orda (flat_map calls nodes)
                      {| w_p := p0; w_need_doctype := negb (canon_of st); w_name := None; w_nss := [dict0]; w_atts := [] |})
                 (writer_end true st ordn orda) = Ok w /\
    emits (p_x p0) (p_x (w_p w)) (nodes_chars cd (canon_of st) rs) /\ Forall legal rs /\
    (exists xs, resolve_all scope0 rs = Some xs /\ Forall2 same_tree xs (map wtree nodes)) /\
    Forall2 (bindings_kept scope0) (elements rs) (filter welement nodes).
Proof.
  intros cd st public system ordn orda nodes p0 Hst Hsys Hcd [O1 O2] Hg He HP HE.
  set (w0 := {| w_p := p0; w_need_doctype := negb (canon_of st); w_name := None; w_nss := [dict0]; w_atts := [] |}).
  assert (HB : between_nodes cd w0 dict0 []).
  { unfold between_nodes, w0. cbn. split; [reflexivity|]. split; [reflexivity|]. split; [reflexivity|]. split; [now apply dict0_good|]. split; [assumption|]. unfold okelem. congruence. }
  destruct (nodes_ok cd st public system ordn orda nodes) with (w := w0) (d := dict0) (rest := @nil wdict) as (w & rs & R & B & S1 & P1 & L & M); try assumption.
  { apply Forall_forall. intros n _. now apply all_ok. }
  destruct (M scope0 agree0) as [M1 M2]. rewrite R. cbn [bind].
  destruct B as (B1 & B2 & B3 & B4 & B5 & B6). unfold writer_end. rewrite complete_none by assumption. cbn [bind].
  assert (EE : p_elem (w_p w) = None) by (rewrite P1; destruct rs; [exact He|reflexivity]).
  unfold end_document, is_open. rewrite EE. cbn [rmap]. eexists. exists rs. split; [reflexivity|]. cbn [with_p w_p].
  split; [|auto]. destruct S1 as (_ & _ & EM). unfold pend, is_open in EM. change (w_p w0) with p0 in EM. rewrite He in EM. destruct rs; exact EM.
Qed.

(** ** The property *)
Theorem C64_written : forall cd dec st public system ordn orda encoding omit nodes, st <> Pretty -> (st = Canon \/ omit = true) ->
  truthy system = false -> sound_codec cd -> decodes cd dec -> any_dict_order ordn orda ->
  Forall (proper (canon_of st)) nodes -> encodable cd nodes ->
  exists bs t l xs, write true st public system ordn orda encoding omit (xmlstream_new cd) (flat_map calls nodes) = Ok bs /\
    dec bs = Some t /\ read_content t = Some l /\ resolve_all scope0 l = Some xs /\
    Forall2 same_tree xs (fold_right meant [] nodes) /\
    Forall2 (bindings_kept scope0) (elements l) (filter welement nodes).
Proof.
  intros cd dec st public system ordn orda encoding omit nodes Hst Ho Hsys Hcd Hd HO HP HE.
  destruct (body_written cd st public system ordn orda nodes (printer_new (xmlstream_new cd)) Hst Hsys Hcd HO (new_good cd Hcd) eq_refl HP HE)
    as (w & rs & R & (b & EB & EW) & L & (xs & X1 & X2) & K).
  exists b, (nodes_chars cd (canon_of st) rs), (merge_all rs), (fold_right xmerge [] xs).
  split; [|split; [|split; [|split; [|split]]]].
  - unfold write, writer_start. assert (canon_of st || omit = true) as -> by (destruct Ho as [-> | ->]; [reflexivity|apply orb_true_r]).
    cbn [bind]. fold dict0. destruct (run _ _ _ _ _ _ _ _) as [w1|e]; [|discriminate]. cbn [bind] in R |- *. rewrite R. cbn [rmap]. rewrite EW. reflexivity.
  - apply Hd; [now apply nodes_chars_ok|exact EB].
  - now apply read_nodes.
  - now apply resolve_merge_all.
  - rewrite meant_all. now apply same_xmerge_all.
  - now apply kept_merge_all.
Qed.
Print Assumptions C64_written.

Lemma newline_chars : forall cd, sound_codec cd -> node_chars cd false (RText [10]) = [10].
Proof.
  intros cd Hcd. cbn [node_chars flat_map]. rewrite app_nil_r.
  assert (cd 10 <> None) by (destruct Hcd as [H|(_ & H & _)]; [rewrite H by lia; discriminate|apply H; lia]).
  unfold esc. change (emap_lookup text_entities 10) with (@None repl). unfold escc. destruct (cd 10); [reflexivity|congruence].
Qed.

(** With an XML declaration, which is followed by a line feed. *)
Theorem C64_declaration : forall cd dec public system ordn orda encoding nodes,
  truthy system = false -> sound_codec cd -> decodes cd dec -> any_dict_order ordn orda -> legal_encname encoding ->
  Forall (proper false) nodes -> encodable cd nodes ->
  exists bs t body l xs, write true Plain public system ordn orda encoding false (xmlstream_new cd) (flat_map calls nodes) = Ok bs /\
    dec bs = Some t /\ read_decl t = Some (Some (lit "1.0", encoding), body) /\ read_content body = Some l /\ resolve_all scope0 l = Some xs /\
    Forall2 same_tree xs (fold_right meant [] (WText [10] :: nodes)) /\
    Forall2 (bindings_kept scope0) (elements l) (filter welement nodes).
Proof.
  intros cd dec public system ordn orda encoding nodes Hsys Hcd Hd HO HN HP HE.
  set (p0 := printer_new (xmlstream_new cd)). assert (G0 : goodp cd p0) by now apply new_good.
  assert (O1 : out p0 (decl_chars encoding ++ [10]) (p_elem p0) (p_level p0) (p_can_indent p0) (start_document false encoding (lit "1.0") p0)).
  { unfold start_document.
    assert (EA : decl_chars encoding ++ [10] = (lit "<?xml version=""" ++ lit "1.0" ++ lit """ encoding=""" ++ encoding ++ lit """") ++ (lit "?>" ++ [10])).
    { unfold decl_chars. rewrite <- !app_assoc. reflexivity. }
    rewrite EA. eapply out_bind; [exact G0|eapply p_ascii_out; [exact G0|]|].
    - rewrite !Forall_app. repeat split; try ascii. now apply encname_ascii.
    - intros p1 H1 <- <- <-. eapply p_ascii_out; [exact H1|ascii]. }
  destruct (out_to_step cd p0 _ (p_elem p0) _ _ _ G0 ltac:(discriminate) O1) as (p1 & E1 & (G1 & _ & EM1) & El1).
  destruct (body_written cd Plain public system ordn orda nodes p1 ltac:(discriminate) Hsys Hcd HO G1 El1 HP HE)
    as (w & rs & R & EM2 & L & (xs & X1 & X2) & K).
  destruct (emits_trans _ _ _ _ _ EM1 EM2) as (b & EB & EW).
  assert (EBody : [10] ++ nodes_chars cd false rs = nodes_chars cd false (RText [10] :: rs)).
  { unfold nodes_chars. cbn [flat_map]. now rewrite newline_chars. }
  assert (L' : Forall legal (RText [10] :: rs)) by (constructor; [constructor; repeat constructor|assumption]).
  exists b, (decl_chars encoding ++ nodes_chars cd false (RText [10] :: rs)), (nodes_chars cd false (RText [10] :: rs)), (merge_all (RText [10] :: rs)), (fold_right xmerge [] (XText [10] :: xs)).
  split; [|split; [|split; [|split; [|split; [|split]]]]].
  - unfold write, writer_start. cbn [canon_of orb]. fold p0. rewrite E1. cbn [bind]. fold dict0. cbn [canon_of] in R. destruct (run _ _ _ _ _ _ _ _) as [w1|e]; [|discriminate].
    cbn [bind] in R |- *. rewrite R. cbn [rmap]. rewrite EW. reflexivity.
  - apply Hd.
    + apply chars_app. split; [now apply decl_chars_ok|now apply nodes_chars_ok].
    + rewrite <- EBody, app_assoc. exact EB.
  - now apply read_decl_ok.
  - now apply read_nodes.
  - apply resolve_merge_all. cbn [resolve_all resolve]. now rewrite X1.
  - rewrite meant_all. apply same_xmerge_all. cbn [map wtree]. constructor; [constructor|assumption].
  - apply kept_merge_all. exact K.
Qed.
Print Assumptions C64_declaration.

(** ** Attributes that come too early or too late *)
Definition is_start (c : call) : bool := match c with StartElement _ _ _ _ => true | _ => false end.
Definition is_content (c : call) : bool := match c with Text _ | Comment _ | PI _ _ | EndElement _ => true | _ => false end.

Section Misplaced.
  Variables (wide : bool) (st : style) (public system : option str) (ordn : wdict -> wdict) (orda : wattrs -> wattrs).
  Lemma complete_frame : forall w w', complete_element wide st ordn orda w = Ok w' ->
    truthy (w_name w') = false /\ w_need_doctype w' = w_need_doctype w.
  Proof.
    intros w w' H. unfold complete_element in H. destruct (truthy (w_name w)) eqn:E; [|injection H as <-; auto].
    destruct (w_nss w) as [|d [|up r]]; try discriminate. destruct (start_element _ _ _ _ _ _) as [p|e]; [|discriminate]. cbn [bind] in H. injection H as <-. auto.
  Qed.
  Lemma attribute_frame : forall n v u w w', w_attribute ordn n v u w = Ok w' -> w_need_doctype w' = w_need_doctype w.
  Proof.
    intros n v u w w' H. unfold w_attribute in H. destruct (negb (truthy (w_name w))); [discriminate|]. destruct (XsModel.split_qname n) as [p l].
    destruct u as [u|]; [|injection H as <-; reflexivity]. destruct (w_nss w) as [|d r]; [discriminate|]. destruct (choose_prefix ordn d p u) as [[q d']|e]; [|discriminate].
    cbn [bind fst snd] in H. destruct q; [discriminate|]. injection H as <-. reflexivity.
  Qed.
  Lemma attributes_frame : forall l w w', w_attributes ordn l w = Ok w' -> w_need_doctype w' = w_need_doctype w.
  Proof.
    induction l as [|[[n u] v] l IH]; intros w w' H; cbn [w_attributes] in H; [injection H as <-; reflexivity|].
    destruct (w_attribute ordn n v u w) as [w1|e] eqn:E; [|discriminate]. cbn [bind] in H. rewrite (IH _ _ H). now apply attribute_frame in E.
  Qed.
  Lemma call_frame : forall c w w', do_call wide st public system ordn orda c w = Ok w' ->
    w_need_doctype w' = (w_need_doctype w && negb (is_start c)) /\ (is_content c = true -> truthy (w_name w') = false).
  Proof.
    intros c w w' H. destruct c as [n u d a|n v u|p u|n|s|s|t s]; cbn [do_call] in H; cbn [is_start is_content negb]; rewrite ?andb_true_r, ?andb_false_r.
    - unfold w_start_element in H. destruct (complete_element _ _ _ _ w) as [w1|e]; [|discriminate]. cbn [bind] in H.
      match type of H with bind ?r _ = _ => destruct r as [p|e]; [|discriminate] end. cbn [bind] in H. destruct (w_nss w1); [discriminate|].
      apply attributes_frame in H. split; [exact H|discriminate].
    - apply attribute_frame in H. split; [exact H|discriminate].
    - unfold w_namespace in H. destruct (w_nss w) as [|d r]; [discriminate|]. destruct (wget d p) as [v|].
      + destruct (okey_eqb v u); [injection H as <-|discriminate]. split; [reflexivity|discriminate].
      + destruct (_ && _); [discriminate|]. injection H as <-. split; [reflexivity|discriminate].
    - unfold w_end_element in H. destruct (complete_element _ _ _ _ w) as [w1|e] eqn:E; [|discriminate]. cbn [bind] in H. apply complete_frame in E as [E1 E2].
      destruct (end_element st n (w_p w1)) as [p|e]; [|discriminate]. cbn [bind] in H. destruct (w_nss w1); [discriminate|]. injection H as <-. cbn. auto.
    - unfold w_text in H. destruct (complete_element _ _ _ _ w) as [w1|e] eqn:E; [|discriminate]. cbn [bind] in H. apply complete_frame in E as [E1 E2].
      destruct (text _ _ _ _) as [p|e]; [|discriminate]. injection H as <-. cbn. auto.
    - unfold w_comment in H. destruct (complete_element _ _ _ _ w) as [w1|e] eqn:E; [|discriminate]. cbn [bind] in H. apply complete_frame in E as [E1 E2].
      destruct (comment _ _ _) as [p|e]; [|discriminate]. injection H as <-. cbn. auto.
    - unfold w_pi in H. destruct (complete_element _ _ _ _ w) as [w1|e] eqn:E; [|discriminate]. cbn [bind] in H. apply complete_frame in E as [E1 E2].
      destruct (processing_instruction _ _ _ _) as [p|e]; [|discriminate]. injection H as <-. cbn. auto.
  Qed.
  Lemma run_frame : forall l w w', run wide st public system ordn orda l w = Ok w' -> w_need_doctype w' = (w_need_doctype w && negb (existsb is_start l)).
  Proof.
    induction l as [|c l IH]; intros w w' H; cbn [run existsb] in *; [injection H as <-; now rewrite andb_true_r|].
    destruct (do_call _ _ _ _ _ _ c w) as [w1|e] eqn:E; [|discriminate]. cbn [bind] in H. rewrite (IH _ _ H). apply call_frame in E as [-> _].
    rewrite negb_orb. now rewrite andb_assoc.
  Qed.
  Lemma run_split : forall a b w, run wide st public system ordn orda (a ++ b) w = bind (run wide st public system ordn orda a w) (run wide st public system ordn orda b).
  Proof. induction a as [|c a IH]; intros b w; [reflexivity|]. cbn [app run]. destruct (do_call _ _ _ _ _ _ c w); [apply IH|reflexivity]. Qed.
End Misplaced.

(** After any history that is empty or ends with content or an end tag,
    attribute() is refused, and the error tells whether there was an element. *)
Theorem C64_misplaced : forall wide st public system ordn orda encoding omit x history w0 w name value ns,
  writer_start st encoding omit x = Ok w0 -> run wide st public system ordn orda history w0 = Ok w ->
  (history = [] \/ exists h c, history = h ++ [c] /\ is_content c = true) ->
  w_attribute ordn name value ns w = Err (if canon_of st || existsb is_start history then TooLate else NonElement).
Proof.
  intros wide st public system ordn orda encoding omit x history w0 w name value ns H0 HR HH.
  assert (HW : truthy (w_name w0) = false /\ w_need_doctype w0 = negb (canon_of st)).
  { unfold writer_start in H0. destruct (canon_of st || omit); [|destruct (start_document _ _ _ _) as [p|e]; [|discriminate]]; cbn [bind] in H0; injection H0 as <-; auto. }
  destruct HW as [HW1 HW2]. pose proof (run_frame wide st public system ordn orda history w0 w HR) as HN. rewrite HW2 in HN.
  assert (HT : truthy (w_name w) = false).
  { destruct HH as [->|(h & c & -> & Hc)]; [cbn in HR; injection HR as <-; exact HW1|].
    rewrite run_split in HR. destruct (run _ _ _ _ _ _ h w0) as [w1|e]; [|discriminate]. cbn [bind run] in HR.
    destruct (do_call _ _ _ _ _ _ c w1) as [w2|e] eqn:E; [|discriminate]. cbn [bind] in HR. injection HR as <-. now apply call_frame in E as [_ E]; auto. }
  unfold w_attribute. rewrite HT. cbn [negb]. rewrite HN. rewrite <- negb_orb. destruct (canon_of st || existsb is_start history); reflexivity.
Qed.
Print Assumptions C64_misplaced.

(** ** A case: the prefix [p] is suggested for two namespaces, an attribute is
    overridden, one in a namespace comes without prefix, and a child goes back
    to no namespace. *)
Definition atn (p : option str) (l : str) (u : option str) (v : str) : watt := {| t_prefix := p; t_local := l; t_ns := u; t_value := v |}.
Definition wtree1 : wnode :=
  WElem (Some (lit "p")) (lit "e") (Some (lit "urn:a")) [(None, Some (lit "urn:d")); (Some (lit "q"), Some (lit "urn:q"))]
    [atn (Some (lit "p")) (lit "x") (Some (lit "urn:b")) (lit "1<"); atn None (lit "y") None (lit "2")]
    [atn None (lit "z") (Some (lit "urn:c")) (lit "3"); atn (Some (lit "w")) (lit "x") (Some (lit "urn:b")) (lit "4")]
    [WText (lit "a&"); WText (lit "b"); WElem None (lit "k") None [] [] [] []; WComment (lit "c"); WPI (lit "t") (lit " d ")].
Definition wreq : wdict -> wdict := fun l => l.
Definition wreqa : wattrs -> wattrs := fun l => l.
Lemma ord_case : any_dict_order wreq wreqa.
Proof. split; intro l; apply Permutation_refl. Qed.
Definition ncnameb (s : str) : bool := is_name s && negb (mem 58 s).
Lemma ncname_b : forall s, ncnameb s = true -> ncname s.
Proof. intros s H. apply andb_true_iff in H as [H1 H2]. split; [exact H1|]. intro Hi. apply mem_In in Hi. rewrite Hi in H2. discriminate H2. Qed.
(** The hypotheses on concrete names and trees, by the form of the goal. *)
Ltac easy_step := match goal with
  | |- _ /\ _ => split
  | |- _ <-> _ => let H := fresh in split; intro H; vm_compute in H; discriminate H
  | |- True => exact I
  | |- chars _ => litchars
  | |- ncname _ => apply ncname_b; vm_compute; reflexivity
  | |- uri _ => unfold uri
  | |- binding _ _ => cbn [binding]
  | |- proper_att _ => unfold proper_att; cbn [t_prefix t_local t_value t_ns]
  | |- legal_comment _ => unfold legal_comment
  | |- legal_pi _ _ => unfold legal_pi
  | |- proper _ (WElem _ _ _ _ _ _ _) => apply pr_elem
  | |- proper _ (WText _) => apply pr_text
  | |- proper _ (WComment _) => apply pr_comment
  | |- proper _ (WPI _ _) => apply pr_pi
  | |- Forall _ _ => cbn [app fst snd map]; constructor; cbn [fst snd]
  | |- NoDup _ => cbn [map fst]; constructor
  | |- ~ In _ _ => let H := fresh in intro H; vm_compute in H; intuition discriminate
  | |- forall p, _ = Some p -> _ => let p := fresh "p" in let H := fresh in intros p H; first [discriminate H | injection H as <-]
  | |- _ = true -> _ => intros _
  | |- _ = true => vm_compute; reflexivity
  | |- _ = false => vm_compute; reflexivity
  | |- _ <> _ => let H := fresh in intro H; vm_compute in H; discriminate H
  | |- match _ with _ => _ end => vm_compute; first [exact I|reflexivity|intro; discriminate]
  end.
Ltac easy_proper := repeat easy_step.
Example C64_case_proper : proper true wtree1 /\ encodable utf8_codec [wtree1].
Proof.
  split; [|repeat (constructor; [vm_compute; discriminate|]); constructor].
  unfold wtree1, atn. easy_proper.
Qed.
Definition to_bytes (st : style) (l : list call) : result (list N) := write true st None None wreq wreqa (lit "utf-8") true (xmlstream_new utf8_codec) l.
Example C64_case : to_bytes Plain (flat_map calls [wtree1]) =
  Ok (lit "<p:e xmlns=""urn:d"" xmlns:q=""urn:q"" xmlns:p=""urn:a"" xmlns:org.4suite.4xslt.ns0=""urn:b"" xmlns:org.4suite.4xslt.ns1=""urn:c"" org.4suite.4xslt.ns0:x=""4"" y=""2"" org.4suite.4xslt.ns1:z=""3"">a&amp;b<k xmlns=""""/><!--c--><?t d?></p:e>").
Proof. vm_compute. reflexivity. Qed.
Example C64_case_declaration : legal_encname (lit "utf-8") /\
  write true Plain None None wreq wreqa (lit "utf-8") false (xmlstream_new utf8_codec) (flat_map calls [WElem None (lit "a") None [] [] [] []]) =
  Ok (lit "<?xml version=""1.0"" encoding=""utf-8""?>" ++ 10 :: lit "<a/>").
Proof. split; [split; reflexivity|vm_compute; reflexivity]. Qed.
Example C64_case_misplaced : exists w0 w, writer_start Plain (lit "utf-8") true (xmlstream_new utf8_codec) = Ok w0 /\
  run true Plain None None wreq wreqa [StartElement (lit "a") None [] []; Attribute (lit "x") (lit "1") None; Text (lit "t")] w0 = Ok w.
Proof.
  assert (H : match bind (writer_start Plain (lit "utf-8") true (xmlstream_new utf8_codec))
      (run true Plain None None wreq wreqa [StartElement (lit "a") None [] []; Attribute (lit "x") (lit "1") None; Text (lit "t")]) with Ok _ => true | Err _ => false end = true)
    by (vm_compute; reflexivity).
  destruct (writer_start Plain (lit "utf-8") true (xmlstream_new utf8_codec)) as [w0|e]; [|discriminate H]. cbn [bind] in H.
  exists w0. destruct (run true Plain None None wreq wreqa _ w0) as [w|e]; [|discriminate H]. exists w. auto.
Qed.

(** ** Where the writer falls short *)
(** namespace() on a prefix that has another binding in scope, or with a
    namespace bound to another prefix, calls a method that does not exist. *)
Theorem C64_rebinding_refuted :
  to_bytes Plain [StartElement (lit "a") None [(Some (lit "p"), Some (lit "urn:1"))] []; Namespace (Some (lit "p")) (Some (lit "urn:2")); EndElement (lit "a")] = Err AttributeError /\
  to_bytes Plain [StartElement (lit "a") None [(Some (lit "p"), Some (lit "urn:1"))] []; Namespace (Some (lit "q")) (Some (lit "urn:1")); EndElement (lit "a")] = Err AttributeError.
Proof. split; vm_compute; reflexivity. Qed.
Print Assumptions C64_rebinding_refuted.
(** namespace() after content is not refused as attribute() is: the binding is
    taken as declared and the next element uses an undeclared prefix. *)
Theorem C64_late_namespace_refuted :
  to_bytes Plain [StartElement (lit "a") None [] []; Text (lit "t"); Namespace (Some (lit "p")) (Some (lit "urn:p"));
                  StartElement (lit "p:b") (Some (lit "urn:p")) [] []; EndElement (lit "p:b"); EndElement (lit "a")] =
  Ok (lit "<a>t<p:b/></a>") /\
  (exists l, read_content (lit "<a>t<p:b/></a>") = Some l /\ resolve_all scope0 l = None).
Proof. split; [vm_compute; reflexivity|]. eexists. split; [vm_compute; reflexivity|]. vm_compute; reflexivity. Qed.
Print Assumptions C64_late_namespace_refuted.
(** A name with a prefix and no namespace, which start_element accepts, gives an
    illegal declaration. *)
Theorem C64_no_namespace_refuted :
  to_bytes Plain [StartElement (lit "p:a") None [] []; EndElement (lit "p:a")] = Ok (lit "<p:a xmlns:p=""""/>") /\
  (exists l, read_content (lit "<p:a xmlns:p=""""/>") = Some l /\ resolve_all scope0 l = None).
Proof. split; [vm_compute; reflexivity|]. eexists. split; [vm_compute; reflexivity|]. vm_compute; reflexivity. Qed.
Print Assumptions C64_no_namespace_refuted.
(** In canonical form a line feed after a carriage return is lost. *)
Theorem C64_canonical_text_refuted :
  to_bytes Canon (flat_map calls [WElem None (lit "a") None [] [] [] [WText [97; 13; 10; 98]]]) = Ok (lit "<a>a&#13;b</a>") /\
  read_content (lit "<a>a&#13;b</a>") = Some [RElem (lit "a") [] [RText [97; 13; 98]]].
Proof. split; vm_compute; reflexivity. Qed.
Print Assumptions C64_canonical_text_refuted.
(** The writer for cdata-section-elements fails on every element. *)
Theorem C64_cdata_writer_refuted : forall wide st public system ordn orda name ns nss atts w,
  exists e, cdata_start_element wide st public system ordn orda name ns nss atts w = Err e.
Proof. intros. unfold cdata_start_element. destruct (w_start_element _ _ _ _ _ _ _ _ _ _ w); eexists; reflexivity. Qed.
Print Assumptions C64_cdata_writer_refuted.
