(** * Properties C13 - C17 and C39 - C43: the XML serializer (amara.writers)

    Statements only; proofs are in SerStream, SerPrint, SerVisit, SerRead,
    SerNs, SerTop, SerFail, SerDoc, SerDocs, SerCData, SerCanon, SerCodec.  The
    specification vocabulary (reference XML reader, meaning of trees) is in
    SerSpec and SerTree. *)
From Coq Require Import NArith ZArith String List Bool Lia Arith Permutation.
From Verif Require Import PyStr PyErr Utf8 SerModel SerSpec SerStream SerPrint SerVisit SerRead SerTree SerNs SerTop SerFail SerDoc SerDocs SerCData SerCanon SerCodec.
Import ListNotations.
Open Scope N_scope.

(** Encodings: [sound_codec cd] says that the encoding maps ASCII to itself, or
    that it can represent every XML character and its ASCII repertoire does not
    take one byte per character.  These meet it, with their decoders: *)
Example C13_encodings :
  (sound_codec utf8_codec /\ decodes utf8_codec utf8_decode) /\
  (sound_codec latin1_codec /\ decodes latin1_codec latin1_decode) /\
  (sound_codec ascii_codec /\ decodes ascii_codec ascii_decode) /\
  (forall be, sound_codec (utf16 be) /\ decodes (utf16 be) (utf16_decode_as be)).
Proof.
  repeat split; intros.
  - apply utf8_sound. - apply utf8_decodes. - apply latin1_sound. - apply latin1_decodes. - apply ascii_sound. - apply ascii_decodes.
  - apply utf16_sound. - apply utf16_decodes.
Qed.

Lemma new_ok : forall cd, okelem (printer_new (xmlstream_new cd)).
Proof. intro. discriminate. Qed.
Lemma emits_new : forall cd x' t, emits (p_x (printer_new (xmlstream_new cd))) x' t -> encode cd t = Some (x_out x').
Proof. intros cd x' t (b & E & ->). exact E. Qed.

Lemma run_out : forall (r : result printer) b, rmap (fun p => x_out (p_x p)) r = Ok b -> exists p, r = Ok p /\ x_out (p_x p) = b.
Proof. intros [p|e] b H; [|discriminate]. injection H as <-. eauto. Qed.

(** ** C13 *)
Theorem C13_text_roundtrip : forall cd dec st s, sound_codec cd -> decodes cd dec -> chars s ->
  exists p t, text true st s (printer_new (xmlstream_new cd)) = Ok p /\
    dec (x_out (p_x p)) = Some t /\
    read_content t = Some (add_text s []) /\
    ~ In 60 t /\ contains (lit "]]>") t = false.
Proof.
  intros cd dec st s Hcd Hd Hs.
  destruct (text0_out cd (printer_new (xmlstream_new cd)) s (new_good cd Hcd) (new_ok cd) Hs) as (x & EM & ET).
  assert (EN : nodes_chars cd false [RText s] = flat_map (esc cd text_entities) s) by (cbn; now rewrite app_nil_r).
  assert (HL : Forall legal [RText s]) by (repeat constructor; assumption).
  assert (G : dec (x_out x) = Some (flat_map (esc cd text_entities) s)).
  { apply Hd; [rewrite <- EN; now apply nodes_chars_ok|]. now apply emits_new in EM. }
  assert (R : read_content (flat_map (esc cd text_entities) s) = Some (add_text s [])).
  { rewrite <- EN, read_nodes by assumption. reflexivity. }
  assert (N60 : ~ In 60 (flat_map (esc cd text_entities) s)) by (apply flat_no; intro; apply text_no; auto).
  assert (N62 : ~ In 62 (flat_map (esc cd text_entities) s)) by (apply flat_no; intro; apply text_no; auto).
  assert (NC : contains (lit "]]>") (flat_map (esc cd text_entities) s) = false).
  { clear - N62. induction (flat_map (esc cd text_entities) s) as [|c t IH]; [reflexivity|]. cbn [contains]. rewrite IH by (intro; apply N62; now right).
    rewrite orb_false_r. destruct (prefixb (lit "]]>") (c :: t)) eqn:E; [|reflexivity]. exfalso. apply prefixb_spec in E as [r E]. apply N62. rewrite E. apply in_or_app. left. cbn. auto. }
  destruct st; cbn [text]; rewrite ET; cbn [bind]; eexists; eexists; (split; [reflexivity|]); (split; [exact G|]); auto.
Qed.
Print Assumptions C13_text_roundtrip.

(** Characters that XML cannot represent are written as question marks. *)
Theorem C13_illegal_characters : forall st s p,
  text true st s p = text true st (map (fun c => if xml_char c then c else 63) s) p.
Proof.
  intros st s p.
  assert (H : forall q m, p_escape true q s m = p_escape true q (map (fun c => if xml_char c then c else 63) s) m).
  { intros q m. unfold p_escape, write_escape. rewrite map_map.
    assert (E : map (fun x => if legal_xml_char true (if xml_char x then x else 63) then if xml_char x then x else 63 else 63) s = map (fun c => if legal_xml_char true c then c else 63) s).
    { apply map_ext. intro c. rewrite (legal_is_xml_char c). destruct (xml_char c) eqn:E; [now rewrite legal_is_xml_char, E|]. reflexivity. }
    cbv zeta. rewrite E. reflexivity. }
  assert (H0 : text0 true s false p = text0 true (map (fun c => if xml_char c then c else 63) s) false p).
  { unfold text0. destruct (close_tag p); cbn [bind]; [|reflexivity]. apply H. }
  destruct st; cbn [text]; now rewrite H0.
Qed.
Print Assumptions C13_illegal_characters.

Example C13_case : exists p, text true Plain (lit "a<b&c]]>" ++ [13; 8364]) (printer_new (xmlstream_new latin1_codec)) = Ok p /\
  x_out (p_x p) = lit "a&lt;b&amp;c]]&gt;&#13;&#8364;".
Proof. apply run_out. vm_compute. reflexivity. Qed.

(** On a narrow Python build a character outside the basic plane is two code
    units, and both are replaced: the text is lost. *)
Theorem C13_narrow_build_refuted : exists p, text false Plain [55357; 56832] (printer_new (xmlstream_new utf8_codec)) = Ok p /\
  x_out (p_x p) = lit "??".
Proof. apply run_out. vm_compute. reflexivity. Qed.

(** ** C14 *)
Theorem C14_attributes_roundtrip : forall cd dec st q atts, sound_codec cd -> decodes cd dec ->
  is_name q = true -> legal_atts atts -> encode cd q <> None -> Forall (fun a => encode cd (fst a) <> None) atts ->
  exists p1 p2 t atts', start_element true st q [] (map (fun a => (fst a, Some (snd a))) atts) (printer_new (xmlstream_new cd)) = Ok p1 /\
    end_element st q p1 = Ok p2 /\
    dec (x_out (p_x p2)) = Some t /\
    read_content t = Some [RElem q atts' []] /\
    Permutation atts' atts /\ (st <> Canon -> atts' = atts).
Proof.
  intros cd dec st q atts Hcd Hd Hq Ha Eq Ea.
  set (p0 := printer_new (xmlstream_new cd)). assert (G0 := new_good cd Hcd). fold p0 in G0. assert (O0 := new_ok cd). fold p0 in O0.
  assert (HW : Forall (wf_att cd) (map nsattr' [] ++ atts)).
  { cbn [map app]. destruct Ha as (Ha & _). rewrite Forall_forall in *. intros [n v] Hin. specialize (Ea _ Hin). specialize (Ha _ Hin). cbn in *. unfold wf_att. cbn. tauto. }
  assert (E0 : forall canon, let w := written_attrs canon [] atts in
     exists p1, start_element0 true canon q [] (map some_att atts) p0 = Ok p1 /\ goodp cd p1 /\ emits (p_x p0) (p_x p1) (60 :: q ++ attrs_chars cd canon w) /\ p_elem p1 = Some q /\ p_level p1 = 0%Z /\ p_can_indent p1 = false).
  { intro canon. cbv zeta. pose proof (start_element0_out cd canon p0 q [] atts G0 O0 Eq HW) as H. apply out_step in H as (p1 & E1 & EM & H).
    exists p1. split; [exact E1|]. split; [|split; [exact EM|exact H]]. exact (goodp_emits _ _ _ _ G0 EM). }
  assert (Ne : q <> []) by (intros ->; discriminate Hq).
  assert (OK1 : forall p, p_elem p = Some q -> okelem p /\ is_open p = true).
  { intros p Hp. unfold okelem, is_open. rewrite Hp. split; [congruence|]. destruct q; [contradiction|reflexivity]. }
  assert (EE : forall canon p1, goodp cd p1 -> p_elem p1 = Some q -> exists p2, end_element0 canon q p1 = Ok p2 /\ emits (p_x p1) (p_x p2) (if canon then lit "></" ++ q ++ lit ">" else lit "/>")).
  { intros canon p1 G1 El. destruct (OK1 p1 El) as [Hok Hop]. pose proof (end_element0_out cd canon p1 q G1 Hok Eq) as H. rewrite Hop in H. unfold pend in H. rewrite Hop in H.
    apply out_step in H as (p2 & E2 & EM & _). exists p2. split; [exact E2|]. destruct canon; exact EM. }
  assert (FIN : forall canon x2, emits (p_x p0) x2 ((60 :: q ++ attrs_chars cd canon (written_attrs canon [] atts)) ++ (if canon then lit "></" ++ q ++ lit ">" else lit "/>")) ->
     exists t, dec (x_out x2) = Some t /\ read_content t = Some [RElem q (written_attrs canon [] atts) []] /\ Permutation (written_attrs canon [] atts) atts).
  { intros canon x2 EM. assert (PM := written_attrs_perm canon [] atts). cbn [map app] in PM.
    set (w := written_attrs canon [] atts) in *.
    assert (HL : Forall legal [RElem q w []]).
    { constructor; [|constructor]. constructor; [assumption| |constructor]. destruct Ha as (A2 & A1). split.
      - rewrite Forall_forall in *. intros a Hin. apply A2. now apply (Permutation_in _ PM).
      - refine (Permutation_NoDup _ A1). apply Permutation_map. now symmetry. }
    assert (EN : nodes_chars cd canon [RElem q w []] = (60 :: q ++ attrs_chars cd canon w) ++ (if canon then lit "></" ++ q ++ lit ">" else lit "/>")).
    { unfold nodes_chars. cbn [flat_map node_chars]. rewrite app_nil_r. destruct canon; cbn [app flat_map]; rewrite <- ?app_assoc; reflexivity. }
    rewrite <- EN in EM. exists (nodes_chars cd canon [RElem q w []]). split; [apply Hd; [now apply nodes_chars_ok|now apply emits_new in EM]|].
    split; [|exact PM]. rewrite read_nodes by assumption. reflexivity. }
  change (map (fun a => (fst a, Some (snd a))) atts) with (map some_att atts).
  assert (WP : written_attrs false [] atts = atts) by reflexivity.
  destruct st.
  - destruct (E0 false) as (p1 & E1 & G1 & M1 & El & _). destruct (EE false p1 G1 El) as (p2 & E2 & M2).
    destruct (FIN false (p_x p2) (emits_trans _ _ _ _ _ M1 M2)) as (t & T1 & T2 & T3).
    exists p1, p2, t, atts. rewrite WP in *. cbn [start_element end_element canon_of]. auto 8.
  - destruct (E0 true) as (p1 & E1 & G1 & M1 & El & _). destruct (EE true p1 G1 El) as (p2 & E2 & M2).
    destruct (FIN true (p_x p2) (emits_trans _ _ _ _ _ M1 M2)) as (t & T1 & T2 & T3).
    exists p1, p2, t, (written_attrs true [] atts). cbn [start_element end_element canon_of]. repeat split; auto. congruence.
  - destruct (E0 false) as (p1 & E1 & G1 & M1 & El & Lv & Ci).
    set (p1' := set_indent p1 (p_level p1 + 1) true).
    assert (G1' : goodp cd (set_indent p1' (p_level p1' - 1) (p_can_indent p1'))) by exact G1.
    destruct (EE false _ G1' El) as (p2 & E2 & M2).
    destruct (FIN false (p_x p2) (emits_trans _ _ _ _ _ M1 M2)) as (t & T1 & T2 & T3). rewrite WP in *.
    exists p1', (set_indent p2 (p_level p2) true), t, atts. cbn [start_element end_element].
    assert (CT : close_tag p0 = Ok p0) by reflexivity. rewrite CT. cbn [bind]. change (p_can_indent p0) with false. cbn [bind].
    rewrite E1. cbn [bind]. split; [reflexivity|]. split.
    { cbv zeta. unfold is_open at 1. cbn [p_elem set_indent p1']. change (p_elem p1') with (p_elem p1). rewrite El.
      replace (match q with [] => false | _ => true end) with true by (destruct q; [contradiction|reflexivity]).
      rewrite andb_false_r. cbn [bind]. rewrite E2. reflexivity. }
    auto.
Qed.
Print Assumptions C14_attributes_roundtrip.

Example C14_case : exists p1 p2, start_element true Plain (lit "e") [] [(lit "x", Some (lit """'<&>" ++ [9; 10; 13; 32])); (lit "y", Some (lit """"))] (printer_new (xmlstream_new utf8_codec)) = Ok p1 /\
  end_element Plain (lit "e") p1 = Ok p2 /\
  x_out (p_x p2) = lit "<e x=""&quot;'&lt;&amp;>&#9;&#10;&#13; "" y='""'/>".
Proof.
  match goal with |- exists p1 p2, ?r = _ /\ _ => assert (H : exists p2, bind r (end_element Plain (lit "e")) = Ok p2 /\
    x_out (p_x p2) = lit "<e x=""&quot;'&lt;&amp;>&#9;&#10;&#13; "" y='""'/>") by (apply run_out; vm_compute; reflexivity); destruct r as [p1|] end;
    destruct H as (p2 & H & E); [|discriminate]. exists p1, p2. auto.
Qed.

(** ** C15 *)
Theorem C15_cdata_sections : forall cd st s p, st <> Canon -> sound_codec cd ->
  cdata_section st s (printer_new (xmlstream_new cd)) = Ok p ->
  exists t, encode cd t = Some (x_out (p_x p)) /\ cdata_text (length t) t = Some s.
Proof.
  intros cd st s p Hst Hcd E.
  set (p0 := printer_new (xmlstream_new cd)) in *. assert (G0 := new_good cd Hcd). fold p0 in G0.
  assert (E0 : exists p', cdata_section0 false s p0 = Ok p' /\ p_x p' = p_x p).
  { destruct st; [|contradiction|]; cbn [cdata_section canon_of] in E; [eauto|]. destruct (cdata_section0 false s p0) as [p'|]; [|discriminate]. injection E as <-. eauto. }
  destruct E0 as (p' & E0 & EX). pose proof (needs_cdata cd s p0 (proj1 G0)) as HN. rewrite E0 in HN. destruct HN as [HN _].
  destruct (cdata_out cd p0 s G0 (new_ok cd) HN) as (x & EM & E1). rewrite E0 in E1. injection E1 as ->. cbn [p_x] in EX. subst x.
  exists (cd_chars (split_cdata s)). split; [now apply emits_new in EM|].
  assert (HJ := split_join s). assert (HP := split_pieces s). destruct (split_cdata_ne s) as (w & ws & EW). rewrite EW in *.
  inversion HP; subst. cbn [cd_chars]. rewrite cdata_text_ok; [| assumption|assumption|].
  - rewrite sections_join. cbn [join]. f_equal.
  - rewrite !app_length. change (length (lit "<![CDATA[")) with 9%nat. assert (length ws <= length (cd_tail ws))%nat.
    { unfold cd_tail. rewrite app_length. clear. induction ws as [|x ws IH]; cbn [flat_map length]; [lia|]. rewrite !app_length. change (length (lit "]]]]><![CDATA[>")) with 15%nat. lia. }
    lia.
Qed.
Print Assumptions C15_cdata_sections.

(** Writing succeeds if and only if the text can be encoded; otherwise ValueError. *)
Theorem C15_cdata_errors : forall cd st s, st <> Canon -> sound_codec cd ->
  (encode cd s <> None -> exists p, cdata_section st s (printer_new (xmlstream_new cd)) = Ok p) /\
  (forall e, cdata_section st s (printer_new (xmlstream_new cd)) = Err e -> e = ValueError).
Proof.
  intros cd st s Hst Hcd. set (p0 := printer_new (xmlstream_new cd)). assert (G0 := new_good cd Hcd). fold p0 in G0. split.
  - intro He. assert (HF : Forall (fun w => encode cd w <> None) (split_cdata s)).
    { assert (HJ := split_join s). destruct (split_cdata_ne s) as (w & ws & EW). rewrite EW in *. apply Forall_forall. intros x Hx HX.
      apply encode_None in HX as (c & Hc & HX). destruct (encode cd s) as [bs|] eqn:Es; [|congruence]. apply (encode_In cd s bs c Es); [|assumption].
      rewrite <- HJ. cbn [join]. destruct Hx as [->|Hx]; [apply in_or_app; now left|]. apply in_or_app. right. apply in_flat_map. exists x. split; [assumption|]. apply in_or_app. now right. }
    destruct (cdata_out cd p0 s G0 (new_ok cd) HF) as (x & _ & E1). destruct st; [|contradiction|]; cbn [cdata_section canon_of]; rewrite E1; cbn [bind]; eauto.
  - intros e E. pose proof (needs_cdata cd s p0 (proj1 G0)) as HN. destruct st; [|contradiction|]; cbn [cdata_section canon_of] in E; destruct (cdata_section0 false s p0); try discriminate; cbn [bind] in E; congruence.
Qed.
Print Assumptions C15_cdata_errors.

(** Read by an XML parser, the text comes back when it has legal characters and
    no carriage return (parsers turn those into line feeds). *)
Theorem C15_cdata_read : forall cd dec st s p, st <> Canon -> sound_codec cd -> decodes cd dec -> chars s -> ~ In 13 s ->
  cdata_section st s (printer_new (xmlstream_new cd)) = Ok p ->
  exists t, dec (x_out (p_x p)) = Some t /\ read_content t = Some (add_text s []).
Proof.
  intros cd dec st s p Hst Hcd Hd Hc Hcr E.
  set (p0 := printer_new (xmlstream_new cd)) in *. assert (G0 := new_good cd Hcd). fold p0 in G0.
  assert (E0 : exists p', cdata_section0 false s p0 = Ok p' /\ p_x p' = p_x p).
  { destruct st; [|contradiction|]; cbn [cdata_section canon_of] in E; [eauto|]. destruct (cdata_section0 false s p0) as [p'|]; [|discriminate]. injection E as <-. eauto. }
  destruct E0 as (p' & E0 & EX). pose proof (needs_cdata cd s p0 (proj1 G0)) as HN. rewrite E0 in HN. destruct HN as [HN _].
  destruct (cdata_out cd p0 s G0 (new_ok cd) HN) as (x & EM & E1). rewrite E0 in E1. injection E1 as ->. cbn [p_x] in EX. subst x.
  exists (cd_chars (split_cdata s)). split; [|now apply read_cdata_sections]. apply Hd; [|now apply emits_new in EM].
  assert (HJ := split_join s). destruct (split_cdata_ne s) as (w & ws & EW). rewrite EW in *. rewrite <- HJ in Hc.
  cbn [join cd_chars] in *. apply chars_app in Hc as [H1 H2]. rewrite !chars_app. split; [litchars|]. split; [assumption|].
  unfold cd_tail. apply chars_app. split; [|litchars]. clear - H2. induction ws as [|x ws IH]; [constructor|]. cbn [flat_map] in *.
  rewrite <- app_assoc in *. rewrite !chars_app in *. destruct H2 as (_ & A & B). split; [litchars|]. split; auto.
Qed.
Print Assumptions C15_cdata_read.

Example C15_case : exists p, cdata_section Plain (lit "]]]]>>a]]>]]>") (printer_new (xmlstream_new utf8_codec)) = Ok p /\
  x_out (p_x p) = lit "<![CDATA[]]]]]]><![CDATA[>>a]]]]><![CDATA[>]]]]><![CDATA[>]]>".
Proof. apply run_out. vm_compute. reflexivity. Qed.

(** The canonical printer has no working CDATA method. *)
Theorem C15_canonical_refuted : forall s x, cdata_section Canon s (printer_new x) = Err NameError.
Proof. reflexivity. Qed.
Theorem C15_carriage_return_refuted : exists p, cdata_section Plain [13] (printer_new (xmlstream_new utf8_codec)) = Ok p /\
  read_content (x_out (p_x p)) = Some [RText [10]].
Proof.
  assert (H : exists p, cdata_section Plain [13] (printer_new (xmlstream_new utf8_codec)) = Ok p /\ x_out (p_x p) = lit "<![CDATA[" ++ [13] ++ lit "]]>")
    by (apply run_out; vm_compute; reflexivity).
  destruct H as (p & H & E). exists p. split; [exact H|]. rewrite E. vm_compute. reflexivity.
Qed.

(** ** C16, C17: element trees *)
Definition any_order (ordn : list (option str * str) -> list (option str * str)) (orda : list (str * option str) -> list (str * option str)) : Prop :=
  (forall l, Permutation (ordn l) l) /\ (forall l, Permutation (orda l) l).

Lemma node_reads : forall cd dec ordn orda st chain n bs, sound_codec cd -> decodes cd dec -> any_order ordn orda ->
  Forall legal_decls chain -> legal_dom n ->
  xml_encode_node true st ordn orda chain (xmlstream_new cd) n = Ok bs ->
  exists t, dec bs = Some t /\ read_content t = Some (merge_all (written ordn orda st chain [n])).
Proof.
  intros cd dec ordn orda st chain n bs Hcd Hd [H1 H2] Hc Hn E.
  apply encode_node_written in E; try assumption.
  assert (HL : Forall legal (written ordn orda st chain [n])) by (apply written_legal; auto).
  eexists. split; [apply Hd; [|exact E]; now apply nodes_chars_ok|]. now apply read_nodes.
Qed.

Theorem C16_tree_roundtrip : forall cd dec ordn orda st chain n bs, st <> Pretty ->
  sound_codec cd -> decodes cd dec -> any_order ordn orda -> Forall legal_decls chain -> legal_dom n ->
  xml_encode_node true st ordn orda chain (xmlstream_new cd) n = Ok bs ->
  exists t l, dec bs = Some t /\ read_content t = Some l /\
    Forall2 same_read (map undeclare l) (merge_all [as_read n]).
Proof.
  intros cd dec ordn orda st chain n bs Hst Hcd Hd Ho Hc Hn E.
  destruct (node_reads cd dec ordn orda st chain n bs Hcd Hd Ho Hc Hn E) as (t & T1 & T2).
  exists t. eexists. split; [exact T1|]. split; [exact T2|]. destruct Ho as [O1 O2].
  pose proof (ptrees_same ordn orda O1 O2 st chain [n] Hc ltac:(repeat constructor; assumption)) as H. destruct st; [exact H|exact H|contradiction].
Qed.
Print Assumptions C16_tree_roundtrip.

(** The output exists whenever names, comments and processing instructions can
    be encoded, and the only failure is ValueError (C43). *)
Theorem C16_serializes : forall cd ordn orda st chain n, sound_codec cd -> any_order ordn orda -> Forall legal_decls chain -> legal_dom n ->
  Forall (fun s => encode cd s <> None) (flat_map decl_strings chain) -> Forall (fun s => encode cd s <> None) (raw_strings n) ->
  exists bs, xml_encode_node true st ordn orda chain (xmlstream_new cd) n = Ok bs.
Proof. intros cd ordn orda st chain n H1 [H2 H3] H4 H5 H6 H7. now apply encode_node_ok. Qed.
Print Assumptions C16_serializes.

Theorem C17_namespaces_resolve : forall cd dec ordn orda st chain n bs, st <> Pretty ->
  sound_codec cd -> decodes cd dec -> any_order ordn orda -> Forall legal_decls chain -> legal_dom n ->
  consistent (scope_of chain) n ->
  xml_encode_node true st ordn orda chain (xmlstream_new cd) n = Ok bs ->
  exists t l xs, dec bs = Some t /\ read_content t = Some l /\ resolve_all scope0 l = Some xs /\
    Forall2 same_tree xs (expanded n []).
Proof.
  intros cd dec ordn orda st chain n bs Hst Hcd Hd Ho Hc Hn Hk E.
  destruct (node_reads cd dec ordn orda st chain n bs Hcd Hd Ho Hc Hn E) as (t & T1 & T2). destruct Ho as [O1 O2].
  destruct (ptrees_resolve ordn orda O1 O2 st chain [n] Hc ltac:(repeat constructor; assumption) ltac:(repeat constructor; assumption)) as (xs & X1 & X2).
  exists t. eexists. exists xs. split; [exact T1|]. split; [exact T2|]. split; [|exact X2]. destruct st; [exact X1|exact X1|contradiction].
Qed.
Print Assumptions C17_namespaces_resolve.

(** A tree that undeclares and redeclares the default namespace and shadows a prefix. *)
Definition tree1 : node :=
  NElem (Some (lit "urn:u")) (lit "a") [(None, lit "urn:u"); (Some (lit "p"), lit "urn:v")]
    [{| a_ns := Some (lit "urn:v"); a_qname := lit "p:k"; a_value := lit "<1" |}; {| a_ns := None; a_qname := lit "k"; a_value := lit "2" |}]
    [NElem None (lit "b") [(None, [])] [] [NElem (Some (lit "urn:w")) (lit "p:c") [(Some (lit "p"), lit "urn:w")] [] []];
     NText (lit "x"); NText (lit "&y"); NComment (lit "c"); NPI (lit "t") (lit "d")].
Ltac easy_legal := repeat first [constructor | split | intros ? [= <-] | discriminate | reflexivity
  | intro; intuition discriminate | (intro; cbn in *; intuition discriminate)].
Example C16_case_legal : legal_dom tree1.
Proof. unfold tree1. easy_legal. Qed.
Example C17_case_consistent : consistent (scope_of []) tree1.
Proof. unfold tree1. cbn [consistent]. easy_legal. Qed.
Example C16_case : xml_encode_node true Plain (fun l => l) (fun l => l) [] (xmlstream_new utf8_codec) tree1 =
  Ok (lit "<a xmlns=""urn:u"" xmlns:p=""urn:v"" p:k=""&lt;1"" k=""2""><b xmlns=""""><p:c xmlns:p=""urn:w"" xmlns=""urn:u""/></b>x&amp;y<!--c--><?t d?></a>").
Proof. vm_compute. reflexivity. Qed.

(** Trees built without declarations need not be consistent: the inner element,
    in no namespace, is printed inside the scope of the outer default. *)
Definition tree2 : node := NElem (Some (lit "urn:u")) (lit "a") [] [] [NElem None (lit "b") [] [] []].
Theorem C17_undeclared_refuted : legal_dom tree2 /\
  exists bs l xs, xml_encode_node true Plain (fun l => l) (fun l => l) [] (xmlstream_new utf8_codec) tree2 = Ok bs /\
  read_content bs = Some l /\ resolve_all scope0 l = Some xs /\ ~ Forall2 same_tree xs (expanded tree2 []).
Proof.
  split; [unfold tree2; easy_legal|]. eexists. eexists. eexists. split; [vm_compute; reflexivity|]. split; [vm_compute; reflexivity|]. split; [vm_compute; reflexivity|].
  intro H. inversion H as [|? ? ? ? H1 _]; subst. inversion H1 as [| | |? ? ? ? ? ? _ H2]; subst. vm_compute in H2. inversion H2 as [|? ? ? ? H3 _]; subst. inversion H3.
Qed.

(** An encoding whose ASCII repertoire takes one byte per character but is not
    ASCII (EBCDIC code page 037, its ASCII repertoire): markup is written as
    ASCII bytes next to EBCDIC names, so nothing can decode the output. *)
Definition cp037_table : list N :=
  [0;1;2;3;55;45;46;47;22;5;37;11;12;13;14;15;16;17;18;19;60;61;50;38;24;25;63;39;28;29;30;31;64;90;127;123;91;108;80;125;77;93;92;78;107;96;75;97;240;241;242;243;244;245;246;247;248;249;122;94;76;126;110;111;124;193;194;195;196;197;198;199;200;201;209;210;211;212;213;214;215;216;217;226;227;228;229;230;231;232;233;186;224;187;176;109;121;129;130;131;132;133;134;135;136;137;145;146;147;148;149;150;151;152;153;162;163;164;165;166;167;168;169;192;79;208;161;7].
Definition cp037 : codec := fun c => option_map (fun b => [b]) (nth_error cp037_table (N.to_nat c)).
Theorem C16_ebcdic_refuted : exists bs, xml_encode_node true Plain (fun l => l) (fun l => l) [] (xmlstream_new cp037) (NElem None (lit "a") [] [] []) = Ok bs /\
  Some bs <> encode cp037 (lit "<a/>") /\ bs = [60; 129; 47; 62].
Proof. eexists. split; [vm_compute; reflexivity|]. split; [vm_compute; discriminate|reflexivity]. Qed.

(** ** C39: pretty printing *)
Theorem C39_pretty_print : forall cd dec ordn orda chain n bs,
  sound_codec cd -> decodes cd dec -> any_order ordn orda -> Forall legal_decls chain -> legal_dom n ->
  xml_encode_node true Pretty ordn orda chain (xmlstream_new cd) n = Ok bs ->
  exists t l' l, dec bs = Some t /\ read_content t = Some l' /\ spaced false l l' /\
    Forall2 same_read (map undeclare l) (merge_all [as_read n]) /\
    (consistent (scope_of chain) n -> exists xs, resolve_all scope0 l = Some xs /\ Forall2 same_tree xs (expanded n [])).
Proof.
  intros cd dec ordn orda chain n bs Hcd Hd Ho Hc Hn E.
  destruct (node_reads cd dec ordn orda Pretty chain n bs Hcd Hd Ho Hc Hn E) as (t & T1 & T2). destruct Ho as [O1 O2].
  assert (HN : Forall legal_dom [n]) by (repeat constructor; assumption).
  exists t. eexists. exists (merge_all (map (ptree ordn orda Pretty chain) [n])). split; [exact T1|]. split; [exact T2|].
  split; [now apply written_spaced|]. split; [now apply ptrees_same|]. intro Hk.
  destruct (ptrees_resolve ordn orda O1 O2 Pretty chain [n] Hc HN ltac:(repeat constructor; assumption)) as (xs & X1 & X2). exists xs. split; assumption.
Qed.
Print Assumptions C39_pretty_print.
Example C39_case : xml_encode_node true Pretty (fun l => l) (fun l => l) [] (xmlstream_new utf8_codec)
    (NElem None (lit "a") [] [] [NElem None (lit "b") [] [] [NText (lit "x")]; NComment (lit "c"); NElem None (lit "d") [] [] []]) =
  Ok (lit "<a>" ++ 10 :: lit "  <b>x</b>" ++ 10 :: lit "  <!--c-->" ++ 10 :: lit "  <d/>" ++ 10 :: lit "</a>").
Proof. vm_compute. reflexivity. Qed.
(** Content that mixes text and elements does get new white space. *)
Theorem C39_mixed_content_refuted : exists bs l, xml_encode_node true Pretty (fun l => l) (fun l => l) [] (xmlstream_new utf8_codec)
    (NElem None (lit "a") [] [] [NText (lit "x"); NElem None (lit "b") [] [] []]) = Ok bs /\
  read_content bs = Some l /\ l = [RElem (lit "a") [] [RText (lit "x"); RElem (lit "b") [] []; RText [10]]].
Proof. eexists. eexists. split; [vm_compute; reflexivity|]. split; [vm_compute; reflexivity|]. reflexivity. Qed.

(** ** C40: canonical output does not depend on attribute or declaration order *)
Theorem C40_canonical_order : forall ordn ordn' orda orda' wide chain chain' x n n',
  any_order ordn orda -> any_order ordn' orda' -> Forall2 (@Permutation _) chain chain' -> Forall legal_decls chain -> legal_dom n -> same_dom n n' ->
  xml_encode_node wide Canon ordn orda chain x n = xml_encode_node wide Canon ordn' orda' chain' x n'.
Proof.
  intros ordn ordn' orda orda' wide chain chain' x n n' [A1 A2] [B1 B2] Hc Hl Hn Hs. unfold xml_encode_node. f_equal. now apply visit_canon.
Qed.
Print Assumptions C40_canonical_order.
Example C40_case :
  let n := NElem None (lit "e") [(Some (lit "z"), lit "u:1"); (Some (lit "y"), lit "u:2")] [{| a_ns := None; a_qname := lit "b"; a_value := lit "1" |}; {| a_ns := None; a_qname := lit "a"; a_value := lit "2" |}] [] in
  let n' := NElem None (lit "e") [(Some (lit "y"), lit "u:2"); (Some (lit "z"), lit "u:1")] [{| a_ns := None; a_qname := lit "a"; a_value := lit "2" |}; {| a_ns := None; a_qname := lit "b"; a_value := lit "1" |}] [] in
  same_dom n n' /\ legal_dom n /\
  xml_encode_node true Canon (fun l => l) (fun l => l) [] (xmlstream_new utf8_codec) n' = Ok (lit "<e xmlns:y=""u:2"" xmlns:z=""u:1"" a=""2"" b=""1""></e>").
Proof. split; [|split; [easy_legal|vm_compute; reflexivity]]. constructor; [apply perm_swap|apply perm_swap|constructor]. Qed.
(** The other printers follow the dictionary order. *)
Theorem C40_plain_refuted :
  let n := NElem None (lit "e") [] [{| a_ns := None; a_qname := lit "b"; a_value := [] |}; {| a_ns := None; a_qname := lit "a"; a_value := [] |}] [] in
  xml_encode_node true Plain (fun l => l) (fun l => l) [] (xmlstream_new utf8_codec) n <>
  xml_encode_node true Plain (fun l => l) (@rev _) [] (xmlstream_new utf8_codec) n.
Proof. vm_compute. discriminate. Qed.

(** ** C41: documents *)
Lemma dt_nodes_spec : forall pub sys kids, length (filter elem_node kids) = 1%nat -> dt_nodes pub sys kids = doctype_of pub sys kids.
Proof.
  intros pub sys kids H. unfold dt_nodes, doctype_of. destruct sys as [[|c s]|]; try reflexivity. cbn [truthy].
  assert (E : first_element kids = Some (root_name kids)).
  { revert H. unfold first_element. induction kids as [|[] kids IH]; cbn [filter elem_node fold_right root_name length]; intro H; try (apply IH; assumption); [discriminate|reflexivity]. }
  rewrite E. destruct pub as [[|]|]; reflexivity.
Qed.
Lemma pubid_no_quot : forall s, forallb pubid_char s = true -> ~ In 34 s.
Proof. intros s H Hin. rewrite forallb_forall in H. specialize (H _ Hin). discriminate H. Qed.

Definition legal_ids (pub sys : option str) : Prop :=
  (forall s, sys = Some s -> legal_sysid s) /\ (forall s, pub = Some s -> legal_pubid s).

Theorem C41_document_roundtrip : forall cd dec ordn orda st enc pub sys kids bs,
  sound_codec cd -> decodes cd dec -> any_order ordn orda -> legal_encname enc -> legal_document kids -> legal_ids pub sys -> st <> Canon ->
  xml_encode_document true st ordn orda enc pub sys (xmlstream_new cd) kids = Ok bs ->
  exists t l' l, dec bs = Some t /\
    read_document t = Some (Some (lit "1.0", enc), doctype_of pub sys kids ++ l') /\
    (st = Plain -> l' = l) /\ (st = Pretty -> Forall2 spaced1 l l') /\
    Forall2 same_read (map undeclare l) (merge_all (map as_read kids)) /\
    (Forall (consistent scope0) kids -> exists xs, resolve_all scope0 l = Some xs /\ Forall2 same_tree xs (fold_right expanded [] kids)).
Proof.
  intros cd dec ordn orda st enc pub sys kids bs Hcd Hd [O1 O2] He (Hk & Ht & H1) [Hs Hp] Hst E.
  apply document_written in E; try assumption.
  assert (EC : canon_of st = false) by (destruct st; [reflexivity|contradiction|reflexivity]). rewrite EC in E. rewrite <- !app_assoc in E.
  assert (HC0 : Forall legal_decls []) by constructor.
  set (W := written ordn orda st [] kids) in *. assert (HL : Forall legal W) by now apply written_legal.
  destruct (ptrees_textless ordn orda st [] kids Ht) as [TL1 TL2]. set (l := merge_all (map (ptree ordn orda st []) kids)) in *.
  assert (HDT : truthy sys = true -> forall q, first_element kids = Some q -> legal_dt q pub sys).
  { intros Ts q Eq. split; [now apply (first_element_name kids)|]. destruct sys as [s|]; [|discriminate]. split; [now apply Hs|]. split; [assumption|].
    intro Tp. destruct pub as [p|]; [|discriminate]. split; [now apply Hp|]. apply pubid_no_quot. now apply Hp. }
  assert (HS : top_ok (merge_all W) /\ (st = Plain -> filter nws (merge_all W) = l) /\ (st = Pretty -> Forall2 spaced1 l (filter nws (merge_all W)))).
  { destruct st; [|contradiction|].
    - destruct (textless_nws l TL1) as [X1 X2]. split; [exact X1|]. split; [intros _; exact X2|discriminate].
    - destruct (spaced_top false l (merge_all W) (written_spaced ordn orda O1 O2 [] kids HC0 Hk) TL1) as [X1 X2]. split; [exact X1|]. split; [discriminate|intros _; exact X2]. }
  destruct HS as (S1 & S2 & S3).
  assert (S4 : length (filter is_elem (filter nws (merge_all W))) = 1%nat).
  { rewrite <- H1, <- TL2. destruct st; [now rewrite (S2 eq_refl)|contradiction|]. apply spaced_elems. now apply S3. }
  eexists. exists (filter nws (merge_all W)), l. split; [apply Hd; [|exact E]|].
  { rewrite !chars_app. split; [now apply decl_chars_ok|]. split; [litchars|]. split; [|now apply nodes_chars_ok].
    unfold dt_of. destruct (truthy sys) eqn:Ts; [|constructor]. destruct (first_element kids) eqn:Ef; [|constructor]. apply dt_chars_ok. now apply HDT. }
  split; [rewrite <- dt_nodes_spec by assumption; now apply document_read|].
  split; [exact S2|]. split; [exact S3|]. split; [now apply ptrees_same|]. intro Hk2. now apply ptrees_resolve.
Qed.
Print Assumptions C41_document_roundtrip.

Theorem C41_canonical_document : forall cd dec ordn orda enc pub sys kids bs,
  sound_codec cd -> decodes cd dec -> any_order ordn orda -> legal_encname enc -> legal_document kids ->
  xml_encode_document true Canon ordn orda enc pub sys (xmlstream_new cd) kids = Ok bs ->
  exists t l, dec bs = Some t /\ read_document t = Some (None, l) /\
    Forall2 same_read (map undeclare l) (merge_all (map as_read kids)) /\
    (Forall (consistent scope0) kids -> exists xs, resolve_all scope0 l = Some xs /\ Forall2 same_tree xs (fold_right expanded [] kids)).
Proof.
  intros cd dec ordn orda enc pub sys kids bs Hcd Hd [O1 O2] He (Hk & Ht & H1) E.
  apply document_written in E; try assumption. cbn [canon_of app] in E.
  assert (HC0 : Forall legal_decls []) by constructor.
  set (W := written ordn orda Canon [] kids) in *. assert (HL : Forall legal W) by now apply written_legal.
  destruct (ptrees_textless ordn orda Canon [] kids Ht) as [TL1 TL2].
  assert (HT : Forall (fun n => is_rtext n = false) W).
  { unfold W, written. clear - Ht. induction Ht as [|n kids Hn Ht IH]; [constructor|]. cbn [map]. constructor; [|exact IH]. destruct n; [reflexivity|discriminate|reflexivity|reflexivity]. }
  eexists. exists (merge_all W). split; [apply Hd; [|exact E]; now apply nodes_chars_ok|].
  split.
  - unfold read_document, read_decl. rewrite no_decl by assumption. rewrite read_nodes by assumption.
    change (fun n => negb (is_ws_text n)) with nws. destruct (textless_nws (merge_all W) TL1) as [X1 X2]. rewrite X2.
    pose proof (top_rtext _ X1) as XR. rewrite X2 in XR. rewrite XR.
    destruct (nodt_filter (merge_all W) (legal_nodt W HL)) as [N1 N2]. rewrite N1, N2.
    unfold W, written. fold (merge_all (map (ptree ordn orda Canon []) kids)). rewrite TL2, H1. reflexivity.
  - split; [now apply (ptrees_same ordn orda O1 O2 Canon)|]. intro Hk2. now apply (ptrees_resolve ordn orda O1 O2 Canon).
Qed.
Print Assumptions C41_canonical_document.

Example C41_case : legal_document [NComment (lit "c"); tree1; NPI (lit "p") []] /\ legal_encname (lit "utf-8") /\ legal_ids (Some (lit "-//X")) (Some (lit "x.dtd")) /\
  exists bs, xml_encode_document true Pretty (fun l => l) (fun l => l) (lit "utf-8") (Some (lit "-//X")) (Some (lit "x.dtd")) (xmlstream_new utf8_codec)
    [NComment (lit "c"); NElem None (lit "a") [] [] []; NPI (lit "p") []] = Ok bs /\
  bs = lit "<?xml version=""1.0"" encoding=""utf-8""?>" ++ 10 :: lit "<!DOCTYPE a PUBLIC ""-//X"" ""x.dtd"">" ++ 10 :: lit "<!--c-->" ++ 10 :: lit "<a/>" ++ 10 :: lit "<?p?>".
Proof.
  split. { split; [|split; [repeat constructor|reflexivity]]. constructor; [easy_legal|constructor; [apply C16_case_legal|constructor; [easy_legal|constructor]]]. }
  split; [split; reflexivity|]. split.
  { split; intros s [= <-]. - split; [litchars|]. split; cbn; intuition discriminate. - split; [reflexivity|]. cbn; intuition discriminate. }
  eexists. split; vm_compute; reflexivity.
Qed.
(** A system identifier with a quotation mark is written between quotation marks. *)
Theorem C41_system_id_refuted : exists bs, xml_encode_document true Plain (fun l => l) (fun l => l) (lit "utf-8") None (Some (lit "a""b")) (xmlstream_new utf8_codec)
    [NElem None (lit "a") [] [] []] = Ok bs /\ read_document bs = None.
Proof. eexists. split; [vm_compute; reflexivity|]. vm_compute. reflexivity. Qed.

(** ** C42: UTF-16 *)
Theorem C42_utf16_big_endian : forall ordn orda st chain n bs, st <> Pretty -> any_order ordn orda -> Forall legal_decls chain -> legal_dom n ->
  xml_encode_node true st ordn orda chain (xmlstream_new_utf16 false) n = Ok bs ->
  exists t l, utf16_decode bs = Some t /\ read_content t = Some l /\ Forall2 same_read (map undeclare l) (merge_all [as_read n]).
Proof.
  intros ordn orda st chain n bs Hst [O1 O2] Hc Hn E. apply bom_output in E; try assumption. destruct E as (bs' & -> & E). cbn [negb] in E.
  assert (HN : Forall legal_dom [n]) by (repeat constructor; assumption).
  assert (HL : Forall legal (written ordn orda st chain [n])) by now apply written_legal.
  exists (nodes_chars (utf16 true) (canon_of st) (written ordn orda st chain [n])), (merge_all (written ordn orda st chain [n])). split; [|split; [now apply read_nodes|]].
  - apply (utf16_decodes true) in E; [|now apply nodes_chars_ok]. exact E.
  - pose proof (ptrees_same ordn orda O1 O2 st chain [n] Hc HN) as H. destruct st; [exact H|exact H|contradiction].
Qed.
Print Assumptions C42_utf16_big_endian.
Example C42_case : xml_encode_node true Plain (fun l => l) (fun l => l) [] (xmlstream_new_utf16 false) (NElem None (lit "a") [] [] [NText [128512]]) =
  Ok [254; 255; 0; 60; 0; 97; 0; 62; 216; 61; 222; 0; 0; 60; 0; 47; 0; 97; 0; 62].
Proof. vm_compute. reflexivity. Qed.
(** On a little-endian machine the data is little-endian but the mark is
    still the big-endian one: for every node, a conforming decoder cannot
    get the text back. *)
Theorem C42_utf16_little_endian_refuted : exists bs,
  xml_encode_node true Plain (fun l => l) (fun l => l) [] (xmlstream_new_utf16 true) (NElem None (lit "a") [] [] []) = Ok bs /\
  utf16_decode bs = Some [15360; 24832; 12032; 15872] /\ utf16_decode_as false (skipn 2 bs) = Some (lit "<a/>").
Proof. eexists. split; [vm_compute; reflexivity|]. split; [vm_compute; reflexivity|]. vm_compute. reflexivity. Qed.

(** ** C43: characters that cannot be encoded *)
Theorem C43_only_value_error : forall cd ordn orda st chain n e, any_order ordn orda ->
  xml_encode_node true st ordn orda chain (xmlstream_new cd) n = Err e -> e = ValueError.
Proof. intros cd ordn orda st chain n e [_ H]. now apply encode_node_error. Qed.
Print Assumptions C43_only_value_error.
(** Unencodable text and attribute values are fine, unencodable names are not. *)
Example C43_case :
  xml_encode_node true Plain (fun l => l) (fun l => l) [] (xmlstream_new ascii_codec) (NElem None (lit "a") [] [{| a_ns := None; a_qname := lit "k"; a_value := [233] |}] [NText [8364]]) = Ok (lit "<a k=""&#233;"">&#8364;</a>") /\
  xml_encode_node true Plain (fun l => l) (fun l => l) [] (xmlstream_new ascii_codec) (NElem None [233] [] [] []) = Err ValueError.
Proof. split; vm_compute; reflexivity. Qed.
