(** * C106 to C110: the output of a transformation *)
From Coq Require Import NArith ZArith String List Bool Lia Arith Permutation.
From Verif Require Import PyStr PyErr SerModel SerSpec SerStream SerTree SerTop SerDocs SerCodec SerProps XsModel XwModel XwSpec XwTree HtModel HtSpec HtPrint HtTop HtProps OpModel OpSpec XwProps OpProofs OpHtml.
Import ListNotations.
Open Scope N_scope.
Local Opaque maps_32 maps_40 maps_xhtml.

(** ** C106: the output method *)

(** If xsl:output declares no method, the run is that of the same stylesheet with
    the method XSLT 1.0 says, whatever the calls and whether or not they fail. *)
Theorem C106_default_method : forall low codecs ordn orda ps l, lowers_names low -> o_method ps = None ->
  transform low codecs ordn orda ps l = transform low codecs ordn orda (set_method ps (Some (None, default_method l))) l.
Proof. intros low codecs ordn orda ps l HL H. now apply transform_default. Qed.
Print Assumptions C106_default_method.

(** An output method nobody has registered should be reported as an XSLT error;
    the report itself fails. *)
Theorem C106_unknown_method_refuted : forall low codecs ordn orda ps m l,
  ~ In m [(None, lit "xml"); (None, lit "html"); (None, lit "text")] -> o_method ps = Some m ->
  snd (transform low codecs ordn orda ps l) = Err TypeError.
Proof.
  intros low codecs ordn orda ps m l H Hm. rewrite (transform_declared _ _ _ _ _ _ _ Hm). unfold direct.
  assert (lookup ps = Err TypeError) as ->; [|reflexivity]. unfold lookup. rewrite Hm. destruct m as [[u|] m]; [reflexivity|]. cbn [In] in H.
  destruct (str_eqb_spec m (lit "text")) as [->|]; [tauto|]. destruct (str_eqb_spec m (lit "html")) as [->|]; [tauto|]. destruct (str_eqb_spec m (lit "xml")) as [->|]; [tauto|]. reflexivity.
Qed.
Print Assumptions C106_unknown_method_refuted.

(** ** C107: HTML output *)

(** Method html, declared or by default, on a page without namespaces and
    document type: the output is encoded as asked and an HTML reader finds the
    page in it, with a meta element that names media type and encoding at the
    start of its first head element, and indented unless xsl:output says no.
    Attributes may come in any order, and it makes no difference which of them
    come with the start of the element. *)
Theorem C107_html_partial : forall low codecs ordn orda ps l ls cd dec, lowers_names low -> any_dict_order ordn orda ->
  method_is (lit "html") ps (concat ls) -> no_doctype ps -> ascii (version_of (lit "4.0") ps) ->
  ascii (encoding_of (lit "iso-8859-1") ps) -> codecs (encoding_of (lit "iso-8859-1") ps) = Some cd -> sound_codec cd -> decodes cd dec ->
  Forall2 makes l ls -> Forall simple l -> Forall html_ok l -> Forall (fun s => encode cd s <> None) (flat_map raw l) ->
  data (media_of (lit "text/html") ps ++ lit "; charset=" ++ encoding_of (lit "iso-8859-1") ps) ->
  exists bs t l', snd (transform low codecs ordn orda ps (concat ls)) = Ok bs /\ dec bs = Some t /\
    Forall2 reordered (snd (all_with_meta (meta (media_of (lit "text/html") ps) (encoding_of (lit "iso-8859-1") ps)) true l)) l' /\
    read_page false t = Some (merge_all (map (fun c => html_page low (if indent_html ps then indented html_layout 0 false c else c)) l')).
Proof.
  intros low codecs ordn orda ps l ls cd dec HL HO HM HD HV HE Hcd HS Hdec HMk HSi Hok Hraw Hdata.
  set (mc := meta (media_of (lit "text/html") ps) (encoding_of (lit "iso-8859-1") ps)).
  set (l' := snd (all_with_meta mc true (map (ordered orda) l))).
  assert (ET : snd (transform low codecs ordn orda ps (concat ls)) =
    h_output low (html_kind ps) (xmlstream_new cd) (Some (version_of (lit "4.0") ps)) (encoding_of (lit "iso-8859-1") ps) l').
  { unfold method_is in HM. destruct (o_method ps) as [d|] eqn:EM.
    - apply html_direct; auto. now rewrite EM, HM.
    - rewrite (transform_default _ _ _ _ HL ps _ EM). rewrite HM. apply (html_direct low codecs ordn orda (set_method ps (Some (None, lit "html"))) l ls cd); auto. }
  rewrite ET. clear ET. assert (HO2 : forall x, Permutation (orda x) x) by apply HO.
  assert (Hmc : html_ok mc).
  { assert (HA : forall s, forallb (fun c => c <? 128) s = true -> ascii s).
    { intros s H. apply Forall_forall. intros c Hc. apply N.ltb_lt. rewrite forallb_forall in H. auto. }
    unfold mc, meta. apply ho_elem.
    - vm_compute. reflexivity.
    - apply HA. reflexivity.
    - apply Forall_nil.
    - apply Forall_cons; [|apply Forall_cons; [|apply Forall_nil]].
      + split; [vm_compute; reflexivity|]. split; [apply HA; reflexivity|]. split; [litchars|]. intro H. vm_compute in H. intuition discriminate.
      + split; [vm_compute; reflexivity|]. split; [apply HA; reflexivity|]. exact Hdata.
    - reflexivity.
    - intros _. apply Forall_nil.
    - apply Forall_nil. }
  assert (Hmr : Forall (fun s => encode cd s <> None) (raw mc)).
  { assert (HX : forall s, Forall (fun c => c < 128) s -> encode cd s <> None) by (intros s Hs; destruct (sound_ascii cd s HS Hs) as [b ->]; discriminate).
    cbn [mc meta raw map app flat_map fst]. constructor; [|constructor; [|constructor; [|constructor]]]; apply HX; repeat (constructor; [reflexivity|]); constructor. }
  assert (Hok' : Forall html_ok l').
  { unfold l'. apply awm_ok_aux.
    - apply Forall_forall. intros c _ t. now apply meta_ok.
    - apply Forall_forall. intros c Hc. apply in_map_iff in Hc as (c' & <- & Hc). apply ordered_ok; auto. rewrite Forall_forall in Hok. auto. }
  assert (Hraw' : Forall (fun s => encode cd s <> None) (flat_map raw l')).
  { unfold l'. apply awm_raw_aux.
    - apply Forall_forall. intros c _ t. now apply meta_raw.
    - clear -Hraw HO2. induction l as [|c l IH]; [constructor|]. cbn [map flat_map] in *. apply Forall_app in Hraw as [H1 H2]. apply Forall_app. split; [apply ordered_raw; auto|auto]. }
  assert (HR : Forall2 reordered (snd (all_with_meta mc true l)) l').
  { apply awm_reordered_aux. apply Forall_forall. intros c _ t. now apply meta_reordered. }
  unfold html_kind. destruct (indent_html ps).
  - destruct (C101_indent_partial cd dec low (Some (version_of (lit "4.0") ps)) (encoding_of (lit "iso-8859-1") ps) l' HS Hdec (proj1 HL) Hok' Hraw') as (bs & t & E1 & E2 & E3).
    exists bs, t, l'. auto.
  - destruct (C100_html_partial cd dec low (Some (version_of (lit "4.0") ps)) (encoding_of (lit "iso-8859-1") ps) l' HS Hdec (proj1 HL) Hok' Hraw') as (bs & t & E1 & E2 & E3).
    exists bs, t, l'. auto.
Qed.
Print Assumptions C107_html_partial.

(** ** C108: the same stylesheet again *)

(** The output parameters of the stylesheet after an earlier run. *)
Definition after low codecs ordn orda (ps : params) (e : earlier) : params :=
  match e with
  | Completed l => fst (transform low codecs ordn orda ps l)
  | Abandoned l => abandoned low codecs ordn orda ps l
  end.
Lemma fold_fixed : forall low codecs ordn orda hist ps m, o_method ps = Some m ->
  fold_left (after low codecs ordn orda) hist (started codecs ps) = started codecs ps.
Proof.
  intros low codecs ordn orda hist ps m Hm. induction hist as [|e hist IH]; [reflexivity|]. cbn [fold_left].
  assert (after low codecs ordn orda (started codecs ps) e = started codecs ps) as ->; [|exact IH].
  assert (HM : o_method (started codecs ps) = Some m) by now rewrite started_method.
  destruct e as [l|l]; cbn [after].
  - rewrite (transform_declared _ _ _ _ _ _ _ HM), direct_params. apply started_started.
  - rewrite (abandoned_declared _ _ _ _ _ _ _ HM). apply started_started.
Qed.
(** With a declared method, earlier runs, completed or left by an exception,
    make no difference. *)
Theorem C108_declared_partial : forall low codecs ordn orda ps m hist l, o_method ps = Some m ->
  snd (transform low codecs ordn orda (fold_left (after low codecs ordn orda) hist ps) l) = snd (transform low codecs ordn orda ps l).
Proof.
  intros low codecs ordn orda ps m hist l Hm. destruct hist as [|e hist]; [reflexivity|]. cbn [fold_left].
  assert (after low codecs ordn orda ps e = started codecs ps) as ->.
  { destruct e as [l'|l']; cbn [after]; [rewrite (transform_declared _ _ _ _ _ _ _ Hm); apply direct_params|now apply (abandoned_declared _ _ _ _ _ _ m)]. }
  rewrite (fold_fixed _ _ _ _ _ _ m Hm). assert (HM : o_method (started codecs ps) = Some m) by now rewrite started_method.
  rewrite (transform_declared _ _ _ _ _ _ _ HM), (transform_declared _ _ _ _ _ _ _ Hm). now rewrite direct_started.
Qed.
Print Assumptions C108_declared_partial.

(** Without one, if every earlier run that got so far chose the method that this
    run needs. *)
Theorem C108_default_partial : forall low codecs ordn orda ps hist l, lowers_names low -> o_method ps = None ->
  Forall (fun e => chose e = None \/ chose e = Some (default_method l)) hist ->
  snd (transform low codecs ordn orda (fold_left (after low codecs ordn orda) hist ps) l) = snd (transform low codecs ordn orda ps l).
Proof.
  intros low codecs ordn orda ps hist l HL Hm HF. set (m := default_method l) in HF.
  assert (HD : o_method (set_method ps (Some (None, m))) = Some (None, m)) by reflexivity.
  assert (HC : fold_left (after low codecs ordn orda) hist ps = ps \/ fold_left (after low codecs ordn orda) hist ps = started codecs (set_method ps (Some (None, m)))).
  { induction HF as [|e hist He HF IH]; [auto|]. cbn [fold_left].
    assert (after low codecs ordn orda ps e = ps \/ after low codecs ordn orda ps e = started codecs (set_method ps (Some (None, m)))) as [-> | ->]; [|exact IH|].
    - destruct e as [l'|l']; cbn [after chose] in *.
      + right. destruct He as [He|He]; [discriminate He|]. injection He as He. rewrite transform_default by assumption. rewrite He.
        rewrite (transform_declared _ _ _ _ _ _ _ HD). apply direct_params.
      + rewrite abandoned_default by assumption. destruct (existsb settles l'); [|auto]. right. destruct He as [He|He]; [discriminate He|]. injection He as He. now rewrite He.
    - right. now apply (fold_fixed _ _ _ _ _ _ (None, m)). }
  destruct HC as [-> | ->]; [reflexivity|]. rewrite (transform_default _ _ _ _ HL ps l Hm). fold m.
  assert (HM : o_method (started codecs (set_method ps (Some (None, m)))) = Some (None, m)) by now rewrite started_method.
  rewrite (transform_declared _ _ _ _ _ _ _ HM), (transform_declared _ _ _ _ _ _ _ HD). now rewrite direct_started.
Qed.
Print Assumptions C108_default_partial.

(** Otherwise the choice of the first run stays: after a run with an html
    element, the element a is written as HTML. *)
Definition case_codecs (s : str) : option codec := if str_eqb s (lit "UTF-8") then Some utf8_codec else if str_eqb s (lit "iso-8859-1") then Some latin1_codec else None.
Definition element (q : str) : list ocall := [OStart q None [] []; OEnd q None].
Theorem C108_default_refuted :
  o_method params0 = None /\
  snd (transform lower case_codecs wreq wreqa params0 (element (lit "a"))) = Ok (lit "<?xml version=""1.0"" encoding=""UTF-8""?>" ++ 10 :: lit "<a/>") /\
  snd (transform lower case_codecs wreq wreqa (after lower case_codecs wreq wreqa params0 (Completed (element (lit "html")))) (element (lit "a"))) = Ok (lit "<a></a>") /\
  snd (transform lower case_codecs wreq wreqa (after lower case_codecs wreq wreqa params0 (Completed (element (lit "a")))) (element (lit "html"))) =
    Ok (lit "<?xml version=""1.0"" encoding=""UTF-8""?>" ++ 10 :: lit "<html/>").
Proof. repeat split; vm_compute; reflexivity. Qed.
Print Assumptions C108_default_refuted.

(** ** C109: text output *)
(** Method text: the bytes are the text of the result in order, without markup
    or escaping, or an error if it has a character the encoding lacks. *)
Theorem C109_text : forall low codecs ordn orda ps l cd, o_method ps = Some (None, lit "text") ->
  codecs (encoding_of (lit "UTF-8") ps) = Some cd ->
  snd (transform low codecs ordn orda ps l) = match encode cd (text_of l) with Some b => Ok b | None => Err UnicodeEncodeError end.
Proof.
  intros low codecs ordn orda ps l cd Hm Hcd. rewrite (transform_declared _ _ _ _ _ _ _ Hm). unfold direct, lookup. rewrite Hm.
  change (str_eqb (lit "text") (lit "text")) with true. cbn iota. cbn [op_start]. unfold text_start_document. cbv zeta.
  change (dflt (o_encoding ps) (lit "UTF-8")) with (encoding_of (lit "UTF-8") ps). rewrite Hcd. cbn [snd bind]. rewrite plain_calls. destruct (encode cd (text_of l)); reflexivity.
Qed.
Print Assumptions C109_text.

(** ** C110: XML output *)
(** Method xml, declared or by default, and xsl:output asks for nothing that
    changes the tree: the output is encoded as asked, declares that encoding and
    is read back as the tree that the calls make, however dictionaries are
    ordered. *)
Lemma xml_method : forall low codecs ordn orda ps l cd, lowers_names low -> method_is (lit "xml") ps l -> plain_xml ps ->
  legal_encname (encoding_of (lit "UTF-8") ps) -> codecs (encoding_of (lit "UTF-8") ps) = Some cd ->
  snd (transform low codecs ordn orda ps l) =
  write true Plain (o_public ps) (o_system ps) ordn orda (encoding_of (lit "UTF-8") ps) (dflt (o_omit ps) false) (xmlstream_new cd) (map xw_call l).
Proof.
  intros low codecs ordn orda ps l cd HL HM HP HN Hcd. apply encname_ascii in HN.
  assert (HA : forallb (fun c => c <? 128) (encoding_of (lit "UTF-8") ps) = true).
  { apply forallb_forall. intros c Hc. apply N.ltb_lt. rewrite Forall_forall in HN. apply (HN c Hc). }
  unfold method_is in HM. destruct (o_method ps) as [d|] eqn:EM.
  - rewrite (xml_direct low codecs ordn orda ps l cd (o_omit ps)); auto. now rewrite EM, HM.
  - rewrite (transform_default _ _ _ _ HL ps l EM). rewrite HM. rewrite (xml_direct low codecs ordn orda _ l cd (o_omit ps)); auto.
Qed.
Lemma asks_calls : forall l l', Forall2 asks l l' -> map xw_call l = l'.
Proof. induction 1 as [|c c' l l' H F IH]; [reflexivity|]. cbn [map]. rewrite IH. f_equal. destruct H; reflexivity. Qed.
Theorem C110_xml_partial : forall low codecs ordn orda ps l cd dec nodes, lowers_names low -> method_is (lit "xml") ps l -> plain_xml ps ->
  o_omit ps <> Some true ->
  legal_encname (encoding_of (lit "UTF-8") ps) -> codecs (encoding_of (lit "UTF-8") ps) = Some cd -> sound_codec cd -> decodes cd dec ->
  any_dict_order ordn orda -> Forall2 asks l (flat_map XwSpec.calls nodes) -> Forall (proper false) nodes -> encodable cd nodes ->
  exists bs t body r xs, snd (transform low codecs ordn orda ps l) = Ok bs /\ dec bs = Some t /\
    read_decl t = Some (Some (lit "1.0", encoding_of (lit "UTF-8") ps), body) /\
    read_content body = Some r /\ resolve_all scope0 r = Some xs /\
    Forall2 same_tree xs (fold_right meant [] (WText [10] :: nodes)) /\
    Forall2 (bindings_kept scope0) (elements r) (filter welement nodes).
Proof.
  intros low codecs ordn orda ps l cd dec nodes HL HM HP HO HN Hcd HS HD HW Hl HF HE. apply asks_calls in Hl. rewrite (xml_method _ _ _ _ _ _ cd HL HM HP HN Hcd). rewrite Hl.
  assert (dflt (o_omit ps) false = false) as -> by (destruct (o_omit ps) as [[]|]; [congruence|reflexivity|reflexivity]).
  apply C64_declaration; auto. destruct HP as (_ & _ & _ & _ & _ & H). destruct (o_system ps) as [s|]; [rewrite (H s eq_refl)|]; reflexivity.
Qed.
Print Assumptions C110_xml_partial.
(** The same when the declaration is to be left out. *)
Theorem C110_omitted_partial : forall low codecs ordn orda ps l cd dec nodes, lowers_names low -> method_is (lit "xml") ps l -> plain_xml ps ->
  o_omit ps = Some true ->
  legal_encname (encoding_of (lit "UTF-8") ps) -> codecs (encoding_of (lit "UTF-8") ps) = Some cd -> sound_codec cd -> decodes cd dec ->
  any_dict_order ordn orda -> Forall2 asks l (flat_map XwSpec.calls nodes) -> Forall (proper false) nodes -> encodable cd nodes ->
  exists bs t r xs, snd (transform low codecs ordn orda ps l) = Ok bs /\ dec bs = Some t /\
    read_content t = Some r /\ resolve_all scope0 r = Some xs /\
    Forall2 same_tree xs (fold_right meant [] nodes) /\
    Forall2 (bindings_kept scope0) (elements r) (filter welement nodes).
Proof.
  intros low codecs ordn orda ps l cd dec nodes HL HM HP HO HN Hcd HS HD HW Hl HF HE. apply asks_calls in Hl. rewrite (xml_method _ _ _ _ _ _ cd HL HM HP HN Hcd). rewrite Hl, HO. cbn [dflt].
  apply C64_written; auto; try discriminate. destruct HP as (_ & _ & _ & _ & _ & H). destruct (o_system ps) as [s|]; [rewrite (H s eq_refl)|]; reflexivity.
Qed.
Print Assumptions C110_omitted_partial.
(** With cdata-section-elements, no result that has an element can be written. *)
Theorem C110_cdata_refuted : forall low codecs ordn orda ps l name ns d a, o_method ps = Some (None, lit "xml") -> o_cdata ps <> [] ->
  In (OStart name ns d a) l -> exists e, snd (transform low codecs ordn orda ps l) = Err e.
Proof.
  intros low codecs ordn orda ps l name ns d a Hm HC HI. rewrite (transform_declared _ _ _ _ _ _ _ Hm). unfold direct, lookup. rewrite Hm.
  change (str_eqb (lit "xml") (lit "text")) with false. change (str_eqb (lit "xml") (lit "html")) with false. change (str_eqb (lit "xml") (lit "xml")) with true. cbn iota.
  destruct (o_cdata ps) as [|x cs]; [congruence|]. cbn [op_start]. destruct (xml_start codecs true ps) as [ps2 r] eqn:E. cbn [snd].
  assert (HR : forall w, r = Ok w -> exists st xw, w = WXml true st xw).
  { assert (HO : forall st e v o sa w, xml_open codecs true st e v o sa = Ok w -> exists st' xw, w = WXml true st' xw).
    { intros st e v o sa w H. unfold xml_open in H. destruct (codecs e) as [cd|]; [|discriminate H]. destruct (if o then _ else _) as [p|ex]; [|discriminate H]. cbn [bind] in H. injection H as <-. eauto. }
    unfold xml_start in E. cbv zeta in E. intros w ->.
    destruct (dflt (o_canonical ps) false); [destruct (str_eqb _ _)|destruct (ascii_only _)]; injection E as _ E; try discriminate E; eapply HO; exact E. }
  destruct r as [w|e]; [|cbn [bind]; eauto]. destruct (HR w eq_refl) as (st & xw & ->). cbn [bind]. clear E HR.
  assert (HX : forall xw, exists e, op_calls low ordn orda ps2 l (WXml true st xw) = Err e).
  { clear xw. induction l as [|c l IH]; intro xw; [destruct HI|]. cbn [op_calls op_call]. destruct (do_call _ _ _ _ _ _ (xw_call c) xw) as [xw1|e]; [|cbn [bind]; eauto]. cbn [bind].
    destruct HI as [->|HI]; [cbn [bind]; eauto|]. destruct c; cbn [bind]; eauto. }
  destruct (HX xw) as [e ->]. cbn [bind]. eauto.
Qed.
Print Assumptions C110_cdata_refuted.

(** ** Cases *)
Example C106_case : lowers_names lower /\
  default_method [OComment (lit "c"); OText [10]; OStart (lit "HTML") None [] []] = lit "html" /\
  default_method [OText (lit "x"); OStart (lit "html") None [] []] = lit "xml" /\
  default_method [OStart (lit "html") (Some (lit "urn:x")) [] []] = lit "xml" /\
  snd (transform lower case_codecs wreq wreqa params0 [OComment (lit "c"); OText [10]; OStart (lit "HTML") None [] []; OEnd (lit "HTML") None]) = Ok (lit "<!--c-->" ++ 10 :: lit "<HTML></HTML>").
Proof. repeat split; auto; vm_compute; reflexivity. Qed.
Example C106_case_unknown : ~ In (Some (lit "urn:x"), lit "svg") [(None, lit "xml"); (None, lit "html"); (None, lit "text")].
Proof. cbn [In]. intros [H|[H|[H|H]]]; [discriminate H|discriminate H|discriminate H|exact H]. Qed.
Example C108_case_declared : o_method (set_method params0 (Some (None, lit "xml"))) = Some (None, lit "xml") /\
  o_method (after lower case_codecs wreq wreqa params0 (Abandoned (element (lit "a")))) <> o_method params0.
Proof. split; [reflexivity|]. vm_compute. discriminate. Qed.
Example C108_case_default : Forall (fun e => chose e = None \/ chose e = Some (default_method (element (lit "html"))))
  [Abandoned [OText [10]]; Completed (element (lit "HTML")); Abandoned [OText [10]; OStart (lit "Html") None [] []]].
Proof. repeat (apply Forall_cons; [vm_compute; auto|]). apply Forall_nil. Qed.
Definition text_params : params := set_method params0 (Some (None, lit "text")).
Example C109_case : o_method text_params = Some (None, lit "text") /\ case_codecs (encoding_of (lit "UTF-8") text_params) = Some utf8_codec /\
  snd (transform lower case_codecs wreq wreqa text_params ([OStart (lit "a") None [] []; OText (lit "x<y"); OComment (lit "c"); OText [233]] ++ [OEnd (lit "a") None])) =
  Ok (lit "x<y" ++ [195; 169]).
Proof. repeat split; vm_compute; reflexivity. Qed.
Definition page_calls : list ocall :=
  [OStart (lit "p:e") (Some (lit "urn:a")) [(None, Some (lit "urn:d"))] [((lit "x", None), lit "1<")]; OAttr (lit "y") (lit "2") None;
   OText (lit "a&b"); OStart (lit "k") None [] []; OEnd (lit "k") None; OEnd (lit "p:e") (Some (lit "urn:a"))].
Definition page_nodes : list wnode :=
  [WElem (Some (lit "p")) (lit "e") (Some (lit "urn:a")) [(None, Some (lit "urn:d"))] [atn None (lit "x") None (lit "1<")] [atn None (lit "y") None (lit "2")]
     [WText (lit "a&b"); WElem None (lit "k") None [] [] [] []]].
Example C110_case : method_is (lit "xml") params0 page_calls /\ plain_xml params0 /\ o_omit params0 <> Some true /\
  legal_encname (encoding_of (lit "UTF-8") params0) /\ case_codecs (encoding_of (lit "UTF-8") params0) = Some utf8_codec /\
  Forall2 asks page_calls (flat_map XwSpec.calls page_nodes) /\
  snd (transform lower case_codecs wreq wreqa params0 page_calls) =
  Ok (lit "<?xml version=""1.0"" encoding=""UTF-8""?>" ++ 10 :: lit "<p:e xmlns=""urn:d"" xmlns:p=""urn:a"" x=""1&lt;"" y=""2"">a&amp;b<k xmlns=""""/></p:e>").
Proof.
  split; [reflexivity|]. split; [repeat split; discriminate|]. split; [discriminate|]. split; [split; reflexivity|]. split; [reflexivity|]. split; [vm_compute; repeat constructor|]. vm_compute. reflexivity.
Qed.
Example C110_case_proper : Forall (proper false) page_nodes /\ encodable utf8_codec page_nodes.
Proof.
  split; [|repeat (constructor; [vm_compute; discriminate|]); constructor].
  unfold page_nodes, atn. apply Forall_cons; [easy_proper|apply Forall_nil].
Qed.

Definition html_params (indent : bool) : params := set_all params0 None None None (Some indent) None None None.
Definition html_page1 : list HtModel.call :=
  [CComment (lit "c");
   CElem None (lit "html") [] [(lit "lang", lit "en"); (lit "id", lit "a&b")]
     [CElem None (lit "Head") [] [] [CElem None (lit "title") [] [] [CText (lit "T")]];
      CElem None (lit "body") [] [] [CElem None (lit "head") [] [] []; CText (lit "1 < 2"); CElem None (lit "br") [] [] []]]].
Definition html_calls1 : list (list ocall) :=
  [[OComment (lit "c")];
   OStart (lit "html") None [] [((lit "lang", None), lit "en")] :: map (fun a => OAttr (fst a) (snd a) None) [(lit "id", lit "a&b")] ++
   concat [OStart (lit "Head") None [] [] :: [] ++ concat [OStart (lit "title") None [] [] :: [] ++ concat [[OText (lit "T")]] ++ [OEnd (lit "title") None]] ++ [OEnd (lit "Head") None];
           OStart (lit "body") None [] [] :: [] ++ concat [OStart (lit "head") None [] [] :: [] ++ concat [] ++ [OEnd (lit "head") None]; [OText (lit "1 < 2")];
                                                    OStart (lit "br") None [] [] :: [] ++ concat [] ++ [OEnd (lit "br") None]] ++ [OEnd (lit "body") None]] ++
   [OEnd (lit "html") None]].
Ltac made := repeat first [apply Forall2_nil | apply Forall2_cons | apply mk_text | apply mk_comment | apply mk_pi].
Lemma made_elem : forall q k ks, Forall2 makes k ks -> makes (CElem None q [] [] k) (OStart q None [] [] :: [] ++ concat ks ++ [OEnd q None]).
Proof. intros q k ks H. exact (mk_elem q [] [] k ks H). Qed.
Example C107_case_makes : Forall2 makes html_page1 html_calls1 /\ Forall simple html_page1 /\ Forall html_ok html_page1.
Proof.
  split; [|split].
  - unfold html_page1, html_calls1. made. apply (mk_elem (lit "html") [(lit "lang", lit "en")] [(lit "id", lit "a&b")]). repeat first [progress made | apply made_elem].
  - unfold html_page1. repeat first [apply Forall_nil | apply Forall_cons | constructor]; try discriminate; intro H; vm_compute in H; intuition discriminate.
  - unfold html_page1. repeat match goal with
      | |- Forall _ [] => apply Forall_nil
      | |- Forall _ (_ :: _) => apply Forall_cons
      | |- html_ok (CElem _ _ _ _ _) => apply ho_elem
      | |- html_ok (CText _) => apply ho_text
      | |- html_ok (CComment _) => apply ho_comment
      | |- _ /\ _ => split
      | |- data _ => split; [litchars|intro HH; vm_compute in HH; intuition discriminate]
      | |- legal_comment _ => unfold legal_comment
      | |- ~ In _ _ => let H := fresh in intro H; vm_compute in H; intuition discriminate
      | |- chars _ => litchars
      | |- ascii _ => unfold ascii; repeat (apply Forall_cons; [reflexivity|]); apply Forall_nil
      | |- is_name _ = true => vm_compute; reflexivity
      | |- _ = true -> _ => let H := fresh in intro H; vm_compute in H; first [discriminate H | reflexivity]
      | |- _ = _ => vm_compute; reflexivity
      end.
Qed.
Example C107_case : method_is (lit "html") (html_params false) (concat html_calls1) /\ no_doctype (html_params false) /\
  case_codecs (encoding_of (lit "iso-8859-1") (html_params false)) = Some latin1_codec /\
  snd (transform lower case_codecs wreq wreqa (html_params false) (concat html_calls1)) =
  Ok (lit "<!--c--><html lang=""en"" id=""a&amp;b""><Head><meta http-equiv=""Content-Type"" content=""text/html; charset=iso-8859-1""><title>T</title></Head><body><head></head>1 &lt; 2<br></body></html>").
Proof. split; [vm_compute; reflexivity|]. split; [split; discriminate|]. split; vm_compute; reflexivity. Qed.
Example C107_case_raw : Forall (fun s => encode latin1_codec s <> None) (flat_map raw html_page1).
Proof. repeat (constructor; [vm_compute; discriminate|]); constructor. Qed.
Example C107_case_data : data (media_of (lit "text/html") (html_params false) ++ lit "; charset=" ++ encoding_of (lit "iso-8859-1") (html_params false)).
Proof. split; [litchars|intro HH; vm_compute in HH; intuition discriminate]. Qed.
