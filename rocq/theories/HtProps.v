(** * Properties C100 - C105: the HTML and XHTML writers (amara.writers)

    Statements; proofs are in HtPrint, HtRead and HtTop.  The reference readers
    and the meaning of the calls are in HtSpec. *)
From Coq Require Import NArith ZArith String List Bool Lia Arith Permutation.
From Verif Require Import PyStr PyErr Utf8 SerModel SerSpec SerStream SerPrint SerVisit SerRead SerTree SerNs SerTop SerDoc SerDocs SerCodec
  HtModel HtSpec HtPrint HtRead HtTop.
Import ListNotations.
Open Scope N_scope.
Local Opaque maps_32 maps_40 maps_xhtml.

(** ** C100: a page written by the writer html is read back *)
Theorem C100_html_partial : forall cd dec low version enc l, sound_codec cd -> decodes cd dec -> lowers low ->
  Forall html_ok l -> Forall (fun s => encode cd s <> None) (flat_map raw l) ->
  exists bs t, h_output low Html (xmlstream_new cd) version enc l = Ok bs /\
    dec bs = Some t /\
    read_page false t = Some (merge_all (map (html_page low) l)).
Proof.
  intros cd dec low version enc l Hcd Hd Hlow Hl Hr.
  destruct (output_read cd dec low Html version enc l) as (bs & t & E1 & E2 & E3 & _); auto; try discriminate.
  - apply Forall_forall. intros c Hc. rewrite Forall_forall in Hl. apply html_pok; auto.
    apply Forall_forall. intros s Hs. rewrite Forall_forall in Hr. apply Hr. apply in_flat_map. eauto.
  - apply Forall_forall. intros n Hn. apply in_map_iff in Hn as (c & <- & Hc). cbn [printed_calls indents] in Hc. rewrite Forall_forall in Hl. apply html_dok; auto.
  - exists bs, t. split; [exact E1|]. split; [rewrite E2; unfold head_chars; destruct version; reflexivity|].
    change (HtPrint.xml Html) with false in E3. rewrite E3. f_equal. f_equal. rewrite map_map. apply map_ext_in. intros c Hc. cbn [printed_calls indents] in Hc.
    rewrite Forall_forall in Hl. apply html_view; auto.
Qed.
Print Assumptions C100_html_partial.

Definition page1 : list call :=
  [CElem None (lit "HTML") [] [(lit "lang", lit "en")]
     [CElem None (lit "p") [(None, lit "u")] [(lit "title", lit "a""<&{b}&c" ++ [9; 233; 8364])]
        [CText (lit "1 < 2 & 3" ++ [13; 160; 945; 128512]); CElem None (lit "Br") [] [] [];
         CElem None (lit "input") [] [(lit "CHECKED", lit "Checked"); (lit "type", lit "checkbox")] []; CComment (lit "c<")];
      CElem None (lit "script") [] [] [CText (lit "a = 'b';"); CText [10]]; CPI (lit "php") (lit "echo ?")]].
Lemma page1_ok : Forall html_ok page1.
Proof.
  assert (D : forall s, forallb (fun c => xml_char c && negb (c =? 732)) s = true -> data s).
  { intros s H. rewrite forallb_forall in H. split.
    - apply Forall_forall. intros c Hc. apply H in Hc. now apply andb_prop in Hc.
    - intro Hc. apply H in Hc. discriminate Hc. }
  assert (A : forall s, forallb (fun c => c <? 128) s = true -> ascii s).
  { intros s H. apply Forall_forall. intros c Hc. rewrite forallb_forall in H. apply H in Hc. now apply N.ltb_lt. }
  assert (P : forall s, forallb (fun c => ((c =? 9) || (c =? 10) || ((32 <=? c) && (c <=? 126))) && negb (c =? 60) && negb (c =? 62) && negb (c =? 38)) s = true -> plain_script s).
  { intros s H. apply Forall_forall. intros c Hc. rewrite forallb_forall in H. apply H in Hc.
    repeat (apply andb_prop in Hc as [Hc ?]). repeat match goal with H : negb _ = true |- _ => apply negb_true_iff in H; apply N.eqb_neq in H end.
    split; [|auto]. apply orb_prop in Hc as [Hc|Hc]; [apply orb_prop in Hc as [Hc|Hc]; apply N.eqb_eq in Hc; auto|].
    apply andb_prop in Hc as [H3 H4]. apply N.leb_le in H3, H4. auto. }
  assert (E : forall q a k (Hq : is_name q && forallb (fun c => c <? 128) q = true) (He : empty_element q = true -> k = [])
     (Hc : cdata_element q = true -> Forall (fun c => exists s, c = CText s /\ plain_script s) k)
     (Ha : forallb (fun x => is_name (fst x) && forallb (fun c => c <? 128) (fst x) && forallb (fun c => xml_char c && negb (c =? 732)) (snd x)) a = true),
     forall d, forallb (fun x => is_name (fst (declaration x)) && forallb (fun c => xml_char c && negb (c =? 732)) (snd x)) d = true ->
     Forall html_ok k -> html_ok (CElem None q d a k)).
  { intros q a k Hq He Hc Ha d Hd Hk. apply andb_prop in Hq as [Hq1 Hq2]. constructor; auto.
    - apply Forall_forall. intros x Hx. rewrite forallb_forall in Hd. apply Hd in Hx. apply andb_prop in Hx as [H1 H2]. auto.
    - apply Forall_forall. intros x Hx. rewrite forallb_forall in Ha. apply Ha in Hx. apply andb_prop in Hx as [H1 H3]. apply andb_prop in H1 as [H1 H2]. auto. }
  unfold page1.
  repeat first [ apply Forall_nil | apply Forall_cons | apply E; [vm_compute; reflexivity| | |vm_compute; reflexivity|vm_compute; reflexivity|]
    | apply ho_text, D; vm_compute; reflexivity
    | apply ho_comment; repeat split; [repeat constructor|intro H; vm_compute in H; repeat destruct H as [H|H]; try discriminate H; contradiction]
    | apply ho_pi; repeat split; try (repeat constructor); intro H; vm_compute in H; repeat destruct H as [H|H]; try discriminate H; contradiction
    | intro H; vm_compute in H; discriminate H | intro H; reflexivity
    | intros _; repeat constructor; eexists; (split; [reflexivity|]); apply P; vm_compute; reflexivity ].
Qed.
Example C100_case : Forall html_ok page1 /\
  rmap (fun b => b) (h_output lower Html (xmlstream_new latin1_codec) (Some (lit "3.2")) [] page1) =
  Ok (lit "<HTML lang=""en""><p xmlns=""u"" title='a""<&{b}&amp;c&#9;&eacute;&#8364;'>1 &lt; 2 &amp; 3&#13;&nbsp;&#945;&#128512;<Br>" ++
      lit "<input CHECKED type=""checkbox""><!--c<--></p><script>a = 'b';" ++ [10] ++ lit "</script><?php echo ?></HTML>").
Proof. split; [exact page1_ok|vm_compute; reflexivity]. Qed.
Example C100_case_read :
  match h_output lower Html (xmlstream_new utf8_codec) None [] page1 with
  | Ok b => match utf8_decode b with Some t => read_page false t = Some (merge_all (map (html_page lower) page1)) | None => False end
  | Err _ => False
  end.
Proof. vm_compute. reflexivity. Qed.

(** SMALL TILDE is written as a reference that HTML does not define. *)
Theorem C100_tilde_refuted : exists b, h_output lower Html (xmlstream_new utf8_codec) None [] [CText [732]] = Ok b /\
  b = lit "&tidle;" /\ read_page false b = Some [RText (lit "&tidle;")].
Proof. exists (lit "&tidle;"). split; [vm_compute; reflexivity|]. split; vm_compute; reflexivity. Qed.
Print Assumptions C100_tilde_refuted.

(** A script is escaped although its content is CDATA: it is read as another
    program. *)
Theorem C100_script_refuted : exists b,
  h_output lower Html (xmlstream_new utf8_codec) None [] [CElem None (lit "script") [] [] [CText (lit "if (a < b) f()")]] = Ok b /\
  read_page false b = Some [RElem (lit "script") [] [RText (lit "if (a &lt; b) f()")]].
Proof. exists (lit "<script>if (a &lt; b) f()</script>"). split; vm_compute; reflexivity. Qed.
Print Assumptions C100_script_refuted.

(** ** C101: the writer html-indent *)
Theorem C101_indent_partial : forall cd dec low version enc l, sound_codec cd -> decodes cd dec -> lowers low ->
  Forall html_ok l -> Forall (fun s => encode cd s <> None) (flat_map raw l) ->
  exists bs t, h_output low HtmlIndent (xmlstream_new cd) version enc l = Ok bs /\
    dec bs = Some t /\
    read_page false t = Some (merge_all (map (fun c => html_page low (indented html_layout 0 false c)) l)).
Proof.
  intros cd dec low version enc l Hcd Hd Hlow Hl Hr. rewrite Forall_forall in Hl.
  destruct (output_read cd dec low HtmlIndent version enc l) as (bs & t & E1 & E2 & E3 & _); auto; try discriminate.
  - apply Forall_forall. intros c Hc. apply html_pok; auto.
    apply Forall_forall. intros s Hs. rewrite Forall_forall in Hr. apply Hr. apply in_flat_map. eauto.
  - intros _. apply Forall_forall. intros c Hc. apply html_lok; auto.
  - apply Forall_forall. intros n Hn. apply in_map_iff in Hn as (c & <- & Hc). cbn [printed_calls indents] in Hc. apply in_map_iff in Hc as (c' & <- & Hc).
    apply html_dok; auto. apply html_indented_ok; auto.
  - exists bs, t. split; [exact E1|]. split; [rewrite E2; unfold head_chars; destruct version; reflexivity|].
    change (HtPrint.xml HtmlIndent) with false in E3. rewrite E3. f_equal. f_equal. cbn [printed_calls indents]. rewrite !map_map. apply map_ext_in. intros c Hc.
    apply html_view; auto. apply html_indented_ok; auto.
Qed.
Print Assumptions C101_indent_partial.

(** The layout leaves the content of kept elements as it is, and only adds
    line breaks and spaces. *)
Lemma keep_all : forall L c depth, indented L depth true c = c.
Proof.
  intros L c. induction c as [ns q d a k IH|s|s|t d] using call_ind2; intro depth; try reflexivity.
  rewrite indented_elem. cbv zeta. cbn [orb]. rewrite golist_nil by now right. rewrite andb_false_r. cbn [andb]. rewrite app_nil_r. f_equal.
  rewrite <- (map_id k) at 2. apply map_ext_in. intros x Hx. rewrite Forall_forall in IH. auto.
Qed.
Theorem C101_kept : forall ns q d a k depth keep, kept html_layout ns q = true ->
  indented html_layout depth keep (CElem ns q d a k) = CElem ns q d a k.
Proof.
  intros ns q d a k depth keep HK. rewrite indented_elem. cbv zeta. rewrite HK, orb_true_r. rewrite golist_nil by now right. rewrite andb_false_r. cbn [andb].
  rewrite app_nil_r. f_equal. rewrite <- (map_id k) at 2. apply map_ext. intro x. apply keep_all.
Qed.
Print Assumptions C101_kept.

(** The text of a page without its white space. *)
Fixpoint call_text (c : call) : str :=
  match c with
  | CElem _ _ _ _ k => flat_map call_text k
  | CText s => filter (fun x => negb (ws x)) s
  | _ => []
  end.
Lemma nl_ws : forall d, filter (fun x => negb (ws x)) (new_line d) = [].
Proof. intro d. unfold new_line. cbn [filter]. change (negb (ws 10)) with false. cbv iota. induction (2 * d)%nat as [|n IH]; [reflexivity|]. exact IH. Qed.
Theorem C101_only_space : forall L c depth keep, call_text (indented L depth keep c) = call_text c.
Proof.
  intros L c. induction c as [ns q d a k IH|s|s|t d] using call_ind2; intros depth keep; try reflexivity.
  rewrite indented_elem. cbv zeta. set (keep' := keep || kept L ns q). set (par := negb (in_line L ns q)). cbn [call_text]. rewrite flat_map_app.
  assert (E2 : flat_map call_text (if par && negb keep' && fold_left (end_line L) k false then [CText (new_line depth)] else []) = []).
  { destruct (par && _ && _); [|reflexivity]. cbn [flat_map call_text]. now rewrite nl_ws. }
  rewrite E2, app_nil_r. clear E2. unfold golist. induction IH as [|x k Hx Hk IHk]; [reflexivity|]. cbn [flat_map]. rewrite !flat_map_app, IHk. f_equal. cbn [flat_map]. rewrite app_nil_r, Hx.
  destruct (par && negb keep' && own_line L x); [|reflexivity]. cbn [flat_map call_text]. now rewrite nl_ws.
Qed.
Print Assumptions C101_only_space.

Example C101_case : Forall html_ok page1 /\
  h_output lower HtmlIndent (xmlstream_new utf8_codec) None [] [CElem None (lit "body") [] [] [CElem None (lit "p") [] [] [CText (lit "a"); CElem None (lit "b") [] [] [CText (lit "c")]];
      CElem None (lit "pre") [] [] [CElem None (lit "hr") [] [] []]; CElem None (lit "div") [] [] [CElem None (lit "hr") [] [] []]]] =
  Ok (lit "<body>" ++ [10] ++ lit "  <p>a<b>c</b></p>" ++ [10] ++ lit "  <pre><hr></pre>" ++ [10] ++ lit "  <div>" ++ [10] ++ lit "    <hr>" ++ [10] ++ lit "  </div>" ++ [10] ++ lit "</body>").
Proof. split; [exact page1_ok|vm_compute; reflexivity]. Qed.

(** A comment inside a word breaks the word. *)
Theorem C101_words_refuted : exists a b ra rb,
  h_output lower Html (xmlstream_new utf8_codec) None [] [CElem None (lit "p") [] [] [CText (lit "ab"); CComment (lit "x"); CText (lit "cd")]] = Ok a /\
  h_output lower HtmlIndent (xmlstream_new utf8_codec) None [] [CElem None (lit "p") [] [] [CText (lit "ab"); CComment (lit "x"); CText (lit "cd")]] = Ok b /\
  read_page false a = Some ra /\ read_page false b = Some rb /\
  words_of ra = [lit "abcd"] /\ words_of rb = [lit "ab"; lit "cd"].
Proof.
  exists (lit "<p>ab<!--x-->cd</p>"), (lit "<p>ab" ++ [10] ++ lit "  <!--x-->cd</p>").
  exists [RElem (lit "p") [] [RText (lit "ab"); RComment (lit "x"); RText (lit "cd")]], [RElem (lit "p") [] [RText (lit "ab" ++ [10; 32; 32]); RComment (lit "x"); RText (lit "cd")]].
  split; [vm_compute; reflexivity|]. split; [vm_compute; reflexivity|]. split; [vm_compute; reflexivity|]. split; [vm_compute; reflexivity|]. split; vm_compute; reflexivity.
Qed.
Print Assumptions C101_words_refuted.

(** ** C102: the writers xhtml and xhtml-indent *)
Definition xml_head (version : option str) (enc : str) : str :=
  match version with
  | Some _ => lit "<?xml version=""1.0"" encoding=""" ++ enc ++ lit """?>" ++ [10]
  | None => []
  end.
Theorem C102_xhtml_partial : forall cd dec low version enc l, sound_codec cd -> decodes cd dec ->
  (forall v, version = Some v -> v = lit "1.0" /\ legal_encname enc) ->
  Forall xhtml_ok l -> Forall none_empty l -> Forall (fun s => encode cd s <> None) (flat_map raw l) ->
  exists bs t, h_output low Xhtml (xmlstream_new cd) version enc l = Ok bs /\
    dec bs = Some (xml_head version enc ++ t) /\
    read_page true t = Some (merge_all (map xhtml_page l)).
Proof.
  intros cd dec low version enc l Hcd Hd Hv Hl Hn Hr. rewrite Forall_forall in Hl, Hn.
  destruct (output_read cd dec low Xhtml version enc l) as (bs & t & E1 & E2 & E3 & _); auto; try discriminate.
  - apply Forall_forall. intros c Hc. apply xhtml_pok; auto.
    apply Forall_forall. intros s Hs. rewrite Forall_forall in Hr. apply Hr. apply in_flat_map. eauto.
  - apply Forall_forall. intros n Hx. apply in_map_iff in Hx as (c & <- & Hc). cbn [printed_calls indents] in Hc. apply xhtml_dok; auto.
  - exists bs, t. split; [exact E1|]. split.
    + rewrite E2. unfold head_chars, xml_head. destruct version; [|reflexivity]. cbn [is_html]. unfold decl_chars. rewrite <- !app_assoc. reflexivity.
    + change (HtPrint.xml Xhtml) with true in E3. rewrite E3. f_equal. f_equal. rewrite map_map. apply map_ext_in. intros c Hc. cbn [printed_calls indents] in Hc. apply xhtml_view; auto.
Qed.
Print Assumptions C102_xhtml_partial.
Theorem C102_xhtml_indent_partial : forall cd dec low version enc l, sound_codec cd -> decodes cd dec ->
  (forall v, version = Some v -> v = lit "1.0" /\ legal_encname enc) ->
  Forall xhtml_ok l -> Forall (fun s => encode cd s <> None) (flat_map raw l) ->
  exists bs t, h_output low XhtmlIndent (xmlstream_new cd) version enc l = Ok bs /\
    dec bs = Some (xml_head version enc ++ t) /\
    read_page true t = Some (merge_all (map (fun c => xhtml_page (indented xhtml_layout 0 false c)) l)).
Proof.
  intros cd dec low version enc l Hcd Hd Hv Hl Hr. rewrite Forall_forall in Hl.
  destruct (output_read cd dec low XhtmlIndent version enc l) as (bs & t & E1 & E2 & E3 & _); auto; try discriminate.
  - apply Forall_forall. intros c Hc. apply xhtml_pok; auto; [|discriminate].
    apply Forall_forall. intros s Hs. rewrite Forall_forall in Hr. apply Hr. apply in_flat_map. eauto.
  - intros _. apply Forall_forall. intros c Hc. apply xhtml_lok; auto.
  - apply Forall_forall. intros n Hx. apply in_map_iff in Hx as (c & <- & Hc). cbn [printed_calls indents] in Hc. apply in_map_iff in Hc as (c' & <- & Hc).
    apply xhtml_dok; auto. apply xhtml_indented_ok; auto.
  - exists bs, t. split; [exact E1|]. split.
    + rewrite E2. unfold head_chars, xml_head. destruct version; [|reflexivity]. cbn [is_html]. unfold decl_chars. rewrite <- !app_assoc. reflexivity.
    + change (HtPrint.xml XhtmlIndent) with true in E3. rewrite E3. f_equal. f_equal. cbn [printed_calls indents]. rewrite !map_map. apply map_ext_in. intros c Hc.
      apply xhtml_view; auto. apply xhtml_indented_ok; auto.
Qed.
Print Assumptions C102_xhtml_indent_partial.

Definition page2 : list call :=
  [CElem (Some xhtml_ns) (lit "html") [(None, xhtml_ns)] []
     [CElem (Some xhtml_ns) (lit "p") [] [(lit "title", lit "a""&b" ++ [233])] [CText (lit "1 < 2 ]]>"); CComment (lit "c")];
      CElem (Some xhtml_ns) (lit "a") [] [(lit "href", lit "?q=" ++ [233])] []; CElem (Some (lit "u")) (lit "x:y") [(Some (lit "x"), lit "u")] [] []]].
Lemma page2_ok : Forall xhtml_ok page2 /\ Forall none_empty page2.
Proof.
  assert (D : forall s, forallb (fun c => xml_char c && negb (c =? 732)) s = true -> data s).
  { intros s H. rewrite forallb_forall in H. split.
    - apply Forall_forall. intros c Hc. apply H in Hc. now apply andb_prop in Hc.
    - intro Hc. apply H in Hc. discriminate Hc. }
  split.
  - unfold page2.
    repeat first [ apply Forall_nil | apply Forall_cons | apply xo_elem; [vm_compute; reflexivity| | |]
      | apply xo_text, D; vm_compute; reflexivity
      | apply xo_comment; repeat split; [repeat constructor|intro H; vm_compute in H; repeat destruct H as [H|H]; try discriminate H; contradiction]
      | split; [vm_compute; reflexivity|split; [apply D; vm_compute; reflexivity|intro H; vm_compute in H; repeat destruct H as [H|H]; try discriminate H; contradiction]]
      | cbn [map app fst]; repeat constructor; intro H; vm_compute in H; repeat destruct H as [H|H]; try discriminate H; contradiction ].
  - unfold page2. repeat first [ apply Forall_nil | apply Forall_cons | apply ne_text | apply ne_comment | apply ne_elem; [intro H; vm_compute in H; discriminate H|] ].
Qed.
Example C102_case : Forall xhtml_ok page2 /\ Forall none_empty page2 /\
  h_output lower Xhtml (xmlstream_new utf8_codec) (Some (lit "1.0")) (lit "utf-8") page2 =
  Ok (lit "<?xml version=""1.0"" encoding=""utf-8""?>" ++ [10] ++ lit "<html xmlns=""http://www.w3.org/1999/xhtml""><p title='a""&amp;b&eacute;'>1 &lt; 2 ]]&gt;<!--c--></p><a href=""?q=%C3%A9""></a><x:y xmlns:x=""u""/></html>").
Proof. destruct page2_ok. split; [assumption|]. split; [assumption|vm_compute; reflexivity]. Qed.

(** Every empty br, img, hr ... is followed by a stray '>'. *)
Theorem C102_stray_refuted :
  h_output lower Xhtml (xmlstream_new utf8_codec) None []
    [CElem (Some xhtml_ns) (lit "p") [] [] [CElem (Some xhtml_ns) (lit "br") [] [] []; CText (lit "a")]] = Ok (lit "<p><br />>a</p>").
Proof. vm_compute. reflexivity. Qed.
Print Assumptions C102_stray_refuted.
(** '<' in an attribute value is not escaped: the page is not well-formed. *)
Theorem C102_less_refuted : exists b,
  h_output lower Xhtml (xmlstream_new utf8_codec) None [] [CElem (Some xhtml_ns) (lit "p") [] [(lit "title", lit "<")] []] = Ok b /\
  b = lit "<p title=""<""></p>" /\ read_page true b = None.
Proof. exists (lit "<p title=""<""></p>"). split; [vm_compute; reflexivity|]. split; vm_compute; reflexivity. Qed.
Print Assumptions C102_less_refuted.

(** ** C103: the writer html-nsstrip *)
Lemma strip_one : forall low c, null_undeclared c -> forall h, h_print low HtmlStrip c h = h_print low Html (undeclared c) h.
Proof.
  intros low c. induction c as [ns q d a k IH|s|s|t d] using call_ind2; intros H h; try reflexivity. inversion H as [? ? ? ? ? Hd Hk| | |]; subst.
  cbn [undeclared]. rewrite !h_print_elem.
  assert (ES : h_start low HtmlStrip ns q d a h = h_start low Html ns q [] a h).
  { unfold h_start, base_start, html_start. destruct ns as [u|]; [reflexivity|]. now rewrite Hd. }
  rewrite ES. destruct (h_start low Html ns q [] a h) as [h1|e]; [|reflexivity]. cbn [bind].
  assert (EA : forall g, h_print_all low HtmlStrip k g = h_print_all low Html (map undeclared k) g).
  { clear - IH Hk. induction Hk as [|x k Hx Hk IHk]; intro g; [reflexivity|]. inversion IH; subst. cbn [h_print_all map]. rewrite H1 by assumption.
    destruct (h_print low Html (undeclared x) g); [|reflexivity]. cbn [bind]. now apply IHk. }
  rewrite EA. reflexivity.
Qed.
Theorem C103_stripped_partial : forall low x version enc l, Forall null_undeclared l ->
  h_output low HtmlStrip x version enc l = h_output low Html x version enc (map undeclared l).
Proof.
  intros low x version enc l Hl.
  assert (EA : forall g, h_print_all low HtmlStrip l g = h_print_all low Html (map undeclared l) g).
  { induction Hl as [|c l Hc Hl IHl]; intro g; [reflexivity|]. cbn [h_print_all map]. rewrite strip_one by assumption.
    destruct (h_print low Html (undeclared c) g); [|reflexivity]. cbn [bind]. now apply IHl. }
  unfold h_output.
  assert (EH : hp_new HtmlStrip x = hp_new Html x) by reflexivity. rewrite EH.
  assert (EV : match version with Some v => h_start_document HtmlStrip enc v (hp_new Html x) | None => Ok (hp_new Html x) end =
               match version with Some v => h_start_document Html enc v (hp_new Html x) | None => Ok (hp_new Html x) end) by (destruct version; reflexivity).
  rewrite EV. destruct (match version with Some v => h_start_document Html enc v (hp_new Html x) | None => Ok (hp_new Html x) end) as [h0|e]; [|reflexivity].
  cbn [bind]. rewrite EA. reflexivity.
Qed.
Print Assumptions C103_stripped_partial.
Example C103_case : Forall null_undeclared page2 /\
  h_output lower HtmlStrip (xmlstream_new utf8_codec) None [] page2 =
  Ok (lit "<html><p title='a""&amp;b&eacute;'>1 &lt; 2 ]]&gt;<!--c--></p><a href=""?q=&eacute;""/><x:y/></html>").
Proof.
  split; [|vm_compute; reflexivity]. unfold page2.
  repeat first [ apply Forall_nil | apply Forall_cons | apply nu_text | apply nu_comment | apply nu_elem; [intro H; (discriminate H || reflexivity)|] ].
Qed.
(** On an element in no namespace declarations are not stripped. *)
Theorem C103_null_refuted :
  h_output lower HtmlStrip (xmlstream_new utf8_codec) None []
    [CElem None (lit "p") [(Some (lit "x"), lit "u")] [] [CText (lit "a")]] = Ok (lit "<p xmlns:x=""u"">a</p>").
Proof. vm_compute. reflexivity. Qed.
Print Assumptions C103_null_refuted.

(** ** C104: URI attributes and boolean attributes *)
Lemma unquote_low : forall c s, c <> 37 -> unquote (c :: s) = c :: unquote s.
Proof. intros c s H. cbn [unquote]. destruct (N.eqb_spec c 37); [contradiction|reflexivity]. Qed.
Lemma hex_val : forall n, n < 16 -> hex_value (hex n) = Some n.
Proof.
  intros n H. assert (HH : forallb (fun i => match hex_value (hex (N.of_nat i)) with Some x => x =? N.of_nat i | None => false end) (seq 0 16) = true) by (vm_compute; reflexivity).
  rewrite forallb_forall in HH. specialize (HH (N.to_nat n) ltac:(apply in_seq; lia)). rewrite N2Nat.id in HH.
  destruct (hex_value (hex n)); [|discriminate HH]. apply N.eqb_eq in HH. now subst.
Qed.
Lemma unquote_percent : forall b s, b < 256 -> unquote (percent b ++ s) = b :: unquote s.
Proof.
  intros b s Hb. unfold percent. cbn [app unquote]. rewrite N.eqb_refl. rewrite !hex_val.
  - f_equal. pose proof (N.div_mod b 16 ltac:(lia)). lia.
  - apply N.mod_lt. lia.
  - apply N.div_lt_upper_bound; lia.
Qed.
Lemma hex_high : forall b, 128 <= b -> hex_value b = None.
Proof.
  intros b H. unfold hex_value, between. destruct (N.leb_spec b 57); [lia|]. destruct (N.leb_spec b 70); [lia|]. destruct (N.leb_spec b 102); [lia|]. now rewrite !andb_false_r.
Qed.
Definition bt (x : bool * N) : list N := if fst x then percent (snd x) else [snd x].
Lemma bt_true : forall c, bt (true, c) = [37; hex (c / 16); hex (c mod 16)].
Proof. reflexivity. Qed.
Lemma bt_false : forall c, bt (false, c) = [c].
Proof. reflexivity. Qed.
Lemma unquote_bt : forall n (l : list (bool * N)), (length l < n)%nat -> Forall (fun x : bool * N => if fst x then 128 <= snd x /\ snd x < 256 else snd x < 128) l ->
  unquote (flat_map bt l) = unquote (map snd l).
Proof.
  induction n as [|n IH]; intros l Hn HF; [lia|]. destruct l as [|[p c] l]; [reflexivity|]. inversion HF as [|? ? Hc HF']; subst. cbn [fst snd length] in *.
  cbn [flat_map map]. unfold bt at 1. cbn [fst snd]. destruct p.
  - rewrite unquote_percent by tauto. destruct Hc as [Hc _]. rewrite unquote_low by lia. f_equal. apply IH; [lia|assumption].
  - cbn [app]. destruct (N.eq_dec c 37) as [->|Hne].
    + cbn [unquote]. rewrite N.eqb_refl.
      assert (IH1 : unquote (flat_map bt l) = unquote (map snd l)) by (apply IH; [lia|assumption]).
      destruct l as [|[p1 c1] l]; [reflexivity|]. inversion HF' as [|? ? Hc1 HF2]; subst. cbn [fst snd length] in *.
      destruct p1.
      * (* the next byte is escaped *)
        cbn [flat_map map fst snd] in *. rewrite ?bt_true, ?bt_false in *. cbn [app] in *. change (hex_value 37) with (@None N). cbv iota.
        destruct (map snd l) as [|c2 m] eqn:EM; [now rewrite IH1|]. rewrite (hex_high c1) by tauto. now rewrite IH1.
      * cbn [flat_map map fst snd] in *. rewrite ?bt_true, ?bt_false in *. cbn [app] in *.
        destruct l as [|[p2 c2] l]; [reflexivity|]. inversion HF2 as [|? ? Hc2 HF3]; subst. cbn [fst snd length] in *.
        destruct p2.
        -- cbn [flat_map map fst snd] in *. rewrite ?bt_true, ?bt_false in *. cbn [app] in *.
           change (hex_value 37) with (@None N). rewrite (hex_high c2) by tauto. rewrite IH1. destruct (hex_value c1); reflexivity.
        -- cbn [flat_map map fst snd] in *. rewrite ?bt_true, ?bt_false in *. cbn [app] in *. rewrite IH1.
           destruct (hex_value c1), (hex_value c2); try reflexivity. f_equal. apply IH; [lia|assumption].
    + rewrite !unquote_low by assumption. f_equal. apply IH; [lia|assumption].
Qed.
Lemma uri_same_bytes : forall v, chars v -> unquote (uri_escaped v) = unquote (utf8_encode v).
Proof.
  intros v Hv.
  set (l := flat_map (fun c => map (fun b => (128 <=? b, b)) (utf8_1 c)) v).
  assert (HL : Forall (fun x : bool * N => if fst x then 128 <= snd x /\ snd x < 256 else snd x < 128) l /\ flat_map bt l = uri_escaped v /\ map snd l = utf8_encode v).
  { unfold l. clear l. induction Hv as [|c v Hc Hv (I1 & I2 & I3)]; [repeat split; constructor|]. cbn [flat_map]. rewrite flat_map_app, map_app, I2, I3, Forall_app. unfold uri_escaped, utf8_encode. cbn [flat_map].
    pose proof (utf8_1_bytes c (char_bound c Hc)) as HB. split; [split; [|exact I1]|split; f_equal].
    - apply Forall_forall. intros x Hx. apply in_map_iff in Hx as (b & <- & Hb). rewrite Forall_forall in HB. apply HB in Hb. cbn [fst snd]. destruct (N.leb_spec 128 b); auto.
    - destruct (N.ltb_spec c 128) as [Hlt|Hge].
      + unfold utf8_1. pose proof Hlt as Hlt'. apply N.ltb_lt in Hlt'. rewrite Hlt'. cbn [map flat_map]. unfold bt. cbn [fst snd]. destruct (N.leb_spec 128 c); [lia|reflexivity].
      + pose proof (utf8_high c Hge) as H1. revert H1. generalize (utf8_1 c). intro u. induction u as [|b u IHu]; intro H1; [reflexivity|]. inversion H1; subst.
        cbn [map flat_map]. rewrite IHu by assumption. unfold bt. cbn [fst snd]. destruct (N.leb_spec 128 b); [reflexivity|lia].
    - rewrite map_map. cbn [snd]. apply map_id. }
  destruct HL as (H1 & <- & <-). eapply unquote_bt; [apply Nat.lt_succ_diag_r|exact H1].
Qed.

(** The value of a URI attribute that a reader of the page sees is ASCII, and
    percent-decoding it gives what percent-decoding the UTF-8 form of the value
    gives. *)
Theorem C104_uri_partial : forall cd dec low version enc q n v, sound_codec cd -> decodes cd dec -> lowers low ->
  is_name q = true -> ascii q -> is_name n = true -> ascii n -> data v -> cdata_element q = false ->
  encode cd q <> None -> encode cd n <> None ->
  uri_attribute q n = true ->
  exists bs t w, h_output low Html (xmlstream_new cd) version enc [CElem None q [] [(n, v)] []] = Ok bs /\
    dec bs = Some t /\
    read_page false t = Some [RElem q [(n, w)] []] /\
    ascii w /\ unquote w = unquote (utf8_encode v).
Proof.
  intros cd dec low version enc q n v Hcd Hd Hlow Hq Aq Hn An Hv Hcq Eq En Hu.
  assert (HK : html_ok (CElem None q [] [(n, v)] [])).
  { constructor; auto. }
  destruct (C100_html_partial cd dec low version enc [CElem None q [] [(n, v)] []] Hcd Hd Hlow) as (bs & t & E1 & E2 & E3).
  - constructor; [exact HK|constructor].
  - cbn. repeat constructor; assumption.
  - exists bs, t, (uri_escaped v). split; [exact E1|]. split; [exact E2|]. split; [|split].
    + rewrite E3. unfold merge_all. cbn [map fold_right html_page merge app]. unfold html_meaning. cbn [fst snd]. rewrite Hu.
      assert (Eb : boolean_attribute q n = false).
      { destruct (boolean_attribute q n) eqn:E; [|reflexivity]. exfalso. unfold boolean_attribute, listed in E. unfold uri_attribute, listed in Hu.
        apply existsb_exists in E as (r & Hr & E). apply existsb_exists in Hu as (r2 & Hr2 & Hu). apply andb_prop in E as [E _]. apply andb_prop in Hu as [Hu _].
        destruct (str_eqb_spec (lit (fst r)) (lower n)) as [N1|]; [|discriminate E]. destruct (str_eqb_spec (lit (fst r2)) (lower n)) as [N2|]; [|discriminate Hu].
        rewrite <- N1 in N2. apply lit_inj in N2. clear - Hr Hr2 N2. revert N2.
        cbn [In] in Hr, Hr2. unfold uri_table in Hr2. cbn [In] in Hr2.
        repeat (destruct Hr as [<-|Hr]; [repeat (destruct Hr2 as [<-|Hr2]; [discriminate|]); destruct Hr2|]). destruct Hr. }
      rewrite Eb. reflexivity.
    + apply Forall_forall. intros d Hdd. destruct (uri_chars v d (proj1 Hv) Hdd) as [[_ H]|H]; lia.
    + apply uri_same_bytes, Hv.
Qed.
Print Assumptions C104_uri_partial.
Example C104_case : uri_attribute (lit "A") (lit "HREF") = true /\
  h_output lower Html (xmlstream_new latin1_codec) None [] [CElem None (lit "A") [] [(lit "HREF", lit "/%41/" ++ [233] ++ lit "?a&b")] []] =
  Ok (lit "<A HREF=""/%41/%C3%A9?a&amp;b""></A>").
Proof. split; vm_compute; reflexivity. Qed.

(** A boolean attribute set to its own name is written as the name alone. *)
Theorem C104_minimized : forall cd dec low version enc q n v, sound_codec cd -> decodes cd dec -> lowers low ->
  is_name q = true -> ascii q -> is_name n = true -> ascii n -> data v -> cdata_element q = false ->
  encode cd q <> None -> encode cd n <> None ->
  boolean_attribute q n = true -> low v = lower n ->
  exists bs, h_output low Html (xmlstream_new cd) version enc [CElem None q [] [(n, v)] []] = Ok bs /\
    dec bs = Some (lit "<" ++ q ++ lit " " ++ n ++ lit ">" ++ (if empty_element q then [] else lit "</" ++ q ++ lit ">")).
Proof.
  intros cd dec low version enc q n v Hcd Hd Hlow Hq Aq Hn An Hv Hcq Eq En Hb Hl.
  assert (HK : html_ok (CElem None q [] [(n, v)] [])).
  { constructor; auto. }
  destruct (output_read cd dec low Html version enc [CElem None q [] [(n, v)] []]) as (bs & t & E1 & E2 & _ & E3); auto; try discriminate.
  - constructor; [|constructor]. apply html_pok; auto. cbn. repeat constructor; assumption.
  - constructor; [|constructor]. apply html_dok; auto.
  - exists bs. split; [exact E1|]. rewrite E2.
    assert (EH : head_chars Html version enc = []) by (unfold head_chars; destruct version; reflexivity). rewrite EH. cbn [app]. f_equal. rewrite E3.
    unfold printed_calls. cbn [indents map render flat_map dchars]. rewrite app_nil_r. change (lit "<" ++ q ++ ?X) with (60 :: q ++ X). f_equal. f_equal.
    unfold all_atts, tatts. cbn [is_html map app flat_map]. rewrite app_nil_r. unfold html_attribute. cbv zeta. cbn [fst snd]. rewrite (bool_names low Hlow) by assumption. rewrite Hb, (Hlow n An), Hl.
    rewrite str_eqb_refl. unfold att_chars. cbn [fst snd]. rewrite app_nil_r. change (lit " " ++ n ++ ?X) with (32 :: n ++ X). cbn [app]. f_equal. f_equal.
    unfold form_of, voidq, sopen. cbn [is_html andb negb]. rewrite (empty_names low Hlow) by assumption. destruct (empty_element q); reflexivity.
Qed.
Print Assumptions C104_minimized.
Example C104_case_boolean : boolean_attribute (lit "Option") (lit "selected") = true /\
  h_output lower Html (xmlstream_new latin1_codec) None [] [CElem None (lit "Option") [] [(lit "selected", lit "SELECTED")] []] = Ok (lit "<Option selected></Option>").
Proof. split; vm_compute; reflexivity. Qed.

(** ** C105: trees of the document model *)
Section Trees.
Variables (low : str -> str) (ordn : list (option str * str) -> list (option str * str)) (orda : list (str * option str) -> list (str * option str)).
Hypothesis ordn_ok : forall l, Permutation (ordn l) l.
Hypothesis orda_ok : forall l, Permutation (orda l) l.

Lemma no_decls : forall chain, Forall (fun d : nsdict => d = []) chain -> forall cur q attrs,
  Forall (fun x => a_ns x = None /\ is_name (a_qname x) = true /\ ascii (a_qname x) /\ data (a_value x)) attrs ->
  visit_namespaces chain cur None q attrs = [].
Proof.
  intros chain HC cur q attrs HA. unfold visit_namespaces.
  assert (E0 : inscope chain = [(Some (lit "xml"), XML_NAMESPACE)]).
  { unfold inscope. generalize [(Some (lit "xml"), XML_NAMESPACE)]. clear - HC. induction HC as [|d chain -> HC IH]; intro acc; [reflexivity|]. cbn [fold_left]. apply IH. }
  rewrite E0. change (ddel [(Some (lit "xml"), XML_NAMESPACE)] (Some (lit "xml"))) with (@nil (option str * str)).
  match goal with |- context [fold_left ?f attrs []] => assert (E1 : fold_left f attrs [] = []) end.
  { induction HA as [|x attrs (Hx & _) HA IH]; [reflexivity|]. cbn [fold_left]. rewrite Hx. exact IH. }
  rewrite E1. reflexivity.
Qed.
Lemma tree_calls : forall n, html_tree n -> forall chain, Forall (fun d : nsdict => d = []) chain -> forall cur,
  html_ok (calls ordn orda chain cur n) /\ tree_page low n (html_page low (calls ordn orda chain cur n)) /\
  incl (raw (calls ordn orda chain cur n)) (raw_tree n).
Proof.
  fix IHn 2. intros n Hn. destruct Hn as [s Hs|s Hs|t d Hp|q attrs k Hq Aq Ha Hnd He Hc Hk]; intros chain HC cur.
  - split; [now constructor|]. split; [constructor|]. apply incl_refl.
  - split; [now constructor|]. split; [constructor|]. apply incl_refl.
  - split; [now constructor|]. split; [constructor|]. apply incl_refl.
  - assert (HC' : Forall (fun d : nsdict => d = []) ([] :: chain)) by (constructor; auto).
    cbn [calls]. rewrite (no_decls _ HC' cur q attrs Ha).
    assert (EO : ordn [] = []) by (apply Permutation_nil, Permutation_sym, ordn_ok). rewrite EO.
    assert (EA : Permutation (map (fun a => (fst a, oget (snd a))) (orda (visit_attributes attrs))) (plain_attrs attrs)).
    { rewrite (orda_ok (visit_attributes attrs)). rewrite visit_attributes_eq; [|eapply Forall_impl; [|exact Ha]; intros x [Hx _]; rewrite Hx; discriminate|exact Hnd].
      unfold plain_attrs. rewrite !map_map. apply Permutation_refl. }
    set (atts := map (fun a => (fst a, oget (snd a))) (orda (visit_attributes attrs))) in *.
    set (cur' := dupdate cur []). clearbody cur'.
    assert (HK : Forall (fun c => html_ok (calls ordn orda ([] :: chain) cur' c) /\ tree_page low c (html_page low (calls ordn orda ([] :: chain) cur' c)) /\
        incl (raw (calls ordn orda ([] :: chain) cur' c)) (raw_tree c)) k).
    { clear - IHn Hk HC'. induction Hk as [|c k Hc Hk IH]; constructor; [apply IHn; assumption|exact IH]. }
    rewrite Forall_forall in HK. split; [|split].
    + constructor; try assumption.
      * constructor.
      * apply Forall_forall. intros x Hx. apply (Permutation_in _ EA) in Hx. unfold plain_attrs in Hx. apply in_map_iff in Hx as (y & <- & Hy). rewrite Forall_forall in Ha. destruct (Ha y Hy) as (_ & H). exact H.
      * intro E. now rewrite (He E).
      * intro E. specialize (Hc E). apply Forall_forall. intros x Hx. apply in_map_iff in Hx as (y & <- & Hy). rewrite Forall_forall in Hc. destruct (Hc y Hy) as (s & -> & Hs). exists s. split; [reflexivity|exact Hs].
      * apply Forall_forall. intros x Hx. apply in_map_iff in Hx as (y & <- & Hy). now apply HK.
    + cbn [html_page map app]. constructor.
      * rewrite EA. unfold plain_attrs. rewrite map_map. apply Permutation_refl.
      * rewrite map_map. clear - HK. induction k as [|c k IH]; constructor; [apply HK; now left|]. apply IH. intros x Hx. apply HK. now right.
    + cbn [raw raw_tree map app]. intros s [<-|Hs]; [now left|right]. apply in_app_iff in Hs as [Hs|Hs]; apply in_or_app.
      * left. apply in_map_iff in Hs as (x & <- & Hx). apply (Permutation_in _ EA) in Hx. unfold plain_attrs in Hx. apply in_map_iff in Hx as (y & <- & Hy). cbn [fst]. now apply in_map.
      * right. apply in_flat_map in Hs as (x & Hx & Hs). apply in_map_iff in Hx as (y & <- & Hy). apply in_flat_map. exists y. split; [exact Hy|]. now apply (HK y Hy).
Qed.
End Trees.

Theorem C105_tree_partial : forall cd dec low ordn orda enc kids, sound_codec cd -> decodes cd dec -> lowers low ->
  (forall l, Permutation (ordn l) l) -> (forall l, Permutation (orda l) l) ->
  Forall html_tree kids -> Forall (fun s => encode cd s <> None) (flat_map raw_tree kids) ->
  exists bs t pages, h_encode_document low Html ordn orda enc (xmlstream_new cd) kids = Ok bs /\
    dec bs = Some t /\
    read_page false t = Some (merge_all pages) /\
    Forall2 (tree_page low) kids pages.
Proof.
  intros cd dec low ordn orda enc kids Hcd Hd Hlow On Oa Hk Hr. unfold h_encode_document.
  set (C := calls ordn orda [] [(Some (lit "xml"), XML_NAMESPACE)]).
  assert (HC : forall n, In n kids -> html_ok (C n) /\ tree_page low n (html_page low (C n)) /\ incl (raw (C n)) (raw_tree n)).
  { intros n Hn. rewrite Forall_forall in Hk. apply tree_calls; auto. }
  destruct (C100_html_partial cd dec low (Some (lit "4.0")) enc (map C kids) Hcd Hd Hlow) as (bs & t & E1 & E2 & E3).
  - apply Forall_forall. intros x Hx. apply in_map_iff in Hx as (n & <- & Hn). now apply HC.
  - apply Forall_forall. intros s Hs. apply in_flat_map in Hs as (x & Hx & Hs). apply in_map_iff in Hx as (n & <- & Hn). rewrite Forall_forall in Hr. apply Hr. apply in_flat_map. exists n. split; [exact Hn|]. now apply (HC n Hn).
  - exists bs, t, (map (html_page low) (map C kids)). split; [exact E1|]. split; [exact E2|]. split; [exact E3|].
    clear - HC. induction kids as [|n kids IH]; constructor; [apply HC; now left|]. apply IH. intros x Hx. apply HC. now right.
Qed.
Print Assumptions C105_tree_partial.

Definition tree1 : list node :=
  [NElem None (lit "html") [] [] [NElem None (lit "A") [] [{| a_ns := None; a_qname := lit "href"; a_value := [233] |}; {| a_ns := None; a_qname := lit "id"; a_value := lit "x" |}] [NText (lit "a<b")];
     NElem None (lit "hr") [] [{| a_ns := None; a_qname := lit "noshade"; a_value := lit "noshade" |}] []]].
Example C105_case : Forall html_tree tree1 /\
  h_encode_document lower Html (fun l => l) (@rev _) (lit "utf-8") (xmlstream_new utf8_codec) tree1 = Ok (lit "<html><A id=""x"" href=""%C3%A9"">a&lt;b</A><hr noshade></html>").
Proof.
  assert (D : forall s, forallb (fun c => xml_char c && negb (c =? 732)) s = true -> data s).
  { intros s H. rewrite forallb_forall in H. split.
    - apply Forall_forall. intros c Hc. apply H in Hc. now apply andb_prop in Hc.
    - intro Hc. apply H in Hc. discriminate Hc. }
  assert (A : forall s, forallb (fun c => c <? 128) s = true -> ascii s).
  { intros s H. apply Forall_forall. intros c Hc. rewrite forallb_forall in H. apply H in Hc. now apply N.ltb_lt. }
  split; [|vm_compute; reflexivity]. unfold tree1.
  repeat first [ apply Forall_nil | apply Forall_cons | apply ht_elem; [vm_compute; reflexivity|apply A; vm_compute; reflexivity| | | | |]
    | apply ht_text, D; vm_compute; reflexivity
    | split; [reflexivity|split; [vm_compute; reflexivity|split; [apply A; vm_compute; reflexivity|apply D; vm_compute; reflexivity]]]
    | cbn [map a_qname]; repeat constructor; intro H; vm_compute in H; repeat destruct H as [H|H]; try discriminate H; contradiction
    | intro H; vm_compute in H; discriminate H | intro H; reflexivity ].
Qed.
