(** * Encodings that meet the hypotheses of the serializer theorems *)
From Coq Require Import NArith ZArith String List Bool Lia Arith Permutation.
From Verif Require Import PyStr PyErr Utf8 SerModel SerSpec SerStream SerPrint SerVisit SerRead SerTree SerNs SerTop SerFail SerDoc.
Import ListNotations.
Open Scope N_scope.

Definition utf8_codec : codec := fun c => if c <? 1114112 then Some (utf8_1 c) else None.

Lemma xml_char_bounds : forall c, xml_char c = true -> c < 1114112 /\ ~ (55296 <= c <= 57343).
Proof.
  intros c. unfold xml_char, between. repeat rewrite ?orb_true_iff, ?andb_true_iff, ?N.leb_le, ?N.eqb_eq. lia.
Qed.
Lemma utf8_sound : sound_codec utf8_codec.
Proof. left. intros c H. unfold utf8_codec, utf8_1. Ndec. reflexivity. Qed.
Lemma utf8_encode_codec : forall s bs, encode utf8_codec s = Some bs -> bs = utf8_encode s /\ Forall (fun c => c < 1114112) s.
Proof.
  induction s as [|c s IH]; intros bs H; cbn [encode] in H; [injection H as <-; split; [reflexivity|constructor]|].
  unfold utf8_codec at 1 in H. destruct (N.ltb_spec c 1114112); [|discriminate]. destruct (encode utf8_codec s) eqn:E; [|discriminate].
  injection H as <-. destruct (IH l eq_refl) as [-> HF]. split; [reflexivity|]. constructor; assumption.
Qed.
Lemma utf8_decodes : decodes utf8_codec utf8_decode.
Proof. intros s bs _ H. apply utf8_encode_codec in H as [-> HF]. now apply utf8_roundtrip. Qed.

Lemma latin1_sound : sound_codec latin1_codec.
Proof. left. intros c H. unfold latin1_codec. Ndec. reflexivity. Qed.
Lemma latin1_decodes : decodes latin1_codec latin1_decode.
Proof.
  intros s bs _ H. assert (G : bs = s /\ forallb (fun b => b <? 256) s = true).
  { revert bs H. induction s as [|c s IH]; intros bs H; cbn [encode] in H; [injection H as <-; split; reflexivity|].
    unfold latin1_codec at 1 in H. destruct (c <? 256) eqn:Ec; [|discriminate]. destruct (encode latin1_codec s) eqn:E; [|discriminate].
    injection H as <-. destruct (IH _ eq_refl) as [-> HF]. split; [reflexivity|]. cbn [forallb]. now rewrite Ec. }
  destruct G as [-> HF]. unfold latin1_decode. now rewrite HF.
Qed.
Lemma ascii_sound : sound_codec ascii_codec.
Proof. left. intros c H. unfold ascii_codec. Ndec. reflexivity. Qed.
Lemma ascii_decodes : decodes ascii_codec ascii_decode.
Proof.
  intros s bs _ H. assert (G : bs = s /\ forallb (fun b => b <? 128) s = true).
  { revert bs H. induction s as [|c s IH]; intros bs H; cbn [encode] in H; [injection H as <-; split; reflexivity|].
    unfold ascii_codec at 1 in H. destruct (c <? 128) eqn:Ec; [|discriminate]. destruct (encode ascii_codec s) eqn:E; [|discriminate].
    injection H as <-. destruct (IH _ eq_refl) as [-> HF]. split; [reflexivity|]. cbn [forallb]. now rewrite Ec. }
  destruct G as [-> HF]. unfold ascii_decode. now rewrite HF.
Qed.

Definition utf16 (be : bool) : codec := if be then utf16be else utf16le.
Lemma utf16_sound : forall be, sound_codec (utf16 be).
Proof.
  intro be. right. repeat split.
  - destruct be; vm_compute; reflexivity.
  - intros c _. destruct be; discriminate.
  - intros c _. destruct be; discriminate.
Qed.
Lemma utf16_units_ok : forall be us r, Forall (fun u => u < 65536) us ->
  units be (flat_map (fun u => if be then [u / 256; u mod 256] else [u mod 256; u / 256]) us ++ r) = option_map (app us) (units be r).
Proof.
  intros be us r H. induction H as [|u us Hu H IH]; cbn [flat_map app].
  - destruct (units be r); reflexivity.
  - assert (E : u = 256 * (u / 256) + u mod 256) by (apply N.div_mod; lia).
    destruct be; cbn [app units]; rewrite IH; destruct (units _ r); cbn; try reflexivity; do 2 f_equal; lia.
Qed.
Lemma utf16_units_bound : forall c, c < 1114112 -> Forall (fun u => u < 65536) (utf16_units c).
Proof.
  intros c H. unfold utf16_units. destruct (N.ltb_spec c 65536); [repeat constructor; assumption|].
  assert (A : (c - 65536) / 1024 < 1024) by (apply N.div_lt_upper_bound; lia).
  assert (B : (c - 65536) mod 1024 < 1024) by (apply N.mod_lt; lia).
  remember ((c - 65536) / 1024) as x. remember ((c - 65536) mod 1024) as y. repeat constructor; lia.
Qed.
Lemma of_units_1 : forall c r, c < 1114112 -> ~ (55296 <= c <= 57343) -> of_units (utf16_units c ++ r) = option_map (cons c) (of_units r).
Proof.
  intros c r H1 H2. unfold utf16_units. destruct (N.ltb_spec c 65536).
  - cbn [app of_units]. unfold between. destruct (N.leb_spec 55296 c), (N.leb_spec c 56319), (N.leb_spec 56320 c), (N.leb_spec c 57343); cbn [andb]; try reflexivity; exfalso; apply H2; split; lia.
  - assert (A : (c - 65536) / 1024 < 1024) by (apply N.div_lt_upper_bound; lia).
    assert (B : (c - 65536) mod 1024 < 1024) by (apply N.mod_lt; lia).
    assert (E : c - 65536 = 1024 * ((c - 65536) / 1024) + (c - 65536) mod 1024) by (apply N.div_mod; lia).
    remember ((c - 65536) / 1024) as x. remember ((c - 65536) mod 1024) as y.
    cbn [app of_units]. unfold between. Ndec. cbn [andb]. f_equal. f_equal. lia.
Qed.
Lemma utf16_decodes : forall be, decodes (utf16 be) (utf16_decode_as be).
Proof.
  intros be s bs Hs H.
  assert (E : bs = flat_map (fun u => if be then [u / 256; u mod 256] else [u mod 256; u / 256]) (flat_map utf16_units s)).
  { clear Hs. revert bs H. induction s as [|c s IH]; intros bs H; cbn [encode] in H; [injection H as <-; reflexivity|].
    destruct (utf16 be c) as [b|] eqn:Eb; [|discriminate]. destruct (encode (utf16 be) s) as [b2|]; [|discriminate]. injection H as <-.
    rewrite (IH b2 eq_refl). cbn [flat_map]. rewrite flat_map_app. f_equal. destruct be; unfold utf16, utf16be, utf16le in Eb; now injection Eb as <-. }
  unfold utf16_decode_as. rewrite E, <- (app_nil_r (flat_map _ (flat_map utf16_units s))), utf16_units_ok.
  - cbn [units option_map]. rewrite app_nil_r. clear E H. induction Hs as [|c s Hc Hs IH]; [reflexivity|]. cbn [flat_map].
    destruct (xml_char_bounds c Hc). rewrite of_units_1 by assumption. now rewrite IH.
  - apply Forall_forall. intros u Hu. apply in_flat_map in Hu as (c & Hc & Hu). unfold chars in Hs. rewrite Forall_forall in Hs.
    destruct (xml_char_bounds c (Hs c Hc)) as [Hb _]. pose proof (utf16_units_bound c Hb) as HF. rewrite Forall_forall in HF. auto.
Qed.

(** ** The byte order mark *)
Definition flush (p : printer) : printer := set_x p (flush_bom (p_x p)).
Lemma flush_idem : forall x, flush_bom (flush_bom x) = flush_bom x.
Proof. intro x. unfold flush_bom. destruct (x_bom_le x || x_bom_be x) eqn:E; cbn [x_bom_le x_bom_be orb]; [reflexivity|]. now rewrite E. Qed.
Lemma p_ascii_flush : forall p s, p_ascii p s = p_ascii (flush p) s.
Proof.
  intros p s. unfold p_ascii, write_ascii. unfold flush at 2. cbn [p_x set_x]. rewrite flush_idem. destruct (write_ascii0 (flush_bom (p_x p)) s); reflexivity.
Qed.
Lemma p_escape_flush : forall w p s m, p_escape w p s m = p_escape w (flush p) s m.
Proof.
  intros w p s m. unfold p_escape, write_escape. unfold flush at 2. cbn [p_x set_x]. rewrite flush_idem.
  cbv zeta. destruct (write_escape_loop (flush_bom (p_x p)) m _ 0 _ []); reflexivity.
Qed.
Lemma visit_flush : forall wide st ordn orda chain cur n p, p_elem p = None -> p_can_indent p = false ->
  visit wide st ordn orda chain cur n p = visit wide st ordn orda chain cur n (flush p).
Proof.
  intros wide st ordn orda chain cur n p H1 H2.
  assert (C1 : close_tag p = Ok p) by (unfold close_tag, is_open; now rewrite H1).
  assert (C2 : close_tag (flush p) = Ok (flush p)) by (unfold close_tag, is_open, flush; cbn [p_elem set_x]; now rewrite H1).
  assert (O1 : is_open p = false) by (unfold is_open; now rewrite H1).
  assert (O2 : is_open (flush p) = false) by (unfold is_open, flush; cbn [p_elem set_x]; now rewrite H1).
  assert (I2 : p_can_indent (flush p) = false) by exact H2.
  assert (S0 : forall canon q nsd atts, start_element0 wide canon q nsd atts p = start_element0 wide canon q nsd atts (flush p)).
  { intros canon q nsd atts. unfold start_element0. rewrite O1, O2. cbn [bind].
    rewrite (p_ascii_flush (set_elem p (Some q))). change (flush (set_elem p (Some q))) with (set_elem (flush p) (Some q)). reflexivity. }
  assert (T0 : forall s, text0 wide s false p = text0 wide s false (flush p)).
  { intro s. unfold text0. rewrite C1, C2. cbn [bind]. apply p_escape_flush. }
  assert (K0 : forall s, comment0 s p = comment0 s (flush p)).
  { intro s. unfold comment0. rewrite C1, C2. cbn [bind]. now rewrite p_ascii_flush. }
  assert (P0 : forall t d, processing_instruction0 t d p = processing_instruction0 t d (flush p)).
  { intros t d. unfold processing_instruction0. rewrite C1, C2. cbn [bind]. now rewrite p_ascii_flush. }
  destruct n as [ns q d a k|s|s|t d]; cbn [visit].
  - cbv zeta. assert (E : forall nsd atts, start_element wide st q nsd atts p = start_element wide st q nsd atts (flush p)).
    { intros. destruct st; cbn [start_element]; try apply S0. rewrite C1, C2. cbn [bind]. rewrite H2, I2. cbn [bind]. now rewrite S0. }
    now rewrite E.
  - destruct st; cbn [text]; rewrite T0; reflexivity.
  - destruct st; cbn [comment]; try apply K0. unfold indented. rewrite C1, C2. cbn [bind]. rewrite H2, I2. cbn [bind]. now rewrite K0.
  - destruct st; cbn [processing_instruction]; try apply P0. unfold indented. rewrite C1, C2. cbn [bind]. rewrite H2, I2. cbn [bind]. now rewrite P0.
Qed.

Section U16.
  Variable ordn : list (option str * str) -> list (option str * str).
  Variable orda : list (str * option str) -> list (str * option str).
  Hypothesis ordn_ok : forall l, Permutation (ordn l) l.
  Hypothesis orda_ok : forall l, Permutation (orda l) l.
  (** With a pending mark the output is the mark and then the plain output. *)
  Lemma bom_output : forall le st chain n bs, Forall legal_decls chain -> legal_dom n ->
    xml_encode_node true st ordn orda chain (xmlstream_new_utf16 le) n = Ok bs ->
    exists bs', bs = 254 :: 255 :: bs' /\ encode (utf16 (negb le)) (nodes_chars (utf16 (negb le)) (canon_of st) (written ordn orda st chain [n])) = Some bs'.
  Proof.
    intros le st chain n bs Hc Hn E. unfold xml_encode_node in E. fold cur0 in E. rewrite visit_flush in E by reflexivity.
    set (p0 := flush (printer_new (xmlstream_new_utf16 le))) in *.
    assert (G : goodp (utf16 (negb le)) p0).
    { unfold p0. destruct le; (split; [reflexivity|]); repeat split; apply (utf16_sound true) || apply (utf16_sound false). }
    destruct (visit true st ordn orda chain cur0 n p0) as [p'|e] eqn:EV; [|discriminate]. cbn in E. injection E as <-.
    assert (EA : visit_all true st ordn orda chain cur0 [n] p0 = Ok p') by (cbn [visit_all]; rewrite EV; reflexivity).
    apply (visit_all_written (utf16 (negb le))) in EA as [EM _]; auto.
    destruct EM as (b & E1 & ->). exists b. destruct G as [G _]. rewrite G in E1. split; [|exact E1]. unfold p0. destruct le; reflexivity.
  Qed.
End U16.
