(** * Documents: XML declaration, document type declaration, CDATA sections *)
From Coq Require Import NArith ZArith String List Bool Lia Arith Permutation.
From Verif Require Import PyStr PyErr Utf8 SerModel SerSpec SerStream SerPrint SerVisit SerRead SerTree SerNs SerTop SerFail SerDoc.
Import ListNotations.
Open Scope N_scope.

(** ** Document type declarations *)
Definition dt_chars (n : str) (p s : option str) : str :=
  lit "<!DOCTYPE " ++ n ++
    (match p with Some (c :: p') => lit " PUBLIC """ ++ (c :: p') ++ lit """ """ | _ => lit " SYSTEM """ end)
    ++ oget s ++ lit """>" ++ [10].

Lemma needs_doctype : forall cd n p s, needs cd (truthy s = true -> encode cd n <> None /\ encode cd (oget s) <> None /\ (truthy p = true -> encode cd (oget p) <> None)) (doctype false n p s).
Proof.
  intros cd n p s. unfold doctype. destruct (truthy p) eqn:Ep, (truthy s) eqn:Es; cbn [andb].
  - eapply needs_weak; [eapply needs_bind; [apply needs_close|repeat need]|]. tauto.
  - eapply needs_weak; [eapply needs_bind; [apply needs_close|need]|]. discriminate.
  - eapply needs_weak; [eapply needs_bind; [apply needs_close|repeat need]|]. intros H _. repeat split; try tauto. discriminate.
  - eapply needs_weak; [eapply needs_bind; [apply needs_close|need]|]. discriminate.
Qed.
Lemma doctype_out : forall cd pr n p s, goodp cd pr -> p_elem pr = None -> truthy s = true ->
  encode cd n <> None -> encode cd (oget s) <> None -> (truthy p = true -> encode cd (oget p) <> None) ->
  out pr (dt_chars n p s) None (p_level pr) (p_can_indent pr) (doctype false n p s pr).
Proof.
  intros cd pr n p s Hg He Hs En Es Ep. unfold doctype, dt_chars. rewrite Hs.
  assert (EC : close_tag pr = Ok pr) by (unfold close_tag, is_open; rewrite He; reflexivity). rewrite EC. cbn [bind]. rewrite <- He.
  destruct p as [[|c p']|]; cbn [truthy andb].
  - eapply out_bind; [exact Hg|eapply p_ascii_out; [exact Hg|ascii]|]. intros p2 H2 <- <- <-.
    eapply out_bind; [exact H2|eapply p_encode_out; [exact H2|exact En]|]. intros p3 H3 <- <- <-.
    eapply out_bind; [exact H3|eapply p_ascii_out; [exact H3|ascii]|]. intros p4 H4 <- <- <-.
    eapply out_bind; [exact H4|eapply p_encode_out; [exact H4|exact Es]|]. intros p5 H5 <- <- <-.
    eapply p_ascii_out; [exact H5|ascii].
  - eapply out_bind; [exact Hg|eapply p_ascii_out; [exact Hg|ascii]|]. intros p2 H2 <- <- <-.
    eapply out_bind; [exact H2|eapply p_encode_out; [exact H2|exact En]|]. intros p3 H3 <- <- <-.
    rewrite <- !app_assoc.
    eapply out_bind; [exact H3|eapply p_ascii_out; [exact H3|ascii]|]. intros p4 H4 <- <- <-.
    eapply out_bind; [exact H4|eapply p_encode_out; [exact H4|exact (Ep eq_refl)]|]. intros p5 H5 <- <- <-.
    eapply out_bind; [exact H5|eapply p_ascii_out; [exact H5|ascii]|]. intros p6 H6 <- <- <-.
    eapply out_bind; [exact H6|eapply p_encode_out; [exact H6|exact Es]|]. intros p7 H7 <- <- <-.
    eapply p_ascii_out; [exact H7|ascii].
  - eapply out_bind; [exact Hg|eapply p_ascii_out; [exact Hg|ascii]|]. intros p2 H2 <- <- <-.
    eapply out_bind; [exact H2|eapply p_encode_out; [exact H2|exact En]|]. intros p3 H3 <- <- <-.
    eapply out_bind; [exact H3|eapply p_ascii_out; [exact H3|ascii]|]. intros p4 H4 <- <- <-.
    eapply out_bind; [exact H4|eapply p_encode_out; [exact H4|exact Es]|]. intros p5 H5 <- <- <-.
    eapply p_ascii_out; [exact H5|ascii].
Qed.

Lemma break1_skip : forall q a r, ~ In q a -> break1 q (a ++ q :: r) = Some (a, r).
Proof.
  induction a as [|c a IH]; intros r H; cbn [app break1].
  - now rewrite N.eqb_refl.
  - destruct (N.eqb_spec c q) as [->|Hn]; [exfalso; apply H; now left|]. rewrite IH; [reflexivity|]. intro; apply H; now right.
Qed.

Definition dt_public (p : option str) : option str := if truthy p then p else None.
Definition legal_dt (n : str) (p s : option str) : Prop :=
  is_name n = true /\ legal_sysid (oget s) /\ truthy s = true /\ (truthy p = true -> legal_pubid (oget p) /\ ~ In 34 (oget p)).

Lemma need_ws_name : forall n r, is_name n = true -> need_ws (32 :: n ++ r) = Some (n ++ r).
Proof. intros n r H. unfold need_ws. now rewrite span_ws_name. Qed.
Lemma read_doctype_ok : forall n p s r, legal_dt n p s ->
  read_markup (tl (dt_chars n p s) ++ r) = Some ([TDoctype n (dt_public p) s], 10 :: r).
Proof.
  intros n p s r (Hn & (Hs & Hq & Hcr) & Ht & Hp). destruct s as [s|]; [|discriminate]. cbn [oget] in *.
  unfold dt_chars. change (tl (lit "<!DOCTYPE " ++ ?x)) with (lit "!DOCTYPE " ++ x). rewrite <- !app_assoc. cbn [oget].
  destruct p as [[|c p]|]; cbn [dt_public truthy].
  - change (read_markup (lit "!DOCTYPE " ++ n ++ lit " SYSTEM """ ++ s ++ lit """>" ++ [10] ++ r))
      with (read_doctype (32 :: n ++ lit " SYSTEM """ ++ s ++ lit """>" ++ [10] ++ r)).
    unfold read_doctype. rewrite need_ws_name by assumption. rewrite read_name_ok by (assumption || reflexivity).
    change (need_ws (lit " SYSTEM """ ++ s ++ lit """>" ++ [10] ++ r)) with (Some (lit "SYSTEM """ ++ s ++ lit """>" ++ [10] ++ r)). cbv iota.
    change (prefixb (lit "SYSTEM") (lit "SYSTEM """ ++ s ++ lit """>" ++ [10] ++ r)) with true. cbv iota.
    change (skipn 6 (lit "SYSTEM """ ++ s ++ lit """>" ++ [10] ++ r)) with (32 :: 34 :: s ++ 34 :: 62 :: 10 :: r).
    change (need_ws (32 :: 34 :: s ++ 34 :: 62 :: 10 :: r)) with (Some (34 :: s ++ 34 :: 62 :: 10 :: r)). cbv iota.
    change (read_literal (34 :: s ++ 34 :: 62 :: 10 :: r)) with (break1 34 (s ++ 34 :: 62 :: 10 :: r)).
    rewrite break1_skip by assumption. change (skip_ws (62 :: 10 :: r)) with (62 :: 10 :: r). cbv iota.
    now rewrite chars_forallb.
  - destruct (Hp eq_refl) as [[Hp1 _] Hp2]. cbn [oget] in *. set (P := c :: p) in *. rewrite <- !app_assoc.
    change (read_markup (lit "!DOCTYPE " ++ n ++ lit " PUBLIC """ ++ P ++ lit """ """ ++ s ++ lit """>" ++ [10] ++ r))
      with (read_doctype (32 :: n ++ lit " PUBLIC """ ++ P ++ lit """ """ ++ s ++ lit """>" ++ [10] ++ r)).
    unfold read_doctype. rewrite need_ws_name by assumption. rewrite read_name_ok by (assumption || reflexivity).
    set (X := P ++ lit """ """ ++ s ++ lit """>" ++ [10] ++ r).
    change (need_ws (lit " PUBLIC """ ++ X)) with (Some (lit "PUBLIC """ ++ X)). cbv iota.
    change (prefixb (lit "SYSTEM") (lit "PUBLIC """ ++ X)) with false. cbv iota.
    change (prefixb (lit "PUBLIC") (lit "PUBLIC """ ++ X)) with true. cbv iota.
    change (skipn 6 (lit "PUBLIC """ ++ X)) with (32 :: 34 :: X).
    change (need_ws (32 :: 34 :: X)) with (Some (34 :: X)). cbv iota.
    change (read_literal (34 :: X)) with (break1 34 (P ++ 34 :: 32 :: 34 :: s ++ 34 :: 62 :: 10 :: r)).
    rewrite break1_skip by assumption. 
    change (need_ws (32 :: 34 :: s ++ 34 :: 62 :: 10 :: r)) with (Some (34 :: s ++ 34 :: 62 :: 10 :: r)). cbv iota.
    change (read_literal (34 :: s ++ 34 :: 62 :: 10 :: r)) with (break1 34 (s ++ 34 :: 62 :: 10 :: r)).
    rewrite break1_skip by assumption. change (skip_ws (62 :: 10 :: r)) with (62 :: 10 :: r). cbv iota.
    rewrite Hp1, chars_forallb by assumption. reflexivity.
  - change (read_markup (lit "!DOCTYPE " ++ n ++ lit " SYSTEM """ ++ s ++ lit """>" ++ [10] ++ r))
      with (read_doctype (32 :: n ++ lit " SYSTEM """ ++ s ++ lit """>" ++ [10] ++ r)).
    unfold read_doctype. rewrite need_ws_name by assumption. rewrite read_name_ok by (assumption || reflexivity).
    change (need_ws (lit " SYSTEM """ ++ s ++ lit """>" ++ [10] ++ r)) with (Some (lit "SYSTEM """ ++ s ++ lit """>" ++ [10] ++ r)). cbv iota.
    change (prefixb (lit "SYSTEM") (lit "SYSTEM """ ++ s ++ lit """>" ++ [10] ++ r)) with true. cbv iota.
    change (skipn 6 (lit "SYSTEM """ ++ s ++ lit """>" ++ [10] ++ r)) with (32 :: 34 :: s ++ 34 :: 62 :: 10 :: r).
    change (need_ws (32 :: 34 :: s ++ 34 :: 62 :: 10 :: r)) with (Some (34 :: s ++ 34 :: 62 :: 10 :: r)). cbv iota.
    change (read_literal (34 :: s ++ 34 :: 62 :: 10 :: r)) with (break1 34 (s ++ 34 :: 62 :: 10 :: r)).
    rewrite break1_skip by assumption. change (skip_ws (62 :: 10 :: r)) with (62 :: 10 :: r). cbv iota.
    now rewrite chars_forallb.
Qed.

(** ** The XML declaration *)
Definition decl_chars (enc : str) : str := lit "<?xml version=""" ++ lit "1.0" ++ lit """ encoding=""" ++ enc ++ lit """?>".
Lemma encname_char : forall e c, legal_encname e -> In c e -> 45 <= c /\ c <= 122.
Proof.
  intros [|d e] c H Hin; [destruct Hin|]. destruct H as [H1 H2]. rewrite forallb_forall in H2.
  assert (HB : forall a b c, between a b c = true -> a <= c /\ c <= b) by (intros ? ? ? H; unfold between in H; apply andb_true_iff in H as [? ?]; rewrite N.leb_le in *; lia).
  destruct Hin as [->|Hin].
  - apply orb_true_iff in H1 as [H1|H1]; apply HB in H1; lia.
  - apply H2 in Hin. repeat rewrite orb_true_iff in Hin. rewrite !N.eqb_eq in Hin.
    destruct Hin as [[[[[H|H]|H]|H]|H]|H]; try (apply HB in H); lia.
Qed.
Lemma encname_ascii : forall e, legal_encname e -> Forall (fun c => c < 128) e.
Proof. intros e H. apply Forall_forall. intros c Hc. pose proof (encname_char e c H Hc). lia. Qed.
Lemma encname_no : forall e c, legal_encname e -> c < 45 -> ~ In c e.
Proof. intros e c H Hc Hin. pose proof (encname_char e c H Hin). lia. Qed.

Lemma read_decl_ok : forall enc r, legal_encname enc -> read_decl (decl_chars enc ++ r) = Some (Some (lit "1.0", enc), r).
Proof.
  intros enc r H. unfold decl_chars. rewrite <- !app_assoc.
  set (X := enc ++ lit """?>" ++ r).
  change (read_decl (lit "<?xml version=""" ++ lit "1.0" ++ lit """ encoding=""" ++ X)) with
    (match break1 34 X with
     | Some (e, s2) => if prefixb (lit "?>") (skip_ws s2) then Some (Some (lit "1.0", e), skipn 2 (skip_ws s2)) else None
     | None => None end).
  unfold X. change (lit """?>" ++ r) with (34 :: 63 :: 62 :: r). rewrite break1_skip by (apply encname_no; [assumption|lia]). reflexivity.
Qed.
Lemma decl_chars_ok : forall enc, legal_encname enc -> chars (decl_chars enc) /\ ~ In 13 (decl_chars enc).
Proof.
  intros enc H. unfold decl_chars. split.
  - rewrite !chars_app. repeat split; try litchars. apply Forall_forall. intros c Hc. pose proof (encname_char enc c H Hc). apply ascii_xml; lia.
  - rewrite !in_app_iff. intros [H0|[H0|[H0|[H0|H0]]]]; try (cbn in H0; intuition discriminate). revert H0. apply encname_no; [assumption|lia].
Qed.

(** ** What a document is written as *)
Definition dt_of (pub sys : option str) (kids : list node) : str :=
  if truthy sys then match first_element kids with Some q => dt_chars q pub sys | None => [] end else [].
Definition dt_nodes (pub sys : option str) (kids : list node) : list rnode :=
  if truthy sys then match first_element kids with Some q => [RDoctype q (dt_public pub) sys] | None => [] end else [].

Section D.
  Variable cd : codec.
  Hypothesis Hcd : sound_codec cd.
  Variable ordn : list (option str * str) -> list (option str * str).
  Variable orda : list (str * option str) -> list (str * option str).
  Hypothesis ordn_ok : forall l, Permutation (ordn l) l.
  Hypothesis orda_ok : forall l, Permutation (orda l) l.

  Lemma goodp_emits : forall p p' t, goodp cd p -> emits (p_x p) (p_x p') t -> goodp cd p'.
  Proof. intros p p' t [H1 H2] E. split; [rewrite (emits_cd _ _ _ E); assumption|eapply emits_ready; eauto]. Qed.

  Lemma end_document_closed : forall canon p, p_elem p = None -> end_document canon p = Ok p.
  Proof. intros canon p H. unfold end_document, is_open. now rewrite H. Qed.

  Lemma document_written : forall st enc pub sys kids bs, legal_encname enc -> Forall legal_dom kids ->
    xml_encode_document true st ordn orda enc pub sys (xmlstream_new cd) kids = Ok bs ->
    encode cd ((if canon_of st then [] else decl_chars enc ++ [10] ++ dt_of pub sys kids)
               ++ nodes_chars cd (canon_of st) (written ordn orda st [] kids)) = Some bs.
  Proof.
    intros st enc pub sys kids bs He Hk E. unfold xml_encode_document in E.
    destruct (visit_document true st ordn orda enc pub sys kids (printer_new (xmlstream_new cd))) as [p'|e] eqn:EV; [|discriminate].
    cbn in E. injection E as <-. unfold visit_document in EV.
    set (p0 := printer_new (xmlstream_new cd)) in *.
    assert (G0 : goodp cd p0) by now apply new_good.
    destruct (canon_of st) eqn:EC.
    - unfold start_document, doctype in EV. cbn [bind] in EV.
      assert (EV2 : bind (visit_all true st ordn orda [] cur0 kids p0) (end_document true) = Ok p').
      { rewrite <- EV. destruct (truthy sys); [destruct (first_element kids)|]; reflexivity. }
      destruct (visit_all true st ordn orda [] cur0 kids p0) as [p3|] eqn:E3; [|discriminate]. cbn [bind] in EV2.
      destruct (visit_all_written cd ordn orda ordn_ok orda_ok st [] kids p0 p3) as [EM El]; auto.
      rewrite end_document_closed in EV2 by assumption. injection EV2 as <-. rewrite EC in EM.
      destruct EM as (b & E1 & ->). exact E1.
    - assert (O1 : out p0 (decl_chars enc ++ [10]) (p_elem p0) (p_level p0) (p_can_indent p0) (start_document false enc (lit "1.0") p0)).
      { unfold start_document.
        assert (EA : decl_chars enc ++ [10] = (lit "<?xml version=""" ++ lit "1.0" ++ lit """ encoding=""" ++ enc ++ lit """") ++ (lit "?>" ++ [10])).
        { unfold decl_chars. rewrite <- !app_assoc. reflexivity. }
        rewrite EA. eapply out_bind; [exact G0|eapply p_ascii_out; [exact G0|]|].
        - rewrite !Forall_app. repeat split; try ascii. now apply encname_ascii.
        - intros p1 H1 <- <- <-. eapply p_ascii_out; [exact H1|ascii]. }
      apply out_step in O1 as (p1 & E1 & EM1 & El1 & Lv1 & Ci1). rewrite E1 in EV. cbn [bind] in EV.
      assert (G1 := goodp_emits _ _ _ G0 EM1).
      set (DT := if truthy sys then match first_element kids with Some q => doctype false q pub sys p1 | None => Ok p1 end else Ok p1) in EV.
      destruct DT as [p2|] eqn:E2; [|discriminate]. cbn [bind] in EV. subst DT.
      assert (H2 : emits (p_x p1) (p_x p2) (dt_of pub sys kids) /\ p_elem p2 = None /\ p_level p2 = 0%Z /\ p_can_indent p2 = false).
      { unfold dt_of. destruct (truthy sys) eqn:Ts; [destruct (first_element kids) as [q|]|].
        - pose proof (needs_doctype cd q pub sys p1 (proj1 G1)) as HN. rewrite E2 in HN. destruct HN as [HN _]. destruct (HN Ts) as (N1 & N2 & N3).
          pose proof (doctype_out cd p1 q pub sys G1 El1 Ts N1 N2 N3) as HO. apply out_step in HO as (p2' & E2' & EM2 & El2 & Lv2 & Ci2).
          rewrite E2 in E2'. injection E2' as <-. split; [exact EM2|split; [exact El2|]]. split; [rewrite Lv2; exact Lv1|rewrite Ci2; exact Ci1].
        - injection E2 as <-. split; [apply emits_nil|auto].
        - injection E2 as <-. split; [apply emits_nil|auto]. }
      destruct H2 as (EM2 & El2 & Lv2 & Ci2). assert (G2 := goodp_emits _ _ _ G1 EM2).
      destruct (visit_all true st ordn orda [] [(Some (lit "xml"), XML_NAMESPACE)] kids p2) as [p3|] eqn:E3; [|discriminate]. cbn [bind] in EV.
      destruct (visit_all_written cd ordn orda ordn_ok orda_ok st [] kids p2 p3) as [EM3 El3]; auto.
      rewrite end_document_closed in EV by assumption. injection EV as <-. rewrite EC in EM3.
      pose proof (emits_trans _ _ _ _ _ EM1 (emits_trans _ _ _ _ _ EM2 EM3)) as EM.
      destruct EM as (b & EB & ->). cbn in EB |- *. rewrite <- EB. f_equal. rewrite <- !app_assoc. reflexivity.
  Qed.
End D.

(** ** Reading it *)
Lemma lex_spec_all : forall cd canon l, Forall legal l -> Forall (lex_spec cd canon) l.
Proof. intros cd canon l H. eapply Forall_impl; [|exact H]. apply lex_node. Qed.
Lemma marks_all : forall cd canon l, (list_sum (map marks l) <= length (nodes_chars cd canon l))%nat.
Proof.
  intros. unfold nodes_chars. induction l as [|n l IH]; cbn [map flat_map]; [apply le_n|].
  change (list_sum (marks n :: map marks l)) with (marks n + list_sum (map marks l))%nat. rewrite app_length.
  pose proof (marks_length cd canon n). lia.
Qed.
Lemma nodes_no_cr : forall cd canon l, Forall legal l -> ~ In 13 (nodes_chars cd canon l).
Proof. intros cd canon l Hl Hin. apply in_flat_map in Hin as (n & Hn & Hin). rewrite Forall_forall in Hl. eapply node_no_cr; eauto. Qed.
Lemma newline_chars : forall cd canon l, sound_codec cd -> 10 :: nodes_chars cd canon l = nodes_chars cd canon (RText [10] :: l).
Proof.
  intros cd canon l H. unfold nodes_chars. cbn [flat_map node_chars]. rewrite esc_ws by auto. reflexivity.
Qed.
Lemma dt_no_cr : forall n p s, legal_dt n p s -> ~ In 13 (dt_chars n p s).
Proof.
  intros n p s (Hn & (_ & _ & Hs) & Ht & Hp) Hin. unfold dt_chars in Hin. rewrite !in_app_iff in Hin.
  destruct Hin as [H|[H|[H|[H|[H|H]]]]]; try (cbn in H; intuition discriminate).
  - eapply name_not_in; [exact Hn| |exact H]. reflexivity.
  - destruct p as [[|c p]|]; try (cbn in H; intuition discriminate). destruct (Hp eq_refl) as [[_ H1] _]. cbn [oget] in H1.
    rewrite !in_app_iff in H. destruct H as [H|[H|H]]; [cbn in H; intuition discriminate|contradiction|cbn in H; intuition discriminate].
Qed.
Lemma dt_chars_ok : forall n p s, legal_dt n p s -> chars (dt_chars n p s).
Proof.
  intros n p s (Hn & (Hs & _) & Ht & Hp). unfold dt_chars. rewrite !chars_app. repeat split; try litchars; try assumption; [now apply name_chars|].
  destruct p as [[|c p]|]; [litchars| |litchars]. destruct (Hp eq_refl) as [[H1 _] _]. cbn [oget] in H1. rewrite !chars_app.
  repeat split; [litchars| |litchars]. apply Forall_forall. intros d Hd. rewrite forallb_forall in H1. apply H1 in Hd. clear - Hd.
  unfold pubid_char, xml_char, between in *. cbn [existsb lit map list_ascii_of_string] in Hd.
  repeat rewrite orb_true_iff in Hd. repeat rewrite andb_true_iff in Hd. repeat rewrite N.eqb_eq in Hd. repeat rewrite N.leb_le in Hd.
  repeat rewrite orb_true_iff. repeat rewrite andb_true_iff. repeat rewrite N.eqb_eq. repeat rewrite N.leb_le.
  repeat match type of Hd with _ \/ _ => destruct Hd as [Hd|Hd] end; try discriminate; try (cbn in Hd; subst; lia); lia.
Qed.

Lemma read_body : forall cd l, sound_codec cd -> Forall legal l ->
  read_content (10 :: nodes_chars cd false l) = Some (add_text [10] (merge_all l)).
Proof.
  intros cd l Hc Hl. rewrite newline_chars by assumption. apply read_nodes. constructor; [|assumption]. repeat constructor.
Qed.

Lemma builds_doctype : forall T l e r n p s, builds true T l e r -> builds true (TText [] :: TDoctype n p s :: T) (RDoctype n p s :: l) e r.
Proof.
  intros T l e r n p s [f H]. apply builds_text with (t := []) (l := RDoctype n p s :: l). exists (S f). cbn [build]. now rewrite H.
Qed.

Lemma read_body_dt : forall cd n p s l, sound_codec cd -> legal_dt n p s -> Forall legal l ->
  read_content (10 :: dt_chars n p s ++ nodes_chars cd false l) = Some (RText [10] :: RDoctype n (dt_public p) s :: add_text [10] (merge_all l)).
Proof.
  intros cd n p s l Hc Hd Hl.
  set (M := lit "!DOCTYPE " ++ n ++
    (match p with Some (c :: p') => lit " PUBLIC """ ++ (c :: p') ++ lit """ """ | _ => lit " SYSTEM """ end)
    ++ oget s ++ lit """>").
  assert (ND : dt_chars n p s = 60 :: M ++ [10]).
  { unfold dt_chars, M. rewrite <- !app_assoc. reflexivity. }
  clearbody M.
  assert (HL : Forall legal (RText [10] :: l)) by (constructor; [repeat constructor|assumption]).
  set (rest := nodes_chars cd false (RText [10] :: l)).
  assert (ET : 10 :: dt_chars n p s ++ nodes_chars cd false l = flat_map (esc cd text_entities) [10] ++ (60 :: M) ++ rest).
  { cbn [flat_map]. rewrite esc_ws by auto. cbn [app]. f_equal. rewrite ND at 1. cbn [app]. f_equal. rewrite <- app_assoc. f_equal.
    unfold rest. rewrite <- newline_chars by assumption. reflexivity. }
  assert (ER : read_markup (M ++ rest) = Some ([TDoctype n (dt_public p) s], rest)).
  { pose proof (read_doctype_ok n p s (nodes_chars cd false l) Hd) as H. rewrite ND in H. cbn [tl] in H. rewrite <- app_assoc in H.
    change ([10] ++ nodes_chars cd false l) with (10 :: nodes_chars cd false l) in H. rewrite newline_chars in H by assumption. exact H. }
  unfold read_content. rewrite norm_eol_id.
  2:{ intros [H|H]; [discriminate|]. apply in_app_iff in H as [H|H]; [exact (dt_no_cr _ _ _ Hd H)|exact (nodes_no_cr _ _ _ Hl H)]. }
  destruct (lex_nodes cd false _ (lex_spec_all cd false _ HL) [] 1 [TText []] eq_refl ltac:(eexists; eexists; reflexivity) ltac:(unfold safe; intros [])) as (HX & HH & HS).
  rewrite app_nil_r in HX, HS. fold rest in HX, HS.
  destruct (lex_markup _ M _ rest _ ER HX) as [HX2 HS2].
  destruct (lex_text cd _ [10] _ _ _ ltac:(repeat constructor) HX2 HS2) as [HX3 _].
  rewrite ET. erewrite lex_mono; [|exact HX3|].
  2:{ rewrite app_length. cbn [length app]. rewrite app_length. pose proof (marks_all cd false (RText [10] :: l)) as HM. fold rest in HM. lia. }
  set (T := fold_right (toks false) [TText []] (RText [10] :: l)) in *.
  assert (HB : builds true T (add_text [10] (merge_all l)) None []).
  { exists (S (length T)). unfold T. rewrite build_all by assumption. reflexivity. }
  assert (HB2 : builds true (TText ([10] ++ []) :: [TDoctype n (dt_public p) s] ++ T) (add_text ([10] ++ []) (RDoctype n (dt_public p) s :: add_text [10] (merge_all l))) None []).
  { apply builds_text. destruct HB as [f HB]. exists (S f). cbn [app build]. rewrite HB. reflexivity. }
  destruct HB2 as [f HB2]. apply build_enough in HB2. rewrite HB2. reflexivity.
Qed.

(** ** Whole documents *)
Definition nws (n : rnode) : bool := negb (is_ws_text n).
Definition top_ok (l : list rnode) : Prop := Forall (fun n => is_rtext n = true -> is_ws_text n = true) l.
Lemma top_add : forall l, top_ok l -> filter nws (add_text [10] l) = filter nws l.
Proof.
  intros l H. destruct l as [|[q a k|u|d|t d|x y z] l]; try reflexivity. inversion H as [|? ? H2 _]; subst. specialize (H2 eq_refl).
  cbn [is_ws_text] in H2. cbn [add_text filter app].
  assert (E1 : nws (RText u) = false) by (unfold nws; cbn [is_ws_text]; now rewrite H2).
  assert (E2 : nws (RText (10 :: u)) = false) by (unfold nws; cbn [is_ws_text forallb]; now rewrite H2).
  now rewrite E1, E2.
Qed.
Lemma top_rtext : forall l, top_ok l -> existsb is_rtext (filter nws l) = false.
Proof.
  induction 1 as [|n l Hn Hl IH]; [reflexivity|]. cbn [filter]. unfold nws at 1. destruct (is_ws_text n) eqn:E; cbn [negb]; [assumption|].
  cbn [existsb]. rewrite IH. destruct (is_rtext n) eqn:E2; [|reflexivity]. specialize (Hn eq_refl). congruence.
Qed.
Lemma nodt_filter : forall l, Forall (fun n => is_doctype n = false) l -> filter is_doctype l = [] /\ existsb is_doctype (after_elem l) = false.
Proof.
  induction 1 as [|n l Hn Hl [IH1 IH2]]; [split; reflexivity|]. cbn [filter after_elem]. rewrite Hn. split; [assumption|].
  destruct (is_elem n); [|assumption]. clear - Hl. induction Hl as [|m l Hm Hl IH]; [reflexivity|]. cbn [existsb]. now rewrite Hm.
Qed.
Lemma legal_nodt : forall l, Forall legal l -> Forall (fun n => is_doctype n = false) (merge_all l).
Proof.
  unfold merge_all. induction 1 as [|n l Hn Hl IH]; [constructor|]. cbn [fold_right]. destruct Hn as [s Hs|d Hd|t d Hd|q a k Hq Ha Hk]; cbn [merge]; try (constructor; [reflexivity|assumption]).
  destruct s as [|c s]; [assumption|]. destruct (fold_right merge [] l) as [|[]]; cbn [add_text]; inversion IH; subst; repeat constructor; auto.
Qed.
Lemma filter_forall : forall (A : Type) (P : A -> Prop) f l, Forall P l -> Forall P (filter f l).
Proof. induction 1; cbn [filter]; [constructor|]. destruct (f x); [constructor|]; assumption. Qed.

Lemma document_read : forall cd enc pub sys kids W, sound_codec cd -> legal_encname enc -> Forall legal W ->
  top_ok (merge_all W) -> length (filter is_elem (filter nws (merge_all W))) = 1%nat ->
  (truthy sys = true -> forall q, first_element kids = Some q -> legal_dt q pub sys) ->
  read_document (decl_chars enc ++ [10] ++ dt_of pub sys kids ++ nodes_chars cd false W) =
  Some (Some (lit "1.0", enc), dt_nodes pub sys kids ++ filter nws (merge_all W)).
Proof.
  intros cd enc pub sys kids W Hcd He HW HT HE HD. unfold read_document. rewrite read_decl_ok by assumption.
  set (L := filter nws (merge_all W)) in *.
  assert (HN : Forall (fun n => is_doctype n = false) L) by (apply filter_forall, legal_nodt; assumption).
  destruct (nodt_filter L HN) as [N1 N2].
  assert (HR := top_rtext _ HT). fold L in HR.
  assert (HC : exists l0, read_content ([10] ++ dt_of pub sys kids ++ nodes_chars cd false W) = Some l0 /\ filter nws l0 = dt_nodes pub sys kids ++ L).
  { unfold dt_of, dt_nodes. cbn [app].
    assert (H0 : exists l0, read_content (10 :: nodes_chars cd false W) = Some l0 /\ filter nws l0 = L).
    { eexists. split; [now apply read_body|]. now apply top_add. }
    destruct (truthy sys) eqn:Ts; [destruct (first_element kids) as [q|] eqn:Ef|]; [|exact H0|exact H0].
    eexists. split; [apply read_body_dt; auto|].
    change (filter nws (RText [10] :: ?a :: ?X)) with (a :: filter nws X). cbn [app]. f_equal. now apply top_add. }
  destruct HC as (l0 & -> & EL). fold nws. change (fun n => negb (is_ws_text n)) with nws. rewrite EL.
  assert (HD2 : existsb is_rtext (dt_nodes pub sys kids) = false /\ filter is_elem (dt_nodes pub sys kids) = [] /\
    (length (filter is_doctype (dt_nodes pub sys kids)) <= 1)%nat /\ after_elem (dt_nodes pub sys kids ++ L) = after_elem L).
  { unfold dt_nodes. destruct (truthy sys); [destruct (first_element kids)|]; cbn; repeat split; auto. }
  destruct HD2 as (D1 & D2 & D3 & D4).
  rewrite existsb_app, D1, HR. cbn [orb]. rewrite filter_app, D2. cbn [app]. rewrite HE. cbn [Nat.eqb negb].
  rewrite filter_app, N1, app_nil_r.
  destruct (Nat.ltb_spec 1 (length (filter is_doctype (dt_nodes pub sys kids)))); [lia|]. rewrite D4, N2. reflexivity.
Qed.

Lemma spaced_top : forall b l l', spaced b l l' -> Forall (fun n => is_rtext n = false) l -> top_ok l' /\ Forall2 spaced1 l (filter nws l').
Proof.
  assert (H1 : forall n n', spaced1 n n' -> is_ws_text n' = false /\ is_rtext n' = false) by (intros n n' H; inversion H; split; reflexivity).
  induction 1 as [b|w Hw|b n n' l l' Hn Hl IH|w n n' l l' Hw Hn Hl IH|b s l l' Hl IH]; intro HT.
  - split; constructor.
  - split; [repeat constructor; exact (fun _ => Hw)|]. cbn [filter]. unfold nws. cbn [is_ws_text]. rewrite Hw. constructor.
  - inversion HT; subst. destruct (IH H3) as [I1 I2]. destruct (H1 _ _ Hn) as [E1 E2]. split.
    + constructor; [congruence|assumption].
    + cbn [filter]. unfold nws. rewrite E1. constructor; assumption.
  - inversion HT; subst. destruct (IH H3) as [I1 I2]. destruct (H1 _ _ Hn) as [E1 E2]. split.
    + constructor; [intros _; exact Hw|]. constructor; [congruence|assumption].
    + cbn [filter]. unfold nws. cbn [is_ws_text]. rewrite Hw, E1. constructor; assumption.
  - inversion HT; subst. discriminate.
Qed.
Lemma spaced_elems : forall l l', Forall2 spaced1 l l' -> length (filter is_elem l') = length (filter is_elem l).
Proof. induction 1 as [|n n' l l' Hn Hl IH]; [reflexivity|]. cbn [filter]. inversion Hn; subst; cbn [is_elem length]; lia. Qed.

Section DR.
  Variable ordn : list (option str * str) -> list (option str * str).
  Variable orda : list (str * option str) -> list (str * option str).

  Lemma ptrees_textless : forall st chain l, Forall (fun n => text_node n = false) l ->
    Forall (fun n => is_rtext n = false) (merge_all (map (ptree ordn orda st chain) l)) /\
    length (filter is_elem (merge_all (map (ptree ordn orda st chain) l))) = length (filter elem_node l).
  Proof.
    unfold merge_all. induction 1 as [|n l Hn Hl [IH1 IH2]]; [split; [constructor|reflexivity]|]. cbn [map fold_right].
    unfold ptree at 1 3. destruct n as [ns q d a k|s|s|t d]; [| discriminate| |]; cbn [printed merge filter is_elem elem_node length]; cbv zeta;
      (split; [constructor; [reflexivity|assumption]|]); cbn [filter is_elem length]; congruence.
  Qed.
  Lemma textless_nws : forall l, Forall (fun n => is_rtext n = false) l -> top_ok l /\ filter nws l = l.
  Proof.
    induction 1 as [|n l Hn Hl [IH1 IH2]]; [split; [constructor|reflexivity]|]. split; [constructor; [congruence|assumption]|].
    cbn [filter]. unfold nws at 1. destruct n; cbn [is_ws_text negb is_rtext] in *; try discriminate; now rewrite IH2.
  Qed.

  Lemma first_element_name : forall l q, Forall legal_dom l -> first_element l = Some q -> is_name q = true.
  Proof.
    unfold first_element. induction 1 as [|n l Hn Hl IH]; [discriminate|]. cbn [fold_right]. destruct Hn; auto. intro E. injection E as <-. assumption.
  Qed.

  (** No XML declaration is read where none was written. *)
  Lemma no_decl : forall cd l, Forall legal l -> Forall (fun n => is_rtext n = false) l -> prefixb (lit "<?xml ") (nodes_chars cd true l) = false.
  Proof.
    intros cd l Hl HT. destruct l as [|n l]; [reflexivity|]. inversion Hl as [|? ? Hn _]; subst. inversion HT; subst.
    unfold nodes_chars. cbn [flat_map]. destruct Hn as [s Hs|d Hd|t d Hd|q a k Hq Ha Hk]; [discriminate|reflexivity| |].
    - cbn [node_chars]. destruct Hd as (Ht & Hx & _).
      set (X := (lit "<?" ++ t ++ match d with [] => [] | _ :: _ => 32 :: d end ++ lit "?>") ++ flat_map (node_chars cd true) l).
      destruct (prefixb (lit "<?xml ") X) eqn:E; [|reflexivity]. exfalso. apply prefixb_spec in E as [r E]. subst X.
      rewrite <- !app_assoc in E. change (lit "<?xml " ++ r) with (lit "<?" ++ lit "xml " ++ r) in E. apply app_inv_head in E.
      assert (HS : ~ In 32 t) by (apply name_not_in; [assumption|reflexivity]).
      set (Y := match d with [] => [] | _ :: _ => 32 :: d end ++ lit "?>" ++ flat_map (node_chars cd true) l) in E.
      assert (HY : match Y with [] => False | c :: _ => c = 32 \/ c = 63 end) by (unfold Y; destruct d; cbn; auto).
      assert (HQ : ~ In 63 t) by (apply name_not_in; [assumption|reflexivity]).
      assert (G : t = lit "xml").
      { clearbody Y. clear - E HS HY HQ. change (lit "xml " ++ r) with (120 :: 109 :: 108 :: 32 :: r) in E.
        destruct t as [|a [|b [|c [|e t]]]]; cbn [app] in E.
        - subst Y. destruct HY; discriminate.
        - injection E as -> E. subst Y. destruct HY; discriminate.
        - injection E as -> -> E. subst Y. destruct HY; discriminate.
        - injection E as -> -> -> E. reflexivity.
        - injection E as -> -> -> -> E. exfalso. apply HS. cbn. auto. }
      apply Hx. rewrite G. reflexivity.
    - cbn [node_chars]. destruct (is_name_inv q Hq) as (c & q' & -> & Hc & _). cbn [app].
      change (prefixb (lit "<?xml ") (60 :: c :: ?x)) with ((63 =? c) && prefixb (lit "xml ") x).
      destruct (N.eqb_spec 63 c) as [<-|]; [discriminate Hc|]. reflexivity.
  Qed.
End DR.
