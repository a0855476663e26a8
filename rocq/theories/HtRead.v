(** * Rendered trees read back with the reference readers *)
From Coq Require Import NArith ZArith String List Bool Lia Arith.
From Verif Require Import PyStr PyErr Utf8 SerModel SerSpec SerStream SerPrint SerRead HtModel HtSpec HtPrint.
Import ListNotations.
Open Scope N_scope.

(** ** References *)
Lemma reference_dec : forall xml c, xml_char c = true -> reference xml (35 :: dec_str c) = Some c.
Proof.
  intros xml c Hc. unfold reference. cbv zeta.
  pose proof (dec_str_digits c) as HD. pose proof (dec_str_nonempty c) as HN. pose proof (number_dec_str c) as HV.
  destruct (dec_str c) as [|d s]; [congruence|].
  assert (Hx : prefixb (lit "#x") (35 :: d :: s) = false).
  { change (prefixb (lit "#x") (35 :: d :: s)) with ((120 =? d) && true). inversion HD; subst.
    destruct (N.eqb_spec 120 d); [lia|reflexivity]. }
  rewrite Hx. change (prefixb (lit "#") (35 :: d :: s)) with true. cbv iota.
  change (skipn 1 (35 :: d :: s)) with (d :: s). cbv iota beta. rewrite HV, Hc. reflexivity.
Qed.

Lemma unescape_ref : forall xml bad f c nm acc r, forallb ref_char nm = true -> reference xml (rev acc ++ nm) = Some c ->
  unescape xml bad f (Some acc) (nm ++ 59 :: r) = option_map (cons c) (unescape xml bad f None r).
Proof.
  induction nm as [|d nm IH]; intros acc r Hn HR.
  - rewrite app_nil_r in HR. cbn [app unescape]. rewrite N.eqb_refl, HR. reflexivity.
  - cbn [forallb] in Hn. apply andb_prop in Hn as [Hd Hn]. cbn [app unescape].
    destruct (N.eqb_spec d 59) as [->|_]; [discriminate Hd|]. rewrite Hd. apply IH; [exact Hn|].
    cbn [rev]. now rewrite <- app_assoc.
Qed.
Lemma unescape_named : forall xml bad f c nm r, forallb ref_char nm = true -> reference xml nm = Some c ->
  unescape xml bad f None ((38 :: nm ++ [59]) ++ r) = option_map (cons c) (unescape xml bad f None r).
Proof.
  intros. cbn [app]. rewrite <- app_assoc. cbn [app]. change (unescape xml bad f None (38 :: ?X)) with (unescape xml bad f (Some []) X).
  now apply unescape_ref.
Qed.
Lemma digits_ref : forall s, Forall (fun c => 48 <= c <= 57) s -> forallb ref_char s = true.
Proof.
  induction 1 as [|c s Hc Hs IH]; [reflexivity|]. cbn [forallb]. rewrite IH, andb_true_r. unfold ref_char, between.
  destruct (N.leb_spec 48 c); [|lia]. destruct (N.leb_spec c 57); [reflexivity|lia].
Qed.
Lemma unescape_charref : forall xml bad f c r, xml_char c = true ->
  unescape xml bad f None (charref c ++ r) = option_map (cons c) (unescape xml bad f None r).
Proof.
  intros xml bad f c r Hc. unfold charref.
  change (lit "&#" ++ dec_str c ++ lit ";") with (38 :: (35 :: dec_str c) ++ [59]).
  apply unescape_named; [|now apply reference_dec]. cbn [forallb]. now rewrite digits_ref by apply dec_str_digits.
Qed.

(** A character of the data, and what the map says of it. *)
Definition rd (xml : bool) (bad : N -> bool) (f : N -> N) (mp : emap) (c : N) : Prop :=
  match emap_lookup mp c with
  | Some (RStr t) => exists nm, t = 38 :: nm ++ [59] /\ forallb ref_char nm = true /\ reference xml nm = Some c
  | Some (RFun g) => g = attr_amp_escape /\ c = 38 /\ xml = false
  | None => c <> 38 /\ bad c = false /\ f c = c
  end.

Lemma ascii_escc : forall cd c, sound_codec cd -> c < 128 -> escc cd c = [c].
Proof.
  intros cd c Hs Hc. unfold escc. destruct Hs as [Hs|(_ & Hs & _)].
  - now rewrite Hs.
  - specialize (Hs c Hc). destruct (cd c); [reflexivity|now exfalso].
Qed.

Lemma unescape_aesc : forall xml bad f cd mp, sound_codec cd -> emap_lookup mp 123 = None -> forall s r, chars s -> Forall (rd xml bad f mp) s ->
  unescape xml bad f None (aesc cd mp s ++ r) = option_map (app s) (unescape xml bad f None r).
Proof.
  intros xml bad f cd mp Hcd H123 s. induction s as [|c s IH]; intros r Hs HF.
  - cbn [aesc app]. destruct (unescape xml bad f None r); reflexivity.
  - inversion Hs as [|? ? Hc Hs']; inversion HF as [|? ? Hr HF']; subst.
    assert (HI : option_map (cons c) (unescape xml bad f None (aesc cd mp s ++ r)) = option_map (app (c :: s)) (unescape xml bad f None r)).
    { rewrite IH by assumption. destruct (unescape xml bad f None r); reflexivity. }
    cbn [aesc]. unfold rd in Hr. rewrite <- app_assoc, <- HI. destruct (emap_lookup mp c) as [[t|g]|] eqn:E.
    + destruct Hr as (nm & -> & Hn & HR). now apply unescape_named.
    + destruct Hr as (-> & -> & ->).
      assert (HA : unescape false bad f None (lit "&amp;" ++ aesc cd mp s ++ r) = option_map (cons 38) (unescape false bad f None (aesc cd mp s ++ r))).
      { change (lit "&amp;") with (38 :: lit "amp" ++ [59]). apply unescape_named; vm_compute; reflexivity. }
      unfold attr_amp_escape. change (skipn 0 (38 :: s)) with (38 :: s).
      change (lit "&{") with [38; 123]. change (prefixb [38; 123] (38 :: s)) with (prefixb [123] s).
      destruct s as [|d s]; [exact HA|]. change (prefixb [123] (d :: s)) with ((123 =? d) && true).
      destruct (N.eqb_spec 123 d) as [<-|Hd]; [|exact HA]. cbn [andb aesc]. rewrite H123, ascii_escc by (assumption || reflexivity).
      change (lit "&") with [38]. cbn [app].
      change (unescape false bad f None (38 :: 123 :: ?X)) with
        (option_map (app [38]) (if bad 123 then None else option_map (cons (f 123)) (unescape false bad f None X))).
      change (unescape false bad f None (123 :: ?X)) with (if bad 123 then None else option_map (cons (f 123)) (unescape false bad f None X)).
      destruct (bad 123); [reflexivity|]. destruct (unescape false bad f None (aesc cd mp s ++ r)); reflexivity.
    + destruct Hr as (H38 & Hb & Hf). unfold escc. destruct (cd c); [|now apply unescape_charref].
      cbn [app unescape]. destruct (N.eqb_spec c 38); [contradiction|]. now rewrite Hb, Hf.
Qed.

(** What is not written by escaping: characters the map replaces. *)
Lemma aesc_no : forall xml bad f cd mp d s, Forall (rd xml bad f mp) s -> emap_lookup mp d <> None ->
  d <> 38 -> ref_char d = false -> d <> 59 -> ~ In d (aesc cd mp s).
Proof.
  intros xml bad f cd mp d s HF Hd H38 Hr H59. induction s as [|c s IH]; intro Hin; [exact Hin|].
  inversion HF as [|? ? Hc HF']; subst. cbn [aesc] in Hin. apply in_app_iff in Hin as [Hin|Hin]; [|now apply IH].
  unfold rd in Hc. destruct (emap_lookup mp c) as [[t|g]|] eqn:E.
  - destruct Hc as (nm & -> & Hn & _). destruct Hin as [Hin|Hin]; [congruence|]. apply in_app_iff in Hin as [Hin|[Hin|[]]]; [|congruence].
    rewrite forallb_forall in Hn. apply Hn in Hin. congruence.
  - destruct Hc as (-> & _ & _). unfold attr_amp_escape in Hin. destruct (prefixb _ _).
    + change (lit "&") with [38] in Hin. destruct Hin as [Hin|[]]. congruence.
    + change (lit "&amp;") with (38 :: lit "amp" ++ [59]) in Hin. destruct Hin as [Hin|Hin]; [congruence|].
      apply in_app_iff in Hin as [Hin|[Hin|[]]]; [|congruence].
      assert (forallb ref_char (lit "amp") = true) as HH by (vm_compute; reflexivity). rewrite forallb_forall in HH. apply HH in Hin. congruence.
  - apply escc_in in Hin as [->|Hin]; [congruence|]. revert Hin. apply charref_no; try assumption.
    + intros ->. discriminate Hr.
    + intro HH. unfold ref_char, between in Hr. destruct (N.leb_spec 48 d); [|lia]. destruct (N.leb_spec d 57); [discriminate Hr|lia].
Qed.

(** ** Maps *)
Definition reading_map (xml : bool) (bad : N -> bool) (f : N -> N) (mp : emap) : Prop :=
  emap_lookup mp 123 = None /\ forall c, c <> 732 -> xml_char c = true -> (xml = true -> bad c = true -> emap_lookup mp c = None -> c = 60) ->
    rd xml bad f mp c.
Record reading (xml : bool) (m : maps) : Prop := {
  r_good : good_maps m;
  r_text : emap_lookup (m_text m) 123 = None /\ forall c, c <> 732 -> xml_char c = true -> rd xml (text_bad xml) (fun c => c) (m_text m) c;
  r_quot : emap_lookup (m_quot m) 123 = None /\ forall c, c <> 732 -> xml_char c = true -> (xml = true -> c <> 60) -> rd xml (att_bad xml) attr_norm (m_quot m) c;
  r_apos : emap_lookup (m_apos m) 123 = None /\ forall c, c <> 732 -> xml_char c = true -> (xml = true -> c <> 60) -> rd xml (att_bad xml) attr_norm (m_apos m) c;
  r_t60 : emap_lookup (m_text m) 60 <> None; r_t13 : emap_lookup (m_text m) 13 <> None;
  r_q34 : emap_lookup (m_quot m) 34 <> None; r_q13 : emap_lookup (m_quot m) 13 <> None;
  r_a39 : emap_lookup (m_apos m) 39 <> None; r_a13 : emap_lookup (m_apos m) 13 <> None;
  r_script : forall c, (c = 9 \/ c = 10 \/ 32 <= c <= 126) /\ c <> 60 /\ c <> 62 /\ c <> 38 -> emap_lookup (m_text m) c = None
}.

Section Read.
Variables (xml : bool) (cd : codec) (m : maps).
Hypothesis Hcd : sound_codec cd.
Hypothesis Hr : reading xml m.

(** ** Legal rendered trees *)
Definition av (a : str * option str) : str * str := (fst a, match snd a with Some v => v | None => fst a end).
Fixpoint dview (n : dn) : rnode :=
  match n with
  | DE _ q a k => RElem q (map av a) (map dview k)
  | DT s => RText s
  | DC d => RComment d
  | DP t d => RPI t d
  end.
Definition atok (a : str * option str) : Prop :=
  is_name (fst a) = true /\
  match snd a with
  | Some v => data v /\ (xml = true -> ~ In 60 v)
  | None => xml = false
  end.
Inductive dok : dn -> Prop :=
| do_text : forall s, data s -> dok (DT s)
| do_comment : forall d, legal_comment d -> dok (DC d)
| do_pi : forall t d, (if xml then legal_pi t d else html_pi_ok t d) -> dok (DP t d)
| do_elem : forall f q a k, is_name q = true -> Forall atok a -> (xml = true -> NoDup (map fst a)) ->
    (f = Mini -> xml = true /\ k = []) ->
    (f = Void -> xml = false /\ empty_element q = true /\ k = []) ->
    (f = Full -> xml = false -> empty_element q = false) ->
    (xml = false -> cdata_element q = true -> Forall (fun n => exists s, n = DT s /\ plain_script s) k) ->
    Forall dok k -> dok (DE f q a k).

Lemma data_rd_text : forall s, data s -> Forall (rd xml (text_bad xml) (fun c => c) (m_text m)) s.
Proof.
  intros s [Hc H7]. apply Forall_forall. intros c Hin. unfold chars in Hc. rewrite Forall_forall in Hc. apply (r_text _ _ Hr); auto. intros ->. contradiction.
Qed.
Lemma data_rd_val : forall v s, data s -> (xml = true -> ~ In 60 s) -> Forall (rd xml (att_bad xml) attr_norm (vmap m v)) s.
Proof.
  intros v s [Hc H7] H60. apply Forall_forall. intros c Hin. unfold chars in Hc. rewrite Forall_forall in Hc. unfold vmap.
  destruct (apos_of v); [apply (r_apos _ _ Hr)|apply (r_quot _ _ Hr)]; auto; try (intros ->; contradiction); intros Hx ->; now apply H60.
Qed.

Lemma text_read : forall s r, data s -> read_text xml (aesc cd (m_text m) s ++ r) = option_map (app s) (read_text xml r).
Proof. intros s r Hs. apply unescape_aesc; [exact Hcd|apply (r_text _ _ Hr)|apply Hs|now apply data_rd_text]. Qed.
Lemma value_read : forall v, data v -> (xml = true -> ~ In 60 v) -> read_value xml (aesc cd (vmap m v) v) = Some v.
Proof.
  intros v Hv H60. rewrite <- (app_nil_r (aesc _ _ _)). unfold read_value. rewrite unescape_aesc; [|exact Hcd| |apply Hv|now apply data_rd_val].
  - cbn. now rewrite app_nil_r.
  - unfold vmap. destruct (apos_of v); [apply (r_apos _ _ Hr)|apply (r_quot _ _ Hr)].
Qed.
Lemma value_no_quote : forall v, data v -> (xml = true -> ~ In 60 v) -> ~ In (quot_of v) (aesc cd (vmap m v) v).
Proof.
  intros v Hv H60. eapply aesc_no; [now apply data_rd_val| | | |]; unfold vmap, quot_of; destruct (apos_of v); try reflexivity; try discriminate.
  - apply (r_a39 _ _ Hr). - apply (r_q34 _ _ Hr).
Qed.
Lemma text_no60 : forall s, data s -> ~ In 60 (aesc cd (m_text m) s).
Proof. intros s Hs. eapply aesc_no; [now apply data_rd_text|apply (r_t60 _ _ Hr)| | |]; try reflexivity; discriminate. Qed.
Lemma text_no13 : forall s, data s -> ~ In 13 (aesc cd (m_text m) s).
Proof. intros s Hs. eapply aesc_no; [now apply data_rd_text|apply (r_t13 _ _ Hr)| | |]; try reflexivity; discriminate. Qed.
Lemma value_no13 : forall v, data v -> (xml = true -> ~ In 60 v) -> ~ In 13 (aesc cd (vmap m v) v).
Proof.
  intros v Hv H60. eapply aesc_no; [now apply data_rd_val| | | |]; try reflexivity; try discriminate.
  unfold vmap; destruct (apos_of v); [apply (r_a13 _ _ Hr)|apply (r_q13 _ _ Hr)].
Qed.

(** ** Start tags *)
Definition tagend (e : bool) : str := if e then lit "/>" else lit ">".
Lemma literal_ok : forall v l r, ~ In (quot_of v) l -> read_literal (quot_of v :: l ++ quot_of v :: r) = Some (l, r).
Proof.
  intros v l r H. unfold read_literal.
  assert (E : (quot_of v =? 34) || (quot_of v =? 39) = true) by (unfold quot_of; destruct (apos_of v); reflexivity).
  rewrite E. apply break1_Some. auto.
Qed.

Lemma after_name : forall e r a, (e = true -> xml = true) -> Forall atok a ->
  let X := flat_map (att_chars cd m) a ++ tagend e ++ r in
  (match X with [] => True | c :: _ => name_char c = false end) /\
  (xml = false -> match skip_ws X with 61 :: _ => False | _ => True end).
Proof.
  intros e r a He Ha X. unfold X. destruct a as [|[n o] a].
  - destruct e; split; try reflexivity; intros _; exact I.
  - split; [reflexivity|]. intros _. inversion Ha as [|? ? [Hn _] _]; subst. cbn [fst] in Hn.
    cbn [flat_map]. unfold att_chars at 1. cbn [fst snd app]. rewrite <- !app_assoc.
    destruct (is_name_inv n Hn) as (c & n' & En & Hc & _).
    unfold skip_ws. rewrite span_ws_name by exact Hn. cbn [snd]. rewrite En. cbn [app].
    destruct (N.eq_dec c 61) as [->|Hne]; [discriminate Hc|].
    destruct c as [|p]; [exact I|]. do 6 (destruct p as [p|p|]; try exact I). now apply Hne.
Qed.

Lemma tag_attrs_ok : forall e r atts f, (e = true -> xml = true) -> Forall atok atts -> (length atts < f)%nat ->
  tag_attrs xml f (flat_map (att_chars cd m) atts ++ tagend e ++ r) = Some (map av atts, e, r).
Proof.
  intros e r atts f He HF. revert f. induction HF as [|[n o] atts [Hn Hv] HF IH]; intros f Hf; (destruct f as [|f]; [cbn in Hf; lia|]).
  - destruct e; [rewrite He by reflexivity; reflexivity|]. reflexivity.
  - cbn [fst snd] in Hn, Hv. cbn [flat_map]. unfold att_chars at 1. cbn [fst snd].
    set (T := flat_map (att_chars cd m) atts ++ tagend e ++ r) in *.
    set (V := match o with None => [] | Some v => 61 :: quot_of v :: aesc cd (vmap m v) v ++ [quot_of v] end).
    match goal with |- tag_attrs _ _ ?L = _ => replace L with (32 :: n ++ V ++ T) by (unfold T; cbn [app]; rewrite <- !app_assoc; reflexivity) end.
    cbn [tag_attrs]. rewrite span_ws_name by assumption.
    destruct (is_name_inv n Hn) as (c & n' & En & Hc & _).
    assert (E1 : forall Y, prefixb (lit ">") (n ++ Y) = false).
    { intro Y. rewrite En. cbn [app]. change (lit ">") with [62]. cbn [prefixb]. rewrite (name_start_neq c) by (assumption || reflexivity). reflexivity. }
    assert (E2 : forall Y, prefixb (lit "/>") (n ++ Y) = false).
    { intro Y. rewrite En. cbn [app]. change (lit "/>") with [47; 62]. cbn [prefixb]. rewrite (name_start_neq c) by (assumption || reflexivity). reflexivity. }
    rewrite E1, E2, andb_false_r.
    destruct (after_name e r atts He HF) as [A1 A2]. fold T in A1, A2.
    rewrite read_name_ok; [|assumption|unfold V; destruct o; [reflexivity|exact A1]].
    assert (IHf : tag_attrs xml f T = Some (map av atts, e, r)) by (apply IH; cbn in Hf; lia).
    unfold V. destruct o as [v|].
    + destruct Hv as [Hv H60].
      assert (E3 : forall s, skip_ws (61 :: s) = 61 :: s) by reflexivity. cbn [app]. rewrite E3.
      assert (E4 : forall s, skip_ws (quot_of v :: s) = quot_of v :: s) by (intro s; unfold quot_of; destruct (apos_of v); reflexivity).
      rewrite E4, <- app_assoc. cbn [app]. rewrite literal_ok by now apply value_no_quote.
      rewrite value_read by assumption. rewrite IHf. reflexivity.
    + cbn [app]. rewrite Hv in *. specialize (A2 eq_refl). rewrite IHf.
      destruct (skip_ws T) as [|x t]; [reflexivity|].
      destruct x as [|p]; [reflexivity|]. do 6 (destruct p as [p|p|]; try reflexivity). contradiction.
Qed.

Lemma atts_length : forall atts, (length atts <= length (flat_map (att_chars cd m) atts))%nat.
Proof.
  induction atts as [|a atts IH]; [apply le_n|]. cbn [flat_map]. rewrite app_length. unfold att_chars at 1. cbn [length]. lia.
Qed.

Lemma markup_special : forall c r, name_start c = true ->
  prefixb (lit "!--") (c :: r) = false /\ prefixb (lit "?") (c :: r) = false /\ prefixb (lit "/") (c :: r) = false.
Proof. intros c r Hc. destruct (not_special c r Hc) as (A & _ & _ & B & C). auto. Qed.

Lemma m_start : forall q atts e r, is_name q = true -> (e = true -> xml = true) -> Forall atok atts -> (xml = true -> NoDup (map fst atts)) ->
  markup xml (q ++ flat_map (att_chars cd m) atts ++ tagend e ++ r) =
  Some (if e then [TStart q (map av atts); TEnd q] else [TStart q (map av atts)], r).
Proof.
  intros q atts e r Hq He Ha Hnd. unfold markup.
  destruct (is_name_inv q Hq) as (c & q' & Eq & Hc & _).
  destruct (after_name e r atts He Ha) as [A1 _].
  set (X := flat_map (att_chars cd m) atts ++ tagend e ++ r) in *.
  assert (EX : q ++ X = c :: q' ++ X) by now rewrite Eq.
  destruct (markup_special c (q' ++ X) Hc) as (P1 & P2 & P3). rewrite <- EX in *.
  rewrite P1, P2, P3. rewrite read_name_ok by assumption.
  unfold X. rewrite tag_attrs_ok; [|assumption|assumption|].
  2:{ rewrite app_length. pose proof (atts_length atts). lia. }
  assert (EN : negb xml || nodup_names (map fst (map av atts)) = true).
  { destruct xml; [|reflexivity]. rewrite map_map. cbn [negb orb]. apply nodup_names_ok. exact (Hnd eq_refl). }
  now rewrite EN.
Qed.

Lemma m_end : forall q r, is_name q = true -> markup xml (lit "/" ++ q ++ lit ">" ++ r) = Some ([TEnd q], r).
Proof.
  intros q r Hq. unfold markup.
  change (prefixb (lit "!--") (lit "/" ++ q ++ lit ">" ++ r)) with false.
  change (prefixb (lit "?") (lit "/" ++ q ++ lit ">" ++ r)) with false.
  change (prefixb (lit "/") (lit "/" ++ q ++ lit ">" ++ r)) with true. cbv iota.
  change (skipn 1 (lit "/" ++ q ++ lit ">" ++ r)) with (q ++ lit ">" ++ r).
  rewrite read_name_ok by (assumption || reflexivity). reflexivity.
Qed.
Lemma m_comment : forall d r, legal_comment d -> markup xml (lit "!--" ++ d ++ lit "-->" ++ r) = Some ([TComment d], r).
Proof.
  intros d r (Hc & _ & Hd). unfold markup.
  change (prefixb (lit "!--") (lit "!--" ++ d ++ lit "-->" ++ r)) with true. cbv iota.
  change (skipn 3 (lit "!--" ++ d ++ lit "-->" ++ r)) with (d ++ lit "-->" ++ r).
  rewrite break_dashes by assumption. now rewrite chars_forallb.
Qed.
Lemma break_gt : forall d r, ~ In 62 d -> break_sub (lit ">") (d ++ lit ">" ++ r) = Some (d, r).
Proof.
  intros d r. change (lit ">") with [62]. induction d as [|c d IH]; intro H.
  - reflexivity.
  - cbn [app break_sub prefixb]. destruct (N.eqb_spec 62 c) as [<-|_]; [exfalso; apply H; now left|].
    cbn [andb]. change ([62] ++ r) with (62 :: r) in IH. rewrite IH by (intro; apply H; now right). reflexivity.
Qed.
Lemma m_pi : forall t d r, (if xml then legal_pi t d else html_pi_ok t d) ->
  markup xml (lit "?" ++ t ++ (match d with [] => [] | _ => 32 :: d end) ++ (if xml then lit "?>" else lit ">") ++ r) = Some ([TPI t d], r).
Proof.
  intros t d r HP. unfold markup.
  set (C := if xml then lit "?>" else lit ">").
  set (X := (match d with [] => [] | _ => 32 :: d end) ++ C ++ r).
  change (prefixb (lit "!--") (lit "?" ++ t ++ X)) with false.
  change (prefixb (lit "?") (lit "?" ++ t ++ X)) with true. cbv iota.
  change (skipn 1 (lit "?" ++ t ++ X)) with (t ++ X). cbv zeta.
  assert (H1 : is_name t = true) by (destruct xml; apply HP).
  assert (H2 : xml && str_eqb (lower t) (lit "xml") = false).
  { destruct xml; [|reflexivity]. destruct HP as (_ & Hx & _). destruct (str_eqb_spec (lower t) (lit "xml")); [contradiction|reflexivity]. }
  assert (H3 : chars d) by (destruct xml; apply HP).
  assert (H4 : match d with [] => True | c :: _ => ws c = false end) by (destruct xml; apply HP).
  assert (HB : break_sub C (d ++ C ++ r) = Some (d, r)).
  { unfold C. destruct xml; [apply break_pi; apply HP|apply break_gt; apply HP]. }
  assert (HC : match C with [] => False | c :: _ => name_char c = false /\ c <> 32 end) by (unfold C; destruct xml; split; (reflexivity || discriminate)).
  rewrite read_name_ok; [|assumption|].
  2:{ unfold X. destruct d; [|reflexivity]. unfold C in *. destruct xml; reflexivity. }
  rewrite H2. destruct d as [|c d].
  - unfold X. cbn [app].
    assert (HP1 : prefixb C (C ++ r) = true /\ skipn (length C) (C ++ r) = r) by (unfold C; destruct xml; split; reflexivity).
    destruct HP1 as [-> ->]. reflexivity.
  - unfold X. assert (HP1 : prefixb C ((32 :: c :: d) ++ C ++ r) = false) by (unfold C; destruct xml; reflexivity). rewrite HP1.
    assert (E : need_ws ((32 :: c :: d) ++ C ++ r) = Some ((c :: d) ++ C ++ r)).
    { unfold need_ws. change ((32 :: c :: d) ++ C ++ r) with ([32] ++ (c :: d ++ C ++ r)).
      rewrite span_app; [reflexivity|reflexivity|exact H4]. }
    rewrite E, HB. now rewrite chars_forallb.
Qed.

(** ** Tokens *)
Lemma one_of_In : forall l s, one_of l s = true -> exists x, In x l /\ s = lit x.
Proof.
  intros l s H. unfold one_of in H. apply existsb_exists in H as (x & Hx & E). exists x. split; [exact Hx|].
  destruct (str_eqb_spec (lit x) s); [congruence|discriminate E].
Qed.
Lemma empty_not_cdata : forall q, empty_element q = true -> cdata_element q = false.
Proof.
  intros q H. unfold empty_element in H. apply one_of_In in H as (x & Hx & E). unfold cdata_element. rewrite E.
  repeat (destruct Hx as [<-|Hx]; [vm_compute; reflexivity|]). destruct Hx.
Qed.

Lemma lex_text : forall f s rest u T, data s -> tokens xml f rest = Some (TText u :: T) ->
  tokens xml f (aesc cd (m_text m) s ++ rest) = Some (TText (s ++ u) :: T).
Proof.
  intros [|f] s rest u T Hs HL; [discriminate HL|].
  assert (HS := span_prefix not_lt _ rest (not_lt_all _ (text_no60 s Hs))).
  cbn [tokens] in HL |- *. change (fun c : N => negb (c =? 60)) with not_lt in *.
  rewrite HS. destruct (span not_lt rest) as [run s1]. cbn [fst snd] in *.
  rewrite text_read by assumption.
  destruct (read_text xml run) as [t|]; [|discriminate HL]. cbn [option_map].
  destruct s1 as [|c s2].
  - injection HL as <- <-. reflexivity.
  - destruct (markup xml s2) as [[toks0 r0]|]; [|discriminate HL].
    destruct (cdata_content xml toks0 r0) as [toks r].
    destruct (tokens xml f r) as [T'|]; [|discriminate HL]. injection HL as <- <-. reflexivity.
Qed.

Lemma lex_markup : forall f mk toks toks' rest rest' T, markup xml (mk ++ rest) = Some (toks, rest) -> cdata_content xml toks rest = (toks', rest') ->
  tokens xml f rest' = Some T -> tokens xml (S f) ((60 :: mk) ++ rest) = Some (TText [] :: toks' ++ T).
Proof.
  intros f mk toks toks' rest rest' T HM HC HL. cbn [app tokens].
  change (span (fun c : N => negb (c =? 60)) (60 :: mk ++ rest)) with (@nil N, 60 :: mk ++ rest).
  change (read_text xml []) with (Some (@nil N)). cbv iota. now rewrite HM, HC, HL.
Qed.

Lemma lex_mono : forall f s T, tokens xml f s = Some T -> forall g, (f <= g)%nat -> tokens xml g s = Some T.
Proof.
  induction f as [|f IH]; intros s T H g Hg; [discriminate H|]. destruct g as [|g]; [lia|].
  cbn [tokens] in H |- *. destruct (span _ s) as [run s1]. destruct (read_text xml run); [|discriminate H].
  destruct s1 as [|c s2]; [assumption|]. destruct (markup xml s2) as [[toks0 r0]|]; [|discriminate H].
  destruct (cdata_content xml toks0 r0) as [toks r].
  destruct (tokens xml f r) as [T'|] eqn:E; [|discriminate H]. now rewrite (IH _ _ E g) by lia.
Qed.

Definition iscd (q : str) : bool := negb xml && cdata_element q.
Definition dtext (n : dn) : str := match n with DT s => s | _ => [] end.
Fixpoint dtoks (n : dn) (T : list token) : list token :=
  match n with
  | DT s => push_text s T
  | DC d => TText [] :: TComment d :: T
  | DP t d => TText [] :: TPI t d :: T
  | DE f q a k =>
    TText [] :: TStart q (map av a) ::
    match f with
    | Mini => TEnd q :: T
    | Void => T
    | Full => if iscd q then TText (flat_map dtext k) :: TText [] :: TEnd q :: T
              else fold_right dtoks (TText [] :: TEnd q :: T) k
    end
  end.
Fixpoint dmarks (n : dn) : nat :=
  match n with
  | DT _ => 0
  | DE _ _ _ k => S (S (list_sum (map dmarks k)))
  | _ => 1
  end.
Lemma dtoks_headed : forall n T, headed T -> headed (dtoks n T).
Proof. intros [f q a k|s|d|t d] T (u & T' & ->); eexists; eexists; reflexivity. Qed.

Definition lex_spec (n : dn) : Prop := forall rest f T, tokens xml f rest = Some T -> headed T ->
  tokens xml (dmarks n + f) (dchars xml cd m n ++ rest) = Some (dtoks n T).

Lemma lex_nodes : forall l, Forall lex_spec l -> forall rest f T, tokens xml f rest = Some T -> headed T ->
  tokens xml (list_sum (map dmarks l) + f) (flat_map (dchars xml cd m) l ++ rest) = Some (fold_right dtoks T l) /\
  headed (fold_right dtoks T l).
Proof.
  induction 1 as [|n l Hn Hl IH]; intros rest f T HL HT; [auto|].
  destruct (IH rest f T HL HT) as (IH1 & IH2).
  cbn [flat_map map fold_right]. rewrite <- app_assoc.
  change (list_sum (dmarks n :: map dmarks l)) with (dmarks n + list_sum (map dmarks l))%nat. rewrite <- Nat.add_assoc.
  split; [now apply Hn|now apply dtoks_headed].
Qed.

(** Script text is written as it is. *)
Lemma script_chars : forall s, plain_script s -> aesc cd (m_text m) s = s.
Proof.
  induction 1 as [|c s Hc Hs IH]; [reflexivity|]. cbn [aesc]. rewrite (r_script _ _ Hr c Hc), ascii_escc; [cbn [app]; now rewrite IH|exact Hcd|lia].
Qed.
Lemma script_kids : forall k, Forall (fun n => exists s, n = DT s /\ plain_script s) k ->
  flat_map (dchars xml cd m) k = flat_map dtext k /\ ~ In 60 (flat_map dtext k).
Proof.
  induction 1 as [|n k (s & -> & Hs) Hk [IH1 IH2]]; [split; [reflexivity|intros []]|]. cbn [flat_map dchars dtext].
  rewrite script_chars, IH1 by assumption. split; [reflexivity|]. rewrite in_app_iff. intros [HI|HI]; [|contradiction].
  unfold plain_script in Hs. rewrite Forall_forall in Hs. apply Hs in HI. tauto.
Qed.
Lemma break_lt : forall d r, ~ In 60 d -> break_sub (lit "</") (d ++ lit "</" ++ r) = Some (d, r).
Proof.
  intros d r. change (lit "</") with [60; 47]. induction d as [|c d IH]; intro H.
  - reflexivity.
  - cbn [app break_sub prefixb]. destruct (N.eqb_spec 60 c) as [<-|_]; [exfalso; apply H; now left|].
    cbn [andb]. change ([60; 47] ++ r) with (60 :: 47 :: r) in IH. rewrite IH by (intro; apply H; now right). reflexivity.
Qed.

Lemma lex_node : forall n, dok n -> lex_spec n.
Proof.
  intro n. induction n as [f q a k IH|s|d|t d] using dn_ind2; intros Hl rest g T HL HT; inversion Hl; subst.
  - assert (HEnd : tokens xml (S g) ((60 :: lit "/" ++ q ++ lit ">") ++ rest) = Some (TText [] :: [TEnd q] ++ T)).
    { eapply (lex_markup g _ [TEnd q] [TEnd q]); [|reflexivity|exact HL]. rewrite <- !app_assoc. now apply m_end. }
    cbn [dchars dmarks dtoks]. set (A := flat_map (att_chars cd m) a).
    destruct f; cbn [close_of].
    + (* Full *)
      set (K := flat_map (dchars xml cd m) k) in *.
      replace ((60 :: q ++ A ++ lit ">" ++ K ++ lit "</" ++ q ++ lit ">") ++ rest)
        with ((60 :: q ++ A ++ lit ">") ++ K ++ (60 :: lit "/" ++ q ++ lit ">") ++ rest)
        by (cbn [app]; repeat (rewrite <- ?app_assoc; cbn [app]); reflexivity).
      set (R := K ++ (60 :: lit "/" ++ q ++ lit ">") ++ rest).
      assert (HM : markup xml ((q ++ A ++ lit ">") ++ R) = Some ([TStart q (map av a)], R)).
      { rewrite <- !app_assoc. apply (m_start q a false); auto. discriminate. }
      destruct (iscd q) eqn:Ec.
      * assert (Hx : xml = false) by (unfold iscd in Ec; destruct xml; [discriminate Ec|reflexivity]).
        assert (Hc : cdata_element q = true) by (unfold iscd in Ec; now apply andb_prop in Ec).
        match goal with H : xml = false -> cdata_element q = true -> _ |- _ => destruct (script_kids k (H Hx Hc)) as [EK H60] end.
        eapply lex_mono.
        -- eapply (lex_markup (S g) _ _ [TStart q (map av a); TText (flat_map dtext k)]); [exact HM| |exact HEnd].
           unfold cdata_content. rewrite Hx, Hc. cbn [negb andb].
           unfold R. assert (EB : K ++ (60 :: lit "/" ++ q ++ lit ">") ++ rest = flat_map dtext k ++ lit "</" ++ (q ++ lit ">" ++ rest)).
           { unfold K. rewrite EK. f_equal. change (lit "</") with (60 :: lit "/"). cbn [app]. repeat (rewrite <- ?app_assoc; cbn [app]). reflexivity. }
           rewrite EB, break_lt by exact H60. f_equal. change (lit "</") with (60 :: lit "/"). cbn [app]. rewrite <- !app_assoc. reflexivity.
        -- lia.
      * assert (HK : Forall lex_spec k).
        { rewrite Forall_forall in IH |- *. match goal with H : Forall dok k |- _ => rewrite Forall_forall in H end. auto. }
        destruct (lex_nodes k HK _ _ _ HEnd ltac:(eexists; eexists; reflexivity)) as (HK1 & HK2). fold K R in HK1.
        replace (S (S (list_sum (map dmarks k))) + g)%nat with (S (list_sum (map dmarks k) + S g)) by lia.
        eapply (lex_markup _ _ [TStart q (map av a)] [TStart q (map av a)]); [exact HM| |exact HK1].
        unfold cdata_content. unfold iscd in Ec. now rewrite Ec.
    + (* Mini *)
      match goal with H : Mini = Mini -> _ |- _ => destruct (H eq_refl) as [Hx ->] end.
      replace ((60 :: q ++ A ++ lit "/>") ++ rest) with ((60 :: q ++ A ++ lit "/>") ++ rest) by reflexivity.
      eapply lex_mono.
      * eapply (lex_markup g _ [TStart q (map av a); TEnd q] [TStart q (map av a); TEnd q]); [|reflexivity|exact HL].
        rewrite <- !app_assoc. now apply (m_start q a true).
      * cbn. lia.
    + (* Void *)
      match goal with H : Void = Void -> _ |- _ => destruct (H eq_refl) as (Hx & He & ->) end.
      eapply lex_mono.
      * eapply (lex_markup g _ [TStart q (map av a)] [TStart q (map av a)]); [| |exact HL].
        -- rewrite <- !app_assoc. apply (m_start q a false); auto. discriminate.
        -- unfold cdata_content. rewrite (empty_not_cdata q He), andb_false_r. reflexivity.
      * cbn. lia.
  - cbn [dmarks dchars dtoks]. destruct HT as (u & T' & ->). now apply lex_text.
  - cbn [dmarks dchars dtoks]. change (1 + g)%nat with (S g).
    change ((lit "<!--" ++ d ++ lit "-->") ++ rest) with ((60 :: lit "!--" ++ d ++ lit "-->") ++ rest).
    eapply (lex_markup g _ [TComment d] [TComment d]); [|reflexivity|exact HL]. rewrite <- !app_assoc. now apply m_comment.
  - cbn [dmarks dchars dtoks]. change (1 + g)%nat with (S g).
    set (X := match d with [] => [] | _ => 32 :: d end). set (C := if xml then lit "?>" else lit ">").
    change ((lit "<?" ++ t ++ X ++ C) ++ rest) with ((60 :: lit "?" ++ t ++ X ++ C) ++ rest).
    eapply (lex_markup g _ [TPI t d] [TPI t d]); [|reflexivity|exact HL]. rewrite <- !app_assoc. now apply m_pi.
Qed.

Lemma dmarks_length : forall n, dok n -> (dmarks n <= length (dchars xml cd m n))%nat.
Proof.
  intro n. induction n as [f q a k IH|s|d|t d] using dn_ind2; intro Hl; inversion Hl; subst; cbn [dmarks dchars].
  - assert (HS : (list_sum (map dmarks k) <= length (flat_map (dchars xml cd m) k))%nat).
    { match goal with H : Forall dok k |- _ => clear - IH H; induction H as [|n l Hn Hl IHl] end; cbn [map flat_map]; [apply le_n|].
      inversion IH; subst.
      change (list_sum (dmarks n :: map dmarks l)) with (dmarks n + list_sum (map dmarks l))%nat. rewrite app_length. 
      specialize (IHl H2). specialize (H1 Hn). lia. }
    assert (Hq : (1 <= length q)%nat) by (destruct q; [discriminate|cbn; lia]).
    destruct f; cbn [close_of]; cbn [length]; rewrite !app_length.
    + lia.
    + match goal with H : Mini = Mini -> _ |- _ => destruct (H eq_refl) as [_ ->] end. cbn. lia.
    + match goal with H : Void = Void -> _ |- _ => destruct (H eq_refl) as (_ & _ & ->) end. cbn. lia.
  - lia.
  - change (lit "<!--" ++ d ++ lit "-->") with (60 :: lit "!--" ++ d ++ lit "-->"). cbn [length]. lia.
  - set (X := match d with [] => [] | _ => 32 :: d end). set (C := if xml then lit "?>" else lit ">").
    change (lit "<?" ++ t ++ X ++ C) with (60 :: lit "?" ++ t ++ X ++ C). cbn [length]. lia.
Qed.

Lemma lex_all : forall l, Forall dok l ->
  tokens xml (S (length (flat_map (dchars xml cd m) l))) (flat_map (dchars xml cd m) l) = Some (fold_right dtoks [TText []] l).
Proof.
  intros l Hl.
  assert (HF : Forall lex_spec l) by (eapply Forall_impl; [|exact Hl]; apply lex_node).
  destruct (lex_nodes l HF [] 1 [TText []] eq_refl ltac:(eexists; eexists; reflexivity)) as (H & _).
  rewrite app_nil_r in H. eapply lex_mono; [exact H|].
  assert (HS : (list_sum (map dmarks l) <= length (flat_map (dchars xml cd m) l))%nat).
  { clear - Hl Hr Hcd. induction Hl as [|n l Hn Hl IH]; cbn [map flat_map]; [apply le_n|].
    change (list_sum (dmarks n :: map dmarks l)) with (dmarks n + list_sum (map dmarks l))%nat. rewrite app_length.
    pose proof (dmarks_length n Hn). lia. }
  lia.
Qed.

(** ** Building *)
Ltac noderw IH E g := rewrite (IH _ _ _ E g) by lia.
Lemma nodes_mono : forall f top T r, nodes xml f top T = Some r -> forall g, (f <= g)%nat -> nodes xml g top T = Some r.
Proof.
  induction f as [|f IH]; intros top T r H g Hg; [discriminate H|]. destruct g as [|g]; [lia|].
  cbn [nodes] in H |- *.
  destruct T as [|[n a|n|t|d|t d|n p s] T]; try assumption.
  - destruct (negb xml && empty_element n).
    + destruct (nodes xml f top T) as [[[l e] r']|] eqn:E; [|discriminate H]. now noderw IH E g.
    + destruct (nodes xml f false T) as [[[kids [x|]] rest]|] eqn:E; try discriminate H.
      noderw IH E g. destruct (closes xml n x); [|discriminate H].
      destruct (nodes xml f top rest) as [[[l e] r']|] eqn:E2; [|discriminate H]. now noderw IH E2 g.
  - destruct (nodes xml f top T) as [[[l e] r']|] eqn:E; [|discriminate H]. now noderw IH E g.
  - destruct (nodes xml f top T) as [[[l e] r']|] eqn:E; [|discriminate H]. now noderw IH E g.
  - destruct (nodes xml f top T) as [[[l e] r']|] eqn:E; [|discriminate H]. now noderw IH E g.
Qed.
Lemma nodes_shrinks : forall f top T l e r, nodes xml f top T = Some (l, e, r) -> (length r <= length T)%nat.
Proof.
  induction f as [|f IH]; intros top T l e r H; [discriminate H|]. cbn [nodes] in H.
  destruct T as [|[n a|n|t|d|t d|n p s] T]; cbn [length].
  - destruct top; inversion H; subst; cbn; lia.
  - destruct (negb xml && empty_element n).
    + destruct (nodes xml f top T) as [[[l' e'] r']|] eqn:E; [|discriminate H]. apply IH in E. inversion H; subst. lia.
    + destruct (nodes xml f false T) as [[[kids [x|]] rest]|] eqn:E; try discriminate H. apply IH in E.
      destruct (closes xml n x); [|discriminate H]. destruct (nodes xml f top rest) as [[[l' e'] r']|] eqn:E2; [|discriminate H].
      apply IH in E2. inversion H; subst. lia.
  - destruct top; inversion H; subst; cbn; lia.
  - destruct (nodes xml f top T) as [[[l' e'] r']|] eqn:E; [|discriminate H]. apply IH in E. inversion H; subst. lia.
  - destruct (nodes xml f top T) as [[[l' e'] r']|] eqn:E; [|discriminate H]. apply IH in E. inversion H; subst. lia.
  - destruct (nodes xml f top T) as [[[l' e'] r']|] eqn:E; [|discriminate H]. apply IH in E. inversion H; subst. lia.
  - discriminate H.
Qed.
Lemma nodes_enough : forall f top T r, nodes xml f top T = Some r -> nodes xml (S (length T)) top T = Some r.
Proof.
  induction f as [|f IH]; intros top T r H; [discriminate H|]. cbn [nodes] in H |- *.
  destruct T as [|[n a|n|t|d|t d|n p s] T]; cbn [length]; try assumption.
  - destruct (negb xml && empty_element n).
    + destruct (nodes xml f top T) as [[[l' e'] r']|] eqn:E; [|discriminate H]. now rewrite (IH _ _ _ E).
    + destruct (nodes xml f false T) as [[[kids [x|]] rest]|] eqn:E; try discriminate H.
      pose proof (nodes_shrinks _ _ _ _ _ _ E) as HL. rewrite (IH _ _ _ E).
      destruct (closes xml n x); [|discriminate H]. destruct (nodes xml f top rest) as [[[l' e'] r']|] eqn:E2; [|discriminate H].
      rewrite (nodes_mono _ _ _ _ (IH _ _ _ E2) (S (length T))) by lia. assumption.
  - destruct (nodes xml f top T) as [[[l' e'] r']|] eqn:E; [|discriminate H]. now rewrite (IH _ _ _ E).
  - destruct (nodes xml f top T) as [[[l' e'] r']|] eqn:E; [|discriminate H]. now rewrite (IH _ _ _ E).
  - destruct (nodes xml f top T) as [[[l' e'] r']|] eqn:E; [|discriminate H]. now rewrite (IH _ _ _ E).
Qed.

Definition builds (top : bool) (T : list token) (l : list rnode) (e : option str) (r : list token) : Prop :=
  exists f, nodes xml f top T = Some (l, e, r).
Lemma builds_text : forall top t T l e r, builds top T l e r -> builds top (TText t :: T) (add_text t l) e r.
Proof. intros top t T l e r [f H]. exists (S f). cbn [nodes]. now rewrite H. Qed.
Lemma builds_push : forall top s T l e r, headed T -> builds top T l e r -> builds top (push_text s T) (add_text s l) e r.
Proof.
  intros top s T l e r (u & T' & ->) [f H]. destruct f as [|f]; [discriminate H|]. cbn [nodes] in H.
  destruct (nodes xml f top T') as [[[l' e'] r']|] eqn:E; [|discriminate H]. inversion H; subst.
  rewrite <- add_text_app. apply builds_text. exists f; assumption.
Qed.
Lemma builds_elem : forall top q a K kids T l e r, negb xml && empty_element q = false ->
  builds false K kids (Some q) T -> builds top T l e r ->
  builds top (TText [] :: TStart q a :: K) (RElem q a kids :: l) e r.
Proof.
  intros top q a K kids T l e r Hn [f H] [g G].
  apply builds_text with (t := []) (l := RElem q a kids :: l).
  exists (S (f + g)). cbn [nodes]. rewrite Hn, (nodes_mono _ _ _ _ H) by lia.
  assert (EC : closes xml q q = true) by (unfold closes; destruct xml; apply str_eqb_refl). rewrite EC.
  now rewrite (nodes_mono _ _ _ _ G) by lia.
Qed.
Lemma builds_end : forall q T, builds false (TText [] :: TEnd q :: T) [] (Some q) T.
Proof. intros. exists 2%nat. reflexivity. Qed.

Definition build_spec (n : dn) : Prop := forall top T l e r, headed T -> builds top T l e r ->
  builds top (dtoks n T) (merge (dview n) l) e r.
Lemma build_nodes : forall k, Forall build_spec k -> forall top T l e r, headed T -> builds top T l e r ->
  builds top (fold_right dtoks T k) (fold_right merge l (map dview k)) e r /\ headed (fold_right dtoks T k).
Proof.
  induction 1 as [|n k Hn Hk IH]; intros top T l e r HT HB; [auto|]. cbn [fold_right map].
  destruct (IH _ _ _ _ _ HT HB) as [IH1 IH2]. split; [now apply Hn|now apply dtoks_headed].
Qed.
Lemma build_node : forall n, dok n -> build_spec n.
Proof.
  intro n. induction n as [f q a k IH|s|d|t d] using dn_ind2; intros Hl top T l e r HT HB; inversion Hl; subst.
  - cbn [dtoks dview merge]. destruct f.
    + match goal with H : Full = Full -> _ |- _ => specialize (H eq_refl); rename H into HF end.
      assert (Hn : negb xml && empty_element q = false) by (destruct xml; [reflexivity|now rewrite HF]).
      destruct (iscd q) eqn:Ec.
      * assert (Hx : xml = false) by (unfold iscd in Ec; destruct xml; [discriminate Ec|reflexivity]).
        assert (Hc : cdata_element q = true) by (unfold iscd in Ec; now apply andb_prop in Ec).
        match goal with H : xml = false -> cdata_element q = true -> _ |- _ => specialize (H Hx Hc); rename H into HS end.
        assert (EK : fold_right merge [] (map dview k) = add_text (flat_map dtext k) []).
        { clear - HS. induction HS as [|n k (s & -> & _) Hk IHk]; [reflexivity|]. cbn [map fold_right dview merge flat_map dtext].
          rewrite IHk. symmetry. apply add_text_app. }
        rewrite EK. eapply builds_elem; [exact Hn| |exact HB]. apply builds_text. apply builds_end.
      * assert (HK : Forall build_spec k).
        { rewrite Forall_forall in IH |- *. match goal with H : Forall dok k |- _ => rewrite Forall_forall in H end. auto. }
        destruct (build_nodes k HK false (TText [] :: TEnd q :: T) [] (Some q) T ltac:(eexists; eexists; reflexivity) (builds_end q T)) as [HB2 _].
        eapply builds_elem; eauto.
    + match goal with H : Mini = Mini -> _ |- _ => destruct (H eq_refl) as [Hx ->] end.
      eapply (builds_elem top q (map av a) (TEnd q :: T) [] T l e r); [now rewrite Hx| |exact HB]. exists 1%nat. reflexivity.
    + match goal with H : Void = Void -> _ |- _ => destruct (H eq_refl) as (Hx & He & ->) end.
      destruct HB as [g HB]. apply builds_text with (t := []) (l := RElem q (map av a) [] :: l). exists (S g). cbn [nodes].
      rewrite Hx at 1. rewrite He. cbn [negb andb]. now rewrite HB.
  - now apply builds_push.
  - destruct HB as [g HB]. apply builds_text with (t := []) (l := RComment d :: l). exists (S g). cbn [nodes]. now rewrite HB.
  - destruct HB as [g HB]. apply builds_text with (t := []) (l := RPI t d :: l). exists (S g). cbn [nodes]. now rewrite HB.
Qed.

(** ** No carriage return *)
Lemma atts_no_cr : forall a, Forall atok a -> ~ In 13 (flat_map (att_chars cd m) a).
Proof.
  intros a HF Hin. apply in_flat_map in Hin as ([n o] & Ha & Hin).
  rewrite Forall_forall in HF. destruct (HF _ Ha) as [Hn Hv]. cbn [fst snd] in Hn, Hv.
  unfold att_chars in Hin. cbn [fst snd] in Hin. destruct Hin as [Hin|Hin]; [discriminate Hin|].
  apply in_app_iff in Hin as [Hin|Hin]; [now apply name_not_in in Hin|]. destruct o as [v|]; [|destruct Hin].
  destruct Hv as [Hv H60].
  destruct Hin as [Hin|[Hin|Hin]]; [discriminate Hin|unfold quot_of in Hin; destruct (apos_of v); discriminate Hin|].
  apply in_app_iff in Hin as [Hin|[Hin|[]]].
  - now apply value_no13 in Hin.
  - unfold quot_of in Hin; destruct (apos_of v); discriminate Hin.
Qed.
Lemma dchars_no_cr : forall n, dok n -> ~ In 13 (dchars xml cd m n).
Proof.
  assert (Hlit : forall s, forallb (fun c => negb (c =? 13)) s = true -> ~ In 13 s).
  { intros s HH Hin. rewrite forallb_forall in HH. apply HH in Hin. discriminate Hin. }
  intro n. induction n as [f q a k IH|s|d|t d] using dn_ind2; intros Hl Hin; inversion Hl; subst; cbn [dchars] in Hin.
  - assert (HK : ~ In 13 (flat_map (dchars xml cd m) k)).
    { intro HI. apply in_flat_map in HI as (n & Hn & HI). match goal with H : Forall dok k |- _ => rewrite Forall_forall in IH, H end. eapply IH; eauto. }
    assert (HQ : ~ In 13 q) by (apply name_not_in; auto).
    destruct Hin as [Hin|Hin]; [discriminate Hin|]. rewrite !in_app_iff in Hin.
    destruct Hin as [Hin|[Hin|Hin]]; [contradiction|now apply atts_no_cr in Hin|].
    destruct f; cbn [close_of] in Hin.
    + rewrite !in_app_iff in Hin. destruct Hin as [HI|[HI|[HI|[HI|HI]]]]; try contradiction; revert HI; apply Hlit; reflexivity.
    + revert Hin. apply Hlit. reflexivity.
    + revert Hin. apply Hlit. reflexivity.
  - revert Hin. now apply text_no13.
  - match goal with H : legal_comment d |- _ => destruct H as (_ & H0 & _) end.
    rewrite !in_app_iff in Hin. destruct Hin as [HI|[HI|HI]]; try contradiction; revert HI; apply Hlit; reflexivity.
  - assert (H1 : is_name t = true) by (destruct xml; match goal with H : _ t d |- _ => apply H end).
    assert (H2 : ~ In 13 d) by (destruct xml; match goal with H : _ t d |- _ => apply H end).
    rewrite !in_app_iff in Hin. destruct Hin as [HI|[HI|[HI|HI]]].
    + revert HI; apply Hlit; reflexivity.
    + now apply name_not_in in HI.
    + destruct d; [destruct HI|]. destruct HI as [HI|HI]; [discriminate HI|contradiction].
    + revert HI; apply Hlit; destruct xml; reflexivity.
Qed.

Theorem read_rendered : forall l, Forall dok l -> read_page xml (flat_map (dchars xml cd m) l) = Some (merge_all (map dview l)).
Proof.
  intros l Hl. unfold read_page. rewrite norm_eol_id.
  - cbv zeta. rewrite lex_all by assumption.
    assert (HF : Forall build_spec l) by (eapply Forall_impl; [|exact Hl]; apply build_node).
    destruct (build_nodes l HF true [TText []] [] None [] ltac:(eexists; eexists; reflexivity) ltac:(exists 2%nat; reflexivity)) as [[f H] _].
    apply nodes_enough in H. rewrite H. reflexivity.
  - intro Hin. apply in_flat_map in Hin as (n & Hn & Hin).
    rewrite Forall_forall in Hl. eapply dchars_no_cr; eauto.
Qed.
End Read.
