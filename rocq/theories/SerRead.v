(** * The reference reader reads back what the printers write *)
From Coq Require Import NArith ZArith String List Bool Lia Arith Permutation.
From Verif Require Import PyStr PyErr SerModel SerSpec SerStream SerPrint.
Import ListNotations.
Open Scope N_scope.

Ltac apps := repeat (rewrite <- ?app_assoc; cbn [app]).

(** ** Names *)
Lemma name_start_neq : forall c d, name_start c = true -> name_start d = false -> (d =? c) = false.
Proof. intros c d Hc Hd. destruct (N.eqb_spec d c); [subst; congruence|reflexivity]. Qed.
Lemma name_char_neq : forall c d, name_char c = true -> name_char d = false -> c <> d.
Proof. intros c d Hc Hd ->. congruence. Qed.
Lemma name_start_char : forall c, name_start c = true -> name_char c = true.
Proof. intros c H. unfold name_char. now rewrite H. Qed.
Lemma is_name_inv : forall s, is_name s = true -> exists c s', s = c :: s' /\ name_start c = true /\ forallb name_char s = true.
Proof.
  intros [|c s]; cbn [is_name]; [discriminate|]. intro H. apply andb_prop in H as [H1 H2].
  exists c, s. cbn [forallb]. rewrite (name_start_char _ H1), H2. auto.
Qed.
Lemma is_name_chars : forall s, is_name s = true -> forall c, In c s -> name_char c = true.
Proof. intros s H c Hc. destruct (is_name_inv s H) as (_ & _ & _ & _ & HF). rewrite forallb_forall in HF. auto. Qed.
Lemma name_not_in : forall s d, is_name s = true -> name_char d = false -> ~ In d s.
Proof. intros s d H Hd Hin. pose proof (is_name_chars s H d Hin). congruence. Qed.

Lemma read_name_ok : forall q r, is_name q = true -> match r with [] => True | c :: _ => name_char c = false end ->
  read_name (q ++ r) = Some (q, r).
Proof.
  intros q r Hq Hr. unfold read_name. destruct (is_name_inv q Hq) as (c & q' & E & Hc & HF).
  rewrite span_app by assumption. now rewrite Hq.
Qed.

(** ** References *)
Lemma expand_ref : forall f nm acc r, ~ In 59 nm ->
  expand f (Some acc) (nm ++ 59 :: r) =
  match resolve_ref (rev acc ++ nm) with Some x => option_map (cons x) (expand f None r) | None => None end.
Proof.
  induction nm as [|c nm IH]; intros acc r Hn.
  - cbn [app expand]. rewrite N.eqb_refl, app_nil_r. reflexivity.
  - cbn [app expand]. destruct (N.eqb_spec c 59) as [->|_]; [exfalso; apply Hn; now left|].
    rewrite IH by (intro; apply Hn; now right). cbn [rev]. now rewrite <- app_assoc.
Qed.

Lemma resolve_dec : forall c, xml_char c = true -> resolve_ref (35 :: dec_str c) = Some c.
Proof.
  intros c Hc. unfold resolve_ref.
  pose proof (dec_str_digits c) as HD. pose proof (dec_str_nonempty c) as HN. pose proof (number_dec_str c) as HV.
  destruct (dec_str c) as [|d s]; [congruence|].
  change (str_eqb (35 :: d :: s) (lit "lt")) with false. change (str_eqb (35 :: d :: s) (lit "gt")) with false.
  change (str_eqb (35 :: d :: s) (lit "amp")) with false. change (str_eqb (35 :: d :: s) (lit "quot")) with false.
  change (str_eqb (35 :: d :: s) (lit "apos")) with false. cbv iota.
  assert (Hx : prefixb (lit "#x") (35 :: d :: s) = false).
  { change (prefixb (lit "#x") (35 :: d :: s)) with ((120 =? d) && true). inversion HD; subst.
    destruct (N.eqb_spec 120 d); [lia|reflexivity]. }
  rewrite Hx. change (prefixb (lit "#") (35 :: d :: s)) with true. cbv iota.
  change (skipn 1 (35 :: d :: s)) with (d :: s). cbv iota beta. rewrite HV, Hc. reflexivity.
Qed.

Lemma expand_charref : forall f c r, xml_char c = true ->
  expand f None (charref c ++ r) = option_map (cons c) (expand f None r).
Proof.
  intros f c r Hc. unfold charref. rewrite <- !app_assoc.
  change (lit "&#" ++ dec_str c ++ lit ";" ++ r) with (38 :: 35 :: (dec_str c ++ 59 :: r)).
  change (expand f None (38 :: 35 :: (dec_str c ++ 59 :: r))) with (expand f (Some [35]) (dec_str c ++ 59 :: r)).
  rewrite expand_ref. 2:{ intro Hin. pose proof (dec_str_digits c) as HD. rewrite Forall_forall in HD. apply HD in Hin. lia. }
  change (rev [35] ++ dec_str c) with (35 :: dec_str c). now rewrite resolve_dec.
Qed.

Definition lookup_char (m : emap) (c : N) : Prop := emap_lookup m c = None.

Lemma expand_escc : forall f cd c r, xml_char c = true -> c <> 38 -> c <> 60 -> f c = c ->
  expand f None (escc cd c ++ r) = option_map (cons c) (expand f None r).
Proof.
  intros f cd c r Hc H38 H60 Hf. unfold escc. destruct (cd c).
  - cbn [app expand]. destruct (N.eqb_spec c 38); [congruence|]. destruct (N.eqb_spec c 60); [congruence|].
    now rewrite Hc, Hf.
  - now apply expand_charref.
Qed.

(** The text map and the two attribute maps. *)
Inductive serializer_map : emap -> (N -> N) -> Prop :=
| sm_text : serializer_map text_entities (fun c => c)
| sm_quot : serializer_map attr_entities_quot attr_norm
| sm_apos : serializer_map attr_entities_apos attr_norm.

Ltac splitmap c :=
  cbn [emap_lookup];
  repeat match goal with |- context[if ?k =? c then _ else _] => destruct (N.eqb_spec k c) as [<-|?] end.

Lemma attr_norm_id : forall c, c <> 9 -> c <> 10 -> c <> 13 -> attr_norm c = c.
Proof.
  intros c H9 H10 H13. unfold attr_norm, ws. destruct (N.eqb_spec c 32) as [->|_]; [reflexivity|].
  destruct (N.eqb_spec c 9); [congruence|]. destruct (N.eqb_spec c 10); [congruence|]. destruct (N.eqb_spec c 13); [congruence|].
  reflexivity.
Qed.

Lemma expand_esc : forall m f cd c r, serializer_map m f -> xml_char c = true ->
  expand f None (esc cd m c ++ r) = option_map (cons c) (expand f None r).
Proof.
  intros m f cd c r Hm Hc. unfold esc.
  destruct Hm; [unfold text_entities|unfold attr_entities_quot|unfold attr_entities_apos]; splitmap c; try reflexivity;
  apply expand_escc; auto; apply attr_norm_id; auto.
Qed.

Lemma expand_escs : forall m f cd s r, serializer_map m f -> chars s ->
  expand f None (flat_map (esc cd m) s ++ r) = option_map (app s) (expand f None r).
Proof.
  intros m f cd s r Hm. induction 1 as [|c s Hc Hs IH]; cbn [flat_map app].
  - destruct (expand f None r); reflexivity.
  - rewrite <- app_assoc, (expand_esc m f) by assumption. rewrite IH. destruct (expand f None r); reflexivity.
Qed.

(** No literal markup character is written. *)
Lemma charref_no : forall c d, d <> 38 -> d <> 35 -> d <> 59 -> ~ (48 <= d <= 57) -> ~ In d (charref c).
Proof.
  intros c d H1 H2 H3 H4 Hin. unfold charref in Hin. rewrite !in_app_iff in Hin.
  change (lit "&#") with [38; 35] in Hin. change (lit ";") with [59] in Hin. cbn [In] in Hin.
  destruct Hin as [[?|[?|[]]]|[Hin|[?|[]]]]; try congruence.
  pose proof (dec_str_digits c) as HD. rewrite Forall_forall in HD. apply H4. now apply HD.
Qed.
Lemma escc_in : forall cd c d, In d (escc cd c) -> d = c \/ In d (charref c).
Proof. intros cd c d. unfold escc. destruct (cd c); cbn [In]; intuition. Qed.

Lemma esc_no : forall cd m c d, d <> 38 -> d <> 35 -> d <> 59 -> ~ (48 <= d <= 57) ->
  (forall t, emap_lookup m c = Some (RStr t) -> ~ In d t) ->
  (emap_lookup m d <> None) -> ~ In d (esc cd m c).
Proof.
  intros cd m c d H1 H2 H3 H4 Ht Hd Hin. unfold esc in Hin. destruct (emap_lookup m c) as [[t|f]|] eqn:E.
  - eapply Ht; eauto.
  - destruct Hin.
  - apply escc_in in Hin as [->|Hin]; [congruence|]. now apply charref_no in Hin.
Qed.
Lemma text_no : forall cd c d, d = 60 \/ d = 62 \/ d = 13 -> ~ In d (esc cd text_entities c).
Proof.
  intros cd c d Hd. apply esc_no; try (destruct Hd as [->|[->| ->]]; lia).
  - intro t. unfold text_entities. splitmap c; intro H; inversion H; subst; destruct Hd as [->|[->| ->]]; vm_compute; intuition discriminate.
  - destruct Hd as [->|[->| ->]]; discriminate.
Qed.
Lemma quot_no : forall cd c d, d = 60 \/ d = 34 \/ d = 13 -> ~ In d (esc cd attr_entities_quot c).
Proof.
  intros cd c d Hd. apply esc_no; try (destruct Hd as [->|[->| ->]]; lia).
  - intro t. unfold attr_entities_quot. splitmap c; intro H; inversion H; subst; destruct Hd as [->|[->| ->]]; vm_compute; intuition discriminate.
  - destruct Hd as [->|[->| ->]]; discriminate.
Qed.
Lemma apos_no : forall cd c d, d = 60 \/ d = 39 \/ d = 13 -> ~ In d (esc cd attr_entities_apos c).
Proof.
  intros cd c d Hd. apply esc_no; try (destruct Hd as [->|[->| ->]]; lia).
  - intro t. unfold attr_entities_apos. splitmap c; intro H; inversion H; subst; destruct Hd as [->|[->| ->]]; vm_compute; intuition discriminate.
  - destruct Hd as [->|[->| ->]]; discriminate.
Qed.
Lemma flat_no : forall (g : N -> str) d s, (forall c, ~ In d (g c)) -> ~ In d (flat_map g s).
Proof. intros g d s H Hin. apply in_flat_map in Hin as (c & _ & Hin). eapply H; eauto. Qed.

(** ** Breaking at a pattern *)
Lemma break_sub_no : forall pat c s, In c pat -> ~ In c s -> break_sub pat s = None.
Proof.
  intros pat c s Hc. induction s as [|d s IH]; intro Hn; cbn [break_sub].
  - destruct (prefixb pat []) eqn:E; [|reflexivity]. apply prefixb_spec in E as [r E].
    destruct pat; [destruct Hc|discriminate].
  - destruct (prefixb pat (d :: s)) eqn:E.
    + apply prefixb_spec in E as [r E]. exfalso. apply Hn. rewrite E. apply in_or_app. now left.
    + rewrite IH; [reflexivity|]. intro; apply Hn; now right.
Qed.

Lemma break_dashes : forall d r, contains (lit "--") (d ++ lit "-") = false ->
  break_sub (lit "--") (d ++ lit "-->" ++ r) = Some (d, 62 :: r).
Proof.
  change (lit "--") with [45; 45]. change (lit "-->") with [45; 45; 62]. change (lit "-") with [45].
  induction d as [|c d IH]; intros r H; [reflexivity|].
  cbn [app] in H |- *. cbn [contains] in H. apply orb_false_elim in H as [H1 H2].
  cbn [break_sub].
  assert (E : prefixb [45; 45] (c :: d ++ 45 :: 45 :: 62 :: r) = false).
  { destruct d as [|e d]; cbn [app prefixb] in H1 |- *; exact H1. }
  rewrite E. cbn [app] in IH. now rewrite IH.
Qed.
Lemma break_pi : forall d r, contains (lit "?>") d = false -> break_sub (lit "?>") (d ++ lit "?>" ++ r) = Some (d, r).
Proof.
  change (lit "?>") with [63; 62].
  induction d as [|c d IH]; intros r H; [reflexivity|].
  cbn [app] in H |- *. cbn [contains] in H. apply orb_false_elim in H as [H1 H2].
  cbn [break_sub].
  assert (E : prefixb [63; 62] (c :: d ++ 63 :: 62 :: r) = false).
  { destruct d as [|e d]; cbn [app prefixb] in H1 |- *; [|exact H1].
    change (62 =? 63) with false. apply andb_false_r. }
  rewrite E. cbn [app] in IH. now rewrite IH.
Qed.
Lemma break_cdata : forall d r, contains (lit "]]>") d = false -> break_sub (lit "]]>") (d ++ lit "]]>" ++ r) = Some (d, r).
Proof.
  change (lit "]]>") with [93; 93; 62].
  induction d as [|c d IH]; intros r H; [reflexivity|].
  cbn [app] in H |- *. cbn [contains] in H. apply orb_false_elim in H as [H1 H2].
  cbn [break_sub].
  assert (E : prefixb [93; 93; 62] (c :: d ++ 93 :: 93 :: 62 :: r) = false).
  { destruct d as [|e [|e2 d]]; cbn [app prefixb] in H1 |- *; [| |exact H1].
    - change (62 =? 93) with false. rewrite !andb_false_r. reflexivity.
    - change (62 =? 93) with false. cbn [andb]. rewrite !andb_false_r. reflexivity. }
  rewrite E. cbn [app] in IH. now rewrite IH.
Qed.

(** ** Tags *)
Lemma nodup_names_ok : forall l, NoDup l -> nodup_names l = true.
Proof.
  induction 1 as [|n l Hn Hl IH]; [reflexivity|]. cbn [nodup_names]. rewrite IH, andb_true_r.
  apply negb_true_iff. destruct (existsb (str_eqb n) l) eqn:E; [|reflexivity].
  apply existsb_exists in E as (m & Hm & E). apply str_eqb_eq in E. subst. contradiction.
Qed.

Lemma amap_sm : forall canon v, serializer_map (amap canon v) attr_norm.
Proof. intros canon v. unfold amap. destruct (use_apos canon v); constructor. Qed.
Lemma amap_no_quote : forall cd canon v, ~ In (quote_of canon v) (flat_map (esc cd (amap canon v)) v).
Proof.
  intros cd canon v. apply flat_no. intro c. unfold quote_of, amap. destruct (use_apos canon v).
  - apply apos_no. auto.
  - apply quot_no. auto.
Qed.
Lemma amap_no_cr : forall cd canon v d, d = 60 \/ d = 13 -> ~ In d (flat_map (esc cd (amap canon v)) v).
Proof.
  intros cd canon v d Hd. apply flat_no. intro c. unfold amap. destruct (use_apos canon v).
  - apply apos_no. intuition.
  - apply quot_no. intuition.
Qed.

Lemma read_attvalue_ok : forall cd canon v, chars v -> read_attvalue (flat_map (esc cd (amap canon v)) v) = Some v.
Proof.
  intros cd canon v Hv. unfold read_attvalue.
  rewrite <- (app_nil_r (flat_map _ _)), (expand_escs _ _ _ _ _ (amap_sm canon v) Hv). cbn. now rewrite app_nil_r.
Qed.

Lemma read_literal_ok : forall canon v l r, ~ In (quote_of canon v) l ->
  read_literal (quote_of canon v :: l ++ quote_of canon v :: r) = Some (l, r).
Proof.
  intros canon v l r H. unfold read_literal.
  assert (E : (quote_of canon v =? 34) || (quote_of canon v =? 39) = true) by (unfold quote_of; destruct (use_apos canon v); reflexivity).
  rewrite E. apply break1_Some. auto.
Qed.

Lemma span_ws_name : forall n r, is_name n = true -> span ws (32 :: n ++ r) = ([32], n ++ r).
Proof.
  intros n r Hn. destruct (is_name_inv n Hn) as (c & n' & -> & Hc & _). cbn [app].
  change (32 :: c :: n' ++ r) with ([32] ++ (c :: n' ++ r)). apply span_app; [reflexivity|].
  unfold ws. rewrite !(N.eqb_sym c).
  rewrite !(name_start_neq c) by (assumption || reflexivity). reflexivity.
Qed.

Definition tag_close (e : bool) : str := if e then lit "/>" else lit ">".

Lemma read_attrs_ok : forall cd canon e r atts f, legal_atts atts -> (length atts < f)%nat ->
  read_attrs f (attrs_chars cd canon atts ++ tag_close e ++ r) = Some (atts, e, r).
Proof.
  intros cd canon e r atts f [HF _]. revert f. induction HF as [|[n v] atts [Hn Hv] HF IH]; intros f Hf; (destruct f as [|f]; [cbn in Hf; lia|]).
  - destruct e; reflexivity.
  - cbn [fst snd] in Hn, Hv. cbn [attrs_chars flat_map]. fold (attrs_chars cd canon atts). unfold attr_chars. cbn [fst snd].
    set (T := attrs_chars cd canon atts ++ tag_close e ++ r) in *.
    match goal with |- read_attrs _ ?L = _ =>
      replace L with (32 :: n ++ 61 :: quote_of canon v :: flat_map (esc cd (amap canon v)) v ++ quote_of canon v :: T)
      by (unfold T; apps; reflexivity) end.
    cbn [read_attrs]. rewrite span_ws_name by assumption.
    destruct (is_name_inv n Hn) as (c & n' & En & Hc & _).
    assert (E1 : prefixb (lit ">") (n ++ 61 :: quote_of canon v :: flat_map (esc cd (amap canon v)) v ++ quote_of canon v :: T) = false).
    { rewrite En. cbn [app]. change (lit ">") with [62]. cbn [prefixb]. rewrite (name_start_neq c) by (assumption || reflexivity). reflexivity. }
    assert (E2 : prefixb (lit "/>") (n ++ 61 :: quote_of canon v :: flat_map (esc cd (amap canon v)) v ++ quote_of canon v :: T) = false).
    { rewrite En. cbn [app]. change (lit "/>") with [47; 62]. cbn [prefixb]. rewrite (name_start_neq c) by (assumption || reflexivity). reflexivity. }
    rewrite E1, E2, read_name_ok by (assumption || reflexivity).
    assert (E3 : forall s, skip_ws (61 :: s) = 61 :: s) by reflexivity. rewrite E3.
    assert (E4 : forall s, skip_ws (quote_of canon v :: s) = quote_of canon v :: s).
    { intro s. unfold quote_of. destruct (use_apos canon v); reflexivity. }
    rewrite E4, read_literal_ok by apply amap_no_quote.
    rewrite read_attvalue_ok by assumption. unfold T. rewrite IH by (cbn in Hf; lia). reflexivity.
Qed.

Lemma attrs_chars_length : forall cd canon atts, (length atts <= length (attrs_chars cd canon atts))%nat.
Proof.
  intros. unfold attrs_chars. induction atts as [|a atts IH]; [apply le_n|]. cbn [flat_map]. rewrite app_length.
  unfold attr_chars at 1. cbn [length]. lia.
Qed.

Lemma not_special : forall c r, name_start c = true ->
  prefixb (lit "!--") (c :: r) = false /\ prefixb (lit "![CDATA[") (c :: r) = false /\
  prefixb (lit "!DOCTYPE") (c :: r) = false /\ prefixb (lit "?") (c :: r) = false /\ prefixb (lit "/") (c :: r) = false.
Proof.
  intros c r Hc. change (lit "!--") with [33;45;45]. change (lit "?") with [63]. change (lit "/") with [47].
  change (lit "![CDATA[") with (33 :: lit "[CDATA["). change (lit "!DOCTYPE") with (33 :: lit "DOCTYPE").
  cbn [prefixb]. rewrite !(name_start_neq c) by (assumption || reflexivity). auto.
Qed.

Lemma read_start : forall cd canon q atts e r, is_name q = true -> legal_atts atts ->
  read_markup (q ++ attrs_chars cd canon atts ++ tag_close e ++ r) =
  Some (if e then [TStart q atts; TEnd q] else [TStart q atts], r).
Proof.
  intros cd canon q atts e r Hq Ha. unfold read_markup.
  destruct (is_name_inv q Hq) as (c & q' & Eq & Hc & _).
  set (X := attrs_chars cd canon atts ++ tag_close e ++ r).
  assert (EX : q ++ X = c :: q' ++ X) by now rewrite Eq.
  destruct (not_special c (q' ++ X) Hc) as (P1 & P2 & P3 & P4 & P5). rewrite <- EX in *.
  rewrite P1, P2, P3, P4, P5. rewrite read_name_ok; [|assumption|].
  2:{ unfold X. destruct atts as [|a atts]; [destruct e; reflexivity|]. reflexivity. }
  unfold X. rewrite read_attrs_ok; [|assumption|].
  2:{ rewrite app_length. pose proof (attrs_chars_length cd canon atts). lia. }
  destruct Ha as [_ Hnd]. now rewrite nodup_names_ok.
Qed.

Lemma read_end : forall q r, is_name q = true -> read_markup (lit "/" ++ q ++ lit ">" ++ r) = Some ([TEnd q], r).
Proof.
  intros q r Hq. unfold read_markup.
  change (prefixb (lit "!--") (lit "/" ++ q ++ lit ">" ++ r)) with false.
  change (prefixb (lit "![CDATA[") (lit "/" ++ q ++ lit ">" ++ r)) with false.
  change (prefixb (lit "!DOCTYPE") (lit "/" ++ q ++ lit ">" ++ r)) with false.
  change (prefixb (lit "?") (lit "/" ++ q ++ lit ">" ++ r)) with false.
  change (prefixb (lit "/") (lit "/" ++ q ++ lit ">" ++ r)) with true. cbv iota.
  change (skipn 1 (lit "/" ++ q ++ lit ">" ++ r)) with (q ++ lit ">" ++ r).
  rewrite read_name_ok by (assumption || reflexivity). reflexivity.
Qed.

Lemma chars_forallb : forall d, chars d -> forallb xml_char d = true.
Proof. intros d H. apply forallb_forall. unfold chars in H. now rewrite Forall_forall in H. Qed.

Lemma read_comment : forall d r, legal_comment d -> read_markup (lit "!--" ++ d ++ lit "-->" ++ r) = Some ([TComment d], r).
Proof.
  intros d r (Hc & _ & Hd). unfold read_markup.
  change (prefixb (lit "!--") (lit "!--" ++ d ++ lit "-->" ++ r)) with true. cbv iota.
  change (skipn 3 (lit "!--" ++ d ++ lit "-->" ++ r)) with (d ++ lit "-->" ++ r).
  rewrite break_dashes by assumption. now rewrite chars_forallb.
Qed.

Lemma read_pi : forall t d r, legal_pi t d ->
  read_markup (lit "?" ++ t ++ (match d with [] => [] | _ => 32 :: d end) ++ lit "?>" ++ r) = Some ([TPI t d], r).
Proof.
  intros t d r (Ht & Hx & Hc & _ & Hd & Hw). unfold read_markup.
  set (X := (match d with [] => [] | _ => 32 :: d end) ++ lit "?>" ++ r).
  change (prefixb (lit "!--") (lit "?" ++ t ++ X)) with false.
  change (prefixb (lit "![CDATA[") (lit "?" ++ t ++ X)) with false.
  change (prefixb (lit "!DOCTYPE") (lit "?" ++ t ++ X)) with false.
  change (prefixb (lit "?") (lit "?" ++ t ++ X)) with true. cbv iota.
  change (skipn 1 (lit "?" ++ t ++ X)) with (t ++ X).
  rewrite read_name_ok; [|assumption|unfold X; destruct d; reflexivity].
  destruct (str_eqb_spec (lower t) (lit "xml")) as [|_]; [contradiction|].
  destruct d as [|c d].
  - reflexivity.
  - unfold X. change (prefixb (lit "?>") ((32 :: c :: d) ++ lit "?>" ++ r)) with false. cbv iota.
    assert (E : need_ws ((32 :: c :: d) ++ lit "?>" ++ r) = Some ((c :: d) ++ lit "?>" ++ r)).
    { unfold need_ws. change ((32 :: c :: d) ++ lit "?>" ++ r) with ([32] ++ (c :: d ++ lit "?>" ++ r)).
      rewrite span_app; [reflexivity|reflexivity|exact Hw]. }
    rewrite E, break_pi by assumption. now rewrite chars_forallb.
Qed.

(** ** Lexing *)
Definition not_lt (c : N) : bool := negb (c =? 60).
Definition safe (s : str) : Prop := ~ In 62 (fst (span not_lt s)).

Lemma not_lt_all : forall s, ~ In 60 s -> forallb not_lt s = true.
Proof.
  intros s H. apply forallb_forall. intros c Hc. unfold not_lt. destruct (N.eqb_spec c 60); [subst; contradiction|reflexivity].
Qed.
Lemma span_prefix : forall (p : N -> bool) a s, forallb p a = true -> span p (a ++ s) = (a ++ fst (span p s), snd (span p s)).
Proof.
  induction a as [|c a IH]; intros s H; cbn [app].
  - destruct (span p s); reflexivity.
  - cbn [forallb] in H. apply andb_prop in H as [H1 H2]. cbn [span]. rewrite H1, IH by assumption. reflexivity.
Qed.

Lemma lex_text : forall cd f s rest u T, chars s -> lex f rest = Some (TText u :: T) -> safe rest ->
  lex f (flat_map (esc cd text_entities) s ++ rest) = Some (TText (s ++ u) :: T) /\
  safe (flat_map (esc cd text_entities) s ++ rest).
Proof.
  intros cd [|f] s rest u T Hs HL Hsafe; [discriminate|].
  assert (H60 : ~ In 60 (flat_map (esc cd text_entities) s)) by (apply flat_no; intro; apply text_no; auto).
  assert (H62 : ~ In 62 (flat_map (esc cd text_entities) s)) by (apply flat_no; intro; apply text_no; auto).
  assert (HS := span_prefix not_lt _ rest (not_lt_all _ H60)).
  assert (Hsafe' : safe (flat_map (esc cd text_entities) s ++ rest)).
  { unfold safe in *. rewrite HS. cbn [fst]. rewrite in_app_iff. tauto. }
  split; [|exact Hsafe'].
  cbn [lex] in HL |- *. fold not_lt in HL |- *. change (fun c : N => negb (c =? 60)) with not_lt in *.
  unfold safe in Hsafe, Hsafe'. rewrite HS in Hsafe' |- *. cbn [fst] in Hsafe'.
  destruct (span not_lt rest) as [run s1]. cbn [fst snd] in *.
  unfold read_chardata in HL |- *.
  assert (In62 : In 62 (lit "]]>")) by (vm_compute; auto).
  rewrite (break_sub_no _ 62 run In62 Hsafe) in HL.
  rewrite (break_sub_no _ 62 _ In62 Hsafe').
  rewrite (expand_escs _ _ _ _ _ sm_text Hs).
  destruct (expand (fun c => c) None run) as [t|]; [|discriminate]. cbn [option_map].
  destruct s1 as [|c s2].
  - injection HL as <- <-. reflexivity.
  - destruct (read_markup s2) as [[toks r]|]; [|discriminate].
    destruct (lex f r) as [T'|]; [|discriminate]. injection HL as <- <-. reflexivity.
Qed.

Lemma lex_markup : forall f m toks rest T, read_markup (m ++ rest) = Some (toks, rest) -> lex f rest = Some T ->
  lex (S f) ((60 :: m) ++ rest) = Some (TText [] :: toks ++ T) /\ safe ((60 :: m) ++ rest).
Proof.
  intros f m toks rest T HM HL. split; [|unfold safe; intros []]. cbn [app lex].
  change (span (fun c : N => negb (c =? 60)) (60 :: m ++ rest)) with (@nil N, 60 :: m ++ rest).
  change (read_chardata []) with (Some (@nil N)). cbv iota. now rewrite HM, HL.
Qed.

Lemma lex_mono : forall f s T, lex f s = Some T -> forall g, (f <= g)%nat -> lex g s = Some T.
Proof.
  induction f as [|f IH]; intros s T H g Hg; [discriminate|]. destruct g as [|g]; [lia|].
  cbn [lex] in H |- *. destruct (span _ s) as [run s1]. destruct (read_chardata run); [|discriminate].
  destruct s1 as [|c s2]; [assumption|]. destruct (read_markup s2) as [[toks r]|]; [|discriminate].
  destruct (lex f r) as [T'|] eqn:E; [|discriminate]. now rewrite (IH _ _ E g) by lia.
Qed.

(** The tokens of a tree, put before [T], whose head is character data. *)
Definition push_text (s : str) (T : list token) : list token :=
  match T with TText u :: T' => TText (s ++ u) :: T' | _ => T end.
Fixpoint toks (canon : bool) (n : rnode) (T : list token) : list token :=
  match n with
  | RText s => push_text s T
  | RComment d => TText [] :: TComment d :: T
  | RPI t d => TText [] :: TPI t d :: T
  | RDoctype a b c => TText [] :: TDoctype a b c :: T
  | RElem q a k =>
    match canon, k with
    | false, [] => TText [] :: TStart q a :: TEnd q :: T
    | _, _ => TText [] :: TStart q a :: fold_right (toks canon) (TText [] :: TEnd q :: T) k
    end
  end.
Fixpoint marks (n : rnode) : nat :=
  match n with
  | RText _ => 0
  | RElem _ _ k => S (S (list_sum (map marks k)))
  | _ => 1
  end.

Definition headed (T : list token) : Prop := exists u T', T = TText u :: T'.
Lemma toks_headed : forall canon n T, headed T -> headed (toks canon n T).
Proof.
  intros canon [q a k|s|d|t d|x y z] T (u & T' & ->); try (eexists; eexists; reflexivity).
  cbn [toks]. destruct canon, k; eexists; eexists; reflexivity.
Qed.

Definition lex_spec (cd : codec) (canon : bool) (n : rnode) : Prop := forall rest f T, lex f rest = Some T -> headed T -> safe rest ->
  lex (marks n + f) (node_chars cd canon n ++ rest) = Some (toks canon n T) /\ safe (node_chars cd canon n ++ rest).

Lemma lex_nodes : forall cd canon l, Forall (lex_spec cd canon) l -> forall rest f T,
  lex f rest = Some T -> headed T -> safe rest ->
  lex (list_sum (map marks l) + f) (nodes_chars cd canon l ++ rest) = Some (fold_right (toks canon) T l) /\
  headed (fold_right (toks canon) T l) /\ safe (nodes_chars cd canon l ++ rest).
Proof.
  induction 1 as [|n l Hn Hl IH]; intros rest f T HL HT HS; [auto|].
  destruct (IH rest f T HL HT HS) as (IH1 & IH2 & IH3).
  unfold nodes_chars. cbn [flat_map map fold_right]. fold (nodes_chars cd canon l). rewrite <- app_assoc.
  change (list_sum (marks n :: map marks l)) with (marks n + list_sum (map marks l))%nat. rewrite <- Nat.add_assoc.
  destruct (Hn _ _ _ IH1 IH2 IH3) as [H1 H2]. split; [exact H1|]. split; [now apply toks_headed|exact H2].
Qed.

Lemma lex_node : forall cd canon n, legal n -> lex_spec cd canon n.
Proof.
  intros cd canon n. induction n as [q a k IH|s|d|t d|x y z] using rnode_ind2; intros Hl rest f T HL HT HS; inversion Hl; subst.
  - assert (HEnd : lex (S f) ((60 :: lit "/" ++ q ++ lit ">") ++ rest) = Some (TText [] :: [TEnd q] ++ T) /\ safe ((60 :: lit "/" ++ q ++ lit ">") ++ rest)).
    { apply lex_markup; [|assumption]. rewrite <- !app_assoc. now apply read_end. }
    destruct HEnd as [HE1 HE2].
    assert (HK : Forall (lex_spec cd canon) k).
    { rewrite Forall_forall in IH |- *. rewrite Forall_forall in H4. auto. }
    destruct (lex_nodes cd canon k HK _ _ _ HE1 ltac:(eexists; eexists; reflexivity) HE2) as (HK1 & HK2 & HK3).
    set (K := nodes_chars cd canon k ++ (60 :: lit "/" ++ q ++ lit ">") ++ rest) in *.
    assert (HFull : lex (marks (RElem q a k) + f) (60 :: q ++ attrs_chars cd canon a ++ tag_close false ++ K) =
      Some (TText [] :: [TStart q a] ++ fold_right (toks canon) (TText [] :: [TEnd q] ++ T) k) /\
      safe (60 :: q ++ attrs_chars cd canon a ++ tag_close false ++ K)).
    { destruct (lex_markup (list_sum (map marks k) + S f) (q ++ attrs_chars cd canon a ++ tag_close false) [TStart q a] K
         (fold_right (toks canon) (TText [] :: [TEnd q] ++ T) k)) as [L1 L2].
      - rewrite <- !app_assoc. now apply (read_start cd canon q a false).
      - exact HK1.
      - cbn [app] in L1, L2. rewrite <- !app_assoc in L1, L2. split; [|exact L2]. cbn [marks].
        replace (S (S (list_sum (map marks k))) + f)%nat with (S (list_sum (map marks k) + S f)) by lia. exact L1. }
    assert (HEmpty : lex (marks (RElem q a k) + f) (60 :: q ++ attrs_chars cd canon a ++ tag_close true ++ rest) =
      Some (TText [] :: [TStart q a; TEnd q] ++ T) /\ safe (60 :: q ++ attrs_chars cd canon a ++ tag_close true ++ rest)).
    { destruct (lex_markup f (q ++ attrs_chars cd canon a ++ tag_close true) [TStart q a; TEnd q] rest T) as [L1 L2]; auto.
      - rewrite <- !app_assoc. now apply (read_start cd canon q a true).
      - cbn [app] in L1, L2. rewrite <- !app_assoc in L1, L2. split; [|exact L2].
        eapply lex_mono; [exact L1|]. cbn [marks]. lia. }
    cbn [node_chars toks].
    assert (Efull : forall k', k' = k -> (60 :: q ++ attrs_chars cd canon a ++ 62 :: flat_map (node_chars cd canon) k' ++ lit "</" ++ q ++ lit ">") ++ rest
       = 60 :: q ++ attrs_chars cd canon a ++ tag_close false ++ K).
    { intros k' ->. unfold K, nodes_chars. change (lit "</") with (60 :: lit "/"). cbn [app]. repeat (rewrite <- ?app_assoc; cbn [app]). reflexivity. }
    destruct canon.
    + rewrite Efull by reflexivity. exact HFull.
    + destruct k as [|k0 k].
      * replace ((60 :: q ++ attrs_chars cd false a ++ lit "/>") ++ rest) with (60 :: q ++ attrs_chars cd false a ++ tag_close true ++ rest)
          by (cbn [app]; rewrite <- !app_assoc; reflexivity). exact HEmpty.
      * rewrite Efull by reflexivity. exact HFull.
  - cbn [marks node_chars toks]. destruct HT as (u & T' & ->). now apply lex_text.
  - cbn [marks node_chars toks]. change (1 + f)%nat with (S f).
    change ((lit "<!--" ++ d ++ lit "-->") ++ rest) with ((60 :: lit "!--" ++ d ++ lit "-->") ++ rest).
    apply (lex_markup f _ [TComment d]); [|assumption]. rewrite <- !app_assoc. now apply read_comment.
  - cbn [marks node_chars toks]. change (1 + f)%nat with (S f).
    set (X := match d with [] => [] | _ => 32 :: d end).
    change ((lit "<?" ++ t ++ X ++ lit "?>") ++ rest) with ((60 :: lit "?" ++ t ++ X ++ lit "?>") ++ rest).
    apply (lex_markup f _ [TPI t d]); [|assumption]. rewrite <- !app_assoc. now apply read_pi.
Qed.

Lemma marks_length : forall cd canon n, (marks n <= length (node_chars cd canon n))%nat.
Proof.
  intros cd canon n. induction n as [q a k IH|s|d|t d|x y z] using rnode_ind2; cbn [marks node_chars].
  - assert (HS : (list_sum (map marks k) <= length (flat_map (node_chars cd canon) k))%nat).
    { clear - IH. induction IH as [|n l Hn Hl IH]; cbn [map flat_map]; [apply le_n|].
      change (list_sum (marks n :: map marks l)) with (marks n + list_sum (map marks l))%nat. rewrite app_length. lia. }
    assert (HX : Nat.le (S (S (list_sum (map marks k)))) (length (60 :: q ++ attrs_chars cd canon a ++ 62 :: flat_map (node_chars cd canon) k ++ lit "</" ++ q ++ lit ">"))).
    { cbn [length]. rewrite !app_length. cbn [length]. rewrite !app_length. lia. }
    destruct canon; [exact HX|]. destruct k; [|exact HX].
    change (list_sum (map marks [])) with 0%nat. cbn [length]. rewrite !app_length. change (length (lit "/>")) with 2%nat. lia.
  - lia.
  - change (lit "<!--" ++ d ++ lit "-->") with (60 :: lit "!--" ++ d ++ lit "-->"). cbn [length]. lia.
  - set (X := match d with [] => [] | _ => 32 :: d end). change (lit "<?" ++ t ++ X ++ lit "?>") with (60 :: lit "?" ++ t ++ X ++ lit "?>"). cbn [length]. lia.
  - rewrite app_length. change (length (lit "<!DOCTYPE ")) with 10%nat. lia.
Qed.

Lemma lex_all : forall cd canon l, Forall legal l ->
  lex (S (length (nodes_chars cd canon l))) (nodes_chars cd canon l) = Some (fold_right (toks canon) [TText []] l).
Proof.
  intros cd canon l Hl.
  assert (HF : Forall (lex_spec cd canon) l) by (eapply Forall_impl; [|exact Hl]; apply lex_node).
  destruct (lex_nodes cd canon l HF [] 1 [TText []] eq_refl ltac:(eexists; eexists; reflexivity) ltac:(unfold safe; intros [])) as (H & _).
  rewrite app_nil_r in H. eapply lex_mono; [exact H|].
  assert (HS : (list_sum (map marks l) <= length (nodes_chars cd canon l))%nat).
  { clear. unfold nodes_chars. induction l as [|n l IH]; cbn [map flat_map]; [apply le_n|].
    change (list_sum (marks n :: map marks l)) with (marks n + list_sum (map marks l))%nat. rewrite app_length.
    pose proof (marks_length cd canon n). lia. }
  lia.
Qed.

(** ** Building *)
Lemma build_mono : forall f top T r, build f top T = Some r -> forall g, (f <= g)%nat -> build g top T = Some r.
Proof.
  induction f as [|f IH]; intros top T r H g Hg; [discriminate|]. destruct g as [|g]; [lia|].
  cbn [build] in H |- *.
  destruct T as [|[n a|n|t|d|t d|n p s] T]; try assumption.
  - destruct (build f false T) as [[[kids [m|]] rest]|] eqn:E; try discriminate.
    rewrite (IH _ _ _ E g) by lia. destruct (str_eqb n m); [|discriminate].
    destruct (build f top rest) as [[[l e] r']|] eqn:E2; [|discriminate]. now rewrite (IH _ _ _ E2 g) by lia.
  - destruct (build f top T) as [[[l e] r']|] eqn:E; [|discriminate]. now rewrite (IH _ _ _ E g) by lia.
  - destruct (build f top T) as [[[l e] r']|] eqn:E; [|discriminate]. now rewrite (IH _ _ _ E g) by lia.
  - destruct (build f top T) as [[[l e] r']|] eqn:E; [|discriminate]. now rewrite (IH _ _ _ E g) by lia.
  - destruct top; [|discriminate]. destruct (build f true T) as [[[l e] r']|] eqn:E; [|discriminate]. now rewrite (IH _ _ _ E g) by lia.
Qed.

Lemma build_shrinks : forall f top T l e r, build f top T = Some (l, e, r) -> (length r <= length T)%nat.
Proof.
  induction f as [|f IH]; intros top T l e r H; [discriminate|]. cbn [build] in H.
  destruct T as [|[n a|n|t|d|t d|n p s] T]; cbn [length].
  - destruct top; inversion H; subst; cbn; lia.
  - destruct (build f false T) as [[[kids [m|]] rest]|] eqn:E; try discriminate. apply IH in E.
    destruct (str_eqb n m); [|discriminate]. destruct (build f top rest) as [[[l' e'] r']|] eqn:E2; [|discriminate].
    apply IH in E2. inversion H; subst. lia.
  - destruct top; inversion H; subst; cbn; lia.
  - destruct (build f top T) as [[[l' e'] r']|] eqn:E; [|discriminate]. apply IH in E. inversion H; subst. lia.
  - destruct (build f top T) as [[[l' e'] r']|] eqn:E; [|discriminate]. apply IH in E. inversion H; subst. lia.
  - destruct (build f top T) as [[[l' e'] r']|] eqn:E; [|discriminate]. apply IH in E. inversion H; subst. lia.
  - destruct top; [|discriminate]. destruct (build f true T) as [[[l' e'] r']|] eqn:E; [|discriminate]. apply IH in E. inversion H; subst. lia.
Qed.

Lemma build_enough : forall f top T r, build f top T = Some r -> build (S (length T)) top T = Some r.
Proof.
  induction f as [|f IH]; intros top T r H; [discriminate|]. cbn [build] in H |- *.
  destruct T as [|[n a|n|t|d|t d|n p s] T]; cbn [length]; try assumption.
  - destruct (build f false T) as [[[kids [m|]] rest]|] eqn:E; try discriminate.
    pose proof (build_shrinks _ _ _ _ _ _ E) as HL. rewrite (IH _ _ _ E).
    destruct (str_eqb n m); [|discriminate]. destruct (build f top rest) as [[[l' e'] r']|] eqn:E2; [|discriminate].
    rewrite (build_mono _ _ _ _ (IH _ _ _ E2) (S (length T))) by lia. assumption.
  - destruct (build f top T) as [[[l' e'] r']|] eqn:E; [|discriminate]. now rewrite (IH _ _ _ E).
  - destruct (build f top T) as [[[l' e'] r']|] eqn:E; [|discriminate]. now rewrite (IH _ _ _ E).
  - destruct (build f top T) as [[[l' e'] r']|] eqn:E; [|discriminate]. now rewrite (IH _ _ _ E).
  - destruct top; [|discriminate]. destruct (build f true T) as [[[l' e'] r']|] eqn:E; [|discriminate]. now rewrite (IH _ _ _ E).
Qed.

Definition builds (top : bool) (T : list token) (l : list rnode) (e : option str) (r : list token) : Prop :=
  exists f, build f top T = Some (l, e, r).

Lemma builds_text : forall top t T l e r, builds top T l e r -> builds top (TText t :: T) (add_text t l) e r.
Proof. intros top t T l e r [f H]. exists (S f). cbn [build]. now rewrite H. Qed.
Lemma add_text_app : forall s u l, add_text (s ++ u) l = add_text s (add_text u l).
Proof.
  intros [|c s] u l; [reflexivity|]. destruct u as [|d u]; [now rewrite app_nil_r|].
  destruct l as [|[q a k|v|d'|t d'|x y z] l]; cbn; try reflexivity. now rewrite <- app_assoc.
Qed.
Lemma builds_push : forall top s T l e r, headed T -> builds top T l e r -> builds top (push_text s T) (add_text s l) e r.
Proof.
  intros top s T l e r (u & T' & ->) [f H]. destruct f as [|f]; [discriminate|]. cbn [build] in H.
  destruct (build f top T') as [[[l' e'] r']|] eqn:E; [|discriminate]. inversion H; subst.
  rewrite <- add_text_app. apply builds_text. exists f; assumption.
Qed.
Lemma builds_cons : forall top T l e r t n, builds top T l e r ->
  (t = TComment match n with RComment d => d | _ => [] end /\ (exists d, n = RComment d)) \/
  (exists a b, t = TPI a b /\ n = RPI a b) ->
  builds top (TText [] :: t :: T) (n :: l) e r.
Proof.
  intros top T l e r t n [f H] Ht. apply builds_text with (t := []) (l := n :: l). exists (S f). cbn [build].
  destruct Ht as [[-> [d ->]]|(a & b & -> & ->)]; now rewrite H.
Qed.
Lemma builds_elem : forall top q a K kids T l e r, builds false K kids (Some q) T -> builds top T l e r ->
  builds top (TText [] :: TStart q a :: K) (RElem q a kids :: l) e r.
Proof.
  intros top q a K kids T l e r [f H] [g G].
  apply builds_text with (t := []) (l := RElem q a kids :: l).
  exists (S (f + g)). cbn [build]. rewrite (build_mono _ _ _ _ H) by lia. rewrite str_eqb_refl.
  now rewrite (build_mono _ _ _ _ G) by lia.
Qed.
Lemma builds_end : forall q T, builds false (TText [] :: TEnd q :: T) [] (Some q) T.
Proof. intros. exists 2%nat. reflexivity. Qed.

Definition build_spec (canon : bool) (n : rnode) : Prop := forall top T l e r, headed T -> builds top T l e r ->
  builds top (toks canon n T) (merge n l) e r.

Lemma build_nodes : forall canon k, Forall (build_spec canon) k -> forall top T l e r, headed T -> builds top T l e r ->
  builds top (fold_right (toks canon) T k) (fold_right merge l k) e r /\ headed (fold_right (toks canon) T k).
Proof.
  induction 1 as [|n k Hn Hk IH]; intros top T l e r HT HB; [auto|]. cbn [fold_right].
  destruct (IH _ _ _ _ _ HT HB) as [IH1 IH2]. split; [now apply Hn|now apply toks_headed].
Qed.

Lemma build_node : forall canon n, legal n -> build_spec canon n.
Proof.
  intros canon n. induction n as [q a k IH|s|d|t d|x y z] using rnode_ind2; intros Hl top T l e r HT HB; inversion Hl; subst.
  - cbn [toks merge].
    assert (HK : Forall (build_spec canon) k). { rewrite Forall_forall in IH |- *. rewrite Forall_forall in H4. auto. }
    destruct (build_nodes canon k HK false (TText [] :: TEnd q :: T) [] (Some q) T ltac:(eexists; eexists; reflexivity) (builds_end q T)) as [HB2 _].
    pose proof (builds_elem top q a _ _ _ _ _ _ HB2 HB) as HFull.
    destruct canon; [exact HFull|]. destruct k as [|k0 k]; [|exact HFull].
    apply (builds_elem top q a (TEnd q :: T) [] T l e r); [|exact HB]. exists 1%nat. reflexivity.
  - now apply builds_push.
  - apply builds_cons; [exact HB|]. left. split; [reflexivity|eauto].
  - apply builds_cons; [exact HB|]. right. eauto.
Qed.

Lemma build_all : forall canon l, Forall legal l ->
  build (S (length (fold_right (toks canon) [TText []] l))) true (fold_right (toks canon) [TText []] l) = Some (merge_all l, None, []).
Proof.
  intros canon l Hl.
  assert (HF : Forall (build_spec canon) l) by (eapply Forall_impl; [|exact Hl]; apply build_node).
  destruct (build_nodes canon l HF true [TText []] [] None [] ltac:(eexists; eexists; reflexivity) ltac:(exists 2%nat; reflexivity)) as [[f H] _].
  eapply build_enough; exact H.
Qed.

(** ** No carriage return is written *)
Lemma norm_eol_id : forall s, ~ In 13 s -> norm_eol s = s.
Proof.
  induction s as [|c s IH]; intro H; [reflexivity|]. cbn [norm_eol].
  destruct (N.eqb_spec c 13); [subst; exfalso; apply H; now left|]. rewrite IH; [reflexivity|]. intro; apply H; now right.
Qed.
Lemma attrs_no_cr : forall cd canon atts, legal_atts atts -> ~ In 13 (attrs_chars cd canon atts).
Proof.
  intros cd canon atts [HF _] Hin. unfold attrs_chars in Hin. apply in_flat_map in Hin as ([n v] & Ha & Hin).
  rewrite Forall_forall in HF. destruct (HF _ Ha) as [Hn _]. cbn [fst] in Hn.
  unfold attr_chars in Hin. cbn [fst snd] in Hin. destruct Hin as [Hin|Hin]; [discriminate|].
  apply in_app_iff in Hin as [Hin|Hin]; [now apply name_not_in in Hin|].
  destruct Hin as [Hin|[Hin|Hin]]; [discriminate|unfold quote_of in Hin; destruct (use_apos canon v); discriminate|].
  apply in_app_iff in Hin as [Hin|[Hin|[]]].
  - apply amap_no_cr in Hin; auto.
  - unfold quote_of in Hin; destruct (use_apos canon v); discriminate.
Qed.
Lemma node_no_cr : forall cd canon n, legal n -> ~ In 13 (node_chars cd canon n).
Proof.
  intros cd canon n. induction n as [q a k IH|s|d|t d|x y z] using rnode_ind2; intros Hl Hin; inversion Hl; subst; cbn [node_chars] in Hin.
  - assert (HK : ~ In 13 (flat_map (node_chars cd canon) k)).
    { intro HI. apply in_flat_map in HI as (n & Hn & HI). rewrite Forall_forall in IH, H4. eapply IH; eauto. }
    assert (HQ : ~ In 13 q) by (apply name_not_in; auto).
    destruct Hin as [Hin|Hin]; [discriminate|]. rewrite !in_app_iff in Hin.
    destruct Hin as [Hin|[Hin|Hin]]; [contradiction|now apply attrs_no_cr in Hin|].
    assert (HX : ~ In 13 (62 :: flat_map (node_chars cd canon) k ++ lit "</" ++ q ++ lit ">")).
    { intros [HI|HI]; [discriminate|]. rewrite !in_app_iff in HI.
      destruct HI as [HI|[HI|[HI|HI]]]; try contradiction; vm_compute in HI; intuition discriminate. }
    destruct canon; [contradiction|]. destruct k; [|contradiction]. vm_compute in Hin; intuition discriminate.
  - revert Hin. apply flat_no. intro. apply text_no. auto.
  - destruct H0 as (_ & H0 & _). rewrite !in_app_iff in Hin. destruct Hin as [HI|[HI|HI]]; try contradiction; vm_compute in HI; intuition discriminate.
  - destruct H0 as (Ht & _ & _ & H13 & _). rewrite !in_app_iff in Hin. destruct Hin as [HI|[HI|[HI|HI]]].
    + vm_compute in HI; intuition discriminate.
    + now apply name_not_in in HI.
    + destruct d; [destruct HI|]. destruct HI as [HI|HI]; [discriminate|contradiction].
    + vm_compute in HI; intuition discriminate.
Qed.

(** ** Reading back *)
Theorem read_nodes : forall cd canon l, Forall legal l -> read_content (nodes_chars cd canon l) = Some (merge_all l).
Proof.
  intros cd canon l Hl. unfold read_content. rewrite norm_eol_id.
  - rewrite lex_all by assumption. now rewrite build_all by assumption.
  - intro Hin. unfold nodes_chars in Hin. apply in_flat_map in Hin as (n & Hn & Hin).
    rewrite Forall_forall in Hl. eapply node_no_cr; eauto.
Qed.
