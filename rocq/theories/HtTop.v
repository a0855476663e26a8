(** * From the calls of the specification to rendered trees *)
From Coq Require Import NArith ZArith String List Bool Lia Arith.
From Verif Require Import PyStr PyErr Utf8 SerModel SerSpec SerStream SerPrint SerRead SerTree SerTop SerDoc SerDocs HtModel HtSpec HtPrint HtRead.
Import ListNotations.
Open Scope N_scope.

(** ** The entity maps *)
Definition entry_ok (xml : bool) (e : N * repl) : bool :=
  (fst e =? 732) ||
  match snd e with
  | RStr (a :: u) =>
    match rev u with
    | b :: v => (a =? 38) && (b =? 59) && forallb ref_char (rev v) && forallb (fun d => d <? 128) (a :: u) &&
                match reference xml (rev v) with Some c => c =? fst e | None => false end
    | [] => false
    end
  | RStr [] => false
  | RFun _ => negb xml && (fst e =? 38)
  end.
Definition ascii_entry (e : N * repl) : bool := match snd e with RStr t => forallb (fun d => d <? 128) t | RFun _ => fst e =? 38 end.
Lemma lookup_In : forall m c r, emap_lookup m c = Some r -> In (c, r) m.
Proof.
  induction m as [|[k r'] m IH]; intros c r H; [discriminate H|]. cbn [emap_lookup] in H.
  destruct (N.eqb_spec k c) as [->|_]; [injection H as ->; now left|right; now apply IH].
Qed.

Lemma map_good : forall m, forallb ascii_entry m = true ->
  (match emap_lookup m 38 with Some (RFun g) => g = attr_amp_escape | _ => True end) -> good_map m.
Proof.
  intros m HF H38 c r H. pose proof (lookup_In _ _ _ H) as Hin. rewrite forallb_forall in HF. apply HF in Hin. unfold ascii_entry in Hin. cbn [fst snd] in Hin.
  destruct r as [t|g].
  - left. exists t. split; [reflexivity|]. apply Forall_forall. intros d Hd. rewrite forallb_forall in Hin. apply Hin in Hd. now apply N.ltb_lt.
  - right. apply N.eqb_eq in Hin. subst c. rewrite H in H38. now subst.
Qed.

Lemma map_rd : forall xml bad f m c, forallb (entry_ok xml) m = true ->
  (match emap_lookup m 38 with Some (RFun g) => g = attr_amp_escape | Some _ => True | None => False end) ->
  c <> 732 -> (emap_lookup m c = None -> bad c = false /\ f c = c) -> rd xml bad f m c.
Proof.
  intros xml bad f m c HF H38 Hc HN. unfold rd. destruct (emap_lookup m c) as [r|] eqn:E.
  - pose proof (lookup_In _ _ _ E) as Hin. rewrite forallb_forall in HF. apply HF in Hin. unfold entry_ok in Hin. cbn [fst snd] in Hin.
    destruct (N.eqb_spec c 732); [contradiction|]. cbn [orb] in Hin. destruct r as [[|a u]|g]; [discriminate Hin| |].
    + destruct (rev u) as [|b v] eqn:ER; [discriminate Hin|].
      apply andb_prop in Hin as [Hin HR]. apply andb_prop in Hin as [Hin _]. apply andb_prop in Hin as [Hin HC]. apply andb_prop in Hin as [Ha Hb].
      apply N.eqb_eq in Ha, Hb. subst. exists (rev v). split; [|split; [exact HC|]].
      * f_equal. apply (f_equal (@rev N)) in ER. rewrite rev_involutive in ER. exact ER.
      * destruct (reference xml (rev v)); [|discriminate HR]. apply N.eqb_eq in HR. now subst.
    + apply andb_prop in Hin as [Hx H3]. apply N.eqb_eq in H3. subst c. rewrite E in H38. split; [exact H38|]. split; [reflexivity|].
      destruct xml; [discriminate Hx|reflexivity].
  - destruct (HN eq_refl) as [HB Hf]. split; [|auto]. intros ->. rewrite E in H38. exact H38.
Qed.

Lemma text_free : forall xml m c, emap_lookup m 62 <> None -> xml_char c = true -> emap_lookup m c = None ->
  text_bad xml c = false /\ (fun c : N => c) c = c.
Proof.
  intros xml m c H62 Hc E. split; [|reflexivity]. unfold text_bad. rewrite Hc. destruct (N.eqb_spec c 62) as [->|_]; [contradiction|]. apply andb_false_r.
Qed.
Lemma att_free : forall xml m c, emap_lookup m 9 <> None -> emap_lookup m 10 <> None -> emap_lookup m 13 <> None -> xml_char c = true ->
  (xml = true -> c <> 60) -> emap_lookup m c = None -> att_bad xml c = false /\ attr_norm c = c.
Proof.
  intros xml m c H9 H10 H13 Hc H60 E. split.
  - unfold att_bad. rewrite Hc. destruct xml; [|reflexivity]. destruct (N.eqb_spec c 60) as [->|_]; [now exfalso; apply H60|]. reflexivity.
  - unfold attr_norm, ws. destruct (N.eqb_spec c 9) as [->|_]; [contradiction|]. destruct (N.eqb_spec c 10) as [->|_]; [contradiction|].
    destruct (N.eqb_spec c 13) as [->|_]; [contradiction|]. destruct (N.eqb_spec c 32) as [->|_]; reflexivity.
Qed.
Lemma script_free : forall m, forallb (fun n => let c := N.of_nat n in
     negb ((c =? 9) || (c =? 10) || (32 <=? c)) || (c =? 60) || (c =? 62) || (c =? 38) || match emap_lookup m c with None => true | _ => false end) (seq 0 127) = true ->
  forall c, (c = 9 \/ c = 10 \/ 32 <= c <= 126) /\ c <> 60 /\ c <> 62 /\ c <> 38 -> emap_lookup m c = None.
Proof.
  intros m H c (Hc & H60 & H62 & H38). rewrite forallb_forall in H. specialize (H (N.to_nat c)). cbv zeta in H. rewrite N2Nat.id in H.
  assert (Hin : In (N.to_nat c) (seq 0 127)) by (apply in_seq; lia). apply H in Hin.
  destruct (N.eqb_spec c 60); [contradiction|]. destruct (N.eqb_spec c 62); [contradiction|]. destruct (N.eqb_spec c 38); [contradiction|].
  destruct (emap_lookup m c); [|reflexivity]. rewrite !orb_false_r in Hin.
  destruct (N.eqb_spec c 9); [discriminate Hin|]. destruct (N.eqb_spec c 10); [discriminate Hin|]. destruct (N.leb_spec 32 c); [discriminate Hin|]. lia.
Qed.

Ltac nn := let H := fresh in intro H; vm_compute in H; discriminate H.
Ltac amp := match goal with |- context [emap_lookup ?m 38] =>
  first [ let E := fresh in assert (E : emap_lookup m 38 = Some (RFun attr_amp_escape)) by (vm_compute; reflexivity); rewrite E; reflexivity
        | let E := fresh in assert (E : emap_lookup m 38 = Some (RStr (lit "&amp;"))) by (vm_compute; reflexivity); rewrite E; exact I ] end.
Ltac reading_tac :=
  constructor;
  [ split; [|split; [|split; [|split; vm_compute; reflexivity]]]; (apply map_good; [vm_compute; reflexivity|amp])
  | split; [vm_compute; reflexivity|]; intros c H7 Hc; apply map_rd; [vm_compute; reflexivity|amp|exact H7|apply text_free; [nn|exact Hc]]
  | split; [vm_compute; reflexivity|]; intros c H7 Hc H60; apply map_rd; [vm_compute; reflexivity|amp|exact H7|apply att_free; [nn|nn|nn|exact Hc|exact H60]]
  | split; [vm_compute; reflexivity|]; intros c H7 Hc H60; apply map_rd; [vm_compute; reflexivity|amp|exact H7|apply att_free; [nn|nn|nn|exact Hc|exact H60]]
  | nn | nn | nn | nn | nn | nn | apply script_free; vm_compute; reflexivity ].
Lemma reading_32 : reading false maps_32.
Proof. reading_tac. Qed.
Lemma reading_40 : reading false maps_40.
Proof. reading_tac. Qed.
Lemma reading_xhtml : reading true maps_xhtml.
Proof. reading_tac. Qed.

(** ** Name tables *)
Lemma isin_one_of : forall l x, isin x (map lit l) = one_of l x.
Proof.
  intros l x. unfold isin, one_of. induction l as [|a l IH]; [reflexivity|]. cbn [map existsb]. rewrite IH. f_equal.
  destruct (str_eqb_spec x (lit a)), (str_eqb_spec (lit a) x); congruence.
Qed.
Definition sub_names (l m : list string) : bool := forallb (fun a => existsb (String.eqb a) m) l.
Lemma one_of_sub : forall l m x, sub_names l m = true -> one_of l x = true -> one_of m x = true.
Proof.
  intros l m x HS H. unfold one_of in *. apply existsb_exists in H as (a & Ha & E). unfold sub_names in HS. rewrite forallb_forall in HS.
  apply HS in Ha. apply existsb_exists in Ha as (b & Hb & Eb). apply String.eqb_eq in Eb. subst b. apply existsb_exists. eauto.
Qed.
Lemma one_of_same : forall l m x, sub_names l m = true -> sub_names m l = true -> one_of l x = one_of m x.
Proof.
  intros l m x H1 H2. destruct (one_of l x) eqn:E1, (one_of m x) eqn:E2; try reflexivity.
  - apply (one_of_sub l m) in E1; congruence.
  - apply (one_of_sub m l) in E2; congruence.
Qed.
Lemma one_of_app : forall l m x, one_of (l ++ m) x = one_of l x || one_of m x.
Proof. intros. unfold one_of. apply existsb_app. Qed.

Definition row (e : string * list string) : str * list str := (lit (fst e), map lit (snd e)).
Definition sub_rows (t u : list (string * list string)) : bool :=
  forallb (fun r => existsb (fun s => String.eqb (fst r) (fst s) && sub_names (snd r) (snd s)) u) t.
Fixpoint distinct (l : list string) : bool := match l with [] => true | a :: l' => negb (existsb (String.eqb a) l') && distinct l' end.
Lemma listed_sub : forall t u e a, sub_rows t u = true -> listed t e a = true -> listed u e a = true.
Proof.
  intros t u e a HS H. unfold listed in *. apply existsb_exists in H as (r & Hr & E). apply andb_prop in E as [E1 E2].
  unfold sub_rows in HS. rewrite forallb_forall in HS. apply HS in Hr. apply existsb_exists in Hr as (s & Hs & E). apply andb_prop in E as [E3 E4].
  apply String.eqb_eq in E3. apply existsb_exists. exists s. split; [exact Hs|]. rewrite <- E3, E1. cbn [andb]. eapply one_of_sub; eauto.
Qed.
Lemma listed_same : forall t u e a, sub_rows t u = true -> sub_rows u t = true -> listed t e a = listed u e a.
Proof.
  intros t u e a H1 H2. destruct (listed t e a) eqn:E1, (listed u e a) eqn:E2; try reflexivity.
  - apply (listed_sub t u) in E1; congruence.
  - apply (listed_sub u t) in E2; congruence.
Qed.
Lemma lit_inj : forall a b, lit a = lit b -> a = b.
Proof.
  induction a as [|c a IH]; intros [|d b] H; try discriminate H; [reflexivity|]. cbn [lit] in H. injection H as H1 H2. rewrite (IH b H2). f_equal.
  rewrite <- (Ascii.ascii_N_embedding c), <- (Ascii.ascii_N_embedding d). now rewrite H1.
Qed.
Lemma in_table_listed : forall t a e, distinct (map fst t) = true -> in_table (map row t) a e = listed t e a.
Proof.
  induction t as [|[k els] t IH]; intros a e Hd; [reflexivity|]. cbn [map fst distinct] in Hd. apply andb_prop in Hd as [Hk Hd].
  cbn [map row in_table]. unfold listed. cbn [existsb fst snd row]. destruct (str_eqb_spec (lit k) a) as [<-|Hne].
  - cbn [andb]. rewrite isin_one_of. destruct (one_of els e); [reflexivity|]. cbn [orb]. symmetry. apply not_true_is_false. intro H.
    apply existsb_exists in H as (r & Hr & E). apply andb_prop in E as [E _]. destruct (str_eqb_spec (lit (fst r)) (lit k)) as [El|]; [|discriminate E].
    apply lit_inj in El. apply negb_true_iff in Hk. assert (HX : existsb (String.eqb k) (map fst t) = true); [|congruence].
    apply existsb_exists. exists (fst r). split; [now apply in_map|]. rewrite El. apply String.eqb_refl.
  - cbn [andb orb]. now apply IH.
Qed.

(** ** Names in the tables *)
Section Low.
Variable low : str -> str.
Hypothesis Hlow : lowers low.

Lemma empty_names : forall q, ascii q -> isin (low q) forbidden_end_elements = empty_element q.
Proof. intros q Hq. rewrite Hlow by exact Hq. unfold forbidden_end_elements. rewrite isin_one_of. reflexivity. Qed.
Lemma bool_names : forall q n, ascii q -> ascii n -> in_table boolean_attributes (low n) (low q) = boolean_attribute q n.
Proof.
  intros q n Hq Hn. rewrite !Hlow by assumption. unfold boolean_attributes. rewrite (in_table_listed _ (lower n) (lower q)) by (vm_compute; reflexivity).
  unfold boolean_attribute. apply listed_same; vm_compute; reflexivity.
Qed.
Lemma uri_names : forall q n, ascii q -> ascii n -> in_table uri_attributes (low n) (low q) = uri_attribute q n.
Proof.
  intros q n Hq Hn. rewrite !Hlow by assumption. unfold uri_attributes. rewrite (in_table_listed _ (lower n) (lower q)) by (vm_compute; reflexivity).
  unfold uri_attribute. apply listed_same; vm_compute; reflexivity.
Qed.
Lemma inline_low : forall q, ascii q -> isin (low q) inline_elements = one_of inline_names (lower q) || one_of ["br"]%string (lower q).
Proof.
  intros q Hq. rewrite Hlow by exact Hq. unfold inline_elements. rewrite isin_one_of, <- one_of_app. apply one_of_same; vm_compute; reflexivity.
Qed.
Lemma kept_low : forall q, ascii q -> isin (low q) no_indent_elements = one_of kept_names (lower q).
Proof. intros q Hq. rewrite Hlow by exact Hq. unfold no_indent_elements. rewrite isin_one_of. reflexivity. Qed.
End Low.
Lemma xuri_names : forall q n, in_table x_uri_attributes n q = xhtml_uri_attribute q n.
Proof.
  intros q n. unfold x_uri_attributes. rewrite (in_table_listed _ n q) by (vm_compute; reflexivity).
  unfold xhtml_uri_attribute. unfold listed at 2 3. rewrite <- existsb_app. apply listed_same; vm_compute; reflexivity.
Qed.
Lemma xempty_names : forall ns q, is_xhtml ns && isin q x_empty_elements = xhtml_empty ns q.
Proof. intros. unfold xhtml_empty, x_empty_elements. rewrite isin_one_of. reflexivity. Qed.

(** ** URIs *)
Lemma utf8_high : forall c, 128 <= c -> Forall (fun b => 128 <= b) (utf8_1 c).
Proof.
  intros c H. unfold utf8_1. destruct (N.ltb_spec c 128); [lia|].
  assert (HA : forall a b, 128 <= a -> 128 <= a + b) by (intros; lia).
  destruct (c <? 2048); [|destruct (c <? 65536)]; repeat (apply Forall_cons; [apply HA; discriminate|]); apply Forall_nil.
Qed.
Lemma hex_same : forall n, n < 16 -> hex_digit n = hex n.
Proof.
  intros n H. assert (HH : forallb (fun i => hex_digit (N.of_nat i) =? hex (N.of_nat i)) (seq 0 16) = true) by (vm_compute; reflexivity).
  rewrite forallb_forall in HH. specialize (HH (N.to_nat n) ltac:(apply in_seq; lia)). rewrite N2Nat.id in HH. now apply N.eqb_eq.
Qed.
Lemma char_bound : forall c, xml_char c = true -> c < 1114112.
Proof.
  intros c H. unfold xml_char, between in H. repeat match goal with H : (_ || _) = true |- _ => apply orb_prop in H as [H|H] end;
    try (apply N.eqb_eq in H; lia); apply andb_prop in H as [H1 H2]; apply N.leb_le in H1, H2; lia.
Qed.
Lemma uri_same : forall v, chars v -> escape_uri v = uri_escaped v.
Proof.
  unfold escape_uri, utf8_encode, uri_escaped. induction 1 as [|c v Hc Hv IH]; [reflexivity|].
  cbn [flat_map]. rewrite flat_map_app, IH. f_equal. destruct (N.ltb_spec c 128) as [Hlt|Hge].
  - unfold utf8_1. apply N.ltb_lt in Hlt. rewrite Hlt. cbn [flat_map]. unfold percent_byte. apply N.ltb_lt in Hlt. destruct (N.leb_spec 128 c); [lia|]. reflexivity.
  - pose proof (utf8_high c Hge) as H1. pose proof (utf8_1_bytes c (char_bound c Hc)) as H2. revert H1 H2. generalize (utf8_1 c). intro l.
    induction l as [|b l IHl]; intros H1 H2; [reflexivity|]. inversion H1; inversion H2; subst. cbn [flat_map]. rewrite IHl by assumption. f_equal.
    unfold percent_byte, percent. destruct (N.leb_spec 128 b); [|lia]. rewrite !hex_same; [reflexivity| |].
    + apply N.mod_lt. lia. + apply N.div_lt_upper_bound; lia.
Qed.
Lemma hex_char : forall n, n < 16 -> between 48 57 (hex n) || between 65 70 (hex n) = true.
Proof.
  intros n H. assert (HH : forallb (fun i => between 48 57 (hex (N.of_nat i)) || between 65 70 (hex (N.of_nat i))) (seq 0 16) = true) by (vm_compute; reflexivity).
  rewrite forallb_forall in HH. specialize (HH (N.to_nat n) ltac:(apply in_seq; lia)). rewrite N2Nat.id in HH. exact HH.
Qed.
Lemma uri_chars : forall v d, chars v -> In d (uri_escaped v) -> (In d v /\ d < 128) \/ d = 37 \/ 48 <= d <= 57 \/ 65 <= d <= 70.
Proof.
  intros v d Hv Hin. unfold uri_escaped in Hin. apply in_flat_map in Hin as (c & Hc & Hin). unfold chars in Hv. rewrite Forall_forall in Hv.
  destruct (N.ltb_spec c 128) as [Hlt|Hge].
  - destruct Hin as [<-|[]]. auto.
  - right. apply in_flat_map in Hin as (b & Hb & Hin). pose proof (utf8_1_bytes c (char_bound c (Hv c Hc))) as H2. rewrite Forall_forall in H2. apply H2 in Hb.
    assert (HX : forall n, n < 16 -> 48 <= hex n <= 57 \/ 65 <= hex n <= 70).
    { intros n Hn. pose proof (hex_char n Hn) as H. unfold between in H. apply orb_prop in H as [H|H]; apply andb_prop in H as [A B]; apply N.leb_le in A, B; auto. }
    destruct Hin as [<-|[<-|[<-|[]]]]; [auto| |]; right; apply HX; [apply N.div_lt_upper_bound; lia|apply N.mod_lt; lia].
Qed.
Lemma uri_data : forall v, data v -> data (uri_escaped v) /\ (~ In 60 v -> ~ In 60 (uri_escaped v)).
Proof.
  intros v [Hv H7]. split; [split|].
  - apply Forall_forall. intros d Hd. apply uri_chars in Hd as [[Hd _]|Hd]; [unfold chars in Hv; rewrite Forall_forall in Hv; now apply Hv| |exact Hv].
    unfold xml_char, between. destruct (N.leb_spec 32 d); [|lia]. destruct (N.leb_spec d 55295); [|lia]. cbn [andb]. now rewrite !orb_true_r.
  - intro Hd. apply uri_chars in Hd as [[Hd _]|Hd]; [contradiction|lia|exact Hv].
  - intros H60 Hd. apply uri_chars in Hd as [[Hd _]|Hd]; [contradiction|lia|exact Hv].
Qed.

(** ** HTML *)
Section HtmlTop.
Variables (cd : codec) (low : str -> str) (kd : kind).
Hypothesis Hlow : lowers low.
Hypothesis Hkd : kd = Html \/ kd = HtmlIndent.

Lemma kd_html : is_html kd = true.
Proof. destruct Hkd as [-> | ->]; reflexivity. Qed.
Lemma kd_xml : HtPrint.xml kd = false.
Proof. unfold HtPrint.xml. now rewrite kd_html. Qed.

Lemma html_av : forall q a, ascii q -> ascii (fst a) -> chars (snd a) -> av (html_attribute low (low q) a) = html_meaning low q a.
Proof.
  intros q [n v] Hq Hn Hv. cbn [fst snd] in *. unfold html_attribute, html_meaning. cbn [fst snd]. cbv zeta.
  rewrite (bool_names low Hlow), (uri_names low Hlow) by assumption. rewrite (Hlow n) by assumption.
  destruct (boolean_attribute q n).
  - assert (E : str_eqb (lower n) (low v) = str_eqb (low v) (lower n)) by (destruct (str_eqb_spec (lower n) (low v)), (str_eqb_spec (low v) (lower n)); congruence).
    rewrite E. destruct (str_eqb (low v) (lower n)); reflexivity.
  - destruct (uri_attribute q n); [|reflexivity]. unfold av. cbn [fst snd]. now rewrite uri_same.
Qed.
Lemma html_att_form : forall q a, data (snd a) -> fst (html_attribute low q a) = fst a /\
  match snd (html_attribute low q a) with Some v => data v | None => True end.
Proof.
  intros q [n v] Hv. cbn [fst snd] in *. unfold html_attribute. cbn [fst snd]. cbv zeta.
  destruct (in_table boolean_attributes (low n) q); [destruct (str_eqb _ _); cbn; auto|].
  destruct (in_table uri_attributes (low n) q); cbn; [|auto]. split; [reflexivity|]. rewrite uri_same by apply Hv. now apply uri_data.
Qed.
Lemma nsattr_av : forall d, av (nsattr d) = declaration d.
Proof. intros [p u]. reflexivity. Qed.
Lemma nsattr_fst : forall d, fst (nsattr d) = fst (declaration d) /\ snd (nsattr d) = Some (snd d).
Proof. intros [p u]. split; reflexivity. Qed.

Lemma html_view : forall c, html_ok c -> dview (render low kd c) = html_page low c.
Proof.
  intro c. induction c as [ns q d a k IH|s|s|t d] using call_ind2; intro H; inversion H; subst; try reflexivity.
  cbn [render dview html_page]. f_equal.
  - unfold all_atts, tatts. rewrite kd_html, map_app, !map_map. apply f_equal2.
    + apply map_ext. intro x. apply nsattr_av.
    + apply map_ext_in. intros x Hx. match goal with H : Forall _ a |- _ => rewrite Forall_forall in H; apply H in Hx end. apply html_av; try tauto. apply Hx.
  - rewrite map_map. apply map_ext_in. intros x Hx. match goal with H : Forall html_ok k |- _ => rewrite Forall_forall in H, IH end. auto.
Qed.

Lemma html_atoks : forall ns q d a, Forall (fun x => is_name (fst (declaration x)) = true /\ data (snd x)) d ->
  Forall (fun x => is_name (fst x) = true /\ ascii (fst x) /\ data (snd x)) a ->
  Forall (atok false) (all_atts low kd ns q d a).
Proof.
  intros ns q d a Hd Ha. unfold all_atts, tatts. rewrite kd_html. apply Forall_app. split; apply Forall_forall; intros x Hx; apply in_map_iff in Hx as (y & <- & Hy).
  - rewrite Forall_forall in Hd. destruct (Hd y Hy) as [H1 H2]. destruct (nsattr_fst y) as [E1 E2]. unfold atok. rewrite E1, E2. split; [exact H1|]. split; [exact H2|discriminate].
  - rewrite Forall_forall in Ha. destruct (Ha y Hy) as (H1 & H2 & H3). destruct (html_att_form (low q) y H3) as [E1 E2]. unfold atok. rewrite E1. split; [exact H1|].
    destruct (snd (html_attribute low (low q) y)); [split; [exact E2|discriminate]|reflexivity].
Qed.

Lemma html_dok : forall c, html_ok c -> dok false (render low kd c).
Proof.
  intro c. induction c as [ns q d a k IH|s|s|t d] using call_ind2; intro H; inversion H; subst; cbn [render]; try (constructor; assumption).
  assert (EV : voidq low kd q = empty_element q) by (unfold voidq; rewrite kd_html; now apply empty_names).
  assert (EF : form_of low kd None q k = if empty_element q then Void else Full).
  { unfold form_of, sopen. now rewrite EV, kd_html. }
  rewrite EF. constructor; try assumption.
  - now apply html_atoks.
  - discriminate.
  - destruct (empty_element q); discriminate.
  - destruct (empty_element q) eqn:Ee; [|discriminate]. intros _. split; [reflexivity|]. split; [reflexivity|].
    match goal with H : true = true -> k = [] |- _ => now rewrite H end.
  - destruct (empty_element q); [discriminate|auto].
  - intros _ Hc. match goal with H : cdata_element q = true -> _ |- _ => specialize (H Hc) end.
    apply Forall_forall. intros n Hn. apply in_map_iff in Hn as (y & <- & Hy).
    match goal with H : Forall (fun c => exists s, _) k |- _ => rewrite Forall_forall in H; destruct (H y Hy) as (s & -> & Hs) end. exists s. auto.
  - apply Forall_forall. intros n Hn. apply in_map_iff in Hn as (y & <- & Hy).
    match goal with H : Forall html_ok k |- _ => rewrite Forall_forall in H, IH end. auto.
Qed.

Lemma name_ne : forall q, is_name q = true -> q <> [].
Proof. intros q H ->. discriminate H. Qed.
Lemma html_pok : forall c, html_ok c -> Forall (fun s => encode cd s <> None) (raw c) -> pok cd low kd c.
Proof.
  intro c. induction c as [ns q d a k IH|s|s|t d] using call_ind2; intros H HR; inversion H; subst; cbn [raw] in HR.
  - inversion HR as [|? ? Hq HR1]; subst. rewrite !Forall_app in HR1. destruct HR1 as (HRd & HRa & HRk).
    constructor; try assumption.
    + now apply name_ne.
    + pose proof (html_atoks None q d a ltac:(assumption) ltac:(assumption)) as HA. unfold all_atts, tatts in *. rewrite kd_html in *. rewrite Forall_app in *. destruct HA as [HA1 HA2].
      rewrite Forall_forall in HA1, HA2, HRd, HRa. split; apply Forall_forall; intros x Hx.
      * pose proof (HA1 x Hx) as [_ Hv]. apply in_map_iff in Hx as (y & <- & Hy). destruct (nsattr_fst y) as [E1 E2]. unfold wfa. rewrite E1, E2 in *. split; [apply HRd; now apply (in_map (fun x => fst (declaration x)))|apply Hv].
      * pose proof (HA2 x Hx) as [_ Hv]. apply in_map_iff in Hx as (y & <- & Hy). unfold wfa.
        match goal with H : Forall _ a |- _ => rewrite Forall_forall in H; destruct (H y Hy) as (_ & _ & Hd0) end.
        destruct (html_att_form (low q) y Hd0) as [E1 E2]. rewrite E1. split; [apply HRa; now apply in_map|]. destruct (snd (html_attribute low (low q) y)); [apply E2|exact I].
    + reflexivity.
    + unfold voidq. rewrite kd_html, empty_names by assumption. auto.
    + intro E. exfalso. destruct Hkd as [K|K]; rewrite E in K; discriminate K.
    + apply Forall_forall. intros x Hx. rewrite Forall_forall in IH. apply IH; [exact Hx| |].
      * match goal with H : Forall html_ok k |- _ => rewrite Forall_forall in H; auto end.
      * apply Forall_forall. intros s Hs. rewrite Forall_forall in HRk. apply HRk. apply in_flat_map. eauto.
  - constructor. match goal with H : data s |- _ => apply H end.
  - inversion HR; subst. now constructor.
  - inversion HR as [|? ? Hr1 HR1]; subst. inversion HR1; subst. now constructor.
Qed.

Lemma nl_data : forall d, data (new_line d).
Proof.
  intro d. unfold new_line. split.
  - constructor; [reflexivity|]. apply Forall_forall. intros c Hc. apply repeat_spec in Hc. now subst.
  - intros [H|H]; [discriminate H|]. apply repeat_spec in H. discriminate H.
Qed.
Lemma golist_nil : forall L depth keep par l, par = false \/ keep = true -> golist L depth keep par l = map (indented L depth keep) l.
Proof.
  intros L depth keep par l H. unfold golist. induction l as [|x l IH]; [reflexivity|]. cbn [flat_map map]. rewrite IH.
  destruct H as [-> | ->]; [reflexivity|]. now rewrite andb_false_r.
Qed.
Lemma html_indented_ok : forall c depth keep, html_ok c -> html_ok (indented html_layout depth keep c).
Proof.
  intro c. induction c as [ns q d a k IH|s|s|t d] using call_ind2; intros depth keep H; inversion H; subst; try (cbn [indented]; assumption).
  rewrite indented_elem. cbv zeta.
  set (keep' := keep || kept html_layout None q). set (par := negb (in_line html_layout None q)).
  assert (HK : forall x, In x k -> html_ok (indented html_layout (S depth) keep' x)).
  { intros x Hx. rewrite Forall_forall in IH. apply IH; [exact Hx|]. match goal with H : Forall html_ok k |- _ => rewrite Forall_forall in H; auto end. }
  constructor; try assumption.
  - intro He. match goal with H : empty_element q = true -> k = [] |- _ => rewrite (H He) end. cbn [golist flat_map fold_left app]. now rewrite andb_false_r.
  - intro Hc. assert (Ek : keep' = true).
    { unfold keep', html_layout, kept. unfold cdata_element in Hc. apply orb_true_iff. right. eapply one_of_sub; [|exact Hc]. reflexivity. }
    rewrite golist_nil by (right; exact Ek). rewrite Ek, andb_false_r. cbn [andb]. rewrite app_nil_r.
    match goal with H : cdata_element q = true -> _ |- _ => specialize (H Hc); rename H into HS end.
    apply Forall_forall. intros n Hn. apply in_map_iff in Hn as (y & <- & Hy). rewrite Forall_forall in HS. destruct (HS y Hy) as (s & -> & Hs). exists s. auto.
  - apply Forall_app. split.
    + apply Forall_forall. intros n Hn. unfold golist in Hn. apply in_flat_map in Hn as (x & Hx & Hn). apply in_app_iff in Hn as [Hn|[<-|[]]]; [|now apply HK].
      destruct (par && negb keep' && own_line html_layout x); [|destruct Hn]. destruct Hn as [<-|[]]. constructor. apply nl_data.
    + destruct (par && negb keep' && fold_left (end_line html_layout) k false); [|constructor]. apply Forall_cons; [|constructor]. apply ho_text, nl_data.
Qed.
Lemma html_lok : kd = HtmlIndent -> forall c, html_ok c -> lok low kd html_layout c.
Proof.
  intros K c. induction c as [ns q d a k IH|s|s|t d] using call_ind2; intro H; inversion H; subst; constructor.
  - cbn [in_line html_layout key_of key_in inline_of]. symmetry. now apply inline_low.
  - cbn [kept html_layout key_of key_in noindent_of]. symmetry. now apply kept_low.
  - match goal with H : Forall html_ok k |- _ => rewrite Forall_forall in H, IH end. apply Forall_forall. auto.
Qed.
End HtmlTop.

(** ** XHTML *)
Section XhtmlTop.
Variables (cd : codec) (low : str -> str) (kd : kind).
Hypothesis Hkd : kd = Xhtml \/ kd = XhtmlIndent.

Lemma kd_xhtml : is_html kd = false.
Proof. destruct Hkd as [-> | ->]; reflexivity. Qed.
Lemma kd_xml' : HtPrint.xml kd = true.
Proof. unfold HtPrint.xml. now rewrite kd_xhtml. Qed.

Lemma xhtml_av : forall q a, chars (snd a) -> av (xhtml_attribute q a) = xhtml_meaning q a.
Proof.
  intros q [n v] Hv. cbn [snd] in Hv. unfold xhtml_attribute, xhtml_meaning. cbn [fst snd]. rewrite xuri_names.
  destruct (xhtml_uri_attribute q n); [|reflexivity]. unfold av. cbn [fst snd]. now rewrite uri_same.
Qed.
Lemma xhtml_att_form : forall q a, data (snd a) -> ~ In 60 (snd a) -> fst (xhtml_attribute q a) = fst a /\
  exists v, snd (xhtml_attribute q a) = Some v /\ data v /\ ~ In 60 v.
Proof.
  intros q [n v] Hv H60. cbn [fst snd] in *. unfold xhtml_attribute. cbn [fst snd].
  destruct (in_table x_uri_attributes n q); cbn [fst snd]; (split; [reflexivity|]); eexists; (split; [reflexivity|]); [|auto].
  rewrite uri_same by apply Hv. destruct (uri_data v Hv) as [H1 H2]. auto.
Qed.
Lemma xtatts_names : forall ns q d a, map fst (all_atts low kd ns q d a) = map fst (map declaration d ++ a).
Proof.
  intros ns q d a. unfold all_atts, tatts. rewrite kd_xhtml, !map_app, !map_map. f_equal.
  assert (E : forall x : str * str, fst (xhtml_attribute q x) = fst x) by (intro x; unfold xhtml_attribute; destruct (in_table _ _ _); reflexivity).
  destruct (is_xhtml ns); rewrite map_map; [apply map_ext; exact E|reflexivity].
Qed.

Lemma xhtml_atoks : forall ns q d a,
  Forall (fun x => is_name (fst x) = true /\ data (snd x) /\ ~ In 60 (snd x)) (map declaration d ++ a) ->
  Forall (atok true) (all_atts low kd ns q d a).
Proof.
  intros ns q d a HF. rewrite Forall_app in HF. destruct HF as [Hd Ha]. unfold all_atts, tatts. rewrite kd_xhtml. apply Forall_app. split.
  - apply Forall_forall; intros x Hx; apply in_map_iff in Hx as (y & <- & Hy).
    rewrite Forall_forall in Hd. destruct (Hd _ (in_map declaration _ _ Hy)) as (H1 & H2 & H3). destruct y as [p u]. split; [exact H1|]. split; auto.
  - rewrite Forall_forall in Ha. destruct (is_xhtml ns); apply Forall_forall; intros x Hx; apply in_map_iff in Hx as (y & <- & Hy); destruct (Ha y Hy) as (H1 & H2 & H3).
    + destruct (xhtml_att_form q y H2 H3) as [E1 (v & E2 & Hv & H6)]. unfold atok. rewrite E1, E2. auto.
    + split; cbn; auto.
Qed.

Lemma xhtml_view : forall c, xhtml_ok c -> dview (render low kd c) = xhtml_page c.
Proof.
  intro c. induction c as [ns q d a k IH|s|s|t d] using call_ind2; intro H; inversion H; subst; try reflexivity.
  cbn [render dview xhtml_page]. f_equal.
  - unfold all_atts, tatts. rewrite kd_xhtml, map_app, !map_map. apply f_equal2; [apply map_ext; intros [p u]; reflexivity|].
    change (in_xhtml ns) with (is_xhtml ns). destruct (is_xhtml ns); rewrite map_map.
    + apply map_ext_in. intros x Hx. apply xhtml_av. match goal with H : Forall _ (_ ++ a) |- _ => rewrite Forall_app in H; destruct H as [_ H]; rewrite Forall_forall in H; apply H in Hx end. apply Hx.
    + rewrite <- (map_id a) at 2. apply map_ext. intros [n v]. reflexivity.
  - rewrite map_map. apply map_ext_in. intros x Hx. match goal with H : Forall xhtml_ok k |- _ => rewrite Forall_forall in H, IH end. auto.
Qed.
Lemma xhtml_dok : forall c, xhtml_ok c -> dok true (render low kd c).
Proof.
  intro c. induction c as [ns q d a k IH|s|s|t d] using call_ind2; intro H; inversion H; subst; cbn [render]; try (constructor; assumption).
  assert (EF : form_of low kd ns q k = Mini /\ k = [] \/ form_of low kd ns q k = Full).
  { unfold form_of, sopen, voidq. rewrite kd_xhtml. cbn [andb]. destruct (negb false && _); [|now right]. destruct k; auto. }
  constructor; try assumption.
  - now apply xhtml_atoks.
  - intros _. now rewrite xtatts_names.
  - intro E. destruct EF as [[_ ->]|EF]; [auto|congruence].
  - intro E. destruct EF as [[EF _]|EF]; congruence.
  - discriminate.
  - discriminate.
  - apply Forall_forall. intros n Hn. apply in_map_iff in Hn as (y & <- & Hy).
    match goal with H : Forall xhtml_ok k |- _ => rewrite Forall_forall in H, IH end. auto.
Qed.
Lemma xhtml_pok : forall c, xhtml_ok c -> Forall (fun s => encode cd s <> None) (raw c) -> (kd = Xhtml -> none_empty c) -> pok cd low kd c.
Proof.
  intro c. induction c as [ns q d a k IH|s|s|t d] using call_ind2; intros H HR HN; inversion H; subst; cbn [raw] in HR.
  - inversion HR as [|? ? Hq HR1]; subst. rewrite !Forall_app in HR1. destruct HR1 as (HRd & HRa & HRk).
    constructor; try assumption.
    + now apply name_ne.
    + pose proof (xhtml_atoks ns q d a ltac:(assumption)) as HA.
      assert (HE : Forall (fun n => encode cd n <> None) (map fst (all_atts low kd ns q d a))).
      { rewrite xtatts_names, map_app, map_map. apply Forall_app. split; assumption. }
      rewrite Forall_forall in HA, HE. apply Forall_forall. intros x Hx. split; [apply HE; now apply in_map|].
      pose proof (HA x Hx) as [_ Hv]. destruct (snd x); [apply Hv|exact I].
    + rewrite kd_xhtml. discriminate.
    + unfold voidq. rewrite kd_xhtml. discriminate.
    + intros K E. specialize (HN K). inversion HN; subst. rewrite xempty_names in E. auto.
    + apply Forall_forall. intros x Hx. rewrite Forall_forall in IH. apply IH; [exact Hx| | |].
      * match goal with H : Forall xhtml_ok k |- _ => rewrite Forall_forall in H; auto end.
      * apply Forall_forall. intros s Hs. rewrite Forall_forall in HRk. apply HRk. apply in_flat_map. eauto.
      * intro K. specialize (HN K). inversion HN; subst. match goal with H : Forall none_empty k |- _ => rewrite Forall_forall in H; auto end.
  - constructor. match goal with H : data s |- _ => apply H end.
  - inversion HR; subst. now constructor.
  - inversion HR as [|? ? Hr1 HR1]; subst. inversion HR1; subst. now constructor.
Qed.
Lemma xhtml_indented_ok : forall c depth keep, xhtml_ok c -> xhtml_ok (indented xhtml_layout depth keep c).
Proof.
  intro c. induction c as [ns q d a k IH|s|s|t d] using call_ind2; intros depth keep H; inversion H; subst; try (cbn [indented]; assumption).
  rewrite indented_elem. cbv zeta.
  set (keep' := keep || kept xhtml_layout ns q). set (par := negb (in_line xhtml_layout ns q)).
  assert (HK : forall x, In x k -> xhtml_ok (indented xhtml_layout (S depth) keep' x)).
  { intros x Hx. rewrite Forall_forall in IH. apply IH; [exact Hx|]. match goal with H : Forall xhtml_ok k |- _ => rewrite Forall_forall in H; auto end. }
  constructor; try assumption. apply Forall_app. split.
  - apply Forall_forall. intros n Hn. unfold golist in Hn. apply in_flat_map in Hn as (x & Hx & Hn). apply in_app_iff in Hn as [Hn|[<-|[]]]; [|now apply HK].
    destruct (par && negb keep' && own_line xhtml_layout x); [|destruct Hn]. destruct Hn as [<-|[]]. constructor. apply nl_data.
  - destruct (par && negb keep' && fold_left (end_line xhtml_layout) k false); [|constructor]. apply Forall_cons; [|constructor]. apply xo_text, nl_data.
Qed.
Lemma xhtml_lok : kd = XhtmlIndent -> forall c, lok low kd xhtml_layout c.
Proof.
  intros K c. subst kd. induction c as [ns q d a k IH|s|s|t d] using call_ind2; constructor.
  - cbn [in_line xhtml_layout key_of inline_of]. change (in_xhtml ns) with (is_xhtml ns). destruct (is_xhtml ns); [|reflexivity].
    cbn [key_in andb]. unfold x_inline_elements. now rewrite isin_one_of.
  - cbn [kept xhtml_layout key_of noindent_of]. change (in_xhtml ns) with (is_xhtml ns). destruct (is_xhtml ns); [|reflexivity].
    cbn [key_in andb]. unfold x_no_indent_elements. now rewrite isin_one_of.
  - exact IH.
Qed.
End XhtmlTop.

(** ** Whole outputs *)
Lemma charref_chars : forall c, chars (charref c).
Proof.
  intro c. unfold charref. rewrite !chars_app. repeat split.
  - repeat constructor.
  - apply Forall_forall. intros d Hd. pose proof (dec_str_digits c) as HD. rewrite Forall_forall in HD. apply HD in Hd. apply ascii_xml; lia.
  - repeat constructor.
Qed.
Lemma aesc_chars : forall xml bad f cd m s, chars s -> Forall (rd xml bad f m) s -> good_map m -> chars (aesc cd m s).
Proof.
  intros xml bad f cd m s Hs HF Hm. induction s as [|c s IH]; [constructor|]. inversion Hs; inversion HF as [|? ? Hr HF']; subst. cbn [aesc]. apply Forall_app. split; [|now apply IH].
  unfold rd in Hr. destruct (emap_lookup m c) as [[t|g]|] eqn:E.
  - destruct Hr as (nm & -> & Hn & _). constructor; [reflexivity|]. apply Forall_app. split; [|repeat constructor].
    apply Forall_forall. intros d Hd. rewrite forallb_forall in Hn. apply Hn in Hd. unfold ref_char, between in Hd.
    unfold xml_char, between. destruct (N.leb_spec 32 d); [destruct (N.leb_spec d 55295); [cbn [andb]; now rewrite !orb_true_r|]|];
      repeat match goal with H : _ || _ = true |- _ => apply orb_prop in H as [H|H] end;
      try (apply andb_prop in Hd as [A B]; apply N.leb_le in A, B; lia); apply N.eqb_eq in Hd; lia.
  - destruct Hr as (-> & _ & _). unfold attr_amp_escape. destruct (prefixb _ _); repeat constructor.
  - unfold escc. destruct (cd c); [now repeat constructor|]. apply charref_chars.
Qed.

Lemma atts_chars : forall x cd m a, reading x m -> Forall (atok x) a -> chars (flat_map (att_chars cd m) a).
Proof.
  intros x cd m a Hr HF. induction HF as [|[n o] a [Hn Hv] HF IH]; [constructor|]. cbn [flat_map]. apply chars_app. split; [|exact IH].
  unfold att_chars. cbn [fst snd] in *. constructor; [reflexivity|]. apply chars_app. split; [now apply name_chars|].
  destruct o as [v|]; [|constructor]. destruct Hv as [Hv H60]. constructor; [reflexivity|]. constructor; [unfold quot_of; destruct (apos_of v); reflexivity|].
  apply chars_app. split; [|constructor; [unfold quot_of; destruct (apos_of v); reflexivity|constructor]].
  eapply aesc_chars; [apply Hv|eapply data_rd_val; eauto|]. destruct (r_good _ _ Hr) as (_ & G1 & G2 & _). unfold vmap. destruct (apos_of v); assumption.
Qed.
Lemma dchars_ok : forall x cd m n, reading x m -> dok x n -> chars (dchars x cd m n).
Proof.
  intros x cd m n Hr. induction n as [f q a k IH|s|d|t d] using dn_ind2; intro H; inversion H; subst; cbn [dchars].
  - assert (HK : chars (flat_map (dchars x cd m) k)).
    { apply Forall_forall. intros c Hc. apply in_flat_map in Hc as (n & Hn & Hc). match goal with H : Forall (dok x) k |- _ => rewrite Forall_forall in IH, H; pose proof (IH n Hn (H n Hn)) as HC end.
      unfold chars in HC. rewrite Forall_forall in HC. auto. }
    assert (HQ : chars q) by now apply name_chars.
    constructor; [reflexivity|]. apply chars_app. split; [exact HQ|]. apply chars_app. split; [eapply atts_chars; eauto|].
    destruct f; cbn [close_of]; [|litchars|litchars]. rewrite !chars_app. repeat split; try assumption; litchars.
  - eapply aesc_chars; [|eapply data_rd_text; eauto|apply (r_good _ _ Hr)]. match goal with H : data s |- _ => apply H end.
  - match goal with H : legal_comment d |- _ => destruct H as (Hd & _) end. rewrite !chars_app. repeat split; try assumption; litchars.
  - assert (Ht1 : is_name t = true) by (destruct x; match goal with H : _ t d |- _ => apply H end).
    assert (Hd1 : chars d) by (destruct x; match goal with H : _ t d |- _ => apply H end).
    rewrite !chars_app. repeat split; [litchars|now apply name_chars| |destruct x; litchars].
    destruct d; [constructor|]. constructor; [reflexivity|assumption].
Qed.
Lemma all_dchars_ok : forall x cd m l, reading x m -> Forall (dok x) l -> chars (flat_map (dchars x cd m) l).
Proof.
  intros x cd m l Hr Hl. apply Forall_forall. intros c Hc. apply in_flat_map in Hc as (n & Hn & Hc).
  rewrite Forall_forall in Hl. pose proof (dchars_ok x cd m n Hr (Hl n Hn)) as HC. unfold chars in HC. rewrite Forall_forall in HC. auto.
Qed.

(** What the printers print. *)
Definition indents (kd : kind) : bool := match kd with HtmlIndent | XhtmlIndent => true | _ => false end.
Definition layout_of (kd : kind) : layout := if is_html kd then html_layout else xhtml_layout.
Definition printed_calls (kd : kind) (l : list call) : list call := if indents kd then map (indented (layout_of kd) 0 false) l else l.
Definition fresh_hp (h : hp) : Prop :=
  h_inline h = [true] /\ h_noindent h = [false] /\ h_forbidden h = 0%Z /\ h_endtag h = false /\ p_level (h_p h) = 0%Z /\ p_elem (h_p h) = None.

Lemma layout_aft : forall kd, indents kd = true -> forall e s, after_text (layout_of kd) e s = match kd with HtmlIndent => isspace s | _ => e end.
Proof.
  intros kd H e s. destruct kd; try discriminate H; [|reflexivity]. cbn [layout_of is_html after_text html_layout]. unfold isspace.
  reflexivity.
Qed.

Lemma printed : forall cd m low kd l h, kd <> HtmlStrip -> good_maps m -> good cd m h -> sound_codec cd -> fresh_hp h -> Forall (pok cd low kd) l ->
  (indents kd = true -> Forall (lok low kd (layout_of kd)) l) ->
  exists h1, h_print_all low kd l h = Ok h1 /\ good cd m h1 /\ p_elem (h_p h1) = None /\
    emits (p_x (h_p h)) (p_x (h_p h1)) (flat_map (dchars (HtPrint.xml kd) cd m) (map (render low kd) (printed_calls kd l))).
Proof.
  intros cd m low kd l h Hk Hm Hg Hs (F1 & F2 & F3 & F4 & F5 & F6) HP HL.
  assert (Ho : okelem (h_p h)) by (unfold okelem; rewrite F6; discriminate).
  assert (Epl : pl h l = []) by (unfold pl, pend, is_open; rewrite F6; destruct l; reflexivity).
  assert (Eel : el_after h l = None) by (unfold el_after; rewrite F6; destruct l; reflexivity).
  unfold printed_calls. destruct (indents kd) eqn:Ei.
  - assert (Hi : kd = HtmlIndent \/ kd = XhtmlIndent) by (destruct kd; try discriminate Ei; auto).
    assert (HS : Forall (indent_spec cd m low kd (layout_of kd)) l).
    { apply Forall_forall. intros c _. apply indent_one; auto. apply layout_aft; exact Ei. }
    destruct (indent_all cd m Hm low kd (layout_of kd) l HS HP (HL eq_refl) h 0%nat false false Hg Ho) as (h1 & E1 & G1 & EM & ES).
    { repeat split; cbn; rewrite ?F1, ?F3, ?F5; eauto. exact (Z.le_refl 0). }
    rewrite Epl, golist_nil in EM by now left. exists h1. split; [exact E1|]. split; [exact G1|]. split; [|exact EM].
    apply (f_equal s_el) in ES. cbn in ES. rewrite ES. exact Eel.
  - assert (HS : Forall (plain_spec cd m low kd) l).
    { apply Forall_forall. intros c _. apply plain_one; auto; intros ->; discriminate Ei. }
    destruct (plain_all cd m low kd l HS HP h Hg Ho) as (h1 & E1 & G1 & EM & ES).
    rewrite Epl in EM. exists h1. split; [exact E1|]. split; [exact G1|]. split; [|exact EM].
    apply (f_equal s_el) in ES. cbn in ES. rewrite ES. exact Eel.
Qed.

(** ** Outputs, read *)
Local Opaque maps_32 maps_40 maps_xhtml.
Definition version_maps (kd : kind) (version : option str) : maps :=
  if is_html kd then match version with Some v => if str_eqb v (lit "3.2") then maps_32 else maps_40 | None => maps_40 end else maps_xhtml.
Lemma reading_version : forall kd version, reading (HtPrint.xml kd) (version_maps kd version).
Proof.
  intros kd version. unfold HtPrint.xml, version_maps. destruct (is_html kd); cbn [negb]; [|apply reading_xhtml].
  destruct version as [v|]; [destruct (str_eqb v (lit "3.2"))|]; [exact reading_32|exact reading_40|exact reading_40].
Qed.
Definition head_chars (kd : kind) (version : option str) (enc : str) : str :=
  match version with Some _ => if is_html kd then [] else decl_chars enc ++ [10] | None => [] end.

Lemma start_out : forall cd kd version enc, sound_codec cd -> (is_html kd = false -> forall v, version = Some v -> v = lit "1.0" /\ legal_encname enc) ->
  exists h, match version with
            | Some v => h_start_document kd enc v (hp_new kd (xmlstream_new cd))
            | None => Ok (hp_new kd (xmlstream_new cd))
            end = Ok h /\ good cd (version_maps kd version) h /\ fresh_hp h /\ emits (xmlstream_new cd) (p_x (h_p h)) (head_chars kd version enc).
Proof.
  intros cd kd version enc Hcd He.
  assert (G : goodp cd (h_p (hp_new kd (xmlstream_new cd)))) by (apply SerTop.new_good; exact Hcd).
  assert (F : forall mp, fresh_hp (set_maps (hp_new kd (xmlstream_new cd)) mp)) by (intro; repeat split).
  unfold version_maps, head_chars. destruct version as [v|].
  - unfold h_start_document. destruct (is_html kd) eqn:Ek.
    + eexists. split; [reflexivity|]. split; [split; [exact G|]|split; [apply F|]].
      * cbn. destruct (str_eqb v (lit "3.2")); reflexivity.
      * apply emits_nil.
    + destruct (He eq_refl v eq_refl) as [-> Hen]. set (h0 := hp_new kd (xmlstream_new cd)) in *.
      assert (O1 : out (h_p h0) (decl_chars enc ++ [10]) (p_elem (h_p h0)) (p_level (h_p h0)) (p_can_indent (h_p h0)) (start_document false enc (lit "1.0") (h_p h0))).
      { unfold start_document.
        assert (EA : decl_chars enc ++ [10] = (lit "<?xml version=""" ++ lit "1.0" ++ lit """ encoding=""" ++ enc ++ lit """") ++ (lit "?>" ++ [10])).
        { unfold decl_chars. rewrite <- !app_assoc. reflexivity. }
        rewrite EA. eapply out_bind; [exact G|eapply p_ascii_out; [exact G|]|].
        - rewrite !Forall_app. repeat split; try ascii. now apply encname_ascii.
        - intros p1 H1 <- <- <-. eapply p_ascii_out; [exact H1|ascii]. }
      assert (Gh : good cd maps_xhtml h0) by (split; [exact G|]; unfold h0; cbn; now rewrite Ek).
      destruct (on_p_step' cd maps_xhtml h0 _ _ _ Gh O1) as (h1 & E1 & G1 & EM & ES). exists h1. split; [exact E1|]. split; [exact G1|]. split; [|exact EM].
      unfold fresh_hp. repeat split.
      * exact (f_equal s_inl ES). * exact (f_equal s_noi ES). * exact (f_equal s_forb ES). * exact (f_equal s_end ES). * exact (f_equal s_lev ES). * exact (f_equal s_el ES).
  - eexists. split; [reflexivity|]. split; [split; [exact G|]|split; [apply F|]].
    + cbn. destruct (is_html kd); reflexivity.
    + apply emits_nil.
Qed.

Lemma output_read : forall cd dec low kd version enc l, sound_codec cd -> decodes cd dec -> kd <> HtmlStrip ->
  (is_html kd = false -> forall v, version = Some v -> v = lit "1.0" /\ legal_encname enc) ->
  Forall (pok cd low kd) l -> (indents kd = true -> Forall (lok low kd (layout_of kd)) l) ->
  Forall (dok (HtPrint.xml kd)) (map (render low kd) (printed_calls kd l)) ->
  exists bs t, h_output low kd (xmlstream_new cd) version enc l = Ok bs /\ dec bs = Some (head_chars kd version enc ++ t) /\
    read_page (HtPrint.xml kd) t = Some (merge_all (map dview (map (render low kd) (printed_calls kd l)))) /\
    t = flat_map (dchars (HtPrint.xml kd) cd (version_maps kd version)) (map (render low kd) (printed_calls kd l)).
Proof.
  intros cd dec low kd version enc l Hcd Hd Hk He HP HL HD. pose proof (reading_version kd version) as Hr.
  destruct (start_out cd kd version enc Hcd He) as (h0 & E0 & G0 & F0 & EM0).
  destruct (printed cd (version_maps kd version) low kd l h0 Hk (r_good _ _ Hr) G0 Hcd F0 HP HL) as (h1 & E1 & G1 & El & EM1).
  set (t := flat_map (dchars (HtPrint.xml kd) cd (version_maps kd version)) (map (render low kd) (printed_calls kd l))) in *.
  exists (x_out (p_x (h_p h1))), t. split; [|split; [|split; [apply read_rendered; assumption|reflexivity]]].
  - unfold h_output. rewrite E0. cbn [bind]. rewrite E1. cbn [bind]. destruct version; [|reflexivity].
    unfold on_p. rewrite end_document_closed by exact El. reflexivity.
  - apply Hd.
    + apply chars_app. split; [|now apply all_dchars_ok]. unfold head_chars. destruct version as [v|]; [|constructor]. destruct (is_html kd) eqn:Ek; [constructor|].
      apply chars_app. split; [|litchars]. destruct (He eq_refl v eq_refl) as [_ Hen]. now apply decl_chars_ok.
    + pose proof (emits_trans _ _ _ _ _ EM0 EM1) as (b & EB & ->). exact EB.
Qed.
