(** * Proofs about case normalisation, public identifiers, file paths, IRIs *)
From Coq Require Import NArith ZArith String List Bool Lia Arith.
From Verif Require Import PyStr PyErr Regex Utf8 IriModel IriSpec IriSplit IriDots IriPct IriAbs.
Import ListNotations.
Open Scope N_scope.

(** ** iri_to_uri *)

Lemma iri_ascii : forall sur s, Forall (fun c => c < 128) s -> iri_loop sur s = Ok s.
Proof.
  intros sur s. induction s as [|c s IH]; intro H; [reflexivity|]. inversion H; subst.
  cbn [iri_loop]. destruct (N.ltb_spec 128 c); [lia|]. rewrite IH by assumption. reflexivity.
Qed.

Definition iri_char (c : N) : Prop := c < 128 \/ (160 <= c /\ c < 55296).

Lemma pct2s_ascii : forall l, Forall (fun b => b < 256) l -> Forall (fun c => c < 128) (flat_map pct2 l).
Proof.
  intros l H. apply Forall_forall. intros x Hx. apply in_flat_map in Hx as (b & Hb & Hx).
  rewrite Forall_forall in H. specialize (H b Hb). unfold pct2 in Hx.
  pose proof (div16_lt b H). pose proof (mod16_lt b).
  remember (b / 16) as q. remember (b mod 16) as m. clear Heqq Heqm.
  unfold hexdigit in Hx. cbn [In] in Hx.
  destruct (N.ltb_spec q 10), (N.ltb_spec m 10); destruct Hx as [<-|[<-|[<-|[]]]]; lia.
Qed.

Lemma iri_ok : forall s, Forall iri_char s -> exists r, iri_to_uri s = Ok r /\
  Forall (fun c => c < 128) r /\ (~ In cPCT s -> percent_decode (PyU r) = Ok (PyU s)).
Proof.
  intros s H.
  assert (G : exists r, iri_loop None s = Ok r /\ Forall (fun c => c < 128) r /\
              (~ In cPCT s -> pct_decode_raw None r = utf8_encode s)).
  { induction s as [|c s IH]; [exists []; repeat split; auto|]. inversion H as [|? ? Hc Hs]; subst.
    destruct (IH Hs) as (r & Er & Ar & Dr). cbn [iri_loop]. destruct Hc as [Hc|[Hc1 Hc2]].
    - destruct (N.ltb_spec 128 c); [lia|]. rewrite Er. exists (c :: r). cbn [bind]. repeat split; auto.
      intro Hn. rewrite dec_char by (intros ->; apply Hn; now left). rewrite Dr by (intro; apply Hn; now right).
      assert (E1 : utf8_1 c = [c]) by (unfold utf8_1; Ndec; reflexivity).
      unfold utf8_encode; cbn [flat_map]. rewrite E1. reflexivity.
    - destruct (N.ltb_spec 128 c); [|lia]. destruct (N.ltb_spec c 160); [lia|]. destruct (N.ltb_spec 55295 c); [lia|].
      rewrite Er. cbn [bind]. eexists; split; [reflexivity|].
      assert (Hb : Forall (fun b => b < 256) (utf8_1 c)) by (apply utf8_1_bytes; lia).
      split.
      + apply Forall_app; split; auto. now apply pct2s_ascii.
      + intro Hn. rewrite dec_pct2s by assumption. rewrite Dr by (intro; apply Hn; now right). reflexivity. }
  destruct G as (r & Er & Ar & Dr). exists r. unfold iri_to_uri. split; [auto|]. split; [auto|].
  intro Hn. unfold percent_decode, percent_decode_. rewrite Dr by assumption.
  rewrite utf8_bytes.
  - rewrite utf8_roundtrip; [reflexivity|]. eapply Forall_impl; [|exact H]. intros a [?|?]; lia.
  - eapply Forall_impl; [|exact H]. intros a [?|?]; [left|left]; lia.
Qed.

(** Whatever iri_to_uri returns has only code points up to 128. *)
Lemma iri_ascii_out : forall s sur r, Forall (fun c => c < 1114112) s ->
  match sur with Some h => 55296 <= h /\ h < 56320 | None => True end ->
  iri_loop sur s = Ok r -> Forall (fun c => c <= 128) r.
Proof.
  induction s as [|c s IH]; intros sur r H Hsur E; [injection E as <-; constructor|].
  inversion H as [|? ? Hc Hs]; subst. cbn [iri_loop] in E.
  assert (LE : forall l, Forall (fun c => c < 128) l -> Forall (fun c => c <= 128) l).
  { intros l Hl. eapply Forall_impl; [|exact Hl]. cbv beta; intros; lia. }
  destruct (N.ltb_spec 128 c).
  - destruct (N.ltb_spec c 160); [discriminate|]. destruct (N.ltb_spec 55295 c).
    + destruct (N.ltb_spec c 56320).
      * eapply (IH (Some c)); eauto. simpl. lia.
      * destruct (N.ltb_spec c 57344); [|discriminate]. destruct sur as [h|]; [|discriminate].
        destruct (iri_loop None s) as [r'|] eqn:E'; [|discriminate]. unfold bind in E. injection E as <-.
        apply Forall_app; split; [|eapply (IH None); eauto; simpl; auto].
        apply LE, pct2s_ascii, utf8_1_bytes. cbv beta iota in Hsur. unfold surrogate_pair. lia.
    + destruct (iri_loop sur s) as [r'|] eqn:E'; [|discriminate]. cbn [bind] in E. injection E as <-.
      apply Forall_app; split; [|eapply (IH sur); eauto]. apply LE, pct2s_ascii, utf8_1_bytes. lia.
  - destruct (iri_loop sur s) as [r'|] eqn:E'; [|discriminate]. cbn [bind] in E. injection E as <-.
    constructor; [lia|]. eapply (IH sur); eauto.
Qed.

(** ** normalize_case *)

Definition casevar (s t : str) : Prop := Forall2 (fun c d => lower1 c = lower1 d) s t.

Lemma casevar_refl : forall s, casevar s s.
Proof. induction s; constructor; auto. Qed.
Lemma casevar_trans : forall a b c, casevar a b -> casevar b c -> casevar a c.
Proof.
  intros a b c H. revert c. induction H; intros c0 Hc; inversion Hc; subst; constructor; [congruence|].
  now apply IHForall2.
Qed.
Lemma casevar_sym : forall a b, casevar a b -> casevar b a.
Proof. intros a b H; induction H; constructor; auto. Qed.
Lemma casevar_lower : forall s, casevar s (lower s).
Proof. induction s; constructor; auto. now rewrite lower1_idem. Qed.
Lemma lower_casevar : forall a b, casevar a b -> lower a = lower b.
Proof. intros a b H; induction H; simpl; congruence. Qed.

Lemma lower1_upper1 : forall c, lower1 (upper1 c) = lower1 c.
Proof.
  intro c. unfold lower1, upper1, is_upper, is_lower.
  destruct (N.leb_spec 97 c), (N.leb_spec c 122); cbn [andb];
  repeat match goal with |- context[(?a <=? ?b)] => destruct (N.leb_spec a b) end; cbn [andb]; lia.
Qed.

Lemma ue_cons : forall c s, c <> cPCT -> upper_escapes (c :: s) = c :: upper_escapes s.
Proof.
  intros c s H. destruct s as [|a [|b r]]; try reflexivity.
  cbn [upper_escapes]. destruct (N.eqb_spec c cPCT); [congruence|]. reflexivity.
Qed.
Lemma ue_pct : forall a b r, upper_escapes (cPCT :: a :: b :: r) =
  if lower_hex a && lower_hex b then cPCT :: upper1 a :: upper1 b :: upper_escapes r
  else cPCT :: upper_escapes (a :: b :: r).
Proof. intros. cbn [upper_escapes]. rewrite N.eqb_refl. cbn [andb]. reflexivity. Qed.

(** Induction over the scan. *)
Lemma ue_ind : forall (P : str -> Prop),
  P [] -> (forall c s, P s -> P (c :: s)) ->
  (forall a b r, P r -> P (a :: b :: r) -> P (cPCT :: a :: b :: r)) ->
  forall s, P s.
Proof.
  intros P H0 H1 H2 s.
  assert (G : forall n s, (length s <= n)%nat -> P s).
  { induction n as [|n IH]; intros t Ht.
    - destruct t; [auto|simpl in Ht; lia].
    - destruct t as [|c t]; [auto|]. apply H1. apply IH. simpl in Ht; lia. }
  eapply G; eauto.
Qed.

Lemma len_ind : forall (P : str -> Prop),
  (forall s, (forall t, (length t < length s)%nat -> P t) -> P s) -> forall s, P s.
Proof.
  intros P H s. assert (G : forall n s, (length s < n)%nat -> P s).
  { induction n as [|n IH]; intros t Ht; [lia|]. apply H. intros u Hu. apply IH. lia. }
  eapply G; eauto.
Qed.

Lemma ue_casevar : forall s, casevar s (upper_escapes s).
Proof.
  induction s as [s IH] using len_ind. destruct s as [|c s]; [constructor|].
  destruct (N.eq_dec c cPCT) as [->|Hc].
  - destruct s as [|a [|b r]].
    + repeat constructor.
    + cbn. repeat constructor.
    + rewrite ue_pct. destruct (lower_hex a && lower_hex b).
      * constructor; auto. constructor; [now rewrite lower1_upper1|]. constructor; [now rewrite lower1_upper1|].
        apply IH. simpl; lia.
      * constructor; auto. apply IH. simpl; lia.
  - rewrite ue_cons by assumption. constructor; auto. apply IH. simpl; lia.
Qed.

Lemma ue_length : forall s, length (upper_escapes s) = length s.
Proof. intro s. pose proof (ue_casevar s) as H. induction H; simpl; congruence. Qed.

Lemma upper1_hex_ne : forall a, lower_hex a = true -> upper1 a <> cPCT.
Proof.
  intros a H. unfold lower_hex, is_digit in H. rewrite orb_true_iff, !andb_true_iff, !N.leb_le in H.
  unfold upper1, is_lower. destruct (N.leb_spec 97 a), (N.leb_spec a 122); cbn [andb]; lia.
Qed.
Lemma upper1_hex_again : forall a, lower_hex a = true -> lower_hex (upper1 a) = true -> upper1 (upper1 a) = upper1 a.
Proof.
  intros a H H'. unfold lower_hex, is_digit in *. rewrite orb_true_iff, !andb_true_iff, !N.leb_le in *.
  unfold upper1, is_lower in *. destruct (N.leb_spec 97 a), (N.leb_spec a 122); cbn [andb] in *;
  repeat match goal with |- context[(?a <=? ?b)] => destruct (N.leb_spec a b) end; cbn [andb]; lia.
Qed.

(** The head of the result is the head of the input. *)
Lemma ue_head : forall c s, exists t, upper_escapes (c :: s) = c :: t.
Proof.
  intros c s. destruct (N.eq_dec c cPCT) as [->|Hc].
  - destruct s as [|a [|b r]]; [eexists; reflexivity|eexists; reflexivity|].
    rewrite ue_pct. destruct (lower_hex a && lower_hex b); eauto.
  - rewrite ue_cons by assumption. eauto.
Qed.

Lemma ue_idem : forall s, upper_escapes (upper_escapes s) = upper_escapes s.
Proof.
  induction s as [s IH] using len_ind. destruct s as [|c s]; [reflexivity|].
  destruct (N.eq_dec c cPCT) as [->|Hc].
  2:{ rewrite ue_cons by assumption. rewrite ue_cons by assumption. f_equal. apply IH. simpl; lia. }
  destruct s as [|a [|b r]]; [reflexivity|reflexivity|].
  rewrite ue_pct. destruct (lower_hex a) eqn:Ha; destruct (lower_hex b) eqn:Hb; cbn [andb].
  - rewrite ue_pct.
    destruct (lower_hex (upper1 a)) eqn:Ha'; destruct (lower_hex (upper1 b)) eqn:Hb'; cbn [andb].
    { rewrite !upper1_hex_again by assumption. do 3 f_equal. apply IH. simpl; lia. }
    all: rewrite !ue_cons by (now apply upper1_hex_ne); do 3 f_equal; apply IH; simpl; lia.
  - assert (E : upper_escapes (a :: b :: r) = a :: upper_escapes (b :: r)).
    { apply ue_cons. intros ->. discriminate. }
    rewrite E. destruct (ue_head b r) as [t Ht]. rewrite Ht at 1.
    rewrite ue_pct. rewrite Ha, Hb. cbn [andb]. rewrite <- Ht, <- E. f_equal. apply IH. simpl; lia.
  - assert (E : exists t u, upper_escapes (a :: b :: r) = a :: t :: u).
    { destruct (ue_head a (b :: r)) as [t Ht]. pose proof (ue_length (a :: b :: r)) as HL. rewrite Ht in *.
      destruct t; simpl in HL; [lia|eauto]. }
    destruct E as (t & u & E). rewrite E at 1. rewrite ue_pct, Ha. cbn [andb]. rewrite <- E. f_equal. apply IH. simpl; lia.
  - assert (E : exists t u, upper_escapes (a :: b :: r) = a :: t :: u).
    { destruct (ue_head a (b :: r)) as [t Ht]. pose proof (ue_length (a :: b :: r)) as HL. rewrite Ht in *.
      destruct t; simpl in HL; [lia|eauto]. }
    destruct E as (t & u & E). rewrite E at 1. rewrite ue_pct, Ha. cbn [andb]. rewrite <- E. f_equal. apply IH. simpl; lia.
Qed.

Lemma lower_ue : forall s, lower (upper_escapes s) = lower s.
Proof. intro s. symmetry. apply lower_casevar, ue_casevar. Qed.

(** Delimiters are not affected by case. *)
Definition caseless (x : N) : Prop := forall c, lower1 c = lower1 x -> c = x.
Lemma caseless_intro : forall x, is_alpha x = false -> caseless x.
Proof.
  intros x H c E. unfold is_alpha in H. apply orb_false_iff in H as [Hu Hl].
  unfold lower1 in E. rewrite Hu in E. destruct (is_upper c) eqn:Ec; auto.
  subst x. unfold is_upper, is_lower in *. apply andb_true_iff in Ec as [E1 E2].
  rewrite N.leb_le in *. apply andb_false_iff in Hl. rewrite !N.leb_gt in Hl. lia.
Qed.
Lemma casevar_In : forall s t x, casevar s t -> caseless x -> (In x s <-> In x t).
Proof.
  intros s t x H Hx. induction H; [tauto|]. simpl. rewrite IHForall2. split; (intros [E|E]; [left|right; auto]).
  - subst. symmetry in H. apply Hx in H. auto.
  - subst. apply Hx in H. auto.
Qed.
Lemma casevar_app_inv : forall t a b, casevar (a ++ b) t -> exists a' b', t = a' ++ b' /\ casevar a a' /\ casevar b b'.
Proof. intros t a b H. unfold casevar in *. apply Forall2_app_inv_l in H as (a' & b' & Ha & Hb & ->). eauto. Qed.
Lemma casevar_cons_caseless : forall x s t, caseless x -> casevar (x :: s) t -> exists t', t = x :: t' /\ casevar s t'.
Proof. intros x s t Hx H. inversion H; subst. symmetry in H2. apply Hx in H2. subst. eauto. Qed.

Definition ocasevar (s t : option str) : Prop :=
  match s, t with Some a, Some b => casevar a b | None, None => True | _, _ => False end.

Lemma legal_casevar : forall c d, legal c ->
  ocasevar (scheme c) (scheme d) -> ocasevar (authority c) (authority d) ->
  casevar (path c) (path d) -> ocasevar (query c) (query d) ->
  legal d.
Proof.
  intros [s a p q f] [s' a' p' q' f'] [Hs Ha Hp Hpa Hpn Hps Hq] Cs Ca Cp Cq. simpl in *.
  assert (AV : forall l u v, casevar u v -> Forall caseless l -> avoids u l -> avoids v l).
  { intros l u v C FL A x Hx Hin. apply (A x Hx). rewrite Forall_forall in FL. apply (casevar_In u v x C); auto. }
  assert (D1 : forall l, forallb (fun x => negb (is_alpha x)) l = true -> Forall caseless l).
  { intros l Hl. apply Forall_forall. intros x Hx. rewrite forallb_forall in Hl. apply caseless_intro.
    apply Hl in Hx. now apply negb_true_iff in Hx. }
  constructor; simpl.
  - intros t Ht. subst s'. destruct s as [s|]; [|destruct Cs]. destruct (Hs s eq_refl) as [Hne Hav]. split.
    + intros ->. inversion Cs; subst. congruence.
    + eapply AV; eauto.
  - intros t Ht. subst a'. destruct a as [a|]; [|destruct Ca]. eapply AV; eauto.
  - eapply AV; eauto.
  - intro Hn. destruct Hpa as [->|[r ->]].
    + destruct a, a'; simpl in Ca; tauto || congruence.
    + left. inversion Cp; auto.
    + right. apply casevar_cons_caseless in Cp as (t & -> & _); eauto. now apply caseless_intro.
  - intros Hn r ->. destruct a as [a|]; [subst a'; destruct Ca|].
    apply casevar_sym in Cp. apply casevar_cons_caseless in Cp as (t & -> & Cp); [|now apply caseless_intro].
    apply casevar_cons_caseless in Cp as (t' & -> & Cp); [|now apply caseless_intro].
    apply (Hpn eq_refl t'). reflexivity.
  - intros Hn1 Hn2 u v Huv. subst p'.
    destruct s as [s|]; [subst s'; destruct Cs|]. destruct a as [a|]; [subst a'; destruct Ca|].
    apply casevar_sym in Cp. apply casevar_app_inv in Cp as (u' & w & -> & Cu & Cw).
    apply casevar_cons_caseless in Cw as (w' & -> & _); [|now apply caseless_intro].
    destruct (Hps eq_refl eq_refl u' w' eq_refl) as [->|[H|H]].
    + left. inversion Cu; auto.
    + right; left. apply (casevar_In u u'); auto. now apply caseless_intro.
    + right; right. apply (casevar_In u u'); auto. now apply caseless_intro.
  - intros t Ht. subst q'. destruct q as [q|]; [|destruct Cq]. eapply AV; eauto.
Qed.

(** split_authority *)
Lemma split_authority_spec : forall a, ~ In cLF a ->
  exists ui h p, split_authority a = (ui, h, p) /\
    a = (match ui with Some u => u ++ [cAT] | None => [] end) ++ h ++ (match p with Some q => cCOLON :: q | None => [] end)
    /\ (forall u, ui = Some u -> ~ In cAT u) /\ (ui = None -> ~ In cAT a) /\ ~ In cCOLON h.
Proof.
  intros a HL. 
  assert (T : forall s c k, ~ In cLF s ->
     exists h p, s = h ++ (match p with Some q => cCOLON :: q | None => [] end) /\ ~ In cCOLON h /\
       mtch (Seq (Grp 1 (Star (not_in [cCOLON]))) (Opt (Seq (Chr (is cCOLON)) (Grp 2 (Star dot_class))))) s c (fun s' c' => Some (k s' c')) 
       = Some (k [] (addcap 2 p ((1%nat, h) :: c)))).
  { intros s c k Hs. destruct (span (not_in [cCOLON]) s) as [h b] eqn:E.
    pose proof E as E'. apply span_spec in E' as (-> & Hh & Hb).
    assert (Hhc : ~ In cCOLON h). { apply class_avoids in Hh. apply Hh; simpl; auto. }
    destruct b as [|y b].
    - exists h, None. rewrite app_nil_r in *. split; [auto|]. split; [auto|].
      cbn [mtch]. eapply star_m_max; eauto. cbn. rewrite <- (app_nil_r h) at 1. now rewrite consumed_app.
    - apply not_in_false in Hb. destruct Hb as [<-|[]].
      exists h, (Some b). split; [auto|]. split; [auto|].
      cbn [mtch]. eapply star_m_max; eauto. unfold is. rewrite N.eqb_refl.
      rewrite star_m_max with (a := b) (b := []) (r := k [] (addcap 2 (Some b) ((1%nat, h) :: c))).
      + reflexivity.
      + rewrite <- (app_nil_r b) at 1. apply span_app; auto. apply avoids_class. intros x [<-|[]] Hin.
        apply Hs. apply in_or_app; right; now right.
      + rewrite consumed_app. rewrite <- (app_nil_r b) at 1. rewrite consumed_app. reflexivity. }
  destruct (break1 cAT a) as [[u r]|] eqn:E.
  - apply break1_Some in E as [-> Hu].
    assert (Hr : ~ In cLF r). { intro; apply HL; apply in_or_app; right; now right. }
    destruct (T r [(0%nat, u)] (fun s c => (s, c)) Hr) as (h & p & -> & Hh & E).
    exists (Some u), h, p. split; [|split; [|split; [|split]]].
    + unfold split_authority, re_match, SPLIT_AUTHORITY_PATTERN.
      change (mtch (Seq (Opt ?A) ?B) ?s ?c ?k) with
        (match mtch A s c (fun s' c' => mtch B s' c' k) with Some r => Some r | None => mtch B s c k end).
      assert (EE : mtch (Seq (Grp 0 (Star (not_in [cAT]))) (Chr (is cAT))) (u ++ cAT :: h ++ match p with Some q => cCOLON :: q | None => [] end) []
         (fun s' c' => mtch (Seq (Grp 1 (Star (not_in [cCOLON]))) (Opt (Seq (Chr (is cCOLON)) (Grp 2 (Star dot_class))))) s' c' (fun s'' c'' => Some (s'', c'')))
         = Some ([], addcap 2 p [(1%nat, h); (0%nat, u)])).
      { cbn [mtch]. eapply star_m_max.
        - apply span_app; [|reflexivity]. apply avoids_class. intros x [<-|[]]; auto.
        - unfold is at 1. rewrite N.eqb_refl. rewrite consumed_app. exact E. }
      rewrite EE. destruct p; reflexivity.
    + rewrite <- app_assoc. reflexivity.
    + intros v Hv. injection Hv as <-. auto.
    + discriminate.
    + auto.
  - apply break1_None in E.
    destruct (T a [] (fun s c => (s, c)) HL) as (h & p & Ea & Hh & E2).
    exists None, h, p. split; [|split; [|split; [|split]]]; auto; try discriminate.
    unfold split_authority, re_match, SPLIT_AUTHORITY_PATTERN.
    change (mtch (Seq (Opt ?A) ?B) ?s ?c ?k) with
        (match mtch A s c (fun s' c' => mtch B s' c' k) with Some r => Some r | None => mtch B s c k end).
    assert (EE : forall k, mtch (Seq (Grp 0 (Star (not_in [cAT]))) (Chr (is cAT))) a [] k = None).
    { intro k. cbn [mtch]. apply star_m_some. intros u v -> Hu. destruct v as [|y v]; auto.
      unfold is. destruct (N.eqb_spec cAT y); auto. subst. exfalso; apply E. apply in_or_app; right; now left. }
    rewrite EE, E2. destruct p; reflexivity.
Qed.
