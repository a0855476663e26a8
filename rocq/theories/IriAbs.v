(** * Proofs about get_scheme, absolutize *)
From Coq Require Import NArith String List Bool Lia Arith.
From Verif Require Import PyStr PyErr Regex Utf8 IriModel IriSpec IriSplit IriDots.
Import ListNotations.
Open Scope N_scope.

(** ** get_scheme *)
Lemma scheme_tail_spec : forall x, scheme_tail x = true <-> (is_alpha x = true \/ is_digit x = true \/ In x (lit "+-.")).
Proof.
  intro x. unfold scheme_tail. rewrite !orb_true_iff, mem_In.
  change (lit "+-.") with [cPLUS; cMINUS; cDOT]. tauto.
Qed.

Lemma scheme_tail_no_colon : scheme_tail cCOLON = false.
Proof. reflexivity. Qed.

Lemma get_scheme_Some : forall s r, scheme_name s -> get_scheme (s ++ cCOLON :: r) = Some s.
Proof.
  intros s r (c & t & -> & Hc & Ht). unfold get_scheme, re_match, SCHEME_PATTERN. cbn [mtch app]. rewrite Hc.
  rewrite star_m_max with (a := t) (b := cCOLON :: r) (r := (r, [(1%nat, c :: t)])).
  - reflexivity.
  - apply span_app; [|reflexivity]. apply forallb_forall. intros x Hx. rewrite Forall_forall in Ht.
    apply scheme_tail_spec; auto.
  - cbn [mtch]. unfold is. rewrite N.eqb_refl. rewrite consumed_cons_app. reflexivity.
Qed.

Lemma get_scheme_inv : forall u s, get_scheme u = Some s -> exists r, u = s ++ cCOLON :: r /\ scheme_name s.
Proof.
  intros u s H. unfold get_scheme, re_match, SCHEME_PATTERN in H. cbn [mtch] in H.
  destruct u as [|c u]; [discriminate|]. destruct (is_alpha c) eqn:Hc; [|discriminate].
  destruct (span scheme_tail u) as [a b] eqn:E.
  rewrite star_m_only_max with (a := a) (b := b) in H; auto.
  - apply span_spec in E as (-> & Ha & Hb). destruct b as [|y b]; [discriminate|].
    unfold is in H. destruct (N.eqb_spec cCOLON y); [|discriminate]. subst y.
    rewrite consumed_cons_app in H. injection H as <-.
    exists b. split; [reflexivity|]. exists c, a. split; auto. split; auto.
    rewrite forallb_forall in Ha. apply Forall_forall. intros x Hx. apply scheme_tail_spec; auto.
  - intros x t Hx. unfold is. destruct (N.eqb_spec cCOLON x); auto. subst. discriminate.
Qed.

Lemma is_absolute_iff : forall u, is_absolute u = true <-> has_scheme u.
Proof.
  intro u. unfold is_absolute. split.
  - destruct (get_scheme u) eqn:E; [|discriminate]. intros _. apply get_scheme_inv in E as (r & -> & Hs).
    exists l, r. auto.
  - intros (s & r & -> & Hs). change (lit ":" ++ r) with (cCOLON :: r). now rewrite get_scheme_Some.
Qed.

Lemma scheme_name_legal : forall s, scheme_name s -> s <> [] /\ avoids s (lit ":/?#").
Proof.
  intros s (c & t & -> & Hc & Ht). split; [congruence|].
  intros x Hx Hin.
  assert (Hx' : is_alpha x = true \/ is_digit x = true \/ In x (lit "+-.")).
  { destruct Hin as [<-|Hin]; auto. rewrite Forall_forall in Ht. auto. }
  cbn in Hx. destruct Hx as [<-|[<-|[<-|[<-|[]]]]]; destruct Hx' as [H|[H|H]]; try discriminate; cbn in H; intuition discriminate.
Qed.

(** The scheme found by get_scheme is the scheme component. *)
Lemma scheme_component : forall c s, legal c -> get_scheme (recompose c) = Some s -> scheme c = Some s.
Proof.
  intros c s HL H. apply get_scheme_inv in H as (r & Hr & Hs).
  apply scheme_name_legal in Hs as [Hne Hav].
  destruct HL as [Hs Ha Hp Hpa Hpn Hps Hq].
  unfold recompose in Hr. destruct (scheme c) as [s'|] eqn:E.
  - destruct (Hs s' eq_refl) as [_ Hav']. rewrite <- app_assoc in Hr.
    f_equal. clear - Hr Hav Hav'.
    assert (N1 : ~ In cCOLON s) by (apply Hav; simpl; auto).
    assert (N2 : ~ In cCOLON s') by (apply Hav'; simpl; auto).
    clear Hav Hav'. simpl in Hr. revert s Hr N1. induction s' as [|x s' IH]; intros [|y s] Hr N1; simpl in *; auto.
    + injection Hr as <- _. tauto.
    + injection Hr as -> _. tauto.
    + injection Hr as -> Hr. f_equal. apply IH; auto.
  - exfalso. simpl in Hr. destruct (authority c) as [a|] eqn:Ea.
    + simpl in Hr. destruct s as [|y s]; [congruence|]. injection Hr as <- _.
      apply (Hav cSLASH); simpl; auto.
    + simpl in Hr.
      destruct (Compare_dec.le_lt_dec (length (path c)) (length s)) as [Hle|Hlt].
      * assert (Hu' : exists w, s = path c ++ w /\ (match query c with Some q => lit "?" ++ q | None => [] end ++
             match fragment c with Some f => lit "#" ++ f | None => [] end) = w ++ cCOLON :: r).
        { clear - Hr Hle. revert s Hr Hle. induction (path c) as [|x p IH]; simpl; intros s Hr Hle.
          - exists s; auto.
          - destruct s as [|y s]; simpl in *; [lia|]. injection Hr as <- Hr.
            destruct (IH s Hr) as [w [-> Hw]]; [lia|]. exists w; auto. }
        destruct Hu' as [w [-> Hw]].
        destruct w as [|y w].
        { destruct (query c), (fragment c); simpl in Hw; discriminate. }
        assert (Hy : y = cQUEST \/ y = cHASH).
        { destruct (query c); simpl in Hw; [injection Hw as <- _; auto|].
          destruct (fragment c); simpl in Hw; [injection Hw as <- _; auto|discriminate]. }
        apply (Hav y). { destruct Hy as [->| ->]; simpl; auto. } apply in_or_app; right; now left.
      * assert (Hp' : exists w, path c = s ++ cCOLON :: w).
        { clear - Hr Hlt. revert s Hr Hlt. induction (path c) as [|x p IH]; simpl; intros s Hr Hlt; [lia|].
          destruct s as [|y s]; simpl in *.
          - injection Hr as -> _. exists p; auto.
          - injection Hr as <- Hr. destruct (IH s Hr) as [w ->]; [lia|]. exists w; auto. }
        destruct Hp' as [w Hw].
        destruct (Hps eq_refl eq_refl s w Hw) as [?|[?|?]]; [congruence| |].
        -- apply (Hav cCOLON); simpl; auto.
        -- apply (Hav cSLASH); simpl; auto.
Qed.

Lemma recompose_absolute : forall c s, scheme c = Some s -> scheme_name s -> is_absolute (recompose c) = true.
Proof.
  intros c s H Hs. apply is_absolute_iff. unfold recompose. rewrite H. eexists s, _. split; eauto.
  rewrite <- app_assoc. reflexivity.
Qed.

(** ** The part before the fragment *)
Lemma hd_split_hash : forall c, legal c ->
  hd [] (split1 cHASH (recompose c)) = recompose (Comp (scheme c) (authority c) (path c) (query c) None).
Proof.
  intros [s a p q f] [Hs Ha Hp Hpa Hpn Hps Hq]. simpl in *.
  set (X := recompose (Comp s a p q None)).
  assert (HX : recompose (Comp s a p q f) = X ++ match f with Some f => cHASH :: f | None => [] end).
  { unfold X, recompose; simpl. rewrite app_nil_r, <- !app_assoc. reflexivity. }
  assert (HN : ~ In cHASH X).
  { unfold X, recompose; simpl. rewrite app_nil_r. rewrite !in_app_iff. intros [H|[H|[H|H]]].
    - destruct s as [s|]; [|destruct H]. apply in_app_iff in H as [H|H].
      + destruct (Hs s eq_refl) as [_ Hv]. apply (Hv cHASH); simpl; auto.
      + cbn in H. intuition discriminate.
    - destruct a as [a|]; [|destruct H]. cbn in H. destruct H as [H|[H|H]]; try discriminate.
      apply (Ha a eq_refl cHASH); simpl; auto.
    - apply (Hp cHASH); simpl; auto.
    - destruct q as [q|]; [|destruct H]. cbn in H. destruct H as [H|H]; try discriminate.
      apply (Hq q eq_refl cHASH); simpl; auto. }
  rewrite HX. destruct f as [f|].
  - rewrite split1_app_sep by assumption. reflexivity.
  - rewrite app_nil_r. now rewrite split1_nosep.
Qed.

(** ** Agreement with RFC 3986 5.2.2 *)

Definition frag_lf_free (c : components) : Prop := forall f, fragment c = Some f -> ~ In cLF f.

(** The base is hierarchical: it has an authority or an absolute path. *)
Definition hierarchical (c : components) : Prop := authority c <> None \/ exists p, path c = cSLASH :: p.

Lemma rfc_dots_nil : rfc_remove_dot_segments [] = Some [].
Proof. reflexivity. Qed.

Lemma model_dots_rfc : forall p, (p = [] \/ exists q, p = cSLASH :: q) ->
  rfc_remove_dot_segments p = Some (remove_dot_segments p).
Proof. intros p [->|[q ->]]; [reflexivity|]. apply remove_dots_rfc. Qed.

Lemma merge_same : forall a b r, merge_path a b r = rfc_merge a b r.
Proof. intros [a|] [|x b] r; reflexivity. Qed.

Lemma rbreak_absolute : forall p, exists q, fst (rbreak1 cSLASH (cSLASH :: p)) = cSLASH :: q.
Proof.
  intro p. simpl. destruct (rbreak1 cSLASH p) as [[|x a] b]; simpl; eauto.
Qed.

Lemma merge_absolute : forall B r, legal B -> hierarchical B -> exists q, rfc_merge (authority B) (path B) r = cSLASH :: q.
Proof.
  intros B r HL HB. unfold rfc_merge.
  assert (Hp : (exists q, path B = cSLASH :: q) \/ (authority B <> None /\ path B = [])).
  { destruct HB as [Ha|Hp]; auto. destruct (legal_path_auth B HL Ha) as [H|[p H]]; auto. left; exists p; auto. }
  destruct Hp as [[q Hq]|[Ha Hp]].
  - rewrite Hq. destruct (rbreak_absolute q) as [q' Hq'].
    destruct (authority B); rewrite Hq'; simpl; eauto.
  - rewrite Hp. destruct (authority B); [simpl; eauto|congruence].
Qed.

Lemma absolutize_relative : forall R B, legal R -> legal B -> frag_lf_free R -> frag_lf_free B ->
  scheme R = None -> has_scheme (recompose B) -> hierarchical B ->
  ~ (authority R = None /\ path R = [] /\ query R = Some []) ->
  exists T, rfc_transform R B = Some T /\ absolutize (recompose R) (recompose B) None = Ok (recompose T).
Proof.
  intros R B LR LB FR FB HsR HB Hh Hq.
  assert (NA : is_absolute (recompose R) = false).
  { unfold is_absolute. destruct (get_scheme (recompose R)) eqn:E; auto.
    apply scheme_component in E; auto. congruence. }
  assert (AB : is_absolute (recompose B) = true) by now apply is_absolute_iff.
  unfold absolutize. rewrite NA, AB. cbn [negb].
  assert (SR : split_uri_ref (recompose R) = Ok (to_parts R)) by now apply split_legal.
  assert (SB : split_uri_ref (recompose B) = Ok (to_parts B)) by now apply split_legal.
  unfold rfc_transform. rewrite HsR.
  destruct (authority R) as [a|] eqn:EaR.
  - (* net path *)
    assert (Hp : path R = [] \/ exists q, path R = cSLASH :: q).
    { destruct (legal_path_auth R LR) as [H|[p H]]; [congruence|auto|right; exists p; auto]. }
    rewrite model_dots_rfc by assumption. cbn [omap].
    eexists; split; [reflexivity|].
    assert (Hhd : exists t, recompose R = cSLASH :: t).
    { unfold recompose. rewrite HsR, EaR. simpl. eauto. }
    destruct Hhd as [t Ht]. rewrite Ht. change (cSLASH =? cHASH) with false. cbv iota. rewrite <- Ht.
    unfold resolve. rewrite SR. cbn [bind]. cbn [to_parts u_scheme u_auth u_path u_query u_frag]. rewrite HsR, SB. cbn [bind].
    rewrite EaR. cbv iota. rewrite unsplit_recompose. reflexivity.
  - destruct (path R) as [|c pR] eqn:EpR.
    + (* empty path *)
      eexists; split; [reflexivity|].
      destruct (query R) as [q|] eqn:EqR.
      * assert (Hhd : exists t, recompose R = cQUEST :: t).
        { unfold recompose. rewrite HsR, EaR, EpR, EqR. simpl. eauto. }
        destruct Hhd as [t Ht]. rewrite Ht. change (cQUEST =? cHASH) with false. cbv iota. rewrite <- Ht.
        unfold resolve. rewrite SR. cbn [bind]. cbn [to_parts u_scheme u_auth u_path u_query u_frag]. rewrite HsR, SB. cbn [bind].
        rewrite EaR, EpR, EqR. destruct q as [|x q].
        { exfalso. apply Hq. auto. }
        rewrite unsplit_recompose. reflexivity.
      * (* same-document reference *)
        assert (ER : recompose R = match fragment R with Some f => cHASH :: f | None => [] end).
        { unfold recompose. rewrite HsR, EaR, EpR, EqR. reflexivity. }
        rewrite ER. rewrite hd_split_hash by assumption.
        destruct (fragment R) as [f|]; f_equal.
        -- unfold recompose. simpl. rewrite app_nil_r, <- !app_assoc. reflexivity.
        -- apply app_nil_r.
    + (* non-empty path *)
      assert (Hhd : exists t, recompose R = c :: t).
      { unfold recompose. rewrite HsR, EaR, EpR. simpl. eauto. }
      destruct Hhd as [t Ht].
      assert (Hc : c <> cHASH).
      { intros ->. apply (legal_path R LR cHASH); [simpl; auto|]. rewrite EpR; now left. }
      rewrite Ht. destruct (N.eqb_spec c cHASH); [congruence|]. rewrite <- Ht.
      unfold resolve. rewrite SR. cbn [bind]. cbn [to_parts u_scheme u_auth u_path u_query u_frag]. rewrite HsR, SB. cbn [bind].
      rewrite EaR, EpR. cbv iota.
      destruct (N.eqb_spec c 47) as [->|Hc'].
      * rewrite model_dots_rfc by eauto. cbn [omap]. eexists; split; [reflexivity|].
        rewrite unsplit_recompose. reflexivity.
      * cbn [to_parts u_scheme u_auth u_path u_query u_frag]. change merge_path with rfc_merge. rewrite model_dots_rfc by (right; now apply merge_absolute).
        cbn [omap]. eexists; split; [reflexivity|].
        rewrite unsplit_recompose. reflexivity.
Qed.

(** ** Totality and absoluteness *)
Lemma absolutize_abs_ref : forall r b l, is_absolute r = true -> absolutize r b l = Ok r.
Proof. intros r b l H. unfold absolutize. now rewrite H. Qed.

Lemma absolutize_rel_base : forall r b l, is_absolute r = false -> is_absolute b = false ->
  absolutize r b l = Err (IriError RELATIVE_BASE_URI).
Proof. intros r b l H1 H2. unfold absolutize. now rewrite H1, H2. Qed.

(** A reference whose text before the first colon is not a scheme name but
    would be split off as one, such as "1:x". *)
Definition bogus_scheme (r : str) : Prop := forall c, legal c -> recompose c = r -> exists s, scheme c = Some s /\ ~ scheme_name s.

Lemma absolutize_total : forall r b, ~ In cLF r -> ~ In cLF b -> is_absolute b = true ->
  exists t, absolutize r b None = Ok t /\
    (is_absolute t = true \/ exists c s, legal c /\ recompose c = r /\ scheme c = Some s /\ ~ scheme_name s).
Proof.
  intros r b Hr Hb Ab.
  destruct (is_absolute r) eqn:Ar.
  { exists r. split; [now apply absolutize_abs_ref|auto]. }
  destruct (split_total r Hr) as (R & LR & ER & SR).
  destruct (split_total b Hb) as (B & LB & EB & SB).
  assert (HSB : exists s, scheme B = Some s /\ scheme_name s).
  { unfold is_absolute in Ab. destruct (get_scheme b) as [s|] eqn:E; [|discriminate].
    exists s. split; [apply scheme_component; [auto|rewrite EB; auto]|]. now apply get_scheme_inv in E as (? & _ & ?). }
  destruct HSB as (sB & HsB & HnB).
  unfold absolutize. rewrite Ar, Ab. cbn [negb].
  assert (Hsd : exists t, Ok (hd [] (split1 cHASH b) ++ r) = Ok t /\ is_absolute t = true).
  { eexists; split; [reflexivity|]. rewrite <- EB, hd_split_hash by assumption.
    apply is_absolute_iff. unfold recompose; simpl. rewrite HsB. eexists sB, _. split; eauto.
    rewrite <- !app_assoc. reflexivity. }
  assert (Hres : exists t, resolve r b = Ok t /\ (is_absolute t = true \/ exists c s, legal c /\ recompose c = r /\ scheme c = Some s /\ ~ scheme_name s)).
  { unfold resolve. rewrite SR. cbn [bind to_parts u_scheme u_auth u_path u_query u_frag].
    destruct (scheme R) as [sR|] eqn:EsR.
    - eexists; split; [reflexivity|]. right. exists R, sR. split; [auto|split; [auto|split; [auto|]]].
      intro Hn. assert (is_absolute (recompose R) = true) by (eapply recompose_absolute; eauto). congruence.
    - rewrite SB. cbn [bind to_parts u_scheme u_auth u_path u_query u_frag].
      assert (G : forall a p q f, is_absolute (unsplit_uri_ref (mkparts (scheme B) a p q f)) = true).
      { intros. rewrite unsplit_recompose. eapply recompose_absolute; simpl; eauto. }
      destruct (authority R); [eexists; split; [reflexivity|auto]|].
      destruct (path R); eexists; split; try reflexivity; auto. }
  destruct r as [|x r'].
  - destruct Hsd as (t & Ht & At). exists t; auto.
  - destruct (x =? cHASH).
    + destruct Hsd as (t & Ht & At). exists t; auto.
    + exact Hres.
Qed.
