(** * Proofs about split_uri_ref / unsplit_uri_ref *)
From Coq Require Import NArith String List Bool Lia.
From Verif Require Import PyStr PyErr Regex Utf8 IriModel IriSpec.
Import ListNotations.
Open Scope N_scope.

Definition to_parts (c : components) : uriparts :=
  mkparts (scheme c) (authority c) (path c) (query c) (fragment c).
Definition of_parts (p : uriparts) : components :=
  Comp (u_scheme p) (u_auth p) (u_path p) (u_query p) (u_frag p).

Lemma unsplit_recompose : forall p, unsplit_uri_ref p = recompose (of_parts p).
Proof. destruct p as [[s|] [a|] pa [q|] [f|]]; reflexivity. Qed.
Lemma unsplit_recompose' : forall c, unsplit_uri_ref (to_parts c) = recompose c.
Proof. intro; rewrite unsplit_recompose; destruct c; reflexivity. Qed.

(** Character classes *)
Lemma not_in_true : forall cs c, not_in cs c = true <-> ~ In c cs.
Proof. intros; unfold not_in. rewrite negb_true_iff. apply mem_false. Qed.
Lemma not_in_false : forall cs c, not_in cs c = false <-> In c cs.
Proof. intros; unfold not_in. rewrite negb_false_iff. apply mem_In. Qed.
Lemma avoids_class : forall s cs, avoids s cs -> forallb (not_in cs) s = true.
Proof.
  intros s cs H. apply forallb_forall. intros x Hx. apply not_in_true. intro Hc. apply (H x); auto.
Qed.
Lemma class_avoids : forall s cs, forallb (not_in cs) s = true -> avoids s cs.
Proof.
  intros s cs H x Hx Hs. rewrite forallb_forall in H. apply H in Hs. apply not_in_true in Hs. auto.
Qed.

(** A repetition followed by text that its class excludes stops there. *)
Lemma star_stop : forall p a b k r, forallb p a = true ->
  match b with [] => True | x :: _ => p x = false end ->
  k b = Some r -> star_m p (a ++ b) k = Some r.
Proof. intros. eapply star_m_max; eauto. apply span_app; auto. Qed.

(** Stage 5: optional fragment and end anchor. *)
Definition K : str -> caps -> res := fun s c => Some (s, c).
Definition frag_text (f : option str) : str := opt_pre [cHASH] f.
Definition st5 (s : str) (c : caps) : res :=
  mtch (Seq (Opt (Seq (Chr (is cHASH)) (Grp 4 (Star dot_class)))) Eol) s c K.
Definition st4 (s : str) (c : caps) : res :=
  mtch (Opt (Seq (Chr (is cQUEST)) (Grp 3 (Star query_class)))) s c st5.
Definition st3 (s : str) (c : caps) : res := mtch (Grp 2 (Star path_class)) s c st4.
Definition st2 (s : str) (c : caps) : res :=
  mtch (Opt (Seq (Chr (is cSLASH)) (Seq (Chr (is cSLASH)) (Grp 1 (Star auth_class))))) s c st3.
Definition st1 (s : str) (c : caps) : res :=
  mtch (Opt (Seq (Grp 0 (Plus scheme_class)) (Chr (is cCOLON)))) s c st2.

Lemma re_match_st1 : forall s, re_match SPLIT_URI_REF_PATTERN s = st1 s [].
Proof. reflexivity. Qed.

Definition addcap (g : nat) (o : option str) (c : caps) : caps :=
  match o with Some s => (g, s) :: c | None => c end.

Lemma st5_ok : forall f c, (forall g, f = Some g -> ~ In cLF g) ->
  st5 (frag_text f) c = Some ([], addcap 4 f c).
Proof.
  intros [f|] c H; unfold st5, frag_text, opt_pre, addcap; cbn [mtch app is].
  - unfold is. rewrite N.eqb_refl.
    erewrite star_m_max with (b := []).
    + reflexivity.
    + rewrite <- (app_nil_r f) at 1. apply span_app; auto.
      apply avoids_class. intros x [<-|[]]. now apply H.
    + cbn. rewrite <- (app_nil_r f) at 1. rewrite consumed_app. reflexivity.
  - reflexivity.
Qed.

Lemma frag_text_head : forall f, match frag_text f with [] => True | x :: _ => x = cHASH end.
Proof. destruct f; simpl; auto. Qed.

Lemma st4_ok : forall q f c, (forall g, q = Some g -> avoids g [cHASH]) ->
  (forall g, f = Some g -> ~ In cLF g) ->
  st4 (opt_pre [cQUEST] q ++ frag_text f) c = Some ([], addcap 4 f (addcap 3 q c)).
Proof.
  intros [q|] f c Hq Hf; unfold st4, opt_pre; cbn [mtch app].
  - unfold is at 1. rewrite N.eqb_refl.
    rewrite star_stop with (r := ([], addcap 4 f ((3%nat, q) :: c))).
    + reflexivity.
    + apply avoids_class; auto.
    + pose proof (frag_text_head f). destruct (frag_text f); auto. subst. reflexivity.
    + rewrite consumed_app. now apply st5_ok.
  - rewrite st5_ok by assumption.
    destruct f; reflexivity.
Qed.

Definition tail_text (q f : option str) : str := opt_pre [cQUEST] q ++ frag_text f.
Lemma tail_head : forall q f, match tail_text q f with [] => True | x :: _ => x = cHASH \/ x = cQUEST end.
Proof. destruct q, f; simpl; auto. Qed.

Lemma st3_ok : forall p q f c, avoids p [cQUEST; cHASH] ->
  (forall g, q = Some g -> avoids g [cHASH]) -> (forall g, f = Some g -> ~ In cLF g) ->
  st3 (p ++ tail_text q f) c = Some ([], addcap 4 f (addcap 3 q ((2%nat, p) :: c))).
Proof.
  intros p q f c Hp Hq Hf. unfold st3; cbn [mtch].
  apply star_stop.
  - now apply avoids_class.
  - pose proof (tail_head q f). destruct (tail_text q f); auto. destruct H; subst; reflexivity.
  - rewrite consumed_app. now apply st4_ok.
Qed.

Lemma st2_ok : forall a p q f c,
  (forall g, a = Some g -> avoids g [cSLASH; cQUEST; cHASH]) ->
  avoids p [cQUEST; cHASH] ->
  (a <> None -> p = [] \/ exists p', p = cSLASH :: p') ->
  (a = None -> forall p', p <> cSLASH :: cSLASH :: p') ->
  (forall g, q = Some g -> avoids g [cHASH]) -> (forall g, f = Some g -> ~ In cLF g) ->
  st2 (opt_pre [cSLASH; cSLASH] a ++ p ++ tail_text q f) c
    = Some ([], addcap 4 f (addcap 3 q ((2%nat, p) :: addcap 1 a c))).
Proof.
  intros [a|] p q f c Ha Hp Hpa Hpn Hq Hf; unfold st2, opt_pre; cbn [mtch app].
  - unfold is. rewrite !N.eqb_refl.
    rewrite star_stop with (r := ([], addcap 4 f (addcap 3 q ((2%nat, p) :: (1%nat, a) :: c)))).
    + reflexivity.
    + apply avoids_class; auto.
    + destruct Hpa as [->|[p' ->]]; try congruence; simpl; auto.
      pose proof (tail_head q f). destruct (tail_text q f); auto. destruct H; subst; reflexivity.
    + rewrite consumed_app. now apply st3_ok.
  - assert (Hfail : mtch (Seq (Chr (is cSLASH)) (Seq (Chr (is cSLASH)) (Grp 1 (Star auth_class))))
              (p ++ tail_text q f) c st3 = None).
    { pose proof (tail_head q f) as Ht.
      destruct p as [|x p].
      - cbn [app]. destruct (tail_text q f) as [|y t]; auto. destruct Ht; subst; reflexivity.
      - cbn [app mtch]. unfold is at 1. destruct (N.eqb_spec cSLASH x); auto.
        destruct p as [|y p].
        + cbn [app]. destruct (tail_text q f) as [|y t]; auto. destruct Ht; subst; reflexivity.
        + cbn [app]. unfold is. destruct (N.eqb_spec cSLASH y); auto.
          subst. exfalso. eapply Hpn; eauto. }
    cbn [mtch] in Hfail. rewrite Hfail. now apply st3_ok.
Qed.

(** A scheme-less text on which the optional scheme group fails. *)
Lemma scheme_fails : forall s c k,
  (forall a b, s = a ++ cCOLON :: b -> a <> [] -> forallb scheme_class a = false) ->
  mtch (Seq (Grp 0 (Plus scheme_class)) (Chr (is cCOLON))) s c k = None.
Proof.
  intros s c k H. cbn [mtch]. destruct s as [|x s]; auto.
  destruct (scheme_class x) eqn:Hx; auto.
  apply star_m_some. intros a b -> Ha. destruct b as [|y b]; auto.
  unfold is. destruct (N.eqb_spec cCOLON y); auto. subst.
  specialize (H (x :: a) b eq_refl). simpl in H. rewrite Hx, Ha in H. simpl in H.
  discriminate H. congruence.
Qed.

(** The scanner reads back the components of every legal tuple whose
    fragment has no line feed. *)
Lemma split_legal : forall c, legal c -> (forall f, fragment c = Some f -> ~ In cLF f) ->
  split_uri_ref (recompose c) = Ok (to_parts c).
Proof.
  intros [s a p q f] [Hs Ha Hp Hpa Hpn Hps Hq] Hf. simpl in *.
  assert (E : re_match SPLIT_URI_REF_PATTERN
                (match s with Some t => t ++ [cCOLON] | None => [] end
                 ++ opt_pre [cSLASH; cSLASH] a ++ p ++ tail_text q f)
            = Some ([], addcap 4 f (addcap 3 q ((2%nat, p) :: addcap 1 a (addcap 0 s []))))).
  { rewrite re_match_st1.
    assert (Hst2 : forall c, st2 (opt_pre [cSLASH; cSLASH] a ++ p ++ tail_text q f) c
       = Some ([], addcap 4 f (addcap 3 q ((2%nat, p) :: addcap 1 a c)))).
    { intro c. apply st2_ok; auto. }
    destruct s as [s|].
    - destruct (Hs s eq_refl) as [Hne Hav]. destruct s as [|x s]; [congruence|].
      apply avoids_class in Hav. change (lit ":/?#") with [cCOLON; cSLASH; cQUEST; cHASH] in Hav.
      fold scheme_class in Hav. simpl forallb in Hav. apply andb_true_iff in Hav as [Hx Hav].
      unfold st1. cbn [mtch app]. rewrite Hx. rewrite <- app_assoc.
      rewrite star_stop with (a := s) (r := ([], addcap 4 f (addcap 3 q ((2%nat, p) :: addcap 1 a [(0%nat, x :: s)])))).
      + reflexivity.
      + exact Hav.
      + reflexivity.
      + cbn [app]. unfold is at 1. rewrite N.eqb_refl.
        rewrite consumed_cons_app. apply Hst2.
    - unfold st1. cbn [app]. 
      change (mtch (Opt (Seq (Grp 0 (Plus scheme_class)) (Chr (is cCOLON)))) ?x ?y ?z) with
        (match mtch (Seq (Grp 0 (Plus scheme_class)) (Chr (is cCOLON))) x y z with
         | Some r => Some r | None => z x y end).
      rewrite scheme_fails; [apply Hst2|].
      intros u v Huv Hu.
      destruct (forallb scheme_class u) eqn:Hcl; auto. exfalso.
      apply class_avoids in Hcl.
      destruct a as [a|].
      { simpl in Huv. destruct u as [|y u]; [congruence|]. injection Huv as <- _.
        apply (Hcl cSLASH); simpl; auto. }
      simpl in Huv.
      (* the colon lies in the path, or u contains a delimiter *)
      assert (Hin : forall x, In x (p ++ tail_text q f) -> True) by auto.
      destruct (Compare_dec.le_lt_dec (length p) (length u)) as [Hle|Hlt].
      + (* u covers p: then u contains '?' or '#' unless the tail starts with ':' *)
        assert (Hu' : exists w, u = p ++ w /\ tail_text q f = w ++ cCOLON :: v).
        { clear - Huv Hle. revert u Huv Hle. induction p as [|x p IH]; simpl; intros u Huv Hle.
          - exists u; auto.
          - destruct u as [|y u]; simpl in *; [lia|]. injection Huv as <- Huv.
            destruct (IH u Huv) as [w [-> Hw]]; [lia|]. exists w; auto. }
        destruct Hu' as [w [-> Hw]].
        pose proof (tail_head q f) as Ht. rewrite Hw in Ht. destruct w as [|y w]; simpl in Ht.
        * destruct Ht; discriminate.
        * apply (Hcl y). { destruct Ht as [->| ->]; simpl; auto. } apply in_or_app; right; now left.
      + assert (Hp' : exists w, p = u ++ cCOLON :: w).
        { clear - Huv Hlt. revert u Huv Hlt. induction p as [|x p IH]; simpl; intros u Huv Hlt; [lia|].
          destruct u as [|y u]; simpl in *.
          - injection Huv as -> _. exists p; auto.
          - injection Huv as <- Huv. destruct (IH u Huv) as [w ->]; [lia|]. exists w; auto. }
        destruct Hp' as [w ->].
        destruct (Hps eq_refl eq_refl _ _ eq_refl) as [?|[?|?]]; [congruence| |].
        * apply (Hcl cCOLON); simpl; auto.
        * apply (Hcl cSLASH); simpl; auto. }
  assert (R : recompose (Comp s a p q f) =
              match s with Some t => t ++ [cCOLON] | None => [] end
                 ++ opt_pre [cSLASH; cSLASH] a ++ p ++ tail_text q f).
  { unfold recompose, tail_text, frag_text; simpl. reflexivity. }
  unfold split_uri_ref. rewrite R, E.
  destruct s, a, q, f; reflexivity.
Qed.

(** Every string has a legal decomposition. *)
Lemma decompose : forall u, exists c, legal c /\ recompose c = u.
Proof.
  intro u.
  (* fragment *)
  assert (Hf : exists r f, u = r ++ opt_pre [cHASH] f /\ ~ In cHASH r).
  { destruct (break1 cHASH u) as [[a b]|] eqn:E.
    - apply break1_Some in E as [-> Hn]. exists a, (Some b); auto.
    - apply break1_None in E. exists u, None. split; auto. simpl; now rewrite app_nil_r. }
  destruct Hf as (r & f & -> & Hr).
  assert (Hq : exists r' q, r = r' ++ opt_pre [cQUEST] q /\ ~ In cQUEST r' /\ ~ In cHASH r' /\
                 (forall g, q = Some g -> ~ In cHASH g)).
  { destruct (break1 cQUEST r) as [[a b]|] eqn:E.
    - apply break1_Some in E as [-> Hn]. exists a, (Some b). split; [auto|]. split; auto. split.
      + intro; apply Hr; apply in_or_app; auto.
      + intros g Hg; injection Hg as <-. intro; apply Hr; apply in_or_app; simpl; auto.
    - apply break1_None in E. exists r, None. split; [simpl; now rewrite app_nil_r|]. repeat split; auto. congruence. }
  destruct Hq as (r' & q & -> & Hq1 & Hq2 & Hq3). clear Hr.
  (* scheme *)
  assert (Hs : exists s t, r' = match s with Some s => s ++ [cCOLON] | None => [] end ++ t /\
     (forall g, s = Some g -> g <> [] /\ avoids g (lit ":/?#")) /\
     (s = None -> forall a b, t = a ++ cCOLON :: b -> a = [] \/ In cCOLON a \/ In cSLASH a)).
  { destruct (span scheme_class r') as [a b] eqn:E. apply span_spec in E as (-> & Ha & Hb).
    assert (Hno : a = [] \/ (exists y b', b = y :: b' /\ y <> cCOLON) \/ b = [] \/ exists b', a <> [] /\ b = cCOLON :: b').
    { destruct a; auto. right. destruct b as [|y b]; auto. destruct (N.eq_dec y cCOLON); subst; [right; right|left]; eauto.
      exists b; split; auto; congruence. }
    destruct Hno as [->|[(y & b' & -> & Hy)|[->|(b' & Hne & ->)]]].
    - exists None, b. split; [reflexivity|]. split; [congruence|].
      intros _ u v -> . destruct u as [|y u]; [auto|]. right. cbn [app] in Hb.
      apply not_in_false in Hb. simpl in Hb.
      destruct Hb as [<-|[<-|[<-|[<-|[]]]]]; simpl; auto.
      + exfalso; apply Hq1; simpl; auto.
      + exfalso; apply Hq2; simpl; auto.
    - exists None, (a ++ y :: b'). split; [reflexivity|]. split; [congruence|].
      intros _ u v Huv. cbn in Hb. apply not_in_false in Hb.
      (* y is one of the delimiters; it is a slash *)
      assert (y = cSLASH).
      { simpl in Hb. destruct Hb as [<-|[<-|[<-|[<-|[]]]]]; auto; try congruence; exfalso.
        - apply Hq1; apply in_or_app; simpl; auto.
        - apply Hq2; apply in_or_app; simpl; auto. }
      subst y.
      (* compare positions: the colon cannot lie in a *)
      destruct (in_dec N.eq_dec cSLASH u) as [|Hsl]; auto.
      right; left. exfalso.
      assert (Hin : In cCOLON a).
      { clear - Huv Hsl. revert u Huv Hsl. induction a as [|x a IH]; simpl; intros u Huv Hsl.
        - destruct u as [|z u]; [discriminate|]. injection Huv as <- _. exfalso; apply Hsl; now left.
        - destruct u as [|z u]; simpl in Huv.
          + injection Huv as -> _. now left.
          + injection Huv as <- Huv. right. apply (IH u); auto. intro; apply Hsl; now right. }
      rewrite forallb_forall in Ha. apply Ha in Hin. discriminate.
    - exists None, a. rewrite app_nil_r. split; [reflexivity|]. split; [congruence|].
      intros _ u v ->. rewrite forallb_app in Ha. apply andb_true_iff in Ha as [_ Ha]. discriminate.
    - exists (Some a), b'. split; [now rewrite <- app_assoc|]. split; [|congruence].
      intros g Hg; injection Hg as <-. split; auto. now apply class_avoids. }
  destruct Hs as (s & t & -> & Hs1 & Hs2).
  assert (Hqt : ~ In cQUEST t) by (intro; apply Hq1; apply in_or_app; auto).
  assert (Hht : ~ In cHASH t) by (intro; apply Hq2; apply in_or_app; auto).
  clear Hq1 Hq2.
  (* authority *)
  assert (Ha : exists a p, t = opt_pre [cSLASH; cSLASH] a ++ p /\
     (forall g, a = Some g -> avoids g (lit "/?#")) /\
     (a <> None -> p = [] \/ exists p', p = cSLASH :: p') /\
     (a = None -> p = t /\ forall p', p <> cSLASH :: cSLASH :: p')).
  { destruct (prefixb [cSLASH; cSLASH] t) eqn:E.
    - apply prefixb_spec in E as [t' ->].
      destruct (span auth_class t') as [a b] eqn:E. apply span_spec in E as (-> & Ha & Hb).
      exists (Some a), b. split; [reflexivity|]. split; [|split].
      + intros g Hg; injection Hg as <-. now apply class_avoids.
      + intros _. destruct b as [|y b]; auto. right. apply not_in_false in Hb. simpl in Hb.
        destruct Hb as [<-|[<-|[<-|[]]]]; eauto; exfalso.
        * apply Hqt; simpl; right; right; apply in_or_app; simpl; auto.
        * apply Hht; simpl; right; right; apply in_or_app; simpl; auto.
      + congruence.
    - exists None, t. split; [reflexivity|]. split; [congruence|]. split; [congruence|].
      intros _. split; auto. intros p' ->. discriminate. }
  destruct Ha as (a & p & -> & Ha1 & Ha2 & Ha3).
  exists (Comp s a p q f). split.
  - constructor; simpl.
    + exact Hs1.
    + exact Ha1.
    + intros x [<-|[<-|[]]]; intro; [apply Hqt|apply Hht]; apply in_or_app; auto.
    + exact Ha2.
    + intros Hn p'. now apply Ha3.
    + intros Hn1 Hn2. destruct (Ha3 Hn2) as [Hp _]. subst a. simpl in *. apply Hs2; auto.
    + intros g Hg x [<-|[]]. now apply Hq3.
  - unfold recompose; simpl. rewrite <- !app_assoc. reflexivity.
Qed.

(** No line feed at all: the fragment has none either. *)
Lemma recompose_frag_lf : forall c f, ~ In cLF (recompose c) -> fragment c = Some f -> ~ In cLF f.
Proof.
  intros c f H Hf Hin. apply H. unfold recompose. rewrite Hf.
  repeat (apply in_or_app; right). simpl; auto.
Qed.

Lemma split_total : forall u, ~ In cLF u -> exists c, legal c /\ recompose c = u /\ split_uri_ref u = Ok (to_parts c).
Proof.
  intros u Hu. destruct (decompose u) as (c & Hl & <-). exists c. split; [auto|]. split; [auto|].
  apply split_legal; auto. intros f Hf. eapply recompose_frag_lf; eauto.
Qed.

Lemma split_unsplit : forall u, ~ In cLF u -> exists p, split_uri_ref u = Ok p /\ unsplit_uri_ref p = u.
Proof.
  intros u Hu. destruct (split_total u Hu) as (c & _ & Hr & Hs).
  exists (to_parts c). split; auto.
Qed.
