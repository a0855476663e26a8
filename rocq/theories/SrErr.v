(** * The errors of the reader *)
From Coq Require Import NArith ZArith String List Bool Lia Arith Permutation.
From Verif Require Import PyStr PyErr DtdModel DtdSpec DtdDfa DtdProps SrModel SrSpec SrMatch SrAttrs SrRead SrDoc SrCache.
Import ListNotations.
Local Open Scope nat_scope.

(** ** Content models that may end anywhere *)
Lemma forall_may_end m (P : event -> Prop) : (forall v, matches m v <-> Forall P v) -> may_end m.
Proof. intros H u v M. apply H in M. apply H. apply Forall_app in M. apply M. Qed.
Lemma empty_may_end : may_end m_empty.
Proof.
  intros u v M. apply matches_opt in M; [|reflexivity]. apply matches_opt; [reflexivity|]. destruct M as [M|M].
  - apply app_eq_nil in M. left. apply M.
  - apply once_name_iff in M. destruct u as [|x u]; [auto|]. injection M as -> M. apply app_eq_nil in M. destruct M as [-> _]. right. apply once_name_iff. reflexivity.
Qed.
Lemma seq_may_end n m : may_end m -> may_end (CSeq One [CName Rep n; m]).
Proof.
  intros H u v M. apply matches_one in M; [|reflexivity]. apply once_seq_iff in M. apply in_turn_cons in M. destruct M as (v1 & v2 & E & M1 & M2).
  apply in_turn_cons in M2. destruct M2 as (v3 & v4 & -> & M3 & M4). apply in_turn_nil in M4. subst v4. rewrite app_nil_r in E.
  apply matches_one; [reflexivity|]. apply once_seq_iff. apply in_turn_cons. apply rep_name in M1.
  assert (exists s, (u = v1 ++ s /\ v3 = s ++ v) \/ (v1 = u ++ s /\ v = s ++ v3)) as (s & [[E1 E2]|[E1 E2]]).
  { revert v1 E M1. induction u as [|x u IH]; intros v1 E M1; [exists v1; right; auto|]. destruct v1 as [|y v1]; [exists (x :: u); left; auto|].
    injection E as -> E. inversion M1 as [|a b A B]. subst. destruct (IH v1 E B) as (s & [[-> ->]|[-> ->]]); exists s; [left|right]; auto. }
  - subst u v3. exists v1, s. split; [reflexivity|]. split; [apply rep_name; exact M1|]. apply in_turn_cons. exists s, []. rewrite app_nil_r. split; [reflexivity|]. split; [exact (H s v M3)|apply in_turn_nil; reflexivity].
  - subst v1 v. exists u, []. rewrite app_nil_r. split; [reflexivity|]. split; [apply rep_name; apply Forall_app in M1; apply M1|]. apply in_turn_cons. exists [], []. split; [reflexivity|].
    split; [exact (H [] v3 M3)|apply in_turn_nil; reflexivity].
Qed.
Lemma template_may_end : may_end m_template.
Proof. apply (forall_may_end _ ev_template). apply m_template_iff. Qed.
Lemma top_may_end : may_end m_top_level.
Proof. apply (forall_may_end _ ev_top). apply m_top_iff. Qed.
Lemma name_may_end n : may_end (CName Rep n).
Proof. eapply forall_may_end. apply rep_name. Qed.
Lemma names_may_end ns : may_end (CAlt Rep (map (CName One) ns)).
Proof. eapply forall_may_end. apply rep_names. Qed.
Lemma class_may_end n m ts : m_class n = Some (m, ts) -> inhabited m /\ (n = lit "choose" \/ may_end m).
Proof.
  unfold m_class. cbv beta zeta. intros H.
  repeat match type of H with
  | (if ?b then _ else _) = _ => let E := fresh "E" in destruct b eqn:E;
      [injection H as <- _; split; [cbn; intuition discriminate|];
       first [left; apply str_eqb_eq; exact E|right; first [exact empty_may_end|exact template_may_end|apply name_may_end|exact (names_may_end [lit "sort"; lit "with-param"])|apply seq_may_end; first [exact template_may_end|exact top_may_end]]]|clear E]
  end.
  discriminate H.
Qed.

Section E.
Variable w : world.
Hypothesis G : good_world w.
Hypothesis O : open_ended w.

Lemma is_error c : (151 <= c <= 161)%N -> xslt_error (OtherError c).
Proof. intros H. exists c. auto. Qed.
Ltac xerr := apply is_error; lia.
Lemma bind_err {A B} (x : result A) (f : A -> result B) er : (do a <- x ; f a) = Err er -> x = Err er \/ exists a, x = Ok a /\ f a = Err er.
Proof. destruct x as [a|e]; cbn [bind]; intros H; [right; exists a; auto|left; injection H as ->; reflexivity]. Qed.

(** ** The attributes *)
Lemma attr_found l ns a v : attr l ns a = Some v -> exists ns', In ((ns', a), v) l.
Proof.
  induction l as [|[[ns' a'] v'] l IH]; cbn [attr]; [intros H; discriminate H|]. destruct (ostr_eqb ns' ns && str_eqb a' a) eqn:E.
  - intros H. injection H as <-. apply andb_true_iff in E. destruct E as [_ E]. apply str_eqb_eq in E. subst a'. exists ns'. left. reflexivity.
  - intros H. destruct (IH H) as (n & I). exists n. right. exact I.
Qed.
Lemma prefixes_err scope ps er : all_prefixes scope ps = Err er -> exists q, In q ps /\ in_scope scope q = None.
Proof.
  induction ps as [|p ps IH]; cbn [all_prefixes]; [intros H; discriminate H|]. destruct (in_scope scope p) eqn:E; [|intros _; exists p; cbn; auto].
  destruct (all_prefixes scope ps); cbn [bind]; intros H; [discriminate H|]. destruct (IH H) as (q & I & N). exists q. cbn. auto.
Qed.
Lemma standard_err e ns a v m er : prefixes_declared w e -> In ((ns, a), v) (e_attrs e) -> standard_attr w e a v m = Err er -> xslt_error er.
Proof.
  intros D I. unfold standard_attr. destruct (str_eqb a (lit "extension-element-prefixes")) eqn:E1.
  - apply str_eqb_eq in E1. destruct (w_prefixes w v) as [ps|] eqn:P; [|intros H; injection H as <-; xerr]. intros H. apply bind_err in H. destruct H as [H|(us & _ & H)]; [|discriminate H].
    apply prefixes_err in H. destruct H as (q & Iq & N). destruct (D ns a v ps I (or_introl E1) P q Iq N).
  - destruct (str_eqb a (lit "exclude-result-prefixes")) eqn:E2.
    + apply str_eqb_eq in E2. destruct (w_prefixes w v) as [ps|] eqn:P; [|intros H; injection H as <-; xerr]. intros H. apply bind_err in H. destruct H as [H|(us & _ & H)]; [|discriminate H].
      apply prefixes_err in H. destruct H as (q & Iq & N). destruct (D ns a v ps I (or_intror E2) P q Iq N).
    + destruct (str_eqb a (lit "version")); [destruct (w_number w v); intros H; [discriminate H|injection H as <-; xerr]|]. destruct (w_value w _ _ _ v); intros H; [discriminate H|injection H as <-; xerr].
Qed.
Lemma result_err e ns a v m er : prefixes_declared w e -> In ((ns, a), v) (e_attrs e) -> result_attr w e a v m = Err er -> xslt_error er.
Proof. intros D I. unfold result_attr. destruct (one_of _ a); [apply (standard_err e ns); auto|]. intros H. injection H as <-. xerr. Qed.
Lemma legal_err sheet e ts : prefixes_declared w e -> forall m er, legal_attrs w sheet e ts m = Err er -> xslt_error er.
Proof.
  intros D. induction ts as [|[n q] ts IH]; intros m er; cbn [legal_attrs]; [intros H; discriminate H|].
  destruct (attr (e_attrs e) None n) as [v|] eqn:A; [|destruct q; [intros H; injection H as <-; xerr|apply IH]].
  intros H. apply bind_err in H. destruct H as [H|(m' & _ & H)]; [|exact (IH _ _ H)]. destruct sheet.
  - apply attr_found in A. destruct A as (ns & A). exact (standard_err e ns n v m er D A H).
  - destruct (w_value w _ _ _ v); [discriminate H|]. injection H as <-. xerr.
Qed.
Lemma other_err ts fc l er : other_xsl_attrs ts fc l = Err er -> xslt_error er.
Proof.
  induction l as [|[[[u|] n] v] l IH]; cbn [other_xsl_attrs]; [intros H; discriminate H|exact IH|]. destruct (one_of _ n); [exact IH|]. destruct fc; [exact IH|]. intros H. injection H as <-. xerr.
Qed.
Lemma ext_err e ts l : prefixes_declared w e -> incl l (e_attrs e) -> forall m er, other_ext_attrs w e ts l m = Err er -> xslt_error er.
Proof.
  intros D. induction l as [|[[ns n] v] l IH]; intros I m er; cbn [other_ext_attrs]; [intros H; discriminate H|].
  assert (incl l (e_attrs e)) as I2 by (intros x Ix; apply I; right; exact Ix). specialize (IH I2).
  assert ((if ostr_eqb ns (Some XSL_NAMESPACE) then do m' <- result_attr w e n v m ; other_ext_attrs w e ts l m' else other_ext_attrs w e ts l m) = Err er -> xslt_error er) as K.
  { destruct (ostr_eqb ns (Some XSL_NAMESPACE)); [|apply IH]. intros H. apply bind_err in H. destruct H as [H|(m' & _ & H)]; [|exact (IH _ _ H)]. apply (result_err e ns n v m er D); [apply I; left; reflexivity|exact H]. }
  destruct ns; [exact K|]. destruct ts; [|exact K]. destruct (one_of _ n); [apply IH|]. intros H. injection H as <-. xerr.
Qed.
Lemma literal_err e l : prefixes_declared w e -> incl l (e_attrs e) -> forall m er, literal_attrs w e l m = Err er -> xslt_error er.
Proof.
  intros D. induction l as [|[[ns n] v] l IH]; intros I m er; cbn [literal_attrs]; [intros H; discriminate H|].
  assert (incl l (e_attrs e)) as I2 by (intros x Ix; apply I; right; exact Ix). specialize (IH I2).
  destruct (ostr_eqb ns (Some XSL_NAMESPACE)).
  - intros H. apply bind_err in H. destruct H as [H|(m' & _ & H)]; [|exact (IH _ _ H)]. apply (result_err e ns n v m er D); [apply I; left; reflexivity|exact H].
  - destruct (w_value w _ _ _ v); [apply IH|]. intros H. injection H as <-. xerr.
Qed.
Lemma attributes_err k e m er : prefixes_declared w e -> attributes w k e m = Err er -> xslt_error er.
Proof.
  intros D. unfold attributes.
  assert (forall l1 l2 : bool, (do m' <- legal_attrs w l1 e (match c_attrs k with Some ts => ts | None => [] end) m ; do _ <- other_xsl_attrs (match c_attrs k with Some ts => ts | None => [] end) (fst m') (e_attrs e) ; Ok m') = Err er -> xslt_error er) as K1.
  { intros l1 _ H. apply bind_err in H. destruct H as [H|(m' & _ & H)]; [exact (legal_err _ _ _ D _ _ H)|]. apply bind_err in H. destruct H as [H|(u & _ & H)]; [exact (other_err _ _ _ _ H)|discriminate H]. }
  assert ((do m' <- (match c_attrs k with Some ts => legal_attrs w false e ts m | None => Ok m end) ; other_ext_attrs w e (c_attrs k) (e_attrs e) m') = Err er -> xslt_error er) as K2.
  { intros H. apply bind_err in H. destruct H as [H|(m' & _ & H)]; [|exact (ext_err e _ _ D (incl_refl _) _ _ H)]. destruct (c_attrs k); [exact (legal_err _ _ _ D _ _ H)|discriminate H]. }
  destruct (c_kind k); [apply literal_err; [exact D|apply incl_refl]|apply (K1 _ true)|apply (K1 _ true)|exact K2|exact K2|apply literal_err; [exact D|apply incl_refl]].
Qed.

(** ** The levels *)
Definition sound (l : level) : Prop :=
  l_kind l <> KRoot /\ exists m v, proper m /\ inhabited m /\ compile (w_order w) m = Ok (l_dfa l) /\ ~ In EFinal v /\ walk (l_dfa l) 0 v = Some (l_at l).
Definition ends (e : elem) (l : level) : Prop :=
  xsl e = true /\ e_local e = lit "choose" \/ exists m, proper m /\ compile (w_order w) m = Ok (l_dfa l) /\ inhabited m /\ may_end m.
Lemma sound_step l n k : sound l -> lookup (nth (l_at l) (l_dfa l) []) (EName n) = Some k -> sound (at_state l k).
Proof.
  intros (K & m & v & P & I & C & N & W) L. split; [exact K|]. exists m, (v ++ [EName n]). cbn [at_state l_dfa l_at]. split; [exact P|]. split; [exact I|]. split; [exact C|].
  split; [intros Q; apply in_app_iff in Q; destruct Q as [Q|[Q|[]]]; [exact (N Q)|discriminate Q]|]. rewrite walk_app, W. cbn [walk]. rewrite L. reflexivity.
Qed.
Lemma finish_err l e er : sound l -> ends e l -> finish w l e = Err er -> xslt_error er.
Proof.
  intros (K & m & v & P & I & C & N & W) E. unfold finish. destruct (lookup (nth (l_at l) (l_dfa l) []) EFinal) eqn:L; [intros H; discriminate H|].
  destruct E as [[X E]|(m2 & P2 & C2 & I2 & ME)].
  - rewrite X, E. cbn [andb]. replace (str_eqb (lit "choose") (lit "choose")) with true by reflexivity. intros H. injection H as <-. xerr.
  - exfalso. destruct (compile_ok w G m2 P2) as (d & Cd & A & V). rewrite C2 in Cd. injection Cd as <-. specialize (V I2 v N). rewrite W in V. destruct V as [V _]. destruct V as (u & M); [discriminate|].
    apply ME in M. apply A in M. unfold accepts in M. rewrite walk_app, W in M. cbn [walk] in M. rewrite L in M. discriminate M.
Qed.
Lemma class_ok l e k : find_class w l e = Ok k -> exists q d, role_of w {| x_fc := l_fc l; x_exts := l_exts l; x_top := false |} e = Some q /\ k = entry_of q d /\ proper (model_of q) /\ inhabited (model_of q) /\ compile (w_order w) (model_of q) = Ok d /\
  (xsl e = true /\ e_local e = lit "choose" \/ may_end (model_of q)).
Proof.
  intros F. set (p := {| x_fc := l_fc l; x_exts := l_exts l; x_top := false |}). apply (find_class_iff w l p e k eq_refl eq_refl) in F. destruct F as (q & d & Eq & C & ->). exists q, d.
  split; [exact Eq|]. split; [reflexivity|]. split; [exact (role_proper w p e q G Eq)|].
  unfold role_of in Eq. destruct (in_xsl e) eqn:X.
  - pose proof (class_row (e_local e)) as R. destruct (row attribute_table (e_local e)).
    + injection Eq as <-. cbn [model_of] in *. destruct (m_class (e_local e)) as [[m ts]|] eqn:M; [|discriminate R]. destruct (class_may_end _ _ _ M) as [I D]. split; [exact I|]. split; [exact C|].
      destruct D as [D|D]; [left|right; exact D]. replace (xsl e) with (in_xsl e) by apply in_xsl_eq. auto.
    + destruct (x_fc p); [|discriminate Eq]. injection Eq as <-. split; [exact inhabited_template|]. split; [exact C|right; exact template_may_end].
  - destruct (existsb _ _); [destruct (w_ext w (e_ns e) (e_local e)) as [[m ts]|] eqn:We|].
    + injection Eq as <-. destruct (O _ _ _ _ We) as [I M]. split; [exact I|]. split; [exact C|right; exact M].
    + injection Eq as <-. split; [exact inhabited_template|]. split; [exact C|right; exact template_may_end].
    + injection Eq as <-. split; [exact inhabited_template|]. split; [exact C|right; exact template_may_end].
Qed.
Lemma class_err l e er : l_kind l <> KRoot -> find_class w l e = Err er -> xslt_error er.
Proof.
  intros K F. assert (forall m (f : dfa -> entry), proper m -> (do d <- compile (w_order w) m ; Ok (f d)) <> Err er) as KC.
  { intros m f P. destruct (compile_ok w G m P) as (d & C & _). rewrite C. discriminate. }
  unfold find_class in F. destruct (xsl e).
  - pose proof (class_row (e_local e)) as R. destruct (m_class (e_local e)) as [[m ts]|].
    + exfalso. refine (KC m _ _ F). apply R.
    + destruct (negb (l_fc l)); [|exfalso; exact (KC _ _ template_proper F)]. unfold static in F. destruct (l_kind l); try congruence; injection F as <-; xerr.
  - exfalso. destruct (existsb _ _); [destruct (w_ext w (e_ns e) (e_local e)) as [[m ts]|] eqn:We|].
    + destruct G as [_ G2]. exact (KC m _ (G2 _ _ _ _ We) F).
    + exact (KC _ _ template_proper F).
    + exact (KC _ _ template_proper F).
Qed.
Lemma static_err {A} k c er : k <> KRoot -> (151 <= c <= 161)%N -> static (A := A) k (OtherError c) = Err er -> xslt_error er.
Proof. unfold static. intros K H. destruct k; intros Q; try congruence; injection Q as <-; apply is_error; exact H. Qed.
Lemma start_err l r e k er : l_kind l <> KRoot -> prefixes_declared w e -> start_element w l r e k = Err er -> xslt_error er.
Proof.
  intros K D. unfold start_element. intros H. apply bind_err in H. destruct H as [H|(l1 & _ & H)].
  - destruct (lookup _ _); [discriminate H|]. destruct (l_kind l) eqn:Kl; try discriminate H; try congruence; (eapply static_err; [| |exact H]; [congruence|lia]).
  - apply bind_err in H. destruct H as [H|(m & _ & H)]; [exact (attributes_err _ _ _ _ D H)|]. cbv zeta in H. apply bind_err in H. destruct H as [H|(u & _ & H)]; [|discriminate H].
    destruct (c_kind k); try discriminate H. destruct (if is_sheet _ then _ else _); [|discriminate H]. destruct (_ && _ && _); [|discriminate H]. eapply static_err; [exact K| |exact H]. lia.
Qed.
(** What a successful start gives. *)
Lemma start_ok l r e k s : sound l -> find_class w l e = Ok k -> start_element w l r e k = Ok s ->
  sound (fst (fst s)) /\ sound (snd (fst s)) /\ ends e (snd (fst s)) /\ l_kind (snd (fst s)) = c_kind k /\ l_kind (fst (fst s)) = l_kind l /\ l_id (fst (fst s)) = l_id l /\ l_dfa (fst (fst s)) = l_dfa l /\
  (no_sheet e -> r_sheet (snd s) = r_sheet r).
Proof.
  intros S F H. apply class_ok in F. destruct F as (q & d & Eq & -> & P & I & C & M). unfold start_element in H. apply bind_ok in H. destruct H as (l1 & H1 & H). apply bind_ok in H. destruct H as (m & _ & H). cbv zeta in H. apply bind_ok in H. destruct H as (u & _ & H). injection H as <-.
  cbn [fst snd entry_of c_kind c_dfa c_token l_kind r_sheet] in *.
  assert (sound l1 /\ l_kind l1 = l_kind l /\ l_id l1 = l_id l /\ l_dfa l1 = l_dfa l) as (S1 & K1 & I1 & D1).
  { destruct (lookup (nth (l_at l) (l_dfa l) []) (EName (token_of q))) as [k'|] eqn:L; [injection H1 as <-; split; [exact (sound_step _ _ _ S L)|auto]|].
    unfold static in H1. destruct (l_kind l) eqn:Kl; try discriminate H1. injection H1 as <-. auto. }
  split; [exact S1|]. split; [|split; [|split; [reflexivity|split; [exact K1|split; [exact I1|split; [exact D1|]]]]]].
  - split; [cbn [l_kind]; destruct q; discriminate|]. exists (model_of q), []. cbn [l_dfa l_at]. split; [exact P|]. split; [exact I|]. split; [exact C|]. split; [intros []|reflexivity].
  - destruct M as [M|M]; [left; exact M|]. right. exists (model_of q). auto.
  - intros NS. pose proof (role_no_sheet w _ e q Eq NS) as T. destruct q; cbn [kind_of is_sheet inside x_top] in *; try reflexivity. rewrite T. reflexivity.
Qed.
Lemma end_ok l r e c l' r' : end_element w l r e c = Ok (l', r') -> l_kind l' = l_kind l /\ l_dfa l' = l_dfa l /\ l_at l' = l_at l /\ l_id l' = l_id l /\ r_sheet r' = r_sheet r.
Proof.
  unfold end_element. intros H. apply bind_ok in H. destruct H as (nodes & _ & H). destruct (is_variable (l_kind c)); [|injection H as <- <-; auto].
  destruct (match r_sheet r with Some s => s =? l_id l | None => false end).
  - destruct (one_of (r_globals r) _); [discriminate H|]. injection H as <- <-. auto.
  - destruct (one_of (l_vars l) _); [discriminate H|]. injection H as <- <-. auto 6.
Qed.
Lemma end_err l r e c er : sound c -> ends e c -> end_element w l r e c = Err er -> xslt_error er.
Proof.
  intros S E. unfold end_element. intros H. apply bind_err in H. destruct H as [H|(nodes & _ & H)]; [exact (finish_err _ _ _ S E H)|]. destruct (is_variable (l_kind c)); [|discriminate H].
  destruct (match r_sheet r with Some s => s =? l_id l | None => false end).
  - destruct (one_of (r_globals r) _); [injection H as <-; xerr|discriminate H].
  - destruct (one_of (l_vars l) _); [injection H as <-; xerr|discriminate H].
Qed.
Definition kept (l l' : level) (r r' : reader) : Prop := sound l' /\ l_kind l' = l_kind l /\ l_dfa l' = l_dfa l /\ l_id l' = l_id l /\ r_sheet r' = r_sheet r.
Definition tame (x : snode) : Prop := forall l r, sound l -> (forall er, rn w x l r = Err er -> xslt_error er) /\ (forall l' r', rn w x l r = Ok (l', r') -> kept l l' r r').
Lemma tame_nodes ks : Forall tame ks -> forall l r, sound l -> (forall er, rns w ks l r = Err er -> xslt_error er) /\ (forall l' r', rns w ks l r = Ok (l', r') -> kept l l' r r').
Proof.
  induction ks as [|k ks IH]; intros F l r S; cbn [rns].
  - split; [intros er H; discriminate H|]. intros l' r' H. injection H as <- <-. unfold kept. auto.
  - inversion F as [|k' ks' F1 F2]; subst. destruct (F1 l r S) as [T1 T2]. split.
    + intros er H. apply bind_err in H. destruct H as [H|([l1 r1] & H1 & H)]; [exact (T1 _ H)|]. cbn [fst snd] in H. destruct (T2 _ _ H1) as (S1 & _). apply (IH F2 l1 r1 S1). exact H.
    + intros l' r' H. apply bind_ok in H. destruct H as ([l1 r1] & H1 & H). cbn [fst snd] in H. destruct (T2 _ _ H1) as (S1 & A1 & A2 & A3 & A4). apply (IH F2 l1 r1 S1) in H. destruct H as (S2 & B1 & B2 & B3 & B4).
      unfold kept. split; [exact S2|]. repeat split; congruence.
Qed.
Lemma tame_all x : everywhere (prefixes_declared w) x -> everywhere no_sheet x -> tame x.
Proof.
  induction x as [d|e kids IH] using snode_ind2; intros D N l r S.
  - cbn [rn]. unfold characters. pose proof S as [K _]. destruct (lookup (nth (l_at l) (l_dfa l) []) (EName TEXT_NODE)) as [k|] eqn:L; split.
    + intros er H. discriminate H.
    + intros l' r' H. injection H as <- <-. pose proof (sound_step l _ k S L) as S1. unfold kept. cbn [append at_state l_kind l_dfa l_id]. split; [|auto]. exact S1.
    + intros er H. apply bind_err in H. destruct H as [H|(l1 & _ & H)]; [|discriminate H]. eapply static_err; [exact K| |exact H]. lia.
    + intros l' r' H. apply bind_ok in H. destruct H as (l1 & H & _). unfold static in H. destruct (l_kind l); discriminate H.
  - apply everywhere_elem in D, N. destruct D as [D Ds], N as [N Ns]. assert (Forall tame kids) as F by (rewrite Forall_forall in *; auto). pose proof S as [K _]. rewrite rn_elem. split.
    + intros er H. apply bind_err in H. destruct H as [H|(k & Hk & H)]; [exact (class_err _ _ _ K H)|]. apply bind_err in H. destruct H as [H|(s & Hs & H)]; [exact (start_err _ _ _ _ _ K D H)|].
      destruct (start_ok _ _ _ _ _ S Hk Hs) as (_ & S2 & E2 & _). destruct (tame_nodes kids F (snd (fst s)) (snd s) S2) as [T1 T2].
      apply bind_err in H. destruct H as [H|([c1 r1] & Hc & H)]; [exact (T1 _ H)|]. cbn [fst snd] in H. destruct (T2 _ _ Hc) as (S3 & _ & A2 & _). apply (end_err _ _ _ _ _ S3) in H; [exact H|].
      destruct E2 as [E2|E2]; [left; exact E2|right]. rewrite A2. exact E2.
    + intros l' r' H. apply bind_ok in H. destruct H as (k & Hk & H). apply bind_ok in H. destruct H as (s & Hs & H). apply bind_ok in H. destruct H as ([c1 r1] & Hc & H). cbn [fst snd] in H.
      destruct (start_ok _ _ _ _ _ S Hk Hs) as (S1 & S2 & _ & _ & B1 & B2 & B3 & B4). specialize (B4 N). destruct (tame_nodes kids F (snd (fst s)) (snd s) S2) as [_ T2]. destruct (T2 _ _ Hc) as (_ & _ & _ & _ & A4).
      apply end_ok in H. destruct H as (C1 & C2 & C3 & C4 & C5). unfold kept. split; [|repeat split; congruence].
      destruct S1 as (K1 & m & v & P & I & Cm & Nv & W). split; [congruence|]. exists m, v. rewrite C2, C3. auto.
Qed.

(** ** Documents *)
Theorem rdoc_err e kids er : sheet_elem_name e \/ in_xsl e = false -> everywhere (prefixes_declared w) (SElem e kids) -> Forall (everywhere no_sheet) kids -> distinct_attributes e ->
  rdoc w e kids = Err er -> xslt_error er.
Proof.
  intros De D N ND. apply everywhere_elem in D. destruct D as [D Ds]. unfold rdoc. destruct (compile_ok w G m_root root_proper) as (d & C & _). rewrite C. cbn [bind].
  assert (exists q d2, role_of w nowhere e = Some q /\ find_class w (root_level d) e = Ok (entry_of q d2) /\ (sheetb q = true \/ q = RLiteral) /\ proper (model_of q) /\ inhabited (model_of q) /\ may_end (model_of q) /\ compile (w_order w) (model_of q) = Ok d2) as (q & d2 & Eq & F & Q & P & I & M & C2).
  { assert (exists q, role_of w nowhere e = Some q /\ (sheetb q = true \/ q = RLiteral)) as (q & Eq & Q).
    { unfold role_of, nowhere. cbn [x_fc x_exts existsb]. destruct De as [[X SN]|X]; rewrite X; [|eauto]. unfold sheetb. destruct SN as [-> | ->]; (eexists; split; [reflexivity|left; reflexivity]). }
    pose proof (role_proper w nowhere e q G Eq) as P. destruct (compile_ok w G _ P) as (d2 & C2 & _). exists q, d2. split; [exact Eq|].
    assert (find_class w (root_level d) e = Ok (entry_of q d2)) as F by (apply (find_class_iff w (root_level d) nowhere e _ eq_refl eq_refl); eauto).
    split; [exact F|]. split; [exact Q|]. split; [exact P|]. destruct (class_ok _ _ _ F) as (q' & d' & Eq' & _ & _ & I & _ & M).
    assert (q' = q) as -> by (change (role_of w nowhere e = Some q') in Eq'; congruence). split; [exact I|]. split; [|exact C2]. destruct M as [[X M]|M]; [|exact M].
    exfalso. replace (xsl e) with (in_xsl e) in X by apply in_xsl_eq. destruct De as [[_ [SN|SN]]|X']; [rewrite SN in M; discriminate M|rewrite SN in M; discriminate M|congruence]. }
  rewrite F. cbn [bind]. intros H. apply bind_err in H. destruct H as [H|(s & Hs & H)].
  - unfold start_element in H. apply bind_err in H. destruct H as [H|(l1 & _ & H)].
    + exfalso. cbn [root_level l_at l_dfa l_kind entry_of c_token] in H. destruct (lookup (nth 0 d []) (EName (token_of q))) eqn:L; [discriminate H|]. apply (root_step w G d _ C) in L; [exact L|]. destruct Q as [Q| ->]; [|right; reflexivity]. left.
      unfold sheetb in Q. destruct q; try discriminate Q. cbn [kind_of is_sheet] in Q. rewrite orb_true_iff, !str_eqb_eq in Q. exact Q.
    + apply bind_err in H. destruct H as [H|(m & _ & H)]; [exact (attributes_err _ _ _ _ D H)|]. exfalso. cbv zeta in H. apply bind_err in H. destruct H as [H|(u & _ & H)]; [|discriminate H].
      cbn [entry_of c_kind] in H. destruct q; cbn [kind_of is_sheet new_reader r_sheet] in H; try discriminate H.
  - apply (start_root w G e q d d2 s C ND Eq) in Hs. destruct Hs as (_ & A & l1 & -> & _). cbn [fst snd] in H.
    assert (sound {| l_id := 1; l_kind := kind_of q; l_dfa := d2; l_at := 0; l_vars := []; l_own := false; l_fc := x_fc (inside w nowhere e q); l_exts := x_exts (inside w nowhere e q); l_nodes := [] |}) as S.
    { split; [cbn [l_kind]; destruct q; discriminate|]. exists (model_of q), []. cbn [l_dfa l_at]. split; [exact P|]. split; [exact I|]. split; [exact C2|]. split; [intros []|reflexivity]. }
    assert (Forall tame kids) as Fk by (rewrite Forall_forall in *; intros x Ix; apply tame_all; auto).
    destruct (tame_nodes kids Fk _ {| r_next := 2; r_sheet := if sheetb q then Some 1 else None; r_globals := [] |} S) as [T1 T2].
    apply bind_err in H. destruct H as [H|([c1 r1] & Hc & H)]; [exact (T1 _ H)|]. destruct (T2 _ _ Hc) as (S3 & B1 & B2 & B3 & B4). cbn [fst snd] in H. cbn [l_kind l_dfa l_id r_sheet] in B1, B2, B3, B4.
    apply bind_err in H. destruct H as [H|(nodes & _ & H)].
    + apply (finish_err _ _ _ S3) in H; [exact H|]. right. exists (model_of q). rewrite B2. auto.
    + rewrite B4, B3 in H. destruct Q as [Q|Q]; [rewrite Q in H; discriminate H|]. subst q. cbn [sheetb kind_of is_sheet] in *. unfold sheetb in H. cbn [kind_of is_sheet] in H. rewrite B1 in H.
      destruct (attr (e_attrs e) (Some XSL_NAMESPACE) (lit "version")) as [v|]; [|injection H as <-; xerr]. destruct (w_number w v) as [[| |]|]; try discriminate H; injection H as <-; xerr.
Qed.
End E.
