(** * The attributes the reader accepts *)
From Coq Require Import NArith ZArith String List Bool Lia Arith Permutation.
From Verif Require Import PyStr PyErr DtdModel DtdSpec DtdDfa DtdProps SrModel SrSpec SrMatch.
Import ListNotations.
Local Open Scope nat_scope.

Lemma ostr_eqb_eq a b : ostr_eqb a b = true <-> a = b.
Proof.
  destruct a, b; cbn [ostr_eqb]; try (split; congruence). rewrite str_eqb_eq. split; congruence.
Qed.
Lemma ostr_eqb_refl a : ostr_eqb a a = true.
Proof. apply ostr_eqb_eq. reflexivity. Qed.
Lemma ostr_eqb_neq a b : ostr_eqb a b = false <-> a <> b.
Proof. rewrite <- not_true_iff_false, ostr_eqb_eq. reflexivity. Qed.
Lemma str_eqb_refl a : str_eqb a a = true.
Proof. apply str_eqb_eq. reflexivity. Qed.
Lemma str_eqb_neq a b : str_eqb a b = false <-> a <> b.
Proof. rewrite <- not_true_iff_false, str_eqb_eq. reflexivity. Qed.
Lemma one_of_in l n : one_of l n = true <-> In n l.
Proof. symmetry. apply elem_of_in. Qed.
Lemma one_of_not_in l n : one_of l n = false <-> ~ In n l.
Proof. rewrite <- not_true_iff_false, one_of_in. reflexivity. Qed.
Lemma in_xsl_eq e : in_xsl e = xsl e.
Proof. unfold in_xsl, xsl. destruct (e_ns e); reflexivity. Qed.
Lemma attr_in l ns a v : NoDup (map fst l) -> (attr l ns a = Some v <-> In ((ns, a), v) l).
Proof.
  induction l as [|[[ns' a'] v'] l IH]; cbn [map fst attr In]; intros ND; [split; [discriminate|tauto]|].
  inversion ND as [|x y N1 N2]; subst. destruct (ostr_eqb ns' ns && str_eqb a' a) eqn:E.
  - apply andb_prop in E. destruct E as [E1 E2]. apply ostr_eqb_eq in E1. apply str_eqb_eq in E2. subst. split.
    + intros H. injection H as ->. auto.
    + intros [H|H]; [injection H as ->; auto|]. exfalso. apply N1. apply in_map_iff. exists ((ns, a), v). auto.
  - rewrite (IH N2). split; [auto|]. intros [H|H]; [|auto]. injection H as -> -> ->. rewrite ostr_eqb_refl, str_eqb_refl in E. discriminate.
Qed.
Lemma attr_none l ns a : attr l ns a = None <-> forall v, ~ In ((ns, a), v) l.
Proof.
  induction l as [|[[ns' a'] v'] l IH]; cbn [attr In]; [split; auto|]. destruct (ostr_eqb ns' ns && str_eqb a' a) eqn:E.
  - apply andb_prop in E. destruct E as [E1 E2]. apply ostr_eqb_eq in E1. apply str_eqb_eq in E2. subst. split; [discriminate|].
    intros H. exfalso. apply (H v'). auto.
  - rewrite IH. split; intros H v; [|intros C; apply (H v); auto]. intros [C|C]; [|apply (H v); auto]. injection C as -> -> ->.
    rewrite ostr_eqb_refl, str_eqb_refl in E. discriminate.
Qed.
Lemma bind_ok {A B} (x : result A) (f : A -> result B) b : (do a <- x ; f a) = Ok b <-> exists a, x = Ok a /\ f a = Ok b.
Proof. destruct x; cbn [bind]; split; [eauto|intros (a' & E & H); congruence|discriminate|intros (a' & E & _); discriminate]. Qed.

Section A.
Variable w : world.

Lemma all_prefixes_iff scope ps us : all_prefixes scope ps = Ok us <-> (forall q, In q ps -> in_scope scope q <> None) /\ us = uris scope ps.
Proof.
  revert us. induction ps as [|p ps IH]; intros us; cbn [all_prefixes uris flat_map].
  - split; [intros H; injection H as <-; split; [intros q []|auto]|intros [_ ->]; auto].
  - destruct (in_scope scope p) as [u|] eqn:E.
    + rewrite bind_ok. split.
      * intros (us' & H & H'). injection H' as <-. apply IH in H. destruct H as [H ->]. split; [|reflexivity]. intros q [<-|Q]; [congruence|auto].
      * intros [H ->]. exists (uris scope ps). split; [apply IH; split; auto; intros q Q; apply H; cbn; auto|reflexivity].
    + split; [discriminate|]. intros [H _]. exfalso. apply (H p); cbn; auto.
Qed.
(** What an attribute makes of the mode. *)
Definition standard_mode (e : elem) (a v : str) (m : mode) : mode :=
  if str_eqb a (lit "extension-element-prefixes") then (fst m, match w_prefixes w v with Some ps => uris (e_scope e) ps ++ snd m | None => snd m end)
  else if str_eqb a (lit "version") then (match w_number w v with Some NOne => false | Some _ => true | None => fst m end, snd m)
  else m.
Lemma standard_attr_iff e a v m m' : standard_attr w e a v m = Ok m' <-> standard_value w e a v /\ m' = standard_mode e a v m.
Proof.
  unfold standard_attr, standard_value, standard_mode, prefixes_ok.
  destruct (str_eqb a (lit "extension-element-prefixes")) eqn:E1.
  - apply str_eqb_eq in E1. subst a. change (str_eqb (lit "extension-element-prefixes") (lit "version")) with false. cbn [orb].
    destruct (w_prefixes w v) as [ps|]; [|split; [discriminate|intros [(ps & C & _) _]; discriminate]].
    rewrite bind_ok. split.
    + intros (us & H & H'). injection H' as <-. apply all_prefixes_iff in H. destruct H as [H ->]. split; [eauto|reflexivity].
    + intros [(ps' & Q & H) ->]. injection Q as <-. exists (uris (e_scope e) ps). split; [apply all_prefixes_iff; auto|reflexivity].
  - destruct (str_eqb a (lit "exclude-result-prefixes")) eqn:E2.
    + apply str_eqb_eq in E2. subst a. change (str_eqb (lit "exclude-result-prefixes") (lit "version")) with false. cbn [orb].
      destruct (w_prefixes w v) as [ps|]; [|split; [discriminate|intros [(ps & C & _) _]; discriminate]].
      rewrite bind_ok. split.
      * intros (us & H & H'). injection H' as <-. apply all_prefixes_iff in H. destruct H as [H ->]. split; [eauto|reflexivity].
      * intros [(ps' & Q & H) ->]. injection Q as <-. exists (uris (e_scope e) ps). split; [apply all_prefixes_iff; auto|reflexivity].
    + destruct (str_eqb a (lit "version")) eqn:E3; cbn [orb].
      * destruct (w_number w v) as [n|]; [|split; [discriminate|intros [C _]; congruence]]. split.
        -- intros H. injection H as <-. split; [discriminate|]. destruct n; reflexivity.
        -- intros [_ ->]. destruct n; reflexivity.
      * destruct (w_value w (e_ns e, e_local e) (None, a) (e_scope e) v); split; try discriminate.
        -- intros H. injection H as <-. auto.
        -- intros [_ ->]. auto.
        -- intros [C _]. discriminate.
Qed.
Lemma result_attr_iff e a v m m' : result_attr w e a v m = Ok m' <-> (In a result_attribute_names /\ standard_value w e a v) /\ m' = standard_mode e a v m.
Proof.
  unfold result_attr. change [lit "exclude-result-prefixes"; lit "extension-element-prefixes"; lit "use-attribute-sets"; lit "version"] with result_attribute_names.
  destruct (one_of result_attribute_names a) eqn:E.
  - apply one_of_in in E. rewrite standard_attr_iff. tauto.
  - apply one_of_not_in in E. split; [discriminate|tauto].
Qed.

(** The loop over the legal attributes. *)
Definition value_of (sheet : bool) (e : elem) (a v : str) : Prop :=
  if sheet then standard_value w e a v else w_value w (e_ns e, e_local e) (None, a) (e_scope e) v = true.
Definition legal_mode (sheet : bool) (e : elem) (ts : list (str * bool)) (m : mode) : mode :=
  fold_left (fun m t => match attr (e_attrs e) None (fst t) with Some v => if sheet then standard_mode e (fst t) v m else m | None => m end) ts m.
Lemma legal_attrs_iff sheet e ts : forall m m', legal_attrs w sheet e ts m = Ok m' <->
  (forall a b, In (a, b) ts -> match attr (e_attrs e) None a with Some v => value_of sheet e a v | None => b = false end) /\ m' = legal_mode sheet e ts m.
Proof.
  induction ts as [|[a b] ts IH]; intros m m'; cbn [legal_attrs legal_mode fold_left fst].
  - split; [intros H; injection H as <-; split; [intros a b []|reflexivity]|intros [_ ->]; reflexivity].
  - change (fold_left (fun m t => match attr (e_attrs e) None (fst t) with Some v => if sheet then standard_mode e (fst t) v m else m | None => m end) ts) with (legal_mode sheet e ts).
    destruct (attr (e_attrs e) None a) as [v|] eqn:E.
    + rewrite bind_ok. split.
      * intros (m1 & H1 & H2). apply IH in H2. destruct H2 as [H2 ->]. assert (value_of sheet e a v /\ m1 = (if sheet then standard_mode e a v m else m)) as [V ->].
        { unfold value_of. destruct sheet; [apply standard_attr_iff; exact H1|]. destruct (w_value w _ _ _ _); [injection H1 as <-; auto|discriminate]. }
        split; [|reflexivity]. intros a' b' [H|H]; [injection H as <- <-; rewrite E; exact V|apply (H2 a' b' H)].
      * intros [H ->]. exists (if sheet then standard_mode e a v m else m). split.
        -- specialize (H a b (or_introl eq_refl)). rewrite E in H. unfold value_of in H. destruct sheet; [apply standard_attr_iff; auto|rewrite H; reflexivity].
        -- apply IH. split; [|reflexivity]. intros a' b' I1. apply H. right. exact I1.
    + destruct b.
      * split; [discriminate|]. intros [H _]. specialize (H a true (or_introl eq_refl)). rewrite E in H. discriminate.
      * rewrite IH. split.
        -- intros [H ->]. split; [|reflexivity]. intros a' b' [C|C]; [injection C as <- <-; rewrite E; reflexivity|exact (H a' b' C)].
        -- intros [H ->]. split; [|reflexivity]. intros a' b' C. apply H. right. exact C.
Qed.
Lemma legal_mode_false e ts m : legal_mode false e ts m = m.
Proof. unfold legal_mode. induction ts as [|t ts IH]; [reflexivity|]. cbn [fold_left]. destruct (attr _ _ _); exact IH. Qed.

Lemma other_xsl_iff ts fc l : other_xsl_attrs ts fc l = Ok tt <-> forall a v, In ((None, a), v) l -> In a (map fst ts) \/ fc = true.
Proof.
  induction l as [|[[[ns|] a] v] l IH]; cbn [other_xsl_attrs].
  - split; [intros _ a v []|reflexivity].
  - rewrite IH. split; intros H a' v' I1; [destruct I1 as [C|C]; [discriminate|eauto]|apply (H a' v'); right; exact I1].
  - destruct (one_of (map fst ts) a) eqn:E.
    + apply one_of_in in E. rewrite IH. split; intros H a' v' I1; [destruct I1 as [C|C]; [injection C as <- <-; auto|eauto]|apply (H a' v'); right; exact I1].
    + apply one_of_not_in in E. destruct fc.
      * rewrite IH. split; intros H a' v' I1; [auto|apply (H a' v'); right; exact I1].
      * split; [discriminate|]. intros H. destruct (H a v (or_introl eq_refl)) as [C|C]; [contradiction|discriminate].
Qed.

(** The loops over the given attributes. *)
Definition given_mode (e : elem) (l : list ((option str * str) * str)) (m : mode) : mode :=
  fold_left (fun m t => if ostr_eqb (fst (fst t)) (Some XSL_NAMESPACE) then standard_mode e (snd (fst t)) (snd t) m else m) l m.
Definition xsl_attr_ok (e : elem) (a v : str) : Prop := In a result_attribute_names /\ standard_value w e a v.
Lemma given_mode_cons e t l m : given_mode e (t :: l) m = given_mode e l (if ostr_eqb (fst (fst t)) (Some XSL_NAMESPACE) then standard_mode e (snd (fst t)) (snd t) m else m).
Proof. reflexivity. Qed.
Lemma other_ext_iff e ts l : forall m m', other_ext_attrs w e ts l m = Ok m' <->
  ((forall t, ts = Some t -> forall a v, In ((None, a), v) l -> In a (map fst t)) /\ forall a v, In ((Some XSL_NAMESPACE, a), v) l -> xsl_attr_ok e a v) /\ m' = given_mode e l m.
Proof.
  induction l as [|[[ns a] v] l IH]; intros m m'.
  - cbn [other_ext_attrs given_mode fold_left]. split; [intros H; injection H as <-; repeat split; intros; contradiction|intros [_ ->]; reflexivity].
  - rewrite given_mode_cons. cbn [other_ext_attrs fst snd].
    assert (forall m1, ((forall t, ts = Some t -> forall a v, In ((None, a), v) l -> In a (map fst t)) /\ forall a v, In ((Some XSL_NAMESPACE, a), v) l -> xsl_attr_ok e a v) /\ m' = given_mode e l m1 ->
      (ns = None -> forall t, ts = Some t -> In a (map fst t)) -> (ns = Some XSL_NAMESPACE -> xsl_attr_ok e a v) ->
      ((forall t, ts = Some t -> forall a0 v0, In ((None, a0), v0) (((ns, a), v) :: l) -> In a0 (map fst t)) /\ forall a0 v0, In ((Some XSL_NAMESPACE, a0), v0) (((ns, a), v) :: l) -> xsl_attr_ok e a0 v0) /\ m' = given_mode e l m1) as K.
    { intros m1 [[H1 H2] ->] P Q. split; [|reflexivity]. split.
      - intros t T a0 v0 [C|C]; [injection C as -> -> ->; auto|eauto].
      - intros a0 v0 [C|C]; [injection C as -> -> ->; auto|eauto]. }
    assert (forall m1, ((forall t, ts = Some t -> forall a0 v0, In ((None, a0), v0) (((ns, a), v) :: l) -> In a0 (map fst t)) /\ forall a0 v0, In ((Some XSL_NAMESPACE, a0), v0) (((ns, a), v) :: l) -> xsl_attr_ok e a0 v0) /\ m' = given_mode e l m1 ->
      ((forall t, ts = Some t -> forall a v, In ((None, a), v) l -> In a (map fst t)) /\ forall a v, In ((Some XSL_NAMESPACE, a), v) l -> xsl_attr_ok e a v) /\ m' = given_mode e l m1) as K'.
    { intros m1 [[H1 H2] ->]. split; [|reflexivity]. split; [intros t T a0 v0 C; apply (H1 t T a0 v0); right; exact C|intros a0 v0 C; apply H2; right; exact C]. }
    destruct ns as [ns|]; [|destruct ts as [t|]].
    + destruct (ostr_eqb (Some ns) (Some XSL_NAMESPACE)) eqn:E.
      * apply ostr_eqb_eq in E. injection E as ->. rewrite bind_ok. split.
        -- intros (m1 & R & H). apply result_attr_iff in R. destruct R as [R ->]. apply IH in H. apply K; auto. discriminate.
        -- intros H. exists (standard_mode e a v m). split; [apply result_attr_iff; split; [|reflexivity]; apply (proj2 (proj1 H)); left; reflexivity|]. apply IH. apply K'. exact H.
      * apply ostr_eqb_neq in E. rewrite IH. split; [intros H; apply K; auto; [discriminate|intros C; contradiction]|apply K'].
    + cbn [ostr_eqb]. destruct (one_of (map fst t) a) eqn:E.
      * apply one_of_in in E. rewrite IH. split; [intros H; apply K; auto; [intros _ t' T; injection T as <-; exact E|discriminate]|apply K'].
      * apply one_of_not_in in E. split; [discriminate|]. intros [[H _] _]. exfalso. apply E. apply (H t eq_refl a v). left. reflexivity.
    + cbn [ostr_eqb]. rewrite IH. split; [intros H; apply K; auto; discriminate|apply K'].
Qed.
Lemma literal_iff e l : forall m m', literal_attrs w e l m = Ok m' <->
  (forall ns a v, In ((ns, a), v) l -> (ns = Some XSL_NAMESPACE -> xsl_attr_ok e a v) /\ (ns <> Some XSL_NAMESPACE -> w_value w (e_ns e, e_local e) (ns, a) (e_scope e) v = true)) /\ m' = given_mode e l m.
Proof.
  induction l as [|[[ns a] v] l IH]; intros m m'.
  - cbn [literal_attrs given_mode fold_left]. split; [intros H; injection H as <-; split; [intros ns a v []|reflexivity]|intros [_ ->]; reflexivity].
  - rewrite given_mode_cons. cbn [literal_attrs fst snd]. destruct (ostr_eqb ns (Some XSL_NAMESPACE)) eqn:E.
    + apply ostr_eqb_eq in E. subst ns. rewrite bind_ok. split.
      * intros (m1 & R & H). apply result_attr_iff in R. destruct R as [R ->]. apply IH in H. destruct H as [H ->]. split; [|reflexivity].
        intros ns' a' v' [C|C]; [injection C as <- <- <-; split; [auto|congruence]|auto].
      * intros [H ->]. exists (standard_mode e a v m). split; [apply result_attr_iff; split; [|reflexivity]; apply (H (Some XSL_NAMESPACE) a v); [left|]; reflexivity|].
        apply IH. split; [|reflexivity]. intros ns' a' v' C. apply H. right. exact C.
    + apply ostr_eqb_neq in E. destruct (w_value w _ _ _ v) eqn:V.
      * rewrite IH. split.
        -- intros [H ->]. split; [|reflexivity]. intros ns' a' v' [C|C]; [injection C as <- <- <-; split; [contradiction|auto]|auto].
        -- intros [H ->]. split; [|reflexivity]. intros ns' a' v' C. apply H. right. exact C.
      * split; [discriminate|]. intros [H _]. destruct (H ns a v (or_introl eq_refl)) as [_ C]. rewrite C in V by exact E. discriminate.
Qed.
(** With distinct attributes the result does not depend on the order. *)
Lemma given_mode_eq e l : forall m, NoDup (map fst l) -> given_mode e l m =
  (match attr l (Some XSL_NAMESPACE) (lit "version") with Some v => match w_number w v with Some NOne => false | Some _ => true | None => fst m end | None => fst m end,
   match attr l (Some XSL_NAMESPACE) (lit "extension-element-prefixes") with Some v => match w_prefixes w v with Some ps => uris (e_scope e) ps ++ snd m | None => snd m end | None => snd m end).
Proof.
  induction l as [|[[ns a] v] l IH]; intros m ND; [destruct m; reflexivity|]. rewrite given_mode_cons. cbn [map fst snd] in *. inversion ND as [|x y N1 N2]; subst. rewrite (IH _ N2).
  assert (forall b, a = b -> ns = Some XSL_NAMESPACE -> attr l (Some XSL_NAMESPACE) b = None) as NA.
  { intros b <- ->. apply attr_none. intros u C. apply N1. apply in_map_iff. exists ((Some XSL_NAMESPACE, a), u). auto. }
  cbn [attr]. destruct (ostr_eqb ns (Some XSL_NAMESPACE)) eqn:E; cbn [andb]; [|reflexivity]. apply ostr_eqb_eq in E. unfold standard_mode.
  destruct (str_eqb a (lit "extension-element-prefixes")) eqn:E1.
  - apply str_eqb_eq in E1. rewrite (NA _ E1 E). subst a. change (str_eqb (lit "extension-element-prefixes") (lit "version")) with false. reflexivity.
  - destruct (str_eqb a (lit "version")) eqn:E2; [|reflexivity]. apply str_eqb_eq in E2. rewrite (NA _ E2 E). reflexivity.
Qed.

(** ** Classes *)
Definition model_of (r : role) : content := match r with RXsl n => match m_class n with Some (m, _) => m | None => m_template end | RExt m _ => m | _ => m_template end.
Definition kind_of (r : role) : kind := match r with RXsl n => KXsl n | RUnknown => KUndefinedXsl | RExt _ _ => KExt | RUndefined => KUndefinedExt | RLiteral => KLiteral end.
Definition token_of (r : role) : str := match r with RXsl n => n | _ => RESULT_ELEMENT end.
Definition types_of (r : role) : option (list (str * bool)) :=
  match r with RXsl n => match m_class n with Some (_, ts) => Some ts | None => None end | RUnknown => Some [] | RExt _ ts => ts | _ => None end.
Definition entry_of (r : role) (d : dfa) : entry := {| c_kind := kind_of r; c_dfa := d; c_token := token_of r; c_attrs := types_of r |}.
Lemma find_class_iff l p e k : l_fc l = x_fc p -> l_exts l = x_exts p ->
  (find_class w l e = Ok k <-> exists r d, role_of w p e = Some r /\ compile (w_order w) (model_of r) = Ok d /\ k = entry_of r d).
Proof.
  intros F X. unfold find_class, role_of. replace (in_xsl e) with (xsl e) by (symmetry; apply in_xsl_eq). rewrite F, X. destruct (xsl e).
  - pose proof (class_row (e_local e)) as R. destruct (m_class (e_local e)) as [[m ts]|] eqn:M.
    + destruct R as (R & _). rewrite R. rewrite bind_ok. split.
      * intros (d & C & H). injection H as <-. exists (RXsl (e_local e)), d. unfold entry_of. cbn [model_of kind_of token_of types_of]. rewrite M. auto.
      * intros (r & d & H & C & ->). injection H as <-. exists d. unfold entry_of. cbn [model_of kind_of token_of types_of] in *. rewrite M in *. auto.
    + rewrite R. destruct (x_fc p); cbn [negb].
      * rewrite bind_ok. split.
        -- intros (d & C & H). injection H as <-. exists RUnknown, d. auto.
        -- intros (r & d & H & C & ->). injection H as <-. exists d. auto.
      * split; [unfold static; destruct (l_kind l); discriminate|intros (r & d & H & _); discriminate].
  - destruct (existsb _ (x_exts p)).
    + destruct (w_ext w (e_ns e) (e_local e)) as [[m ts]|]; rewrite bind_ok; split.
      * intros (d & C & H). injection H as <-. exists (RExt m ts), d. auto.
      * intros (r & d & H & C & ->). injection H as <-. exists d. auto.
      * intros (d & C & H). injection H as <-. exists RUndefined, d. auto.
      * intros (r & d & H & C & ->). injection H as <-. exists d. auto.
    + rewrite bind_ok; split.
      * intros (d & C & H). injection H as <-. exists RLiteral, d. auto.
      * intros (r & d & H & C & ->). injection H as <-. exists d. auto.
Qed.
Lemma template_proper : proper m_template.
Proof. cbn. intuition. Qed.
Lemma role_proper p e r : good_world w -> role_of w p e = Some r -> proper (model_of r).
Proof.
  intros [_ G]. unfold role_of. destruct (in_xsl e).
  - pose proof (class_row (e_local e)) as R. destruct (row attribute_table (e_local e)); [|destruct (x_fc p); intros H; [injection H as <-; apply template_proper|discriminate]].
    intros H. injection H as <-. cbn [model_of]. destruct (m_class (e_local e)) as [[m ts]|]; [apply R|apply template_proper].
  - destruct (existsb _ _).
    + destruct (w_ext w (e_ns e) (e_local e)) as [[m ts]|] eqn:E; intros H; injection H as <-; [exact (G _ _ _ _ E)|apply template_proper].
    + intros H. injection H as <-. apply template_proper.
Qed.

(** ** The attributes *)
Lemma split_types (ts : list (str * bool)) a : In a (map fst ts) <-> In a (required_of ts) \/ In a (optional_of ts).
Proof.
  unfold required_of, optional_of. rewrite !in_map_iff. split.
  - intros ([a' b] & <- & H). destruct b; [left; exists (a', true)|right; exists (a', false)]; (split; [reflexivity|apply filter_In; auto]).
  - intros [(x & <- & H)|(x & <- & H)]; apply filter_In in H; exists x; tauto.
Qed.
Lemma legal_conditions sheet e (ts : list (str * bool)) : NoDup (map fst (e_attrs e)) ->
  ((forall a b, In (a, b) ts -> match attr (e_attrs e) None a with Some v => value_of sheet e a v | None => b = false end) <->
   has_required e (required_of ts) /\ forall a v, In ((None, a), v) (e_attrs e) -> In a (map fst ts) -> value_of sheet e a v).
Proof.
  intros ND. split.
  - intros H. split.
    + intros a Ia. unfold required_of in Ia. apply in_map_iff in Ia. destruct Ia as ([a' b] & <- & Ia). apply filter_In in Ia. destruct Ia as [Ia B]. cbn [snd] in B. subst b.
      specialize (H a' true Ia). cbn [fst]. destruct (attr (e_attrs e) None a'); [discriminate|discriminate].
    + intros a v Iv Ia. apply in_map_iff in Ia. destruct Ia as ([a' b] & <- & Ia). specialize (H a' b Ia). cbn [fst] in *. apply (attr_in _ _ _ _ ND) in Iv. rewrite Iv in H. exact H.
  - intros [H1 H2] a b Ia. destruct (attr (e_attrs e) None a) as [v|] eqn:E.
    + apply H2; [apply (attr_in _ _ _ _ ND); exact E|]. apply in_map_iff. exists (a, b). auto.
    + destruct b; [|reflexivity]. exfalso. apply (H1 a); [|exact E]. unfold required_of. apply in_map_iff. exists (a, true). split; [reflexivity|]. apply filter_In. auto.
Qed.
Lemma sheet_mode e m : legal_mode true e [opt "id"; opt "extension-element-prefixes"; opt "exclude-result-prefixes"; req "version"] m =
  (match attr (e_attrs e) None (lit "version") with Some v => match w_number w v with Some NOne => false | Some _ => true | None => fst m end | None => fst m end,
   match attr (e_attrs e) None (lit "extension-element-prefixes") with Some v => match w_prefixes w v with Some ps => uris (e_scope e) ps ++ snd m | None => snd m end | None => snd m end).
Proof.
  unfold legal_mode, opt, req. cbn [fold_left fst].
  change (standard_mode e (lit "id")) with (fun (v : str) (m : mode) => m).
  change (standard_mode e (lit "exclude-result-prefixes")) with (fun (v : str) (m : mode) => m).
  change (standard_mode e (lit "extension-element-prefixes")) with (fun (v : str) (m : mode) => (fst m, match w_prefixes w v with Some ps => uris (e_scope e) ps ++ snd m | None => snd m end)).
  change (standard_mode e (lit "version")) with (fun (v : str) (m : mode) => (match w_number w v with Some NOne => false | Some _ => true | None => fst m end, snd m)).
  cbv beta. destruct (attr (e_attrs e) None (lit "id")), (attr (e_attrs e) None (lit "extension-element-prefixes")), (attr (e_attrs e) None (lit "exclude-result-prefixes")), (attr (e_attrs e) None (lit "version")); cbn [fst snd]; try reflexivity; destruct m; reflexivity.
Qed.
Lemma attributes_iff p e r d m' : distinct_attributes e -> role_of w p e = Some r ->
  (attributes w (entry_of r d) e (x_fc p, x_exts p) = Ok m' <-> attributes_ok w p e r /\ m' = (x_fc (inside w p e r), x_exts (inside w p e r))).
Proof.
  intros ND Er. unfold attributes, entry_of. cbn [c_kind c_attrs].
  assert (forall m types, r = RXsl (e_local e) -> m_class (e_local e) = Some (m, types) -> legal_mode (is_sheet (KXsl (e_local e))) e types (x_fc p, x_exts p) = (x_fc (inside w p e r), x_exts (inside w p e r))) as LM.
  { intros m types -> Mc. unfold inside, mode_attr. cbn [x_fc x_exts reads_mode is_sheet].
    destruct (str_eqb (e_local e) (lit "stylesheet") || str_eqb (e_local e) (lit "transform")) eqn:S.
    - assert (types = [opt "id"; opt "extension-element-prefixes"; opt "exclude-result-prefixes"; req "version"]) as ->.
      { apply orb_prop in S. destruct S as [S|S]; apply str_eqb_eq in S; rewrite S in Mc; vm_compute in Mc; injection Mc as _ <-; reflexivity. }
      rewrite sheet_mode. reflexivity.
    - rewrite legal_mode_false. reflexivity. }
  assert (forall x, r = x -> reads_mode x = Some (Some XSL_NAMESPACE) -> given_mode e (e_attrs e) (x_fc p, x_exts p) = (x_fc (inside w p e r), x_exts (inside w p e r))) as GM.
  { intros x -> R. rewrite (given_mode_eq e _ _ ND). unfold inside, mode_attr. cbn [x_fc x_exts]. rewrite R. reflexivity. }
  destruct r as [n| |m types| |]; cbn [kind_of types_of].
  - unfold role_of in Er. destruct (in_xsl e) eqn:X; [|destruct (existsb _ _); [destruct (w_ext w (e_ns e) (e_local e)) as [[? ?]|]|]; discriminate].
    destruct (row attribute_table (e_local e)) as [[must may]|] eqn:Rw; [|destruct (x_fc p); discriminate]. injection Er as <-.
    pose proof (class_row (e_local e)) as R. destruct (m_class (e_local e)) as [[m types]|] eqn:Mc; [|congruence]. destruct R as (R & _). rewrite Rw in R. injection R as -> ->.
    rewrite bind_ok. cbn [attributes_ok]. rewrite Rw. specialize (LM m types eq_refl eq_refl).
    assert (forall a v, value_of (is_sheet (KXsl (e_local e))) e a v <-> legal_value w (RXsl (e_local e)) e a v) as LV.
    { intros a v. unfold value_of, legal_value. cbn [reads_mode is_sheet]. destruct (_ || _); reflexivity. }
    split.
    + intros (m1 & H1 & H2). apply bind_ok in H2. destruct H2 as ([] & H2 & H3). injection H3 as <-. apply legal_attrs_iff in H1. destruct H1 as [H1 ->]. rewrite LM in *.
      apply (legal_conditions _ _ _ ND) in H1. destruct H1 as [Q1 Q2]. split; [|reflexivity]. split; [exact Q1|]. split.
      * intros a v Iv Ia. apply LV. apply Q2; [exact Iv|]. apply split_types. exact Ia.
      * intros a v Iv. destruct (proj1 (other_xsl_iff _ _ _) H2 a v Iv) as [C|C]; [apply split_types in C; tauto|cbn [fst] in C; auto].
    + intros [(Q1 & Q2 & Q3) ->]. exists (legal_mode (is_sheet (KXsl (e_local e))) e types (x_fc p, x_exts p)). split.
      * apply legal_attrs_iff. split; [|reflexivity]. apply (legal_conditions _ _ _ ND). split; [exact Q1|]. intros a v Iv Ia. apply LV. apply Q2; [exact Iv|]. apply split_types. exact Ia.
      * rewrite LM. apply bind_ok. exists tt. split; [|reflexivity]. apply other_xsl_iff. cbn [fst]. intros a v Iv. destruct (Q3 a v Iv) as [C|[C|C]]; [left; apply split_types; auto|left; apply split_types; auto|auto].
  - unfold role_of in Er. destruct (in_xsl e) eqn:X; [|destruct (existsb _ _); [destruct (w_ext w (e_ns e) (e_local e)) as [[? ?]|]|]; discriminate].
    destruct (row attribute_table (e_local e)); [discriminate|]. destruct (x_fc p) eqn:Fc; [|discriminate]. cbn [legal_attrs bind fst]. rewrite bind_ok. cbn [attributes_ok].
    unfold inside, mode_attr. cbn [reads_mode x_fc x_exts]. rewrite Fc. split.
    + intros (u & H1 & H2). injection H2 as <-. auto.
    + intros [_ ->]. exists tt. split; [|reflexivity]. apply other_xsl_iff. auto.
  - cbn [attributes_ok]. specialize (GM _ eq_refl eq_refl). rewrite bind_ok. destruct types as [ts|].
    + split.
      * intros (m1 & H1 & H2). apply legal_attrs_iff in H1. destruct H1 as [H1 ->]. rewrite legal_mode_false in H2. apply other_ext_iff in H2. destruct H2 as [[H2 H3] ->]. rewrite GM.
        split; [|reflexivity]. split; [|exact H3]. intros ts' T. injection T as <-. apply (legal_conditions _ _ _ ND) in H1. destruct H1 as [Q1 Q2]. split; [exact Q1|].
        intros a v Iv. split; [apply (H2 ts eq_refl a v Iv)|]. apply Q2; [exact Iv|apply (H2 ts eq_refl a v Iv)].
      * intros [[H1 H2] ->]. destruct (H1 ts eq_refl) as [Q1 Q2]. exists (x_fc p, x_exts p). split.
        -- apply legal_attrs_iff. rewrite legal_mode_false. split; [|reflexivity]. apply (legal_conditions _ _ _ ND). split; [exact Q1|]. intros a v Iv _. apply (Q2 a v Iv).
        -- apply other_ext_iff. rewrite GM. split; [|reflexivity]. split; [|exact H2]. intros t T a v Iv. injection T as <-. apply (Q2 a v Iv).
    + split.
      * intros (m1 & H1 & H2). injection H1 as <-. apply other_ext_iff in H2. destruct H2 as [[H2 H3] ->]. rewrite GM. split; [|reflexivity]. split; [discriminate|exact H3].
      * intros [[H1 H2] ->]. exists (x_fc p, x_exts p). split; [reflexivity|]. apply other_ext_iff. rewrite GM. split; [|reflexivity]. split; [discriminate|exact H2].
  - cbn [attributes_ok]. specialize (GM _ eq_refl eq_refl). rewrite bind_ok. split.
    + intros (m1 & H1 & H2). injection H1 as <-. apply other_ext_iff in H2. destruct H2 as [[H2 H3] ->]. rewrite GM. split; [exact H3|reflexivity].
    + intros [H2 ->]. exists (x_fc p, x_exts p). split; [reflexivity|]. apply other_ext_iff. rewrite GM. split; [|reflexivity]. split; [discriminate|exact H2].
  - cbn [attributes_ok]. specialize (GM _ eq_refl eq_refl). rewrite literal_iff, GM. reflexivity.
Qed.
End A.
