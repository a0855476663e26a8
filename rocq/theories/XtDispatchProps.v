(** * C54: the template rule that is applied *)
From Coq Require Import NArith ZArith QArith String List Bool Lia Arith Sorted Permutation.
From Verif Require Import PyStr PyErr DomModel DomSpec DomCells DomInv DomOps DomStep DomOrder DomProps XpModel XpSpec XpTree XpAxes XpOrder XpSelect XpProps XpPath XpPathSpec XpPathSteps XpPathOrder XpPathEval XpPathProps XpString XpStringSpec XpStringProofs XtPattern XtPatternSpec XtPatternProofs XtPatternProps XtDispatch XtDispatchSpec XtDispatchProofs.
Import ListNotations.
Local Open Scope nat_scope.

Section Core.
Variables (sort : list entry -> list entry) (late_type : option kind -> bool) (late_name : option str * str -> bool).
Variables (s : store) (nm : names) (size : nat) (templates : list template) (mode : option str) (x : nat).
Hypotheses (SO : is_sort sort) (F : forest s) (PN : proper_names nm) (D : in_document s x).
Hypothesis GR : forall i t p, rule templates mode i t p -> good_rule s x t p.

Lemma document_exists : exists_node s x.
Proof. destruct D as [r [K [->|A]]]; [exact (entity_exists s x K)|exact (above_exists s r x A)]. Qed.
Lemma not_matched i t p steps e : rule templates mode i t p -> pattern_steps p = Ok steps -> pattern_entry (length templates - 1 - i) t steps = Ok e ->
  forall b, entry_match s nm size e x = Ok b -> (b = true <-> matches (tm_ns t) s nm p x).
Proof.
  intros R PS PE b EM. destruct (GR i t p R) as [RN [G [GP _]]]. rewrite (entry_pattern s nm size p steps _ t e x PS PE) in EM. exact (C53_exact_partial (tm_ns t) s nm size p x b F PN D RN G GP EM).
Qed.
Lemma core_ok (ok : nat -> Prop) es r : all_entries templates = Ok es ->
  match r with
  | None => forall e, In e (rules_for sort late_type late_name s nm es mode x) -> ok (en_prec e) -> entry_match s nm size e x = Ok false
  | Some e => exists l1 l2, rules_for sort late_type late_name s nm es mode x = l1 ++ e :: l2 /\ ok (en_prec e) /\ entry_match s nm size e x = Ok true /\ forall f, In f l1 -> ok (en_prec f) -> entry_match s nm size f x = Ok false
  end ->
  match option_map en_tm r with
  | None => forall i t p, ~ applicable s nm templates mode ok x i t p
  | Some t => first_choice s nm templates mode ok x t
  end.
Proof.
  intros AE H. pose proof (rules_in sort late_type late_name s nm es mode x SO document_exists) as RI. pose proof (all_entries_in templates es AE) as AI. pose proof (rules_sorted sort late_type late_name s nm es mode x SO) as RS.
  (* every applicable rule has an entry in the list *)
  assert (forall i t p, applicable s nm templates mode ok x i t p -> exists steps e, pattern_steps p = Ok steps /\ pattern_entry (length templates - 1 - i) t steps = Ok e /\ In e (rules_for sort late_type late_name s nm es mode x)) as AP.
  { intros i t p [R [_ M]]. pose proof R as [N [MD I]]. assert (i < length templates) as L by (apply nth_error_Some; congruence).
    assert (exists steps e, pattern_steps p = Ok steps /\ pattern_entry (length templates - 1 - i) t steps = Ok e) as [steps [e [PS PE]]].
    { pose proof AE as AE'. unfold all_entries in AE'. assert (nth_error (rev templates) (length templates - 1 - i) = Some t) as NR.
      { rewrite nth_error_nth' with (d := t); [|rewrite rev_length; lia]. rewrite nth_error_nth' with (d := t) in N by lia. injection N as N. rewrite rev_nth by lia. f_equal. rewrite <- N at 2. f_equal. lia. }
      clear -AE' NR I. revert NR AE'. generalize (length templates - 1 - i) as j. generalize (rev templates) as l. intros l j NR. change (enumerate_entries 0 l = Ok es -> exists steps e, pattern_steps p = Ok steps /\ pattern_entry (0 + j) t steps = Ok e). generalize 0 as k. revert j es NR.
      induction l as [|u l IH]; intros j es NR k; [destruct j; discriminate|]. cbn [enumerate_entries]. destruct (parse_all (tm_match u)) as [pl|] eqn:PA; cbn [bind]; [|discriminate].
      destruct (pattern_entries k u pl) as [el|] eqn:PE; cbn [bind]; [|discriminate]. destruct (enumerate_entries (S k) l) as [r'|] eqn:EN; cbn [bind]; [|discriminate]. intros _.
      destruct j as [|j].
      - cbn in NR. injection NR as ->. rewrite Nat.add_0_r.
        assert (exists steps, pattern_steps p = Ok steps /\ In steps pl) as [steps [PS SI]].
        { clear -PA I. revert pl PA. induction (tm_match t) as [|q l IH]; [destruct I|]. intros pl. cbn [parse_all]. destruct (pattern_steps q) as [st|] eqn:Q; cbn [bind]; [|discriminate]. destruct (parse_all l) as [l'|]; cbn [bind]; [|discriminate]. intros [= <-].
          destruct I as [->|I]; [exists st; split; [exact Q|now left]|]. destruct (IH I l' eq_refl) as [st' [H1 H2]]. exists st'. split; [exact H1|now right]. }
        assert (exists e, pattern_entry k t steps = Ok e) as [e HE].
        { clear -PE SI. revert el PE. induction pl as [|q pl IH]; [destruct SI|]. intros el. cbn [pattern_entries]. destruct (pattern_entry k t q) as [e|] eqn:Q; cbn [bind]; [|discriminate]. destruct (pattern_entries k t pl) as [l'|]; cbn [bind]; [|discriminate]. intros _.
          destruct SI as [->|SI]; [eauto|]. exact (IH SI l' eq_refl). }
        eauto.
      - cbn in NR. destruct (IH j r' NR (S k) EN) as [steps [e [H1 H2]]]. exists steps, e. split; [exact H1|]. replace (k + S j) with (S k + j) by lia. exact H2. }
    exists steps, e. split; [exact PS|]. split; [exact PE|]. apply RI. split; [apply AI; exists i, t, p, steps; auto|]. pose proof (entry_fields _ _ _ _ PE) as [_ [_ [_ [_ [ET _]]]]]. rewrite ET. split; [exact MD|].
    destruct (GR i t p R) as [RN [G _]]. eapply fits_ok; eauto. }
  (* and every entry of the list comes from a rule *)
  assert (forall e, In e (rules_for sort late_type late_name s nm es mode x) -> exists i t p steps, rule templates mode i t p /\ i < length templates /\ pattern_steps p = Ok steps /\ pattern_entry (length templates - 1 - i) t steps = Ok e) as PA.
  { intros e I. apply RI in I. destruct I as [I [MD _]]. apply AI in I. destruct I as [i [t [p [steps [L [N [IP [PS PE]]]]]]]]. exists i, t, p, steps. pose proof (entry_fields _ _ _ _ PE) as [_ [_ [_ [_ [ET _]]]]]. rewrite ET in MD.
    split; [split; [exact N|split; [exact MD|exact IP]]|]. auto. }
  destruct r as [e|]; cbn [option_map].
  - destruct H as [l1 [l2 [EL [OE [EM NB]]]]]. rewrite EL in *. destruct (PA e) as [i [t [p [steps [R [LI [PS PE]]]]]]]; [apply in_or_app; right; now left|].
    pose proof (entry_fields _ _ _ _ PE) as [E1 [E2 [E3 [_ [E5 _]]]]]. rewrite E5. exists i, p. split; [split; [exact R|]; split; [congruence|]; now apply (not_matched i t p steps e R PS PE true EM)|].
    intros i' t' p' AP'. destruct (AP i' t' p' AP') as [steps' [e' [PS' [PE' I']]]]. pose proof (entry_fields _ _ _ _ PE') as [E1' [E2' [E3' _]]]. destruct AP' as [R' [OK' M']].
    assert (~ key_lt e e') as NL.
    { apply in_app_or in I'. destruct I' as [I'|[->|I']].
      - exfalso. assert (entry_match s nm size e' x = Ok false) as EF by (apply NB; [exact I'|congruence]). apply (not_matched i' t' p' steps' e' R' PS' PE' false EF) in M'. discriminate.
      - unfold key_lt. intros [L|[_ [L|[_ L]]]]; try lia. exact (Qlt_irrefl _ L).
      - apply ss_app_inv in RS. destruct RS as [_ [RS _]]. inversion RS as [|? ? _ FA]; subst. rewrite Forall_forall in FA. exact (FA e' I'). }
    assert (en_prio e = priority t p) as Q1.
    { rewrite E2. unfold priority. destruct (GR i t p R) as [_ [_ [_ NA]]]. destruct (tm_priority t) eqn:TP; [reflexivity|]. apply (priority_ok p steps PS). intros PL. exact (NA PL eq_refl). }
    assert (en_prio e' = priority t' p') as Q2.
    { rewrite E2'. unfold priority. destruct (GR i' t' p' R') as [_ [_ [_ NA]]]. destruct (tm_priority t') eqn:TP; [reflexivity|]. apply (priority_ok p' steps' PS'). intros PL. exact (NA PL eq_refl). }
    unfold key_lt in NL. rewrite E1, E1', E3, E3', Q1, Q2 in NL. unfold beats, ties. destruct R as [N _], R' as [N' _]. assert (i' < length templates) as LI' by (apply nth_error_Some; congruence).
    destruct (Nat.lt_trichotomy (tm_prec t) (tm_prec t')) as [L|[L|L]]; [exfalso; apply NL; auto| |left; auto].
    destruct (Q_dec (priority t p) (priority t' p')) as [[L'|L']|L'].
    + exfalso. apply NL. right. auto.
    + left. right. auto.
    + right. split; [split; [auto|now symmetry]|]. destruct (Nat.le_gt_cases i i') as [C|C]; [exact C|]. exfalso. apply NL. right. split; [exact L|]. right. split; [exact L'|]. lia.
  - intros i t p AP'. destruct (AP i t p AP') as [steps [e [PS [PE I]]]]. destruct AP' as [R [OK M]]. pose proof (entry_fields _ _ _ _ PE) as [E1 _].
    assert (entry_match s nm size e x = Ok false) as EF by (apply H; [exact I|congruence]). apply (not_matched i t p steps e R PS PE false EF) in M. discriminate.
Qed.
End Core.

(** ** C54 *)
(** The dispatch tables are invisible: a rule is chosen if and only if one matches (in the
    sense of section 5.2 of XSLT), and it is one of those with the highest import
    precedence and, among these, the highest priority; among several such the first
    in the stylesheet.  Missing: the patterns excluded by [good_rule] (see C53, and
    [C54_anywhere_refuted]), and that it must be the last (refuted below). *)
Theorem C54_choice_partial : forall sort late_type late_name s nm size templates mode x r,
  is_sort sort -> forest s -> proper_names nm -> in_document s x -> (forall i t p, rule templates mode i t p -> good_rule s x t p) ->
  choose sort late_type late_name s nm size templates mode x = Ok r ->
  match r with
  | Some t => first_choice s nm templates mode (fun _ => True) x t
  | None => forall i t p, ~ applicable s nm templates mode (fun _ => True) x i t p
  end.
Proof.
  intros sort lt ln s nm size templates mode x r SO F PN D GR H. unfold choose in H. destruct (all_entries templates) as [es|] eqn:AE; cbn [bind] in H; [|discriminate].
  destruct (first_rule s nm size (rules_for sort lt ln s nm es mode x) x) as [o|] eqn:FR; cbn [bind] in H; [|discriminate]. injection H as <-.
  apply (core_ok sort lt ln s nm size templates mode x SO F PN D GR (fun _ => True) es o AE).
  destruct (first_rule_import s nm size x (rules_for sort lt ln s nm es mode x)) as [m FI]. set (l := rules_for sort lt ln s nm es mode x) in *.
  set (k := S (max m (list_max (map en_prec l)))). rewrite (FI k) in FR by (unfold k; lia). apply first_import_ok in FR.
  assert (forall e, In e l -> en_prec e < k) as LT.
  { intros e I. assert (en_prec e <= list_max (map en_prec l)) as LE; [|unfold k; lia]. pose proof (proj1 (list_max_le (map en_prec l) (list_max (map en_prec l))) (le_n _)) as FA. rewrite Forall_forall in FA. apply FA. now apply in_map. }
  destruct o as [e|].
  - destruct FR as [l1 [l2 [EL [_ [EM NB]]]]]. exists l1, l2. split; [exact EL|]. split; [exact I|]. split; [exact EM|]. intros f I1 _. apply NB; [exact I1|]. apply LT. rewrite EL. apply in_or_app. now left.
  - intros e I1 _. apply FR; auto.
Qed.
Print Assumptions C54_choice_partial.
(** So, if the stylesheet has no conflict at this node, the choice is that of XSLT. *)
Theorem C54_no_conflict_partial : forall sort late_type late_name s nm size templates mode x t,
  is_sort sort -> forest s -> proper_names nm -> in_document s x -> (forall i t p, rule templates mode i t p -> good_rule s x t p) ->
  no_conflict s nm templates mode (fun _ => True) x ->
  choose sort late_type late_name s nm size templates mode x = Ok (Some t) -> xslt_choice s nm templates mode (fun _ => True) x t.
Proof.
  intros sort lt ln s nm size templates mode x t SO F PN D GR NC H. destruct (C54_choice_partial _ _ _ _ _ _ _ _ _ _ SO F PN D GR H) as [i [p [A B]]].
  exists i, p. split; [exact A|]. intros i' t' p' A'. destruct (B i' t' p' A') as [B'|[T _]]; [now left|]. right. split; [exact T|]. rewrite (NC i t p i' t' p' A A' T). reflexivity.
Qed.
Print Assumptions C54_no_conflict_partial.
(** xsl:apply-imports chooses in the same way among the rules of lower import
    precedence. *)
Theorem C54_imports_partial : forall sort late_type late_name s nm size templates mode precedence x r,
  is_sort sort -> forest s -> proper_names nm -> in_document s x -> (forall i t p, rule templates mode i t p -> good_rule s x t p) ->
  choose_import sort late_type late_name s nm size templates mode precedence x = Ok r ->
  match r with
  | Some t => first_choice s nm templates mode (fun q => q < precedence) x t
  | None => forall i t p, ~ applicable s nm templates mode (fun q => q < precedence) x i t p
  end.
Proof.
  intros sort lt ln s nm size templates mode precedence x r SO F PN D GR H. unfold choose_import in H. destruct (all_entries templates) as [es|] eqn:AE; cbn [bind] in H; [|discriminate].
  destruct (first_import s nm size precedence (rules_for sort lt ln s nm es mode x) x) as [o|] eqn:FR; cbn [bind] in H; [|discriminate]. injection H as <-.
  apply (core_ok sort lt ln s nm size templates mode x SO F PN D GR (fun q => q < precedence) es o AE). apply first_import_ok in FR. exact FR.
Qed.
Print Assumptions C54_imports_partial.

(** Where no rule matches, the built-in rules copy the text: applying templates to a
    node gives its string value (for elements, roots and text). *)
Theorem C54_builtin : forall sort late_type late_name s nm size body templates mode x v,
  forest s -> exists_node s x -> kind_of s x = Some KElement \/ kind_of s x = Some KEntity \/ kind_of s x = Some KText ->
  (forall y, above_or_self (parent_of s) x y -> choose sort late_type late_name s nm size templates mode y = Ok None) ->
  apply_templates sort late_type late_name s nm size body templates mode [x] = Ok v -> string_value s x v.
Proof.
  intros sort lt ln s nm size body templates mode x v F E K NR H. unfold apply_templates in H. cbn [apply_nodes length] in H. rewrite (NR x) in H by (left; reflexivity). cbn [bind] in H.
  destruct (subtree s x F E) as [ts R]. pose proof (pre_in s F _ R) as M. pose proof (builtin_ok sort lt ln s nm size body templates mode F (bound s) (T x ts) R) as B. cbn [root] in *.
  rewrite B in H; [|exact E|intros A; unfold attribute in A; rewrite A in K; destruct K as [K|[K|K]]; discriminate|pose proof (pre_length s (T x ts) F R E); unfold bound; lia|].
  - cbn [bind] in H. injection H as <-. rewrite app_nil_r. pose proof (node_string_ok s x F E) as [w [W SV]]. unfold string_value in *. destruct K as [K|[K|K]]; rewrite K in *.
    + rewrite (has_kind_eq s _ _ _ K). cbn [kind_eqb]. destruct (element_string s x F E) as [l [M1 [O V]]]; [unfold is_element; rewrite (has_kind_eq s _ _ _ K); reflexivity|]. clear W SV. exists (filter (has_kind s KText) (flat_map pre ts)).
      rewrite text_part_filter. cbn [pre tl]. pose proof (pre_sorted s F _ R) as SS. cbn [pre] in SS. inversion SS as [|? ? S1 S2]; subst. split; [|split; [eapply sub_sorted; [apply sub_filter|exact S1]|reflexivity]].
      intros y. rewrite filter_In, has_kind_iff. cbn [pre root] in M. split.
      * intros [I K']. split; [|exact K']. destruct (proj1 (M y) (or_intror I)) as [->|[A _]]; [congruence|exact A].
      * intros [A K']. split; [|exact K']. destruct (proj2 (M y)) as [<-|I]; [right; split; [exact A|unfold attribute; rewrite K'; discriminate]|congruence|exact I].
    + rewrite (has_kind_eq s _ _ _ K). cbn [kind_eqb]. clear W SV. exists (filter (has_kind s KText) (flat_map pre ts)).
      rewrite text_part_filter. cbn [pre tl]. pose proof (pre_sorted s F _ R) as SS. cbn [pre] in SS. inversion SS as [|? ? S1 S2]; subst. split; [|split; [eapply sub_sorted; [apply sub_filter|exact S1]|reflexivity]].
      intros y. rewrite filter_In, has_kind_iff. cbn [pre root] in M. split.
      * intros [I K']. split; [|exact K']. destruct (proj1 (M y) (or_intror I)) as [->|[A _]]; [congruence|exact A].
      * intros [A K']. split; [|exact K']. destruct (proj2 (M y)) as [<-|I]; [right; split; [exact A|unfold attribute; rewrite K'; discriminate]|congruence|exact I].
    + rewrite (has_kind_eq s _ _ _ K). reflexivity.
  - intros y Y. apply NR. cbn [pre tl] in Y. cbn [pre root] in M. destruct (proj1 (M y) (or_intror Y)) as [->|[A _]]; [left; reflexivity|right; exact A].
Qed.
Print Assumptions C54_builtin.

(** It always answers if the patterns are [easy_pattern]s (see C53). *)
Theorem C54_total_partial : forall sort late_type late_name s nm size templates mode x, is_sort sort -> forest s ->
  (forall t p, In t templates -> In p (tm_match t) -> easy_pattern (tm_ns t) p) ->
  exists r, choose sort late_type late_name s nm size templates mode x = Ok r.
Proof.
  intros sort lt ln s nm size templates mode x SO F EP.
  assert (forall t p, In t templates -> In p (tm_match t) -> forall k, exists steps e, pattern_steps p = Ok steps /\ pattern_entry k t steps = Ok e) as PS.
  { intros t p IT IP k. pose proof (EP t p IT IP) as E. unfold easy_pattern in E. destruct (path_of p) as [r|] eqn:P.
    - unfold steps_of in E. inversion E as [|? ? E1 E2]; subst. rewrite (steps_tuples p r P).
      assert (Forall (fun dp => easy (tm_ns t) (snd dp)) (rev (rp_rest r))) as ER by (apply Forall_rev; apply (proj1 (Forall_map _ _ _)) in E2; exact E2).
      destruct (tuples_total (tm_ns t) s nm size F (rp_first r) (rev (rp_rest r)) E1 ER) as [l [T _]]. rewrite T. cbn [bind]. destruct (tuples_head _ _ _ T) as [u [l' [-> ST]]].
      exists ((u :: l') ++ anchor_tuples p). cbn [app]. unfold pattern_entry. destruct (tuple_test _ _ ST) as [_ TK].
      assert (declared (tm_ns t) (ps_test (match rev (rp_rest r) with [] => rp_first r | (_, q) :: _ => q end))) as DC by (destruct (rev (rp_rest r)) as [|[d q] l0]; [apply E1|inversion ER as [|? ? E3 _]; subst; apply E3]).
      assert (exists k, resolve t (pattern_key (u :: l' ++ anchor_tuples p)) = Ok k) as [k' RK].
      { cbn [pattern_key]. destruct (l' ++ anchor_tuples p); [|cbn; eauto]. rewrite TK. revert DC. match goal with |- context [plain_key (ps_test ?w)] => generalize (ps_test w) end. intros [] DC; cbn [plain_key resolve declared] in *; eauto; destruct DC as [v ->]; eauto. }
      rewrite RK. destruct (pattern_type (u :: l' ++ anchor_tuples p)) as [[]|]; cbn [bind]; eauto.
    - destruct p; cbn [path_of] in P; try discriminate; eexists _, _; (split; [reflexivity|]); reflexivity. }
  assert (exists es, all_entries templates = Ok es) as [es AE].
  { unfold all_entries. assert (forall t, In t (rev templates) -> In t templates) as IR by (intros t; apply in_rev). revert IR. generalize (rev templates) as l. generalize 0 as k. intros k l. revert k. induction l as [|t l IH]; intros k IR; cbn [enumerate_entries]; [eauto|].
    assert (In t templates) as IT by (apply IR; now left).
    assert (forall ps, (forall p, In p ps -> In p (tm_match t)) -> exists l, parse_all ps = Ok l /\ exists es, pattern_entries k t l = Ok es) as HP.
    { induction ps as [|p ps IHp]; intros SUB; cbn [parse_all]; [exists []; split; [reflexivity|exists []; reflexivity]|]. destruct (PS t p IT (SUB p (or_introl eq_refl)) k) as [steps [e [P1 P2]]]. rewrite P1. cbn [bind].
      destruct IHp as [pl [-> [es PE]]]; [intros; apply SUB; now right|]. cbn [bind]. eexists. split; [reflexivity|]. cbn [pattern_entries]. rewrite P2, PE. cbn. eauto. }
    destruct (HP (tm_match t)) as [pl [-> [es PE]]]; [auto|]. cbn [bind]. rewrite PE. cbn [bind]. destruct (IH (S k)) as [es' ->]; [intros; apply IR; now right|]. cbn. eauto. }
  unfold choose. rewrite AE. cbn [bind].
  assert (forall l, (forall e, In e l -> In e es) -> exists o, first_rule s nm size l x = Ok o) as FR.
  { induction l as [|e l IH]; intros SUB; cbn [first_rule]; [eauto|]. pose proof (SUB e (or_introl eq_refl)) as I. apply (all_entries_in templates es AE) in I. destruct I as [i [t [p [steps [L [N [IP [P1 P2]]]]]]]].
    rewrite (entry_pattern s nm size p steps _ t e x P1 P2). destruct (C53_total_partial (tm_ns t) s nm size p x F (EP t p (nth_error_In _ _ N) IP)) as [b ->]. cbn [bind]. destruct b; [eauto|]. apply IH. intros; apply SUB; now right. }
  destruct (FR (rules_for sort lt ln s nm es mode x)) as [o ->]; [|cbn; eauto].
  intros e I. assert (forall l, (forall f, In f l -> In f es) -> In e (sort l) -> In e es) as IS by (intros l SUB I'; apply (in_sort sort l e SO) in I'; auto).
  assert (forall P, forall f, In f (filter P (mode_entries es mode)) -> In f es) as FM by (intros P f; rewrite filter_In; unfold mode_entries; rewrite filter_In; tauto).
  revert I. unfold rules_for. cbv zeta. destruct (kind_of s x) as [k|]; [|intros []].
  assert (forall b : bool, forall f, In f (if b then filter (kind_is None) (mode_entries es mode) ++ filter (kind_is None) (mode_entries es mode) else filter (kind_is None) (mode_entries es mode)) -> In f es) as AN by (intros [|] f; rewrite ?in_app_iff; intros H; [destruct H as [H|H]|]; apply FM in H; exact H).
  destruct (filter (kind_is (Some k)) (mode_entries es mode)) as [|e0 td] eqn:TD.
  - destruct (mode_entries es mode) eqn:ME; [intros []|]. apply IS. intros f H. rewrite <- ME in *. exact (AN true f H).
  - rewrite <- TD. clear TD. destruct k; try (apply IS; intros f H; apply in_app_or in H; destruct H as [H|H]; [apply FM in H; exact H|apply AN in H; exact H]).
    assert (forall P, forall f, In f (filter P (filter (kind_is (Some KElement)) (mode_entries es mode))) -> In f es) as FF by (intros P f; rewrite filter_In; intros [H _]; apply FM in H; exact H).
    destruct (filter (key_is (Some _)) _) eqn:FK; apply IS; intros f H.
    + apply in_app_or in H. destruct H as [H|H]; [apply FF in H; exact H|apply AN in H; exact H].
    + rewrite <- FK in H. apply in_app_or in H. destruct H as [H|H]; [apply FF in H; exact H|]. apply in_app_or in H. destruct H as [H|H]; [|apply AN in H; exact H].
      destruct (ln _); [apply in_app_or in H; destruct H as [H|H]; [apply FF in H; exact H|apply AN in H; exact H]|apply FF in H; exact H].
Qed.
Print Assumptions C54_total_partial.

(** ** Examples *)
Definition key_ltb (a b : entry) : bool :=
  (en_prec a <? en_prec b) || ((en_prec a =? en_prec b) && (negb (Qle_bool (en_prio b) (en_prio a)) || (Qeq_bool (en_prio a) (en_prio b) && (en_pos a <? en_pos b)))).
Lemma key_ltb_iff a b : key_ltb a b = true <-> key_lt a b.
Proof.
  unfold key_ltb, key_lt. rewrite orb_true_iff, andb_true_iff, orb_true_iff, andb_true_iff, negb_true_iff, !Nat.ltb_lt, Nat.eqb_eq, Qeq_bool_iff.
  assert (Qle_bool (en_prio b) (en_prio a) = false <-> (en_prio a < en_prio b)%Q) as ->; [|tauto].
  split; intros H.
  - apply Qnot_le_lt. intros L. apply Qle_bool_iff in L. congruence.
  - destruct (Qle_bool (en_prio b) (en_prio a)) eqn:E; [|reflexivity]. apply Qle_bool_iff in E. exfalso. exact (Qlt_not_le _ _ H E).
Qed.
Fixpoint insert_entry (e : entry) (l : list entry) : list entry :=
  match l with [] => [e] | f :: l' => if key_ltb e f then f :: insert_entry e l' else e :: l end.
Definition sort_entries (l : list entry) : list entry := fold_right insert_entry [] l.
Lemma key_trans a b c : ~ key_lt a b -> ~ key_lt b c -> ~ key_lt a c.
Proof.
  unfold key_lt. intros H1 H2 H3.
  destruct H3 as [H3|[E [H3|[Q H3]]]].
  - destruct (Nat.lt_trichotomy (en_prec a) (en_prec b)) as [L|[L|L]]; [tauto| |]; apply H2; left; lia.
  - destruct (Nat.lt_trichotomy (en_prec a) (en_prec b)) as [L|[L|L]]; [tauto| |apply H2; left; lia].
    destruct (Qlt_le_dec (en_prio a) (en_prio b)) as [LQ|LQ]; [apply H1; right; split; [lia|now left]|]. apply H2. right. split; [lia|]. left. eapply Qle_lt_trans; eauto.
  - destruct (Nat.lt_trichotomy (en_prec a) (en_prec b)) as [L|[L|L]]; [tauto| |apply H2; left; lia].
    destruct (Q_dec (en_prio a) (en_prio b)) as [[LQ|LQ]|LQ].
    + apply H1. right. split; [lia|now left].
    + apply H2. right. split; [lia|]. left. rewrite <- Q. exact LQ.
    + destruct (Nat.lt_ge_cases (en_pos a) (en_pos b)) as [LP|LP]; [apply H1; right; split; [lia|]; right; split; [exact LQ|exact LP]|].
      apply H2. right. split; [lia|]. right. split; [rewrite <- LQ; exact Q|lia].
Qed.
Lemma key_asym a b : key_lt a b -> ~ key_lt b a.
Proof.
  unfold key_lt. intros [H|[E [H|[Q H]]]] [G|[E' [G|[Q' G]]]]; try lia.
  - exact (Qlt_irrefl _ (Qlt_trans _ _ _ H G)).
  - rewrite Q' in H. exact (Qlt_irrefl _ H).
  - rewrite Q in G. exact (Qlt_irrefl _ G).
Qed.
Lemma sort_entries_ok : is_sort sort_entries.
Proof.
  intros l. induction l as [|e l [IP IS]]; cbn [sort_entries fold_right]; [split; constructor|]. fold (sort_entries l). split.
  - apply Permutation_trans with (e :: sort_entries l); [|now constructor]. generalize (sort_entries l) as m. clear. induction m as [|f m IH]; cbn [insert_entry]; [reflexivity|]. destruct (key_ltb e f); [|reflexivity]. apply Permutation_trans with (f :: e :: m); [now constructor|apply perm_swap].
  - clear IP. induction IS as [|f m IS IH FA]; cbn [insert_entry]; [repeat constructor|]. destruct (key_ltb e f) eqn:K.
    + constructor; [exact IH|]. assert (Forall (fun b => ~ key_lt f b) (e :: m)) as H by (constructor; [apply key_asym, key_ltb_iff, K|exact FA]). apply Forall_forall. intros b I. rewrite Forall_forall in H. apply H.
      clear -I. induction m as [|g m IH]; cbn [insert_entry] in I; [exact I|]. destruct (key_ltb e g); [destruct I as [->|I]; [right; now left|]; apply IH in I; destruct I as [->|I]; [now left|right; now right]|exact I].
    + assert (~ key_lt e f) as N by (rewrite <- key_ltb_iff; congruence). constructor; [constructor; assumption|]. constructor; [exact N|]. apply Forall_forall. intros b I. rewrite Forall_forall in FA. exact (key_trans e f b N (FA b I)).
Qed.
Definition tmpl (ps : list lpattern) (prio : option Q) (prec : nat) : template := {| tm_match := ps; tm_mode := None; tm_priority := prio; tm_prec := prec; tm_ns := no_prefixes |}.
Definition never : option kind -> bool := fun _ => false.
Definition never_name : option str * str -> bool := fun _ => false.
Definition chosen (ts : list template) (x : nat) := choose sort_entries never never_name nested nested_names 1 ts None x.
Definition single (n : string) : lpattern := LRelative (rel (named n) []).
(** Templates for 'b', '*', 'a/b' and 'node()', the first imported with a higher
    precedence or not; the built-in rule for the rest. *)
Definition t_b := tmpl [single "b"] None 0.
Definition t_b1 := tmpl [single "b"] None 1.
Definition t_star := tmpl [LRelative (rel (pst TPrincipal) [])] None 0.
Definition t_ab := tmpl [LRelative (rel (named "a") [(Slash, named "b")])] None 0.
Lemma rule_cases (P : nat -> template -> lpattern -> Prop) ts mode : (forall i t, nth_error ts i = Some t -> Forall (P i t) (tm_match t)) -> forall i t p, rule ts mode i t p -> P i t p.
Proof. intros H i t p [N [_ I]]. specialize (H i t N). rewrite Forall_forall in H. auto. Qed.
Example C54_case : is_sort sort_entries /\ forest nested /\ proper_names nested_names /\ in_document nested 2 /\
  (forall i t p, rule [t_b; t_star; t_ab] None i t p -> good_rule nested 2 t p) /\ (forall t p, In t [t_b; t_star; t_ab] -> In p (tm_match t) -> easy_pattern (tm_ns t) p) /\
  chosen [t_b; t_star; t_ab] 2 = Ok (Some t_ab) /\ chosen [t_b1; t_star; t_ab] 2 = Ok (Some t_b1) /\ chosen [t_b; t_star; t_ab] 3 = Ok (Some t_b) /\ chosen [t_b; t_star; t_ab] 4 = Ok (Some t_star) /\ chosen [t_b; t_star; t_ab] 0 = Ok None.
Proof.
  split; [exact sort_entries_ok|]. split; [exact nested_forest|]. split; [exact nested_names_proper|]. split; [apply nested_document; lia|]. split; [|split; [|repeat apply conj; vm_compute; reflexivity]].
  - apply rule_cases. intros [|[|[|[|i]]]] t N; cbn in N; try discriminate; injection N as <-; cbn [tm_match tmpl t_b t_star t_ab single]; (constructor; [|constructor]); (split; [intros; discriminate|split; [good_steps|split; [repeat constructor|intros []]]]).
  - assert (forall t, good_test false t -> declared no_prefixes t -> easy no_prefixes (pst t)) as H.
    { intros t G DC. split; [exact G|]. split; [exact DC|]. split; [|reflexivity]. split; [constructor|]. exists []. auto. }
    intros t p [<-|[<-|[<-|[]]]] [<-|[]]; unfold easy_pattern; cbn [path_of single steps_of rel rp_first rp_rest map snd]; repeat constructor; try (apply H; exact I); try exact I; try discriminate; exists []; auto.
Qed.
(** Two templates for 'b' with the same priority: XSLT takes the last one. *)
Definition t_bc := tmpl [single "b"; single "c"] None 0.
Theorem C54_last_refuted : forest nested /\ chosen [t_b; t_bc] 2 = Ok (Some t_b) /\ ~ xslt_choice nested nested_names [t_b; t_bc] None (fun _ => True) 2 t_b.
Proof.
  split; [exact nested_forest|]. split; [vm_compute; reflexivity|]. intros [i [p [[[N [_ I]] [_ M]] H]]].
  assert (i = 0) as ->. { destruct i as [|[|i]]; [reflexivity|injection N; discriminate|destruct i; discriminate]. }
  cbn in I. destruct I as [<-|[]]. destruct (H 1 t_bc (single "b")) as [[L|[_ L]]|[_ L]].
  - split; [split; [reflexivity|split; [reflexivity|now left]]|]. split; [exact I|]. exact M.
  - cbn in L. lia.
  - vm_compute in L. discriminate.
  - lia.
Qed.
Print Assumptions C54_last_refuted.
(** '//b' has priority 0.5, but is given 0, so that 'b' with the priority 0.25 wins. *)
Definition t_any := tmpl [LAnywhere (rel (named "b") [])] None 0.
Definition t_quarter := tmpl [single "b"] (Some (1 # 4)) 0.
Theorem C54_anywhere_refuted : forest nested /\ chosen [t_any; t_quarter] 2 = Ok (Some t_quarter) /\ ~ xslt_choice nested nested_names [t_any; t_quarter] None (fun _ => True) 2 t_quarter.
Proof.
  split; [exact nested_forest|]. split; [vm_compute; reflexivity|]. intros [i [p [[[N [_ I]] [_ M]] H]]].
  assert (i = 1) as ->. { destruct i as [|[|i]]; [injection N; discriminate|reflexivity|destruct i; discriminate]. }
  cbn in I. destruct I as [<-|[]]. destruct (H 0 t_any (LAnywhere (rel (named "b") []))) as [[L|[_ L]]|[[_ L] _]].
  - split; [split; [reflexivity|split; [reflexivity|now left]]|]. split; [exact I|].
    apply (matches_chain no_prefixes nested nested_names nested_forest _ (rel (named "b") []) 2); [reflexivity|apply nested_document; lia|intros; discriminate|]. exists 1. split; [apply nested_step; vm_compute; reflexivity|exact I].
  - cbn in L. lia.
  - vm_compute in L. discriminate.
  - vm_compute in L. discriminate.
Qed.
Print Assumptions C54_anywhere_refuted.
(** A template for 'node()' is applied to the root, which it does not match. *)
Definition t_node := tmpl [LRelative (rel (pst TNode) [])] None 0.
Theorem C54_node_refuted : forest nested /\ chosen [t_node] 0 = Ok (Some t_node) /\ forall i t p, ~ applicable nested nested_names [t_node] None (fun _ => True) 0 i t p.
Proof.
  split; [exact nested_forest|]. split; [vm_compute; reflexivity|]. intros i t p [[N [_ I]] [_ M]]. destruct i as [|i]; [|destruct i; discriminate]. injection N as <-. destruct I as [<-|[]].
  destruct M as [n [_ [m [E R]]]]. unfold as_steps in R; cbn [lp_steps rel rp_first rp_rest flat_map] in R. inversion R as [|? ? ? k ? R1 R2]; subst. inversion R2; subst. apply step_from_axis in R1. destruct R1 as [[P NA] _].
  vm_compute in P. discriminate P.
Qed.
Print Assumptions C54_node_refuted.
(** The built-in rules alone give the text of a document, and apply-imports from a
    template of precedence 1 finds those of precedence 0. *)
Example C54_builtin_case : (forall y, choose sort_entries never never_name sample sample_names 1 [] None y = Ok None) /\
  (exists v, v <> [] /\ apply_templates sort_entries never never_name sample sample_names 1 (fun _ _ _ _ => Ok []) [] None [0] = Ok v) /\
  choose_import sort_entries never never_name nested nested_names 1 [t_b1; t_star; t_ab] None 1 2 = Ok (Some t_ab).
Proof.
  split; [|split; [eexists; split; [|vm_compute; reflexivity]; discriminate|vm_compute; reflexivity]].
  intros y. unfold choose, rules_for. cbn [all_entries enumerate_entries rev bind mode_entries filter app]. destruct (kind_of sample y) as [[]|]; reflexivity.
Qed.
