(** * Proofs about the choice of template rules *)
From Coq Require Import NArith ZArith QArith String List Bool Lia Arith Sorted Permutation.
From Verif Require Import PyStr PyErr DomModel DomSpec DomCells DomInv DomOps DomStep DomOrder DomProps XpModel XpSpec XpTree XpAxes XpOrder XpSelect XpProps XpPath XpPathSpec XpPathSteps XpPathOrder XpPathEval XtPattern XtPatternSpec XtPatternProofs XtPatternProps XtDispatch XtDispatchSpec.
Import ListNotations.
Local Open Scope nat_scope.

(** ** The entries *)
Lemma parse_all_in : forall ps l, parse_all ps = Ok l -> forall steps, In steps l <-> exists p, In p ps /\ pattern_steps p = Ok steps.
Proof.
  induction ps as [|p ps IH]; intros l; cbn [parse_all].
  - intros [= <-] steps. cbn. split; [contradiction|intros [p [[] _]]].
  - destruct (pattern_steps p) as [x|] eqn:P; cbn [bind]; [|discriminate]. destruct (parse_all ps) as [l'|]; cbn [bind]; [|discriminate]. intros [= <-] steps. cbn [In]. rewrite (IH l' eq_refl).
    split; [intros [<-|[q [I Q]]]; [exists p; auto|exists q; auto]|intros [q [[<-|I] Q]]; [left; congruence|right; eauto]].
Qed.
Lemma pattern_entries_in position t : forall l r, pattern_entries position t l = Ok r -> forall e, In e r <-> exists steps, In steps l /\ pattern_entry position t steps = Ok e.
Proof.
  induction l as [|steps l IH]; intros r; cbn [pattern_entries].
  - intros [= <-] e. cbn. split; [contradiction|intros [st [[] _]]].
  - destruct (pattern_entry position t steps) as [x|] eqn:P; cbn [bind]; [|discriminate]. destruct (pattern_entries position t l) as [r'|]; cbn [bind]; [|discriminate]. intros [= <-] e. cbn [In]. rewrite (IH r' eq_refl).
    split; [intros [<-|[q [I Q]]]; [exists steps; auto|exists q; auto]|intros [q [[<-|I] Q]]; [left; congruence|right; eauto]].
Qed.
Lemma enumerate_in : forall l k r, enumerate_entries k l = Ok r ->
  forall e, In e r <-> exists j t p steps, nth_error l j = Some t /\ In p (tm_match t) /\ pattern_steps p = Ok steps /\ pattern_entry (k + j) t steps = Ok e.
Proof.
  induction l as [|t l IH]; intros k r; cbn [enumerate_entries].
  - intros [= <-] e. cbn. split; [contradiction|]. intros [j [t [p [st [H _]]]]]. destruct j; discriminate.
  - destruct (parse_all (tm_match t)) as [pl|] eqn:PA; cbn [bind]; [|discriminate]. destruct (pattern_entries k t pl) as [es|] eqn:PE; cbn [bind]; [|discriminate].
    destruct (enumerate_entries (S k) l) as [r'|] eqn:EN; cbn [bind]; [|discriminate]. intros [= <-] e. rewrite in_app_iff, (pattern_entries_in _ _ _ _ PE), (IH _ _ EN). split.
    + intros [[steps [I P]]|[j [t' [p [steps [N [I [S1 P]]]]]]]].
      * apply (parse_all_in _ _ PA) in I. destruct I as [p [I S1]]. exists 0, t, p, steps. rewrite Nat.add_0_r. auto.
      * exists (S j), t', p, steps. replace (k + S j) with (S k + j) by lia. auto.
    + intros [[|j] [t' [p [steps [N [I [S1 P]]]]]]].
      * cbn in N. injection N as <-. rewrite Nat.add_0_r in P. left. exists steps. split; [|exact P]. apply (parse_all_in _ _ PA). eauto.
      * right. exists j, t', p, steps. replace (S k + j) with (k + S j) by lia. auto.
Qed.
Lemma all_entries_in templates es : all_entries templates = Ok es ->
  forall e, In e es <-> exists i t p steps, i < length templates /\ nth_error templates i = Some t /\ In p (tm_match t) /\ pattern_steps p = Ok steps /\ pattern_entry (length templates - 1 - i) t steps = Ok e.
Proof.
  intros A e. rewrite (enumerate_in _ _ _ A). split.
  - intros [j [t [p [steps [N H]]]]]. assert (j < length templates) as L by (rewrite <- rev_length; apply nth_error_Some; congruence).
    exists (length templates - 1 - j), t, p, steps. split; [lia|]. replace (length templates - 1 - (length templates - 1 - j)) with j by lia. split; [|exact H].
    rewrite nth_error_nth' with (d := t); [|lia]. rewrite nth_error_nth' with (d := t) in N; [|rewrite rev_length; lia]. injection N as N. rewrite rev_nth in N by lia. f_equal. rewrite <- N at 2. f_equal. lia.
  - intros [i [t [p [steps [L [N H]]]]]]. exists (length templates - 1 - i), t, p, steps. split; [|exact H].
    rewrite nth_error_nth' with (d := t); [|rewrite rev_length; lia]. rewrite nth_error_nth' with (d := t) in N by lia. injection N as N. rewrite rev_nth by lia. f_equal. rewrite <- N at 2. f_equal. lia.
Qed.
Lemma entry_fields position t steps e : pattern_entry position t steps = Ok e ->
  en_prec e = tm_prec t /\ en_prio e = match tm_priority t with Some q => q | None => pattern_priority steps end /\ en_pos e = position /\ en_steps e = steps /\ en_tm e = t /\ en_type e = pattern_type steps.
Proof. unfold pattern_entry. destruct (match pattern_type steps with Some KElement => _ | _ => _ end) as [key|]; cbn [bind]; [|discriminate]. intros [= <-]. repeat split. Qed.

(** ** What the keys say *)
Definition key_fits (nm : names) (x : nat) (k : option (option str * str)) : Prop := k = None \/ k = Some (nm_ns nm x, nm_local nm x).
Definition fits (s : store) (nm : names) (x : nat) (e : entry) : Prop :=
  en_type e = None \/ (en_type e = kind_of s x /\ (en_type e = Some KElement -> key_fits nm x (en_key e))).

Lemma matches_last namespaces s nm p r x : forest s -> path_of p = Some r -> in_document s x -> (forall nodes d q, p = LIdKeyPath nodes d q -> forall z, In z nodes -> exists_node s z) ->
  matches namespaces s nm p x -> exists m, step_from namespaces s nm (as_step (head_step (rp_first r) (rev (rp_rest r)))) m x.
Proof.
  intros F P D RN M. apply (matches_chain namespaces s nm F p r x P D RN) in M. destruct (rev (rp_rest r)) as [|[d q] l]; cbn [chain head_step] in *.
  - destruct M as [m [H _]]. eauto.
  - destruct M as [m [y [H _]]]. eauto.
Qed.
Lemma steps_shape p r steps : path_of p = Some r -> pattern_steps p = Ok steps -> exists t l, steps = t :: l /\ step_tuple (head_step (rp_first r) (rev (rp_rest r))) = Ok t.
Proof.
  intros P H. rewrite (steps_tuples p r P) in H. destruct (tuples _ _) as [l|] eqn:T; cbn [bind] in H; [|discriminate]. injection H as <-.
  destruct (tuples_head _ _ _ T) as [t [l' [-> ST]]]. exists t, (l' ++ anchor_tuples p). auto.
Qed.
Lemma tuple_test p t : step_tuple p = Ok t -> test_type (pt_test t) = plain_type (ps_test p) /\ test_key (pt_test t) = plain_key (ps_test p).
Proof. unfold step_tuple. destruct (ps_preds p); [intros [= <-]; auto|]. destruct (init_all _); cbn [bind]; [|discriminate]. intros [= <-]. auto. Qed.
Lemma fits_ok s nm x position t p steps e : forest s -> in_document s x -> (forall nodes d q, p = LIdKeyPath nodes d q -> forall z, In z nodes -> exists_node s z) -> good_pattern s x p ->
  pattern_steps p = Ok steps -> pattern_entry position t steps = Ok e -> matches (tm_ns t) s nm p x -> fits s nm x e.
Proof.
  intros F D RN G PS PE M. assert (en_type e = pattern_type steps) as ET by (apply entry_fields in PE; tauto). destruct (path_of p) as [r|] eqn:P.
  - destruct (steps_shape p r steps P PS) as [u [l [-> ST]]]. destruct (matches_last _ s nm p r x F P D RN M) as [m H]. set (q := head_step (rp_first r) (rev (rp_rest r))) in *.
    assert (good_test (ps_attr q) (ps_test q)) as GT.
    { destruct (good_split s x p r P G) as [G1 [G2 _]]. subst q. destruct (rev (rp_rest r)) as [|[d q] l']; cbn [head_step]; [apply G1|]. inversion G2 as [|? ? G3 _]; subst. apply G3. }
    destruct (tuple_test _ _ ST) as [TT TK]. pose proof (tuple_axis _ _ ST) as TA. apply step_from_axis in H. cbn [as_step ls_axis ls_test] in H. destruct H as [_ PA].
    unfold fits. rewrite ET. unfold pattern_entry in PE. cbn [pattern_type] in *. rewrite TA in *. unfold kind_for in *. destruct (ps_attr q).
    + right. split; [|discriminate]. symmetry. destruct (ps_test q); cbn in GT; try contradiction; try discriminate GT; cbn [passes principal_kind] in PA; tauto.
    + rewrite TT in *. assert (plain_type (ps_test q) = None \/ plain_type (ps_test q) = kind_of s x) as [E|E].
      { destruct (ps_test q); cbn in GT; try contradiction; cbn [passes principal_kind plain_type] in *; auto; right; symmetry; tauto. }
      * left. exact E.
      * right. split; [exact E|]. intros E2. rewrite E2 in PE.
        assert (forall k, resolve t (pattern_key (u :: l)) = Ok k -> key_fits nm x k) as HR.
        { intros k. cbn [pattern_key]. destruct l as [|? ?]; [|cbn; intros [= <-]; now left]. rewrite TK. destruct (ps_test q) as [| | | | |n|pf|pf n]; cbn [plain_key resolve]; try (intros [= <-]; now left).
          - intros [= <-]. right. cbn [passes] in PA. destruct PA as [_ [N L]]. now rewrite N, L.
          - cbn [passes] in PA. destruct PA as [_ [[v [U N]] L]]. rewrite U. intros [= <-]. right. now rewrite N, L. }
        destruct (resolve t (pattern_key (u :: l))) as [k|]; cbn [bind] in PE; [|discriminate]. injection PE as <-. cbn [en_key]. now apply HR.
  - destruct p; cbn [path_of] in P; try discriminate; cbn in PS; injection PS as <-; unfold fits; rewrite ET; cbn.
    + right. split; [|discriminate]. symmetry. now apply (root_matches (tm_ns t) s nm x D).
    + now left.
Qed.

(** ** The table *)
Lemma kind_is_iff k e : kind_is k e = true <-> en_type e = k.
Proof.
  unfold kind_is. destruct k as [k|], (en_type e) as [k'|]; try (split; congruence). split; [|intros [= ->]; destruct k; reflexivity]. destruct k, k'; cbn; congruence.
Qed.
Lemma key_is_iff k e : key_is k e = true <-> en_key e = k.
Proof.
  unfold key_is. destruct k as [[[u|] n]|], (en_key e) as [[[v|] m]|]; try (split; congruence); rewrite ?andb_true_iff, ?str_eqb_eq; split; try (intros [-> ->]; reflexivity); try (intros ->; reflexivity); intros [=]; subst; auto.
Qed.
Lemma mode_eqb_iff a b : mode_eqb a b = true <-> a = b.
Proof. destruct a as [a|], b as [b|]; cbn; try (split; congruence). rewrite str_eqb_eq. split; congruence. Qed.
Lemma in_sort sort l e : is_sort sort -> (In e (sort l) <-> In e l).
Proof. intros S1. destruct (S1 l) as [P _]. split; apply Permutation_in; [exact P|now apply Permutation_sym]. Qed.
Lemma nil_no_member {A} (l : list A) : l = [] -> forall x, ~ In x l.
Proof. intros -> x []. Qed.
Lemma rules_in_gen sort late_type late_name s nm es mode x : (forall l e, In e (sort l) <-> In e l) -> exists_node s x ->
  forall e, In e (rules_for sort late_type late_name s nm es mode x) <-> In e es /\ tm_mode (en_tm e) = mode /\ fits s nm x e.
Proof.
  intros SO EX e. unfold rules_for. assert (exists k, kind_of s x = Some k) as [k K].
  { unfold kind_of. destruct (get_ex s x EX) as [n ->]. cbn. eauto. }
  rewrite K. set (table := mode_entries es mode).
  assert (forall e, In e table <-> In e es /\ tm_mode (en_tm e) = mode) as TB by (intros f; unfold table, mode_entries; rewrite filter_In, mode_eqb_iff; reflexivity).
  set (any := filter (kind_is None) table). assert (forall e, In e any <-> In e table /\ en_type e = None) as AB by (intros f; unfold any; rewrite filter_In, kind_is_iff; reflexivity).
  set (typed := filter (kind_is (Some k)) table). assert (forall e, In e typed <-> In e table /\ en_type e = Some k) as YB by (intros f; unfold typed; rewrite filter_In, kind_is_iff; reflexivity).
  cbv zeta. assert (forall b : bool, forall f, In f (if b then any ++ any else any) <-> In f any) as AA by (intros [|] f; rewrite ?in_app_iff; tauto).
  assert (In e es /\ tm_mode (en_tm e) = mode /\ fits s nm x e <-> In e table /\ fits s nm x e) as -> by (rewrite TB; tauto).
  unfold fits. rewrite K. clearbody typed any. destruct typed as [|e0 typed'] eqn:ET.
  - assert (In e table /\ (en_type e = None \/ en_type e = Some k /\ (en_type e = Some KElement -> key_fits nm x (en_key e))) <-> In e any) as ->.
    { rewrite AB. split; [|tauto]. intros [I [H|[H _]]]; [tauto|]. exfalso. apply (proj2 (YB e)). auto. }
    destruct table as [|e1 table']; [|rewrite SO, in_app_iff; tauto]. rewrite AB. cbn. tauto.
  - rewrite <- ET in *. clear ET e0 typed'. assert (k <> KElement -> (In e (sort (typed ++ (if late_type (Some k) then any ++ any else any))) <->
      In e table /\ (en_type e = None \/ en_type e = Some k /\ (en_type e = Some KElement -> key_fits nm x (en_key e))))) as HN.
    { intros NE. rewrite SO, in_app_iff, AA, AB, YB. split; [intros [[I H]|[I H]]; split; auto; right; split; [exact H|congruence]|tauto]. }
    destruct k; try (apply HN; discriminate). clear HN.
    assert (forall f, In f (filter (key_is None) typed) <-> In f typed /\ en_key f = None) as WB by (intros f; rewrite filter_In, key_is_iff; reflexivity).
    assert (forall f, In f (filter (key_is (Some (nm_ns nm x, nm_local nm x))) typed) <-> In f typed /\ en_key f = Some (nm_ns nm x, nm_local nm x)) as NB by (intros f; rewrite filter_In, key_is_iff; reflexivity).
    destruct (filter (key_is (Some (nm_ns nm x, nm_local nm x))) typed) as [|n0 named] eqn:EN.
    + rewrite SO, in_app_iff, AA, WB, YB, AB. split.
      * intros [[[I T] H]|[I H]]; split; auto. right. split; [exact T|]. intros _. now left.
      * intros [I [H|[T H]]]; [tauto|]. destruct (H T) as [H'|H']; [tauto|]. exfalso. apply (proj2 (NB e)). rewrite YB. auto.
    + rewrite <- EN in *. clear EN n0 named. set (name := (nm_ns nm x, nm_local nm x)) in *. assert (forall b : bool, In e (if b then filter (key_is None) typed ++ (if late_type (Some KElement) then any ++ any else any) else filter (key_is None) typed) -> In e (filter (key_is None) typed) \/ In e any) as HW.
      { intros [|]; [rewrite in_app_iff, AA; tauto|tauto]. }
      assert (forall b : bool, In e (filter (key_is None) typed) -> In e (if b then filter (key_is None) typed ++ (if late_type (Some KElement) then any ++ any else any) else filter (key_is None) typed)) as HW' by (intros [|]; rewrite ?in_app_iff; auto).
      rewrite SO, !in_app_iff, AA. split.
      * intros [H|[H|H]].
        -- apply NB in H. destruct H as [H HK]. apply YB in H. split; [tauto|]. right. split; [tauto|]. intros _. right. exact HK.
        -- apply HW in H. destruct H as [H|H]; [apply WB in H; destruct H as [H HK]; apply YB in H; split; [tauto|]; right; split; [tauto|]; intros _; now left|apply AB in H; tauto].
        -- apply AB in H. tauto.
      * intros [I [H|[T H]]]; [right; right; apply AB; auto|]. destruct (H T) as [H'|H'].
        -- right. left. apply HW', WB. rewrite YB. auto.
        -- left. apply NB. rewrite YB. auto.
Qed.
Lemma rules_in sort late_type late_name s nm es mode x : is_sort sort -> exists_node s x ->
  forall e, In e (rules_for sort late_type late_name s nm es mode x) <-> In e es /\ tm_mode (en_tm e) = mode /\ fits s nm x e.
Proof. intros SO. apply rules_in_gen. intros l e. now apply in_sort. Qed.
Lemma rules_sorted sort late_type late_name s nm es mode x : is_sort sort -> StronglySorted (fun a b => ~ key_lt a b) (rules_for sort late_type late_name s nm es mode x).
Proof.
  intros SO. assert (forall l, StronglySorted (fun a b => ~ key_lt a b) (sort l)) as H by (intros l; apply (SO l)). unfold rules_for. cbv zeta. destruct (kind_of s x) as [k|]; [|constructor].
  destruct (filter (kind_is (Some k)) _); [destruct (mode_entries es mode); [constructor|apply H]|]. destruct k; try apply H. destruct (filter (key_is (Some _)) _); apply H.
Qed.

(** ** The loops *)
Lemma first_import_ok s nm size precedence x : forall l r, first_import s nm size precedence l x = Ok r ->
  match r with
  | None => forall e, In e l -> en_prec e < precedence -> entry_match s nm size e x = Ok false
  | Some e => exists l1 l2, l = l1 ++ e :: l2 /\ en_prec e < precedence /\ entry_match s nm size e x = Ok true /\ forall f, In f l1 -> en_prec f < precedence -> entry_match s nm size f x = Ok false
  end.
Proof.
  induction l as [|e l IH]; intros r; cbn [first_import].
  - intros [= <-] e [].
  - destruct (Nat.ltb_spec (en_prec e) precedence) as [L|L].
    + destruct (entry_match s nm size e x) as [b|] eqn:B; cbn [bind]; [|discriminate]. destruct b.
      * intros [= <-]. exists [], l. repeat split; auto. intros f [].
      * intros H. specialize (IH r H). destruct r as [e'|].
        -- destruct IH as [l1 [l2 [-> [P [M N]]]]]. exists (e :: l1), l2. repeat split; auto. intros f [<-|I]; auto.
        -- intros f [<-|I]; auto.
    + intros H. specialize (IH r H). destruct r as [e'|].
      * destruct IH as [l1 [l2 [-> [P [M N]]]]]. exists (e :: l1), l2. repeat split; auto. intros f [<-|I]; auto. lia.
      * intros f [<-|I]; auto. lia.
Qed.
Lemma first_rule_import s nm size x : forall l, (exists m, forall precedence, m <= precedence -> first_rule s nm size l x = first_import s nm size precedence l x).
Proof.
  induction l as [|e l [m IH]]; [exists 0; reflexivity|]. exists (S (max m (en_prec e))). intros p P. cbn [first_rule first_import]. destruct (Nat.ltb_spec (en_prec e) p) as [L|L]; [|lia].
  rewrite (IH p) by lia. reflexivity.
Qed.
Lemma entry_pattern s nm size p steps position t e x : pattern_steps p = Ok steps -> pattern_entry position t steps = Ok e -> entry_match s nm size e x = pattern_match (tm_ns t) s nm size p x.
Proof.
  intros PS PE. apply entry_fields in PE. destruct PE as [_ [_ [_ [E1 [E2 _]]]]]. unfold entry_match, pattern_match. rewrite E1, E2, PS. cbn [bind]. destruct steps as [|u [|v l]]; try reflexivity.
  cbn [steps_match match_rest]. destruct (ptest_match _ _ _ _ _ _ _) as [[|]|]; reflexivity.
Qed.
Lemma priority_ok p steps : pattern_steps p = Ok steps -> ~ plain_anywhere p -> pattern_priority steps = default_priority p.
Proof.
  intros PS NA. destruct (path_of p) as [r|] eqn:P.
  - rewrite (steps_tuples p r P) in PS. destruct (tuples _ _) as [l|] eqn:T; cbn [bind] in PS; [|discriminate]. injection PS as <-.
    assert (rp_rest r <> [] -> exists t u l', l = t :: u :: l') as L2.
    { intros NE. destruct (rev (rp_rest r)) as [|[d q] l0] eqn:RV; [apply (f_equal (@rev _)) in RV; rewrite rev_involutive in RV; contradiction|]. cbn [tuples] in T.
      destruct (tuples (rp_first r) l0) as [m|] eqn:T0; cbn [bind] in T; [|discriminate]. destruct (step_tuple q) as [u|]; cbn [bind] in T; [|discriminate]. destruct (tuples_head _ _ _ T0) as [v [m' [-> _]]]. injection T as <-. eauto. }
    assert (forall w, path_of w = Some r -> w = LRelative r \/ w = LAnywhere r -> ~ plain_anywhere w -> pattern_priority (l ++ []) = default_priority w) as HR.
    { intros w _ HW NW. rewrite app_nil_r. destruct (rp_rest r) as [|a rest] eqn:RR.
      - cbn [rev tuples] in T. destruct (step_tuple (rp_first r)) as [t|] eqn:ST; cbn [bind] in T; [|discriminate]. injection T as <-. cbn [pattern_priority]. unfold step_tuple in ST. destruct HW as [-> | ->].
        + cbn [default_priority]. rewrite RR. destruct (ps_preds (rp_first r)); [injection ST as <-; reflexivity|]. destruct (init_all _); cbn [bind] in ST; [|discriminate]. now injection ST as <-.
        + cbn [plain_anywhere] in NW. cbn [default_priority]. destruct (ps_preds (rp_first r)) as [|e es]; [exfalso; apply NW; auto|]. destruct (init_all _); cbn [bind] in ST; [|discriminate]. now injection ST as <-.
      - destruct L2 as [t [u [l' ->]]]; [discriminate|]. cbn [pattern_priority]. destruct HW as [-> | ->]; cbn [default_priority]; rewrite ?RR; reflexivity. }
    destruct (tuples_head _ _ _ T) as [t [l' [E _]]].
    destruct p as [|r0|nodes|nodes d r0|r0|r0]; cbn [path_of] in P; try discriminate; injection P as ->; cbn [anchor_tuples default_priority].
    + subst l. cbn [app]. destruct (l' ++ [document_tuple]) eqn:E; [destruct l'; discriminate|reflexivity].
    + subst l. cbn [app]. destruct (l' ++ [idkey_tuple nodes]) eqn:E; [destruct l'; discriminate|reflexivity].
    + apply (HR (LAnywhere r)); auto.
    + apply (HR (LRelative r)); auto.
  - destruct p; cbn [path_of] in P; try discriminate; cbn in PS; injection PS as <-; reflexivity.
Qed.

(** ** The built-in rules *)
From Verif Require Import XpNum XpNumSpec XpNumLemmas XpFuncs XpFuncSpec XpFuncNum XpFuncCmp XpString XpStringSpec XpStringProofs.
Section Builtin.
Variables (sort : list entry -> list entry) (late_type : option kind -> bool) (late_name : option str * str -> bool).
Variables (s : store) (nm : names) (size : nat) (body : template -> nat -> nat -> nat -> result str) (templates : list template) (mode : option str).
Hypothesis F : forest s.
Lemma builtin_ok : forall fuel t, rep s t -> exists_node s (root t) -> ~ attribute s (root t) -> length (pre t) <= fuel ->
  (forall y, In y (tl (pre t)) -> choose sort late_type late_name s nm size templates mode y = Ok None) ->
  builtin sort late_type late_name s nm size body templates fuel mode (root t) = Ok (if has_kind s KText (root t) then data_of s (root t) else text_part s (tl (pre t))).
Proof.
  induction fuel as [|f IH]; intros [n ts] R E NA L NR; [cbn in L; lia|]. cbn [builtin root pre tl] in *.
  assert (exists k, kind_of s n = Some k) as [k K] by (unfold kind_of; destruct (get_ex s n E) as [m ->]; cbn; eauto).
  unfold is_element, is_entity. rewrite !(has_kind_eq s k _ _ K). inversion R as [n' ts' KS RT EE]; subst n' ts'.
  assert (is_container k = true -> (do l <- get_children s n ; apply_nodes sort late_type late_name s nm size body templates (builtin sort late_type late_name s nm size body templates f mode) mode l 1 (length l)) = Ok (text_part s (flat_map pre ts))) as HC.
  { intros _. rewrite (f_read s F n E). cbn [bind]. rewrite KS.
    assert (forall l pos last, (forall t, In t l -> In t ts) -> apply_nodes sort late_type late_name s nm size body templates (builtin sort late_type late_name s nm size body templates f mode) mode (map root l) pos last = Ok (text_part s (flat_map pre l))) as HL.
    { induction l as [|t l IHl]; intros pos last Sub; cbn [map apply_nodes flat_map]; [reflexivity|]. assert (In t ts) as It by (apply Sub; now left). rewrite Forall_forall in RT. pose proof (RT t It) as Rt.
      assert (In (root t) (kids s n)) as Ik by (rewrite KS; now apply in_map).
      rewrite (NR (root t)) by (apply in_flat_map; exists t; split; [exact It|destruct t; now left]). cbn [bind].
      rewrite IH.
      - cbn [bind]. rewrite IHl by (intros; apply Sub; now right). cbn [bind]. f_equal. rewrite text_part_app. f_equal. destruct t as [m us]. cbn [root pre tl]. unfold text_part at 2. cbn [flat_map].
        destruct (has_kind s KText m) eqn:HT; [|reflexivity]. apply has_kind_iff in HT. rewrite (leaf s m us KText F Rt HT eq_refl). cbn. now rewrite app_nil_r.
      - exact Rt.
      - eapply kid_exists; eauto.
      - eapply kid_nonattr; eauto.
      - cbn [length] in L. clear -L It. induction ts as [|u ts IH]; [destruct It|]. cbn [flat_map] in L. rewrite app_length in L. destruct It as [->|It]; [lia|]. apply IH; [lia|exact It].
      - intros y Y. apply NR. apply in_flat_map. exists t. split; [exact It|]. destruct t. now right. }
    apply HL; auto. }
  destruct k; cbn [kind_eqb orb]; try (apply HC; reflexivity); try (rewrite (leaf s n ts _ F R K eq_refl); reflexivity).
  - unfold data_of. destruct (get_ex s n E) as [m ->]. reflexivity.
  - exfalso. apply NA. exact K.
Qed.
End Builtin.
