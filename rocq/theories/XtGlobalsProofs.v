(** * Proofs for C58: global variables *)
From Coq Require Import NArith String List Bool Lia Arith Permutation.
From Verif Require Import PyStr PyErr XtVars XtVarsSpec XtVarsProofs.
Import ListNotations.
Local Open Scope nat_scope.

Section Globals.
Variables V Nd : Type.
Notation env := (env V).
Notation expr := (expr V Nd).
Notation instr := (instr V Nd).
Notation template := (template V Nd).
Notation focus := (focus Nd).
Notation state := (state V Nd).
Notation outcome := (outcome V Nd).
Notation global := (global V Nd).
Variable w : world V Nd.

Definition extends (rho rho' : env) : Prop := forall n v, lookup rho n = Some v -> lookup rho' n = Some v.
Lemma all_values_extends : forall rho rho', extends rho rho' -> forall ns l, all_values rho ns = Some l -> all_values rho' ns = Some l.
Proof.
  intros rho rho' H. induction ns as [|n ns IH]; intros l Hl; cbn [all_values] in *; auto.
  destruct (lookup rho n) as [v|] eqn:E; [|discriminate]. rewrite (H _ _ E). destruct (all_values rho ns) as [l0|]; [|discriminate].
  rewrite (IH l0 eq_refl). exact Hl.
Qed.
Lemma value_extends : forall rho rho' (e : expr) f v, extends rho rho' -> value_of e rho f = Ok v -> value_of e rho' f = Ok v.
Proof.
  intros rho rho' e f v H. unfold value_of. destruct (all_values rho (reads e)) as [l|] eqn:E; [|discriminate].
  rewrite (all_values_extends _ _ H _ _ E). auto.
Qed.
Lemma simple_list : forall l, (fix all (l : list instr) : Prop := match l with [] => True | j :: l' => simple j /\ all l' end) l = simple_all l.
Proof. induction l as [|j l IH]; cbn [simple_all]; [reflexivity|]. rewrite IH. reflexivity. Qed.
Fixpoint simple_choose (whens : list (expr * list instr)) (other : list instr) : Prop :=
  match whens with [] => simple_all other | (_, body) :: l => simple_all body /\ simple_choose l other end.
Lemma simple_choose_eq : forall whens other, simple (Choose whens other) -> simple_choose whens other.
Proof.
  intros whens other. cbn [simple]. induction whens as [|[e body] l IH]; cbn [simple_choose]; rewrite simple_list; auto.
  intros [H1 H2]. auto.
Qed.

Section Simple.
Variable c : template -> env -> state -> outcome.
Variable a : list Nd -> env -> state -> outcome.
Variable sc : template -> env -> focus -> result (list V).
Variable sa : list Nd -> env -> focus -> result (list V).
Notation means := (means w sc sa).
Notation means_all := (means_all w sc sa).

(** What simple content does. *)
Definition plain (s : state) (o : outcome) (r : result (list V)) : Prop :=
  (o = Fail UndefinedVariable s /\ r = Err UndefinedVariable) \/ (exists out, o = Done s out /\ r = Ok out).
Lemma simple_not_var : forall l : list instr, simple_all l -> declares l = false.
Proof. induction l as [|i l IH]; intros H; cbn; auto. destruct H as [H1 H2]. destruct i; cbn in *; auto. contradiction. Qed.
Lemma process_simple : forall l s, simple_all l -> process w c a l s = run_all w c a l s.
Proof. intros. unfold process. rewrite simple_not_var; auto. Qed.
Lemma simple_list_runs : forall l, Forall (fun i => simple i -> forall s, plain s (run w c a i s) (rmap fst (means i (s_vars s) (s_focus s))) /\
    forall x, means i (s_vars s) (s_focus s) = Ok x -> snd x = s_vars s) l -> simple_all l ->
  forall s, plain s (run_all w c a l s) (means_all l (s_vars s) (s_focus s)).
Proof.
  intros l H. induction H as [|i l Hi Hl IH]; intros Hs s.
  - right. exists []. auto.
  - destruct Hs as [Hs1 Hs2]. cbn [run_all XtVarsSpec.means_all]. destruct (Hi Hs1 s) as [Hp He].
    destruct Hp as [(H1 & H2)|(out & H1 & H2)]; rewrite H1; cbn [andthen].
    + left. split; auto. destruct (means i (s_vars s) (s_focus s)); cbn in *; [discriminate|]. injection H2 as ->. auto.
    + destruct (means i (s_vars s) (s_focus s)) as [x|e]; cbn [rmap bind] in *; [|discriminate]. rewrite (He x eq_refl).
      injection H2 as <-. destruct (IH Hs2 s) as [(H3 & H4)|(out' & H3 & H4)]; rewrite H3, H4.
      * left. auto.
      * right. exists (fst x ++ out'). auto.
Qed.
Lemma body_runs : forall l s (m : result (list V * env)), plain s (process w c a l s) (means_all l (s_vars s) (s_focus s)) ->
  m = rmap (fun o => (o, s_vars s)) (means_all l (s_vars s) (s_focus s)) ->
  plain s (process w c a l s) (rmap fst m) /\ forall x, m = Ok x -> snd x = s_vars s.
Proof.
  intros l s m [(H1 & H2)|(out & H1 & H2)] ->; rewrite H1, H2; cbn [rmap fst].
  - split; [left; auto|]. discriminate.
  - split; [right; eauto|]. intros x Hx. injection Hx as <-. auto.
Qed.
Lemma simple_runs : forall i, simple i -> forall s, plain s (run w c a i s) (rmap fst (means i (s_vars s) (s_focus s))) /\
    forall x, means i (s_vars s) (s_focus s) = Ok x -> snd x = s_vars s.
Proof.
  assert (Hval : forall (e : expr) s (k : V -> outcome) (k' : V -> result (list V * env)),
    (forall v, plain s (k v) (rmap fst (k' v)) /\ forall x, k' v = Ok x -> snd x = s_vars s) ->
    plain s (with_value e s k) (rmap fst (do v <- value_of e (s_vars s) (s_focus s) ; k' v)) /\
    forall x, (do v <- value_of e (s_vars s) (s_focus s) ; k' v) = Ok x -> snd x = s_vars s).
  { intros e s k k' H. unfold with_value, evaluate, value_of. destruct (all_values (s_vars s) (reads e)); cbn [bind]; auto.
    split; [left; auto|discriminate]. }
  apply (instr_all V Nd (fun i => simple i -> forall s, plain s (run w c a i s) (rmap fst (means i (s_vars s) (s_focus s))) /\
    forall x, means i (s_vars s) (s_focus s) = Ok x -> snd x = s_vars s)); try (cbn [simple]; contradiction).
  - intros v _ s. cbn. split; [right; eauto|]. intros x Hx. injection Hx as <-. auto.
  - intros e _ s. cbn [run XtVarsSpec.means]. apply Hval. intros v. cbn. split; [right; eauto|]. intros x Hx. injection Hx as <-. auto.
  - intros body Hb Hs s. cbn [simple] in Hs. rewrite simple_list in Hs. rewrite run_element. apply body_runs; [|apply means_element].
    rewrite process_simple by auto. apply simple_list_runs; auto.
  - intros e body Hb Hs s. cbn [simple] in Hs. rewrite simple_list in Hs. rewrite run_if, means_if. apply Hval. intros v. destruct (truth w v).
    + apply body_runs; auto. rewrite process_simple by auto. apply simple_list_runs; auto.
    + cbn. split; [right; eauto|]. intros x Hx. injection Hx as <-. auto.
  - intros whens other Hw Ho Hs s. apply simple_choose_eq in Hs. rewrite run_choose_eq, means_choose_eq.
    induction Hw as [|[e body] whens Hbody Hw IH]; cbn [run_choose means_choose simple_choose snd] in *.
    + apply body_runs; auto. rewrite process_simple by auto. apply simple_list_runs; auto.
    + destruct Hs as [Hs1 Hs2]. apply Hval. intros v. destruct (truth w v); [|apply IH; auto].
      apply body_runs; auto. rewrite process_simple by auto. apply simple_list_runs; auto.
Qed.
Lemma simple_all_runs : forall l s, simple_all l -> plain s (process w c a l s) (means_all l (s_vars s) (s_focus s)).
Proof. intros. rewrite process_simple by auto. apply simple_list_runs; auto. apply Forall_forall. intros. apply simple_runs. auto. Qed.

(** More variables change nothing. *)
Lemma simple_monotone_list : forall l, Forall (fun i => simple i -> forall rho rho' f x, extends rho rho' -> means i rho f = Ok x -> snd x = rho /\ means i rho' f = Ok (fst x, rho')) l ->
  simple_all l -> forall rho rho' f o, extends rho rho' -> means_all l rho f = Ok o -> means_all l rho' f = Ok o.
Proof.
  intros l H. induction H as [|i l Hi Hl IH]; intros Hs rho rho' f o He Hm; [exact Hm|]. destruct Hs as [H1 H2]. cbn [XtVarsSpec.means_all] in *.
  destruct (means i rho f) as [x|] eqn:E; cbn [bind] in Hm; [|discriminate]. destruct (Hi H1 _ _ _ _ He E) as [H3 H4]. rewrite H4. cbn [bind fst snd].
  rewrite H3 in Hm. destruct (means_all l rho f) as [o'|] eqn:E'; cbn [bind] in Hm; [|discriminate]. rewrite (IH H2 _ _ _ _ He E'). exact Hm.
Qed.
Lemma simple_monotone : forall i, simple i -> forall rho rho' f x, extends rho rho' -> means i rho f = Ok x -> snd x = rho /\ means i rho' f = Ok (fst x, rho').
Proof.
  assert (Hval : forall (e : expr) rho rho' f (k k' : V -> result (list V * env)) x, extends rho rho' ->
    (forall v, k v = Ok x -> snd x = rho /\ k' v = Ok (fst x, rho')) ->
    (do v <- value_of e rho f ; k v) = Ok x -> snd x = rho /\ (do v <- value_of e rho' f ; k' v) = Ok (fst x, rho')).
  { intros e rho rho' f k k' x He H Hm. destruct (value_of e rho f) as [v|] eqn:E; cbn [bind] in Hm; [|discriminate].
    rewrite (value_extends _ _ _ _ _ He E). cbn [bind]. auto. }
  assert (Hbody : forall (r r' : result (list V)) (rho rho' : env) x, (forall o, r = Ok o -> r' = Ok o) ->
    rmap (fun o => (o, rho)) r = Ok x -> snd x = rho /\ rmap (fun o => (o, rho')) r' = Ok (fst x, rho')).
  { intros r r' rho rho' x H Hm. destruct r as [o|]; cbn in Hm; [|discriminate]. injection Hm as <-. rewrite (H o eq_refl). auto. }
  apply (instr_all V Nd (fun i => simple i -> forall rho rho' f x, extends rho rho' -> means i rho f = Ok x -> snd x = rho /\ means i rho' f = Ok (fst x, rho')));
    try (cbn [simple]; contradiction).
  - intros v _ rho rho' f x He Hm. cbn in *. injection Hm as <-. auto.
  - intros e _ rho rho' f x He. cbn [XtVarsSpec.means]. apply Hval; auto. intros v Hm. injection Hm as <-. auto.
  - intros body Hb Hs rho rho' f x He. cbn [simple] in Hs. rewrite simple_list in Hs. rewrite !means_element. apply Hbody.
    intros o. apply simple_monotone_list; auto.
  - intros e body Hb Hs rho rho' f x He. cbn [simple] in Hs. rewrite simple_list in Hs. rewrite !means_if. apply Hval; auto. intros v.
    destruct (truth w v). { apply Hbody. intros o. apply simple_monotone_list; auto. } intros Hm. injection Hm as <-. auto.
  - intros whens other Hw Ho Hs rho rho' f x He. apply simple_choose_eq in Hs. rewrite !means_choose_eq.
    induction Hw as [|[e body] whens Hb Hw IH]; cbn [means_choose simple_choose snd] in *.
    + apply Hbody. intros o. apply simple_monotone_list; auto.
    + destruct Hs as [Hs1 Hs2]. apply Hval; auto. intros v. destruct (truth w v); [|apply IH; auto]. apply Hbody. intros o. apply simple_monotone_list; auto.
Qed.
Lemma simple_all_monotone : forall l rho rho' f o, simple_all l -> extends rho rho' -> means_all l rho f = Ok o -> means_all l rho' f = Ok o.
Proof. intros l rho rho' f o Hs He. apply simple_monotone_list; auto. apply Forall_forall. intros. eapply simple_monotone; eauto. Qed.
End Simple.

Section Prime.
Variable fuel : nat.
Variable f0 : focus.
Notation value := (global_value w f0).
Notation inst := (instantiate_global w fuel).
Definition ready (s : state) : Prop := s_focus s = f0 /\ s_copied s = false /\ s_vars s = s_global s.

Lemma value_monotone : forall g rho rho' v, simple_global g -> extends rho rho' -> value g rho = Ok v -> value g rho' = Ok v.
Proof.
  intros [n b] rho rho' v Hs He. unfold global_value. cbn [snd]. destruct b as [e|body|]; auto.
  - apply value_extends; auto.
  - intros H. destruct (means_all w _ _ body rho f0) as [o|] eqn:E in H; cbn [rmap] in H; [|discriminate].
    rewrite (simple_all_monotone _ _ _ _ _ _ _ Hs He E). exact H.
Qed.
(** The value of a global variable as the code finds it. *)
Lemma inst_value : forall g s, simple_global g -> ready s ->
  (inst g s = Fail UndefinedVariable s /\ value g (s_global s) = Err UndefinedVariable) \/
  (exists s' v, inst g s = Done s' [] /\ value g (s_global s) = Ok v /\ ready s' /\ s_global s' = (fst g, v) :: s_global s).
Proof.
  intros [n b] s Hs (R1 & R2 & R3). unfold instantiate_global, global_value. cbn [fst snd]. destruct b as [e|body|].
  - cbn [run]. unfold with_value, evaluate, value_of. rewrite R3, R1. destruct (all_values (s_global s) (reads e)).
    + right. eexists _, _. cbn [assign s_copied]. rewrite R2. split; [reflexivity|]. split; [reflexivity|]. cbn [assign s_vars s_focus s_global].
      split; [repeat split; auto|]. cbn [fst]. rewrite R3. auto.
    + left. auto.
  - rewrite run_content. destruct (simple_all_runs (instantiate w fuel) (apply_templates w fuel) (fun _ _ _ => Err OutOfFuel) (fun _ _ _ => Err OutOfFuel) body s Hs) as [(H1 & H2)|(out & H1 & H2)].
    + left. rewrite H1. rewrite R3, R1 in H2. rewrite H2. auto.
    + right. rewrite H1. rewrite R3, R1 in H2. rewrite H2. cbn [assign s_copied]. rewrite R2. eexists _, _. split; [reflexivity|]. split; [reflexivity|].
      cbn [assign s_vars s_focus s_global]. split; [repeat split; auto|]. cbn [fst]. rewrite R3. auto.
  - right. cbn [run assign s_copied]. rewrite R2. eexists _, _. split; [reflexivity|]. split; [reflexivity|].
    cbn [assign s_vars s_focus s_global]. split; [repeat split; auto|]. cbn [fst]. rewrite R3. auto.
Qed.

Variable elements : list global.
Variable init : env.
Hypothesis Hsimple : Forall simple_global elements.
Hypothesis Hnodup : NoDup (map fst elements).
Notation derived := (derives value elements init).

(** A variable has one value. *)
Lemma lookup_app : forall (r r' : env) n, lookup (r ++ r') n = match lookup r n with Some v => Some v | None => lookup r' n end.
Proof. induction r as [|[m v] r IH]; intros; cbn [app lookup]; auto. destruct (str_eqb m n); auto. Qed.
Lemma same_global : forall g g', In g elements -> In g' elements -> fst g = fst g' -> g = g'.
Proof.
  intros g g' Hg Hg' E. clear Hsimple. revert Hnodup Hg Hg'. induction elements as [|x l IH]; intros Hn Hg Hg'; [destruct Hg|]. cbn [map] in Hn.
  inversion Hn as [|y z H1 H2]; subst. destruct Hg as [->|Hg]; destruct Hg' as [->|Hg']; auto.
  - elim H1. rewrite E. apply in_map. auto.
  - elim H1. rewrite <- E. apply in_map. auto.
Qed.
Lemma derives_one : forall n v, derived n v -> forall v', derived n v' -> v = v'.
Proof.
  fix IH 3. intros n v H. destruct H as [n v Hl|g rho v Hg Hi Hr Hv]; intros v' H'.
  - inversion H' as [n' v0 Hl'|g' rho' v0 Hg' Hi' Hr' Hv']; subst; congruence.
  - inversion H' as [n' v0 Hl'|g' rho' v0 Hg' Hi' Hr' Hv' Hn]; subst; [congruence|].
    assert (g' = g) by (apply same_global; auto). subst g'.
    assert (Hs : simple_global g) by (rewrite Forall_forall in Hsimple; auto).
    assert (E1 : value g (rho ++ rho') = Ok v). { apply (value_monotone g rho); auto. intros m u Hm. rewrite lookup_app, Hm. auto. }
    assert (E2 : value g (rho ++ rho') = Ok v').
    { apply (value_monotone g rho'); auto. intros m u Hm. rewrite lookup_app. destruct (lookup rho m) as [u'|] eqn:E; auto.
      f_equal. apply (IH m u' (Hr m u' E) u). apply Hr'. exact Hm. }
    congruence.
Qed.

Definition sound (s : state) : Prop := extends init (s_global s) /\ forall n v, lookup (s_global s) n = Some v -> derived n v.
Lemma str_eqb_refl' : forall n, str_eqb n n = true. Proof. intros. apply str_eqb_eq. auto. Qed.
(** One pass: what was known stays, what follows is derived, and a pass which defers
    everything changes nothing. *)
Lemma pass_facts : forall l s, incl l elements -> ready s -> sound s ->
  exists s' d, pass inst l s = Ok (s', d) /\ ready s' /\ sound s' /\ extends (s_global s) (s_global s') /\ incl d l /\ (List.length d <= List.length l) /\
    (forall g, In g l -> In g d \/ exists v, lookup (s_global s') (fst g) = Some v) /\
    (List.length d = List.length l -> s' = s /\ d = l /\ forall g, In g l -> value g (s_global s) = Err UndefinedVariable).
Proof.
  induction l as [|g l IH]; intros s Hi Hr Hs.
  - exists s, []. cbn. split; auto. split; auto. split; auto. split; [intros n v; auto|]. split; [intros x []|]. split; [lia|]. split; [intros x []|].
    intros _. split; auto. split; auto. intros x [].
  - assert (Hg : In g elements) by (apply Hi; left; auto). assert (Hi' : incl l elements) by (intros x Hx; apply Hi; right; auto).
    assert (Hsg : simple_global g) by (rewrite Forall_forall in Hsimple; auto).
    cbn [pass]. destruct (lookup (s_global s) (fst g)) as [v|] eqn:El.
    + destruct (IH s Hi' Hr Hs) as (s' & d & H1 & H2 & H3 & H4 & H5 & H6 & H7 & H8). exists s', d. split; auto. split; auto. split; auto. split; auto.
      split; [intros x Hx; right; auto|]. split; [cbn; lia|]. split.
      * intros x [->|Hx]; [right; exists v; auto|auto].
      * cbn. intros Hx. lia.
    + destruct (inst_value g s Hsg Hr) as [(E1 & E2)|(s1 & v & E1 & E2 & E3 & E4)]; rewrite E1.
      * cbn [is_undefined UndefinedVariable N.eqb]. change (N.eqb 24 24) with true. cbn iota.
        destruct (IH s Hi' Hr Hs) as (s' & d & H1 & H2 & H3 & H4 & H5 & H6 & H7 & H8). rewrite H1. cbn [bind fst snd].
        exists s', (g :: d). split; auto. split; auto. split; auto. split; auto. split.
        { intros x [->|Hx]; [left; auto|right; auto]. } split; [cbn; lia|]. split.
        { intros x [->|Hx]; [left; left; auto|]. destruct (H7 x Hx) as [Hd|Hd]; auto. left; right; auto. }
        { cbn. intros Hx. destruct (H8 ltac:(lia)) as (K1 & K2 & K3). split; auto. split; [congruence|]. intros x [->|Hx']; auto. }
      * assert (Hs1 : sound s1).
        { split.
          - intros n u Hn. rewrite E4. cbn [lookup]. destruct (str_eqb (fst g) n) eqn:E; [|apply Hs; auto].
            apply str_eqb_eq in E. subst n. apply (proj1 Hs) in Hn. congruence.
          - intros n u. rewrite E4. cbn [lookup]. destruct (str_eqb (fst g) n) eqn:E.
            + apply str_eqb_eq in E. subst n. intros Hx. injection Hx as <-. apply (derives_from _ _ _ _ _ g (s_global s)); auto.
              * destruct (lookup init (fst g)) eqn:Ei; auto. apply (proj1 Hs) in Ei. congruence.
              * apply Hs.
            + apply Hs. }
        destruct (IH s1 Hi' E3 Hs1) as (s' & d & H1 & H2 & H3 & H4 & H5 & H6 & H7 & H8). exists s', d.
        assert (Hext : extends (s_global s) (s_global s1)).
        { intros n u Hn. rewrite E4. cbn [lookup]. destruct (str_eqb (fst g) n) eqn:E; auto. apply str_eqb_eq in E. subst n. congruence. }
        split; auto. split; auto. split; auto. split; [intros n u Hn; apply H4; apply Hext; exact Hn|].
        split; [intros x Hx; right; auto|]. split; [cbn; lia|]. split.
        { intros x [->|Hx]; auto. right. exists v. apply H4. rewrite E4. cbn [lookup]. rewrite str_eqb_refl'. auto. }
        { cbn. intros Hx. lia. }
Qed.
Lemma prime_facts : forall passes l s, incl l elements -> ready s -> sound s ->
  (forall g, In g elements -> In g l \/ exists v, lookup (s_global s) (fst g) = Some v) -> List.length l < passes ->
  (exists s', prime inst passes l s = Ok s' /\ ready s' /\ sound s' /\ forall g, In g elements -> exists v, lookup (s_global s') (fst g) = Some v) \/
  (prime inst passes l s = Err CircularVariable /\ exists g, In g elements /\ forall v, ~ derived (fst g) v).
Proof.
  induction passes as [|passes IH]; intros l s Hi Hr Hs Hall Hlen; [lia|].
  cbn [prime]. destruct (pass_facts l s Hi Hr Hs) as (s' & d & H1 & H2 & H3 & H4 & H5 & H6 & H7 & H8). rewrite H1. cbn [bind fst snd].
  assert (Hall' : forall g, In g elements -> In g d \/ exists v, lookup (s_global s') (fst g) = Some v).
  { intros g Hg. destruct (Hall g Hg) as [Hl|(v & Hl)]; auto. right. exists v. apply H4. auto. }
  destruct d as [|g d].
  - left. exists s'. split; auto. split; auto. split; auto. intros g Hg. destruct (Hall' g Hg) as [[]|Hx]; auto.
  - destruct (List.length (g :: d) =? List.length l) eqn:E.
    + right. split; auto. apply Nat.eqb_eq in E. destruct (H8 E) as (K1 & K2 & K3). subst s'.
      exists g. assert (Hgl : In g l) by (rewrite <- K2; left; auto). split; [apply Hi; auto|].
      assert (Hno : lookup (s_global s) (fst g) = None \/ exists v, lookup (s_global s) (fst g) = Some v) by (destruct (lookup (s_global s) (fst g)); eauto).
      assert (Hclosed : forall n v, derived n v -> lookup (s_global s) n = Some v \/ False).
      { fix F 3. intros n v H. destruct H as [n v Hl|g' rho v Hg' Hi' Hr' Hv']; left.
        - apply Hs. exact Hl.
        - destruct (Hall g' Hg') as [Hl|(u & Hl)].
          + exfalso. assert (Hx : value g' (s_global s) = Ok v).
            { apply (value_monotone g' rho); auto. { rewrite Forall_forall in Hsimple. auto. }
              intros m u Hm. destruct (F m u (Hr' m u Hm)) as [Hy|[]]. exact Hy. }
            rewrite (K3 g' Hl) in Hx. discriminate.
          + rewrite Hl. f_equal. symmetry. eapply derives_one; [|apply (proj2 Hs); exact Hl].
            apply (derives_from _ _ _ _ _ g' rho); auto. }
      intros v Hv. destruct (Hclosed _ _ Hv) as [Hx|[]].
      (* the first deferred element is not known, otherwise it would not be deferred *)
      clear -H1 Hx K2. subst l. cbn [pass] in H1. rewrite Hx in H1.
      assert (Hp : forall l s s' d0, pass inst l s = Ok (s', d0) -> List.length d0 <= List.length l).
      { clear. induction l as [|g l IH]; intros s s' d0 H; cbn [pass] in H; [injection H as <- <-; auto|].
        destruct (lookup (s_global s) (fst g)); [apply IH in H; cbn; lia|]. destruct (inst g s) as [s1 o|e s1]; [apply IH in H; cbn; lia|].
        destruct (is_undefined e); [|discriminate]. destruct (pass inst l s1) as [[s2 d2]|] eqn:E; cbn [bind fst snd] in H; [|discriminate].
        injection H as <- <-. apply IH in E. cbn. lia. }
      apply Hp in H1. cbn in H1. lia.
    + apply Nat.eqb_neq in E. apply IH; auto.
      * intros x Hx. apply Hi. apply H5. auto.
      * lia.
Qed.
Lemma derives_member : forall n v, derived n v -> lookup init n = Some v \/ exists g, In g elements /\ fst g = n.
Proof. intros n v H. destruct H; eauto. Qed.
Lemma start_sound : forall rec, sound (State f0 init false init rec).
Proof. intros. split; [intros n v; auto|]. cbn [s_global]. intros. apply derives_given. auto. Qed.
End Prime.
Lemma derives_permutation : forall f0 elements elements' init, Permutation elements elements' ->
  forall n v, derives (global_value w f0) elements init n v -> derives (global_value w f0) elements' init n v.
Proof.
  intros f0 elements elements' init Hp. fix IH 3. intros n v H. destruct H as [n v Hl|g rho v Hg Hi Hr Hv].
  - apply derives_given. auto.
  - apply (derives_from _ _ _ _ _ g rho); auto. eapply Permutation_in; eauto.
Qed.
End Globals.
