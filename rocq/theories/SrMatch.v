(** * The content models of the XSLT elements are the rules of XSLT 1.0 *)
From Coq Require Import NArith ZArith String List Bool Lia Arith Permutation.
From Verif Require Import PyStr PyErr DtdModel DtdSpec DtdDfa DtdProps SrModel SrSpec.
Import ListNotations.
Local Open Scope nat_scope.

(** ** Expressions *)
Lemma matches_one c v : quant_of c = One -> (matches c v <-> once c v).
Proof. intros Q. split; intros H; [inversion H; subst; congruence|constructor; auto]. Qed.
Lemma matches_opt c v : quant_of c = Opt -> (matches c v <-> v = [] \/ once c v).
Proof. intros Q. split; [intros H; inversion H; subst; try congruence; auto|intros [->|H]; [apply m_opt_none|apply m_opt_some]; auto]. Qed.
Lemma matches_rep c v : quant_of c = Rep -> (matches c v <-> times c v).
Proof. intros Q. split; intros H; [inversion H; subst; congruence|apply m_rep; auto]. Qed.
Lemma matches_plus c v : quant_of c = Plus -> (matches c v <-> exists v1 v2, v = v1 ++ v2 /\ once c v1 /\ times c v2).
Proof. intros Q. split; [intros H; inversion H; subst; try congruence; eauto|intros (v1 & v2 & -> & H1 & H2); apply m_plus; auto]. Qed.
Lemma once_name_iff q n v : once (CName q n) v <-> v = [EName n].
Proof. split; intros H; [inversion H; auto|subst; constructor]. Qed.
Lemma once_alt_iff q l v : once (CAlt q l) v <-> exists c, In c l /\ matches c v.
Proof. split; intros H; [inversion H; subst; eauto|destruct H as (c & I1 & M); eapply once_alt; eauto]. Qed.
Lemma once_seq_iff q l v : once (CSeq q l) v <-> in_turn l v.
Proof. split; intros H; [inversion H; auto|constructor; auto]. Qed.
Lemma in_turn_cons c l v : in_turn (c :: l) v <-> exists v1 v2, v = v1 ++ v2 /\ matches c v1 /\ in_turn l v2.
Proof. split; [intros H; inversion H; subst; eauto 6|intros (v1 & v2 & -> & H1 & H2); constructor; auto]. Qed.
Lemma in_turn_nil v : in_turn [] v <-> v = [].
Proof. split; intros H; [inversion H; auto|subst; constructor]. Qed.

(** A repetition of an expression whose words are words over [P], among them all
    those of length one, matches the words over [P]. *)
Lemma times_forall c (P : event -> Prop) : (forall v, once c v -> Forall P v) -> (forall e, P e -> once c [e]) -> forall v, times c v <-> Forall P v.
Proof.
  intros H1 H2 v. split.
  - intros T. assert (forall c' v', times c' v' -> c' = c -> Forall P v') as G.
    { induction 1; intros E; subst; [constructor|]. apply Forall_app. split; [apply H1; auto|apply IHtimes; auto]. }
    eapply G; eauto.
  - induction 1; [constructor|]. change (x :: l) with ([x] ++ l). constructor; auto.
Qed.
Lemma rep_forall c (P : event -> Prop) : quant_of c = Rep -> (forall v, once c v -> Forall P v) -> (forall e, P e -> once c [e]) -> forall v, matches c v <-> Forall P v.
Proof. intros Q H1 H2 v. rewrite matches_rep by exact Q. apply times_forall; auto. Qed.
Lemma rep_name n v : matches (CName Rep n) v <-> Forall (fun e => e = EName n) v.
Proof.
  apply rep_forall; [reflexivity| |].
  - intros u H. apply once_name_iff in H. subst. auto.
  - intros e ->. constructor.
Qed.
Lemma rep_names ns v : matches (CAlt Rep (map (CName One) ns)) v <-> Forall (fun e => exists n, In n ns /\ e = EName n) v.
Proof.
  apply rep_forall; [reflexivity| |].
  - intros u H. apply once_alt_iff in H. destruct H as (c & I1 & M). apply in_map_iff in I1. destruct I1 as (n & <- & I1).
    apply matches_one in M; [|reflexivity]. apply once_name_iff in M. subst. eauto.
  - intros e (n & I1 & ->). apply once_alt_iff. exists (CName One n). split; [apply in_map; auto|]. apply matches_one; [reflexivity|constructor].
Qed.

Definition ev_template (e : event) : Prop := e = EName TEXT_NODE \/ (exists n, In n instruction_names /\ e = EName n) \/ e = EName RESULT_ELEMENT.
Lemma m_template_iff v : matches m_template v <-> Forall ev_template v.
Proof.
  apply rep_forall; [reflexivity| |].
  - intros u H. apply once_alt_iff in H. destruct H as (c & [<-|[<-|[<-|[]]]] & M).
    + apply rep_name in M. eapply Forall_impl; [|exact M]. unfold ev_template. auto.
    + apply (rep_names instruction_names) in M. eapply Forall_impl; [|exact M]. unfold ev_template. auto.
    + apply rep_name in M. eapply Forall_impl; [|exact M]. unfold ev_template. auto.
  - intros e [->|[(n & I1 & ->)| ->]]; apply once_alt_iff.
    + exists m_text. split; [cbn; auto|]. apply rep_name. auto.
    + exists m_instructions. split; [cbn; auto|]. apply (rep_names instruction_names). constructor; eauto.
    + exists m_result_elements. split; [cbn; auto|]. apply rep_name. auto.
Qed.
Definition ev_top (e : event) : Prop := (exists n, In n top_level_names /\ e = EName n) \/ e = EName RESULT_ELEMENT.
Lemma m_top_iff v : matches m_top_level v <-> Forall ev_top v.
Proof.
  change m_top_level with (CAlt Rep (map (CName One) top_level_names ++ [m_result_elements])).
  apply rep_forall; [reflexivity| |].
  - intros u H. apply once_alt_iff in H. destruct H as (c & I1 & M). apply in_app_iff in I1. destruct I1 as [I1|[<-|[]]].
    + apply in_map_iff in I1. destruct I1 as (n & <- & I1). apply matches_one in M; [|reflexivity]. apply once_name_iff in M. subst.
      constructor; [|constructor]. left. eauto.
    + apply rep_name in M. eapply Forall_impl; [|exact M]. unfold ev_top. auto.
  - intros e [(n & I1 & ->)| ->]; apply once_alt_iff.
    + exists (CName One n). split; [apply in_app_iff; left; apply in_map; auto|]. apply matches_one; [reflexivity|constructor].
    + exists m_result_elements. split; [apply in_app_iff; cbn; auto|]. apply rep_name. auto.
Qed.

(** ** Items *)
(** The name of an XSLT element, not one of the tokens. *)
Definition plain (n : str) : Prop := n <> TEXT_NODE /\ n <> RESULT_ELEMENT /\ n <> EMPTY.
Definition plain_item (i : item) : Prop := match i with IXsl n => plain n | _ => True end.
Lemma row_plain n r : row attribute_table n = Some r -> plain n.
Proof.
  intros H. unfold plain. split; [|split]; intros ->; vm_compute in H; discriminate.
Qed.
Lemma event_text i : plain_item i -> (event_of i = EName TEXT_NODE <-> i = IText).
Proof.
  intros P. destruct i as [|n|]; cbn [event_of].
  - split; auto.
  - split; [|discriminate]. intros E. injection E as E. destruct P as [P _]. contradiction.
  - split; discriminate.
Qed.
Lemma event_result i : plain_item i -> (event_of i = EName RESULT_ELEMENT <-> i = IResult).
Proof.
  intros P. destruct i as [|n|]; cbn [event_of].
  - split; discriminate.
  - split; [|discriminate]. intros E. injection E as E. destruct P as [_ [P _]]. contradiction.
  - split; auto.
Qed.
Lemma event_xsl i n : plain n -> (event_of i = EName n <-> i = IXsl n).
Proof.
  intros (P1 & P2 & _). destruct i as [|m|]; cbn [event_of].
  - split; [|discriminate]. intros E. injection E as E. exfalso. apply P1. symmetry. exact E.
  - split; [intros E; injection E as ->; auto|intros E; injection E as ->; auto].
  - split; [|discriminate]. intros E. injection E as E. exfalso. apply P2. symmetry. exact E.
Qed.
Ltac is_plain := unfold plain; repeat split; discriminate.
Lemma instr_plain n : In n instruction_names -> plain n.
Proof. intros H. cbn [instruction_names In] in H. repeat (destruct H as [<-|H]; [is_plain|]). destruct H. Qed.
Lemma top_plain n : In n top_level_names -> plain n.
Proof. intros H. cbn [top_level_names In] in H. repeat (destruct H as [<-|H]; [is_plain|]). destruct H. Qed.
Lemma Forall_events (P : event -> Prop) (Q : item -> Prop) l : Forall plain_item l -> (forall i, plain_item i -> (P (event_of i) <-> Q i)) -> (Forall P (map event_of l) <-> Forall Q l).
Proof.
  intros F H. rewrite Forall_map. induction F; [split; constructor|]. rewrite !Forall_cons_iff. rewrite IHF. rewrite (H x) by auto. reflexivity.
Qed.
Lemma template_items l : Forall plain_item l -> (matches m_template (map event_of l) <-> Forall in_template l).
Proof.
  intros F. rewrite m_template_iff. apply Forall_events; [exact F|]. intros i P. unfold ev_template. rewrite event_text, event_result by exact P. split.
  - intros [->|[(n & I1 & E)| ->]]; [exact Logic.I| |exact Logic.I]. apply event_xsl in E; [subst; exact I1|apply instr_plain; auto].
  - destruct i as [|n|]; cbn [in_template]; auto. intros I1. right. left. exists n. auto.
Qed.
Lemma top_items l : Forall plain_item l -> (matches m_top_level (map event_of l) <-> Forall at_top l).
Proof.
  intros F. rewrite m_top_iff. apply Forall_events; [exact F|]. intros i P. unfold ev_top. rewrite event_result by exact P. split.
  - intros [(n & I1 & E)| ->]; [|exact Logic.I]. apply event_xsl in E; [subst; exact I1|apply top_plain; auto].
  - destruct i as [|n|]; cbn [at_top]; auto; [intros []|]. intros I1. left. exists n. auto.
Qed.
Lemma name_items n l : plain n -> Forall plain_item l -> (matches (CName Rep n) (map event_of l) <-> Forall (fun i => i = IXsl n) l).
Proof. intros P F. rewrite rep_name. apply Forall_events; [exact F|]. intros i _. apply event_xsl. exact P. Qed.
Lemma all_repeat {A} (x : A) l : Forall (fun y => y = x) l <-> exists k, l = repeat x k.
Proof.
  split.
  - induction 1; [exists 0; auto|]. subst. destruct IHForall as (k & ->). exists (S k). auto.
  - intros (k & ->). induction k; constructor; auto.
Qed.
Lemma map_split {A B} (f : A -> B) l : forall v1 v2, map f l = v1 ++ v2 -> exists l1 l2, l = l1 ++ l2 /\ map f l1 = v1 /\ map f l2 = v2.
Proof.
  induction l as [|x l IH]; intros v1 v2 E.
  - cbn in E. symmetry in E. apply app_eq_nil in E. destruct E as [-> ->]. exists [], []. auto.
  - destruct v1 as [|y v1]; [exists [], (x :: l); auto|]. cbn in E. injection E as E1 E. destruct (IH _ _ E) as (l1 & l2 & -> & <- & <-).
    exists (x :: l1), l2. cbn. rewrite E1. auto.
Qed.
(** A sequence of elements with one name, then what [c] allows. *)
Lemma seq_items n c (Q : list item -> Prop) l : plain n -> Forall plain_item l -> (forall l', Forall plain_item l' -> (matches c (map event_of l') <-> Q l')) ->
  (matches (CSeq One [CName Rep n; c]) (map event_of l) <-> exists k l', l = repeat (IXsl n) k ++ l' /\ Q l').
Proof.
  intros P F H. rewrite matches_one by reflexivity. rewrite once_seq_iff, in_turn_cons. split.
  - intros (v1 & v2 & E & M1 & M2). apply map_split in E. destruct E as (l1 & l2 & -> & <- & <-). apply Forall_app in F. destruct F as [F1 F2].
    apply name_items in M1; auto. apply all_repeat in M1. destruct M1 as (k & ->). exists k, l2. split; auto. apply H; auto.
    apply in_turn_cons in M2. destruct M2 as (u1 & u2 & E & M2 & N). apply in_turn_nil in N. subst u2. rewrite app_nil_r in E. subst. exact M2.
  - intros (k & l' & -> & M). apply Forall_app in F. destruct F as [F1 F2]. exists (map event_of (repeat (IXsl n) k)), (map event_of l').
    split; [apply map_app|]. split; [apply name_items; auto; apply all_repeat; eauto|]. apply in_turn_cons. exists (map event_of l'), []. rewrite app_nil_r.
    split; auto. split; [apply H; auto|constructor].
Qed.
Lemma two_items n1 n2 l : plain n1 -> plain n2 -> Forall plain_item l ->
  (matches (CAlt Rep (map (CName One) [n1; n2])) (map event_of l) <-> Forall (fun i => i = IXsl n1 \/ i = IXsl n2) l).
Proof.
  intros P1 P2 F. rewrite rep_names. apply Forall_events; [exact F|]. intros i _. rewrite <- (event_xsl i n1 P1), <- (event_xsl i n2 P2). split.
  - intros (n & [<-|[<-|[]]] & E); auto.
  - intros [E|E]; [exists n1|exists n2]; cbn; auto.
Qed.
Lemma choose_items a b l : plain a -> plain b -> Forall plain_item l ->
  (matches (CSeq One [CName Plus a; CName Opt b]) (map event_of l) <-> exists k, l = repeat (IXsl a) (S k) \/ l = repeat (IXsl a) (S k) ++ [IXsl b]).
Proof.
  intros Pa Pb F. rewrite matches_one by reflexivity. rewrite once_seq_iff, in_turn_cons. split.
  - intros (v1 & v2 & E & M1 & M2). apply map_split in E. destruct E as (l1 & l2 & -> & <- & <-). apply Forall_app in F. destruct F as [F1 F2].
    assert (exists k, l1 = repeat (IXsl a) (S k)) as (k & ->).
    { apply matches_plus in M1; [|reflexivity]. destruct M1 as (u1 & u2 & E & O & T). apply map_split in E. destruct E as (k1 & k2 & -> & <- & <-).
      apply once_name_iff in O. destruct k1 as [|i [|]]; try discriminate. cbn [map] in O.
      assert (event_of i = EName a) as O' by congruence. apply (event_xsl i a Pa) in O'. subst i.
      assert (matches (CName Rep a) (map event_of k2)) as M.
      { apply matches_rep; [reflexivity|]. assert (forall c v, times c v -> c = CName Plus a -> times (CName Rep a) v) as G.
        { induction 1; intros Ec; subst; constructor; auto. apply once_name_iff in H. subst. constructor. }
        eapply G; eauto. }
      apply name_items in M; [|auto|apply Forall_app in F1; tauto]. apply all_repeat in M. destruct M as (k & ->). exists k. reflexivity. }
    exists k. apply in_turn_cons in M2. destruct M2 as (u1 & u2 & E & M2 & N). apply in_turn_nil in N. subst u2. rewrite app_nil_r in E.
    apply matches_opt in M2; [|reflexivity]. destruct M2 as [->|M2].
    + destruct l2; [|discriminate]. left. apply app_nil_r.
    + apply once_name_iff in M2. rewrite M2 in E. destruct l2 as [|i [|]]; try discriminate. cbn [map] in E.
      assert (event_of i = EName b) as O' by congruence. apply (event_xsl i b Pb) in O'. subst i. auto.
  - assert (forall k, matches (CName Plus a) (map event_of (repeat (IXsl a) (S k)))) as G.
    { intros k. apply matches_plus; [reflexivity|]. exists [EName a], (map event_of (repeat (IXsl a) k)). split; [reflexivity|]. split; [constructor|].
      induction k; [constructor|]. change (map event_of (repeat (IXsl a) (S k))) with ([EName a] ++ map event_of (repeat (IXsl a) k)). constructor; [constructor|auto]. }
    intros (k & [-> | ->]).
    + exists (map event_of (repeat (IXsl a) (S k))), []. rewrite app_nil_r. split; auto. split; auto. apply in_turn_cons. exists [], []. split; auto. split; [|constructor].
      apply m_opt_none. reflexivity.
    + exists (map event_of (repeat (IXsl a) (S k))), [EName b]. split; [rewrite map_app; reflexivity|]. split; auto. apply in_turn_cons. exists [EName b], []. split; auto. split; [|constructor].
      apply m_opt_some; [reflexivity|constructor].
Qed.
Lemma empty_items l : Forall plain_item l -> (matches m_empty (map event_of l) <-> l = []).
Proof.
  intros F. rewrite matches_opt by reflexivity. split; [|intros ->; auto]. intros [E|O].
  - destruct l; [auto|discriminate].
  - apply once_name_iff in O. destruct l as [|i [|]]; try discriminate. cbn in O. injection O as O. exfalso. destruct i as [|n|]; try discriminate.
    inversion F; subst. destruct H1 as (_ & _ & P). contradiction.
Qed.
Lemma text_items l : Forall plain_item l -> (matches m_text (map event_of l) <-> Forall (fun i => i = IText) l).
Proof. intros F. unfold m_text. rewrite rep_name. apply Forall_events; [exact F|]. intros i P. apply event_text. exact P. Qed.

(** ** The classes *)
Lemma rule_iff n l : content_rule n l <->
  In n empty_names /\ l = [] \/
  In n template_names /\ Forall in_template l \/
  n = lit "text" /\ Forall (fun i => i = IText) l \/
  (n = lit "stylesheet" \/ n = lit "transform") /\ (exists k l', l = repeat (IXsl (lit "import")) k ++ l' /\ Forall at_top l') \/
  n = lit "template" /\ (exists k l', l = repeat (IXsl (lit "param")) k ++ l' /\ Forall in_template l') \/
  n = lit "for-each" /\ (exists k l', l = repeat (IXsl (lit "sort")) k ++ l' /\ Forall in_template l') \/
  n = lit "apply-templates" /\ Forall (fun i => i = IXsl (lit "sort") \/ i = IXsl (lit "with-param")) l \/
  n = lit "call-template" /\ Forall (fun i => i = IXsl (lit "with-param")) l \/
  n = lit "attribute-set" /\ Forall (fun i => i = IXsl (lit "attribute")) l \/
  n = lit "choose" /\ (exists k, l = repeat (IXsl (lit "when")) (S k) \/ l = repeat (IXsl (lit "when")) (S k) ++ [IXsl (lit "otherwise")]).
Proof.
  split.
  - intros H. destruct H; [left|right; left|do 2 right; left|do 3 right; left|do 4 right; left|do 5 right; left|do 6 right; left|do 7 right; left|do 8 right; left|do 9 right|do 9 right]; eauto 10.
  - intros [[H ->]|[[H H1]|[[-> H]|[[H (k & l' & -> & H1)]|[[-> (k & l' & -> & H1)]|[[-> (k & l' & -> & H1)]|[[-> H]|[[-> H]|[[-> H]|[-> (k & [-> | ->])]]]]]]]]]];
      try (constructor; auto; fail).
Qed.
Definition elem_of (names : list str) (n : str) : bool := existsb (str_eqb n) names.
Lemma elem_of_in names n : In n names <-> elem_of names n = true.
Proof.
  unfold elem_of. rewrite existsb_exists. split.
  - intros H. exists n. split; [exact H|]. apply str_eqb_eq. reflexivity.
  - intros (x & H & E). apply str_eqb_eq in E. subst. exact H.
Qed.
Definition str_is (a b : str) : bool := str_eqb a b.
Lemma str_is_eq a b : a = b <-> str_is a b = true.
Proof. unfold str_is. rewrite str_eqb_eq. reflexivity. Qed.
(** The rule for a given name. *)
Definition rule_of (n : str) (l : list item) : Prop :=
  elem_of empty_names n = true /\ l = [] \/
  elem_of template_names n = true /\ Forall in_template l \/
  str_is n (lit "text") = true /\ Forall (fun i => i = IText) l \/
  (str_is n (lit "stylesheet") = true \/ str_is n (lit "transform") = true) /\ (exists k l', l = repeat (IXsl (lit "import")) k ++ l' /\ Forall at_top l') \/
  str_is n (lit "template") = true /\ (exists k l', l = repeat (IXsl (lit "param")) k ++ l' /\ Forall in_template l') \/
  str_is n (lit "for-each") = true /\ (exists k l', l = repeat (IXsl (lit "sort")) k ++ l' /\ Forall in_template l') \/
  str_is n (lit "apply-templates") = true /\ Forall (fun i => i = IXsl (lit "sort") \/ i = IXsl (lit "with-param")) l \/
  str_is n (lit "call-template") = true /\ Forall (fun i => i = IXsl (lit "with-param")) l \/
  str_is n (lit "attribute-set") = true /\ Forall (fun i => i = IXsl (lit "attribute")) l \/
  str_is n (lit "choose") = true /\ (exists k, l = repeat (IXsl (lit "when")) (S k) \/ l = repeat (IXsl (lit "when")) (S k) ++ [IXsl (lit "otherwise")]).
Lemma rule_of_iff n l : content_rule n l <-> rule_of n l.
Proof. rewrite rule_iff. unfold rule_of. rewrite <- !elem_of_in, <- !str_is_eq. reflexivity. Qed.

Definition required_of (ts : list (str * bool)) : list str := map fst (filter snd ts).
Definition optional_of (ts : list (str * bool)) : list str := map fst (filter (fun t => negb (snd t)) ts).
Definition class_fits (n : str) (m : content) (ts : list (str * bool)) : Prop :=
  row attribute_table n = Some (required_of ts, optional_of ts) /\ proper m /\ forall l, Forall plain_item l -> (matches m (map event_of l) <-> content_rule n l).
Ltac rule_for n :=
  let v := fresh "v" in
  repeat match goal with
  | |- context[elem_of ?a (lit ?s)] => let b := eval vm_compute in (elem_of a (lit s)) in change (elem_of a (lit s)) with b
  | |- context[str_is (lit ?s) (lit ?t)] => let b := eval vm_compute in (str_is (lit s) (lit t)) in change (str_is (lit s) (lit t)) with b
  end.
Ltac one_rule := unfold rule_of; rule_for tt; intuition (try discriminate).
Lemma class_row n : match m_class n with Some (m, ts) => class_fits n m ts | None => row attribute_table n = None end.
Proof.
  unfold m_class.
  Ltac fits tac := match goal with H : _ = lit _ |- _ => rewrite H end; unfold class_fits; split; [reflexivity|]; split; [cbn; intuition discriminate|]; let l := fresh "l" in let F := fresh "F" in intros l F; rewrite rule_of_iff; tac l F.
  Ltac f_empty l F := rewrite (empty_items l F); one_rule.
  Ltac f_template l F := rewrite (template_items l F); one_rule.
  Ltac next := match goal with |- context[if str_eqb ?n (lit ?s) then _ else _] => let E := fresh "E" in destruct (str_eqb n (lit s)) eqn:E; [apply str_eqb_eq in E|] end.
  Ltac next2 := match goal with |- context[if str_eqb ?n (lit ?s) || str_eqb ?n (lit ?t) then _ else _] => let E := fresh "E" in let E2 := fresh "E" in destruct (str_eqb n (lit s)) eqn:E; [apply str_eqb_eq in E; cbn [orb]|cbn [orb]; destruct (str_eqb n (lit t)) eqn:E2; [apply str_eqb_eq in E2|]] end.
  next; [fits f_empty|].
  next; [fits ltac:(fun l F => rewrite (two_items (lit "sort") (lit "with-param") l ltac:(is_plain) ltac:(is_plain) F); one_rule)|].
  next; [fits f_template|].
  next; [fits ltac:(fun l F => rewrite (name_items (lit "with-param") l ltac:(is_plain) F); one_rule)|].
  next; [fits ltac:(fun l F => rewrite (choose_items (lit "when") (lit "otherwise") l ltac:(is_plain) ltac:(is_plain) F); one_rule)|].
  next; [fits f_template|].
  next; [fits f_template|].
  next; [fits f_template|].
  next; [fits f_template|].
  next; [fits f_empty|].
  next; [fits f_template|].
  next; [fits f_template|].
  next; [fits ltac:(fun l F => rewrite (seq_items (lit "sort") m_template (Forall in_template) l ltac:(is_plain) F template_items); one_rule)|].
  next; [fits f_template|].
  next; [fits f_template|].
  next; [fits f_empty|].
  next; [fits f_template|].
  next2; [fits ltac:(fun l F => rewrite (seq_items (lit "import") m_top_level (Forall at_top) l ltac:(is_plain) F top_items); one_rule)..|].
  next; [fits ltac:(fun l F => rewrite (seq_items (lit "param") m_template (Forall in_template) l ltac:(is_plain) F template_items); one_rule)|].
  next; [fits ltac:(fun l F => rewrite (text_items l F); one_rule)|].
  next; [fits f_empty|].
  next2; [fits f_template..|].
  next; [fits f_empty|].
  next; [fits f_template|].
  next2; [fits f_empty..|].
  next2; [fits f_empty..|].
  next; [fits f_empty|].
  next; [fits f_empty|].
  next; [fits f_empty|].
  next; [fits f_empty|].
  next; [fits ltac:(fun l F => rewrite (name_items (lit "attribute") l ltac:(is_plain) F); one_rule)|].
  unfold attribute_table. cbn [row].
  repeat match goal with |- context[str_eqb (lit ?s) n] => replace (str_eqb (lit s) n) with false; [|symmetry; rewrite <- not_true_iff_false in *; rewrite str_eqb_eq in *; congruence] end.
  reflexivity.
Qed.
