(** * The NFA of a path accepts the chains the path selects *)
From Coq Require Import NArith ZArith String List Bool Lia Arith Sorted Permutation.
From Verif Require Import PyStr PyErr PtModel PtSpec PtTree PtDfa PtRun PtNfa.
Import ListNotations.
Open Scope nat_scope.

Section path.
  Variables (n : nsmap) (L : list step).
  Definition stepped (t : test) : Prop := t = TAny \/ exists s, In s L /\ covered_step n s /\ ax s <> OtherAxis /\ step_test n s = Ok t.
  Definition smatch (s : step) (k : kind) : Prop := exists t, step_test n s = Ok t /\ tmatch t k = true.
  Definition accepts (m : nfa) (c : list kind) : Prop := exists t, In t (terminal m) /\ reach m c t.

  Lemma step_test_total : forall s, covered_step n s -> exists t, step_test n s = Ok t /\ good_test t /\ t <> TAny /\
    (name_step s -> ax s = Child \/ ax s = Descendant -> exists ns ln, t = TNode ns ln false).
  Proof.
    intros s (P & E & NP & _). unfold step_test, expand, name_step in *. rewrite P.
    destruct (nt s) as [l|p l|p| |t|]; cbn [expand] in *.
    - unfold klass. destruct (ax s); cbn; eexists; (split; [reflexivity|]); (split; [exact I || reflexivity|]); (split; [discriminate|]);
        intros _ [X|X]; try discriminate X; eauto.
    - destruct (ns_lookup n p) as [u|e]; [|congruence]. cbn [bind]. unfold klass. destruct (ax s); cbn; eexists; (split; [reflexivity|]); (split; [exact I || reflexivity|]); (split; [discriminate|]);
        intros _ [X|X]; try discriminate X; eauto.
    - destruct (ns_lookup n p) as [u|e]; [|congruence]. cbn [bind]. unfold klass. destruct (ax s); cbn; eexists; (split; [reflexivity|]); (split; [exact I || reflexivity|]); (split; [discriminate|]);
        intros _ [X|X]; try discriminate X; eauto.
    - unfold klass. destruct (ax s); cbn; eexists; (split; [reflexivity|]); (split; [exact I || reflexivity|]); (split; [discriminate|]);
        intros _ [X|X]; try discriminate X; eauto.
    - exists (TPi t). split; [reflexivity|]. split; [exact I|]. split; [discriminate|]. intros [].
    - congruence.
  Qed.

  (** *** One step *)
  Lemma step_nfa_ok : forall s c0, In s L -> covered_step n s -> ax s <> OtherAxis ->
    exists t o, step_test n s = Ok t /\ step_nfa n s c0 = Ok (o, S c0) /\ wf stepped c0 (S c0) o /\ start_edges o = [(c0, t)] /\ terminal o = [c0] /\ ids o = [c0] /\
      (forall i, handlers o i = []) /\ (forall c i, reach o c i <-> i = c0 /\ exists k, c = [k] /\ tmatch t k = true).
  Proof.
    intros s c0 Hs Cs As. destruct (step_test_total s Cs) as (t & Et & Gt & Nt & _). unfold step_nfa. rewrite Et. cbn [bind].
    eexists t, _. split; [reflexivity|]. split; [destruct (ax s); reflexivity || congruence|].
    assert (forall j, upd (fun _ : nat => @nil edge) c0 [] j = []) as Ee by (intros j; unfold upd; destruct (j =? c0); reflexivity).
    split; [|split; [reflexivity|split; [reflexivity|split; [reflexivity|split]]]].
    - constructor; cbn.
      + intros i [<-|[]]. lia.
      + intros id u [[= <- <-]|[]]. split; [left; reflexivity|]. unfold upd. rewrite Nat.eqb_refl. split; [reflexivity|]. right. exists s. split; [exact Hs|]. split; [exact Cs|]. split; [exact As|exact Et].
      + intros i id u H. rewrite Ee in H. destruct H.
      + intros i [<-|[]]. left. reflexivity.
      + intros id [[= _ ->]|[]]. congruence.
      + intros i id H. rewrite Ee in H. destruct H.
      + intros i l H. unfold upd in H. destruct (i =? c0); destruct H.
    - intros i. cbn. unfold upd. destruct (i =? c0); reflexivity.
    - intros c i. split.
      + intros R. destruct R as [k i u Hi Mt|c k i j u R He Mt].
        * cbn in Hi. destruct Hi as [[= <- <-]|[]]. split; [reflexivity|]. exists k. split; [reflexivity|exact Mt].
        * cbn in He. rewrite Ee in He. destruct He.
      + intros (-> & k & -> & Mt). apply (reach_start _ k c0 t); [left; reflexivity|exact Mt].
  Qed.

  (** *** A list of steps *)
  (** An NFA under construction: empty, or not. *)
  Definition building (lo hi : nat) (m : nfa) : Prop := m = empty_nfa \/ (wf stepped lo hi m /\ start_edges m <> [] /\ forall i, handlers m i = []).
  Definition reads (m : nfa) (c : list kind) : Prop := (m = empty_nfa /\ c = []) \/ accepts m c.
  Lemma accepts_empty : forall c, ~ accepts empty_nfa c.
  Proof. intros c (t & [] & _). Qed.

  Lemma extend_building : forall lo mid hi m o, lo <= mid -> mid <= hi -> building lo mid m -> wf stepped mid hi o -> start_edges o <> [] -> (forall i, handlers o i = []) ->
    building lo hi (extend m o) /\ extend m o <> empty_nfa /\ (start_edges m = [] -> start_edges (extend m o) = start_edges o) /\ (start_edges m <> [] -> start_edges (extend m o) = start_edges m) /\
    terminal (extend m o) = terminal o /\
    forall c, accepts (extend m o) c <-> exists c1 c2, c = c1 ++ c2 /\ reads m c1 /\ accepts o c2.
  Proof.
    intros lo mid hi m o L1 L2 Bm Wo No Ho.
    assert (start_edges (extend m o) <> []) as Ns by (cbn; destruct (start_edges m) eqn:E; [exact No|discriminate]).
    assert (extend m o <> empty_nfa) as Ne by (intros K; apply Ns; rewrite K; reflexivity).
    split; [|split; [exact Ne|split; [intros E; cbn; rewrite E; reflexivity|split; [intros E; cbn; destruct (start_edges m); [congruence|reflexivity]|split; [reflexivity|]]]]].
    - right. destruct Bm as [->|(Wm & Nm & Hm)].
      + repeat apply conj; [|exact Ns|].
        * apply (wf_extend stepped lo mid hi empty_nfa o L1 L2); [|exact Wo]. apply (wf_impl stepped stepped lo lo lo mid); auto. apply wf_empty.
        * apply extend_handlers; [reflexivity|exact Ho].
      + repeat apply conj; [apply (wf_extend stepped lo mid hi m o L1 L2 Wm Wo)|exact Ns|apply extend_handlers; assumption].
    - intros c. unfold accepts at 1. cbn [terminal extend]. destruct Bm as [->|(Wm & Nm & Hm)].
      + split.
        * intros (t & Ht & R). apply (proj1 (reach_extend_empty _ _ _ _ Wo c t)) in R. exists [], c. split; [reflexivity|]. split; [left; split; reflexivity|exists t; split; assumption].
        * intros (c1 & c2 & -> & [[_ ->]|A] & (t & Ht & R)); [|destruct (accepts_empty _ A)]. exists t. split; [exact Ht|]. apply (reach_extend_empty _ _ _ _ Wo). exact R.
      + assert (m <> empty_nfa) as Nme by (intros K; apply Nm; rewrite K; reflexivity). split.
        * intros (t & Ht & R). apply (reach_extend stepped lo mid hi m o L1 L2 Wm Wo Nm) in R. destruct R as [R|(c1 & c2 & t' & -> & R1 & Ht' & R2)].
          -- exfalso. apply (reach_in _ _ _ _ _ _ Wm) in R. apply (w_term _ _ _ _ Wo) in Ht. apply (w_ids _ _ _ _ Wm) in R. apply (w_ids _ _ _ _ Wo) in Ht. lia.
          -- exists c1, c2. split; [reflexivity|]. split; [right; exists t'; split; assumption|exists t; split; assumption].
        * intros (c1 & c2 & -> & [[K _]|(t' & Ht' & R1)] & (t & Ht & R2)); [congruence|].
          exists t. split; [exact Ht|]. apply (reach_extend stepped lo mid hi m o L1 L2 Wm Wo Nm). right. exists c1, c2, t'. repeat apply conj; assumption || reflexivity.
  Qed.

  Lemma steps_nfa_ok : forall l m lo c0, lo <= c0 -> building lo c0 m -> (forall s, In s l -> In s L /\ covered_step n s /\ ax s <> OtherAxis) ->
    exists m' c', steps_nfa n l m c0 = Ok (m', c') /\ c0 <= c' /\ building lo c' m' /\
      (l <> [] -> m' <> empty_nfa) /\ (start_edges m <> [] -> start_edges m' = start_edges m) /\
      (start_edges m = [] -> match l with [] => m' = m | s :: _ => exists t, step_test n s = Ok t /\ start_edges m' = [(c0, t)] end) /\
      forall c, reads m' c <-> exists c1 c2, c = c1 ++ c2 /\ reads m c1 /\ Forall2 smatch l c2.
  Proof.
    induction l as [|s l IH]; intros m lo c0 Lo Bm Hl.
    - exists m, c0. cbn [steps_nfa]. repeat apply conj; auto; try congruence.
      intros c. split; [intros H; exists c, []; rewrite app_nil_r; repeat apply conj; [reflexivity|exact H|constructor]|].
      intros (c1 & c2 & -> & H & F). inversion F; subst. rewrite app_nil_r. exact H.
    - destruct (Hl s (or_introl eq_refl)) as (H1 & H2 & H3). destruct (step_nfa_ok s c0 H1 H2 H3) as (t & o & Et & Eo & Wo & So & To & Io & Ho & Ro).
      destruct (extend_building lo c0 (S c0) m o Lo (Nat.le_succ_diag_r _) Bm Wo) as (Bx & Nx & S1 & S2 & Tx & Ax); [rewrite So; discriminate|exact Ho|].
      destruct (IH (extend m o) lo (S c0)) as (m' & c' & E & Lc & B' & N' & S1' & S2' & R'); [lia|exact Bx|intros s' Hs'; apply Hl; right; exact Hs'|].
      assert (start_edges (extend m o) <> []) as Nsx by (destruct (start_edges m) as [|e0 r0]; [rewrite (S1 eq_refl), So; discriminate|rewrite S2 by discriminate; discriminate]).
      exists m', c'. cbn [steps_nfa]. rewrite Eo. cbn [bind]. split; [exact E|]. split; [lia|]. split; [exact B'|]. split; [|split; [|split]].
      + intros _. intros K. pose proof (S1' Nsx) as K2. rewrite K in K2. apply Nsx. rewrite <- K2. reflexivity.
      + intros K. rewrite S1' by exact Nsx. apply S2. exact K.
      + intros K. exists t. split; [exact Et|]. rewrite S1' by exact Nsx. rewrite S1 by exact K. exact So.
      + intros c. rewrite R'. split.
        * intros (c1 & c2 & -> & [[K _]|A] & F); [congruence|]. apply Ax in A. destruct A as (d1 & d2 & -> & Rm & (t' & Ht' & Rt')).
          apply Ro in Rt'. destruct Rt' as (_ & k & -> & Mt). exists d1, ([k] ++ c2). rewrite app_assoc. repeat apply conj; [reflexivity|exact Rm|].
          cbn. constructor; [exists t; split; [exact Et|exact Mt]|exact F].
        * intros (c1 & c2 & -> & Rm & F). inversion F as [|s' k l' c2' Sm F' E1 E2]; subst. destruct Sm as (t' & Et' & Mt). rewrite Et in Et'. injection Et' as <-.
          exists (c1 ++ [k]), c2'. rewrite <- app_assoc. split; [reflexivity|]. split; [|exact F']. right. apply Ax. exists c1, [k]. split; [reflexivity|]. split; [exact Rm|].
          exists c0. split; [rewrite To; left; reflexivity|]. apply Ro. split; [reflexivity|]. exists k. split; [reflexivity|exact Mt].
  Qed.

  (** *** An absolute path *)
  Fixpoint amatch (l : list step) (c : list kind) : Prop :=
    match l with
    | [] => c = []
    | s :: r => exists gap k rest, c = gap ++ k :: rest /\ (gap = [] \/ ax s = Descendant /\ elems gap) /\ smatch s k /\ amatch r rest
    end.
  Lemma absolute_nfa_ok : forall l m lo c0, lo <= c0 -> building lo c0 m ->
    (forall s, In s l -> In s L /\ covered_step n s /\ (ax s = Child \/ ax s = Descendant /\ name_step s)) ->
    exists m' c', absolute_nfa n l m c0 = Ok (m', c') /\ c0 <= c' /\ building lo c' m' /\
      forall c, reads m' c <-> exists c1 c2, c = c1 ++ c2 /\ reads m c1 /\ amatch l c2.
  Proof.
    induction l as [|s l IH]; intros m lo c0 Lo Bm Hl.
    - exists m, c0. cbn [absolute_nfa]. repeat apply conj; auto.
      intros c. split; [intros H; exists c, []; rewrite app_nil_r; repeat apply conj; [reflexivity|exact H|reflexivity]|].
      intros (c1 & c2 & -> & H & F). cbn in F. subst. rewrite app_nil_r. exact H.
    - destruct (Hl s (or_introl eq_refl)) as (H1 & H2 & H3).
      assert (ax s <> OtherAxis) as H3' by (destruct H3 as [-> | [-> _]]; discriminate).
      destruct (step_nfa_ok s c0 H1 H2 H3') as (t & o & Et & Eo & Wo & So & To & Io & Ho & Ro). cbn [absolute_nfa].
      destruct H3 as [Ha|[Ha Hn]]; rewrite Ha.
      + destruct (extend_building lo c0 (S c0) m o Lo (Nat.le_succ_diag_r _) Bm Wo) as (Bx & Nx & S1 & S2 & Tx & Ax); [rewrite So; discriminate|exact Ho|].
        destruct (IH (extend m o) lo (S c0)) as (m' & c' & E & Lc & B' & R'); [lia|exact Bx|intros s' Hs'; apply Hl; right; exact Hs'|].
        exists m', c'. rewrite Eo. cbn [bind]. split; [exact E|]. split; [lia|]. split; [exact B'|].
        intros c. rewrite R'. split.
        * intros (c1 & c2 & -> & [[K _]|A] & F); [congruence|]. apply Ax in A. destruct A as (d1 & d2 & -> & Rm & (t' & Ht' & Rt')).
          apply Ro in Rt'. destruct Rt' as (_ & k & -> & Mt). exists d1, ([k] ++ c2). rewrite app_assoc. repeat apply conj; [reflexivity|exact Rm|].
          exists [], k, c2. repeat apply conj; [reflexivity|left; reflexivity|exists t; split; assumption|exact F].
        * intros (c1 & c2 & -> & Rm & (gap & k & rest & -> & [->|[K _]] & (t' & Et' & Mt) & F)); [|congruence]. rewrite Et in Et'. injection Et' as <-.
          exists (c1 ++ [k]), rest. rewrite <- app_assoc. split; [reflexivity|]. split; [|exact F]. right. apply Ax. exists c1, [k]. split; [reflexivity|]. split; [exact Rm|].
          exists c0. split; [rewrite To; left; reflexivity|]. apply Ro. split; [reflexivity|]. exists k. split; [reflexivity|exact Mt].
      + destruct (step_test_total s H2) as (t2 & Et2 & Gt & Nt & Nd). rewrite Et in Et2. injection Et2 as <-. destruct (Nd Hn (or_intror Ha)) as (ns & ln & ->).
        assert (exists i ns0 ln0 p, In (i, TNode ns0 ln0 p) (start_edges o)) as Ne by (exists c0, ns, ln, false; rewrite So; left; reflexivity).
        set (o' := add_initial_loop o (S c0)).
        assert (wf stepped c0 (S (S c0)) o') as Wo' by (apply wf_loop; [exact Wo|lia|left; reflexivity|exact Ne]).
        assert (forall i, handlers o' i = []) as Ho' by (apply loop_handlers; exact Ho).
        destruct (loop_fields o (S c0)) as (F1 & F2 & F3 & F4 & F5 & F6). fold o' in F1, F2, F3, F4, F5, F6.
        destruct (extend_building lo c0 (S (S c0)) m o' Lo ltac:(lia) Bm Wo') as (Bx & Nx & S1 & S2 & Tx & Ax); [rewrite F1, So; discriminate|exact Ho'|].
        destruct (IH (extend m o') lo (S (S c0))) as (m' & c' & E & Lc & B' & R'); [lia|exact Bx|intros s' Hs'; apply Hl; right; exact Hs'|].
        exists m', c'. rewrite Eo. cbn [bind]. split; [exact E|]. split; [lia|]. split; [exact B'|].
        assert (forall c, accepts o' c <-> exists gap k, c = gap ++ [k] /\ elems gap /\ tmatch (TNode ns ln false) k = true) as Ao.
        { intros c. unfold accepts. rewrite F6, To. split.
          - intros (t' & [<-|[]] & R). apply (reach_loop stepped c0 (S c0) o Wo ltac:(lia)) in R. destruct R as [(K & _)|(pre & suf & -> & Ep & R)]; [lia|].
            apply Ro in R. destruct R as (_ & k & -> & Mt). exists pre, k. repeat apply conj; assumption || reflexivity.
          - intros (gap & k & -> & Eg & Mt). exists c0. split; [left; reflexivity|]. apply (reach_loop stepped c0 (S c0) o Wo ltac:(lia)). right. exists gap, [k].
            repeat apply conj; [reflexivity|exact Eg|]. apply Ro. split; [reflexivity|]. exists k. split; [reflexivity|exact Mt]. }
        intros c. rewrite R'. split.
        * intros (c1 & c2 & -> & [[K _]|A] & F); [congruence|]. apply Ax in A. destruct A as (d1 & d2 & -> & Rm & A).
          apply Ao in A. destruct A as (gap & k & -> & Eg & Mt). exists d1, (gap ++ k :: c2). rewrite <- !app_assoc. repeat apply conj; [reflexivity|exact Rm|].
          exists gap, k, c2. repeat apply conj; [reflexivity|right; split; [exact Ha|exact Eg]|eexists; split; [exact Et|exact Mt]|exact F].
        * intros (c1 & c2 & -> & Rm & (gap & k & rest & -> & G & (t' & Et' & Mt) & F)). rewrite Et in Et'. injection Et' as <-.
          exists (c1 ++ gap ++ [k]), rest. rewrite <- !app_assoc. split; [reflexivity|]. split; [|exact F]. right. apply Ax. exists c1, (gap ++ [k]). split; [reflexivity|]. split; [exact Rm|].
          apply Ao. exists gap, k. repeat apply conj; [reflexivity|destruct G as [->|[_ G]]; [intros x []|exact G]|exact Mt].
  Qed.

  (** *** Chains of nodes: elements, then one node *)
  Definition faithful (k : kind) : Prop := forall s t, In s L -> step_test n s = Ok t -> (tmatch t k = true <-> step_selects n s k).
  Lemma smatch_selects : forall s k, In s L -> covered_step n s -> faithful k -> (smatch s k <-> step_selects n s k).
  Proof.
    intros s k Hs Cs F. destruct (step_test_total s Cs) as (t & Et & _). split.
    - intros (t' & Et' & Mt). apply (F s t' Hs Et'). exact Mt.
    - intros H. exists t. split; [exact Et|]. apply (F s t Hs Et). exact H.
  Qed.
  Lemma Forall2_selects : forall l c, (forall s, In s l -> In s L /\ covered_step n s /\ ax s <> Descendant) -> (forall k, In k c -> faithful k) ->
    (Forall2 smatch l c <-> steps_select n l c).
  Proof.
    induction l as [|s l IH]; intros c Hl Hc; cbn [steps_select].
    - split; [intros F; inversion F; reflexivity|intros ->; constructor].
    - destruct (Hl s (or_introl eq_refl)) as (H1 & H2 & H3). split.
      + intros F. inversion F as [|s' k l' c' Sm F' E1 E2]; subst. exists [], k, c'. repeat apply conj; [reflexivity|left; reflexivity| |].
        * apply (smatch_selects s k H1 H2); [apply Hc; left; reflexivity|exact Sm].
        * apply IH; [intros s' Hs'; apply Hl; right; exact Hs'|intros x Hx; apply Hc; right; exact Hx|exact F'].
      + intros (gap & k & rest & -> & [->|K] & Ss & R); [|congruence]. cbn. constructor.
        * apply (smatch_selects s k H1 H2); [apply Hc; left; reflexivity|exact Ss].
        * apply IH; [intros s' Hs'; apply Hl; right; exact Hs'|intros x Hx; apply Hc; right; exact Hx|exact R].
  Qed.

  (** All but the last are elements. *)
  Fixpoint shape (c : list kind) : Prop := match c with [] => True | [_] => True | k :: r => (exists nm, k = KElem nm) /\ shape r end.
  Lemma shape_snoc : forall c k, elems c -> shape (c ++ [k]).
  Proof.
    induction c as [|x c IH]; intros k H; [exact I|]. cbn [app]. destruct (c ++ [k]) as [|y r] eqn:E; [destruct c; discriminate|].
    split; [apply H; left; reflexivity|]. rewrite <- E. apply IH. intros z Hz. apply H. right. exact Hz.
  Qed.
  Lemma shape_app : forall gap k rest, shape (gap ++ k :: rest) -> elems gap /\ shape rest.
  Proof.
    induction gap as [|x gap IH]; intros k rest H.
    - split; [intros y []|]. cbn in H. destruct rest; [exact I|apply H].
    - cbn [app] in H. destruct (gap ++ k :: rest) as [|y r] eqn:E; [destruct gap; discriminate|]. destruct H as [Hx H]. rewrite <- E in H. destruct (IH _ _ H) as [A B].
      split; [|exact B]. intros z [<-|Hz]; [exact Hx|apply A; exact Hz].
  Qed.
  Lemma amatch_selects : forall l c, (forall s, In s l -> In s L /\ covered_step n s) -> (forall k, In k c -> faithful k) -> shape c -> (amatch l c <-> steps_select n l c).
  Proof.
    induction l as [|s l IH]; intros c Hl Hc Sc; cbn [steps_select amatch]; [reflexivity|].
    destruct (Hl s (or_introl eq_refl)) as (H1 & H2). split; intros (gap & k & rest & -> & G & Ss & R); exists gap, k, rest; destruct (shape_app _ _ _ Sc) as [Eg Sr];
      (split; [reflexivity|]); (split; [tauto|]); (split; [apply (smatch_selects s k H1 H2); [apply Hc; apply in_or_app; right; left; reflexivity|exact Ss]|]);
      (apply IH; [intros s' Hs'; apply Hl; right; exact Hs'|intros x Hx; apply Hc; apply in_or_app; right; right; exact Hx|exact Sr|exact R]).
  Qed.

  Record path_ok (lo hi : nat) (m : nfa) (sel : list kind -> Prop) : Prop := {
    po_le : lo <= hi;
    po_wf : wf stepped lo hi m;
    po_hand : forall i, handlers m i = [];
    po_lang : forall c k, elems c -> (forall x, In x (c ++ [k]) -> faithful x) -> (accepts m (c ++ [k]) <-> sel (c ++ [k])) }.

  (** A path with an initial loop. *)
  Lemma looped_path : forall s r c0, (forall x, In x (s :: r) -> In x L /\ covered_step n x /\ ax x <> OtherAxis) -> name_step s -> ax s = Child \/ ax s = Descendant ->
    (forall x, In x r -> ax x <> Descendant) ->
    exists m c', steps_nfa n (s :: r) empty_nfa c0 = Ok (m, c') /\ path_ok c0 (S c') (add_initial_loop m c') (fun c => exists above below, c = above ++ below /\ Forall2 (step_selects n) (s :: r) below).
  Proof.
    intros s r c0 Hl Hn Ha Hr. destruct (steps_nfa_ok (s :: r) empty_nfa c0 c0 (Nat.le_refl _) (or_introl eq_refl) Hl) as (m & c' & E & Lc & [->|(W & Ns & Hh)] & N & _ & S2 & R); [destruct (N ltac:(discriminate) eq_refl)|].
    destruct (S2 eq_refl) as (t & Et & St). destruct (Hl s (or_introl eq_refl)) as (H1 & H2 & H3).
    destruct (step_test_total s H2) as (t2 & Et2 & Gt & Nt & Nd). rewrite Et in Et2. injection Et2 as <-. destruct (Nd Hn Ha) as (ns & ln & ->).
    assert (exists i ns0 ln0 p, In (i, TNode ns0 ln0 p) (start_edges m)) as Ne by (exists c0, ns, ln, false; rewrite St; left; reflexivity).
    exists m, c'. split; [exact E|]. constructor; [lia|apply wf_loop; [exact W|lia|left; reflexivity|exact Ne]|apply loop_handlers; exact Hh|].
    intros c k Ec Fc. destruct (loop_fields m c') as (_ & _ & _ & _ & _ & F6). unfold accepts. rewrite F6.
    assert (forall l c, (forall s, In s l -> In s L /\ covered_step n s) -> (forall k, In k c -> faithful k) -> (Forall2 smatch l c <-> Forall2 (step_selects n) l c)) as FF.
    { induction l as [|x l IH]; intros d Hd Fd; [split; intros F; inversion F; constructor|].
      destruct (Hd x (or_introl eq_refl)) as [X1 X2].
      split; intros F; inversion F as [|x' k' l' d' Sm F' E1 E2]; subst; constructor;
        try (apply (smatch_selects x k' X1 X2 (Fd k' (or_introl eq_refl))); exact Sm);
        (apply IH; [intros y Hy; apply Hd; right; exact Hy|intros y Hy; apply Fd; right; exact Hy|exact F']). }
    split.
    - intros (t' & Ht' & Rt). apply (reach_loop stepped c0 c' m W Lc) in Rt. destruct Rt as [(-> & _)|(pre & suf & Es & Ep & Rt)].
      { apply (w_term _ _ _ _ W) in Ht'. apply (w_ids _ _ _ _ W) in Ht'. lia. }
      destruct (proj1 (R suf)) as (c1 & c2 & -> & [[_ ->]|A] & F); [right; exists t'; split; assumption| |destruct (accepts_empty _ A)].
      exists pre, c2. split; [exact Es|]. apply FF; [intros x Hx; split; apply (Hl x Hx)| |exact F]. intros x Hx. apply Fc. rewrite Es. apply in_or_app. right. exact Hx.
    - intros (above & below & Es & F). assert (Forall2 smatch (s :: r) below) as F'.
      { apply FF; [intros x Hx; split; apply (Hl x Hx)| |exact F]. intros x Hx. apply Fc. rewrite Es. apply in_or_app. right. exact Hx. }
      destruct (proj2 (R below)) as [[K _]|(t' & Ht' & Rt)].
      { exists [], below. split; [reflexivity|]. split; [left; split; reflexivity|exact F']. }
      { destruct (N ltac:(discriminate) K). }
      exists t'. split; [exact Ht'|]. apply (reach_loop stepped c0 c' m W Lc). right. exists above, below. split; [exact Es|]. split; [|exact Rt].
      intros x Hx. destruct below as [|b below] using rev_ind; [inversion F|]. rewrite app_assoc in Es. apply snoc_inj in Es. destruct Es as [-> _]. apply Ec. apply in_or_app. left. exact Hx.
  Qed.

  Lemma Forall2_gap : forall s r c, (forall x, In x r -> ax x <> Descendant) -> (Forall2 (step_selects n) (s :: r) c <-> exists k rest, c = k :: rest /\ step_selects n s k /\ steps_select n r rest).
  Proof.
    assert (forall r c, (forall x, In x r -> ax x <> Descendant) -> (Forall2 (step_selects n) r c <-> steps_select n r c)) as H.
    { induction r as [|x r IH]; intros c Hr; cbn [steps_select].
      - split; [intros F; inversion F; reflexivity|intros ->; constructor].
      - split.
        + intros F. inversion F as [|x' k r' c' Sx F']; subst. exists [], k, c'. repeat apply conj; [reflexivity|left; reflexivity|exact Sx|]. apply IH; [intros y Hy; apply Hr; right; exact Hy|exact F'].
        + intros (gap & k & rest & -> & [->|K] & Sx & R); [|destruct (Hr x (or_introl eq_refl) K)]. constructor; [exact Sx|]. apply IH; [intros y Hy; apply Hr; right; exact Hy|exact R]. }
    intros s r c Hr. split.
    - intros F. inversion F as [|x' k r' c' Sx F']; subst. exists k, c'. repeat apply conj; [reflexivity|exact Sx|]. apply H; assumption.
    - intros (k & rest & -> & Sx & R). constructor; [exact Sx|]. apply H; assumption.
  Qed.

  Lemma path_nfa_ok : forall p c0, covered_path n p -> incl (path_steps p) L -> exists m c', path_nfa n p c0 = Ok (m, c') /\ path_ok c0 c' m (path_selects n p).
  Proof.
    intros p c0 Cp Ip. destruct p as [l|l|l|]; cbn [path_steps] in Ip; cbn [covered_path] in Cp.
    - destruct l as [|s r]; [contradiction|]. destruct Cp as (Ha & Hn & Cs & Fr). rewrite Forall_forall in Fr.
      destruct (looped_path s r c0) as (m & c' & E & [P1 P2 P3 P4]).
      + intros x Hx. split; [apply Ip; exact Hx|]. destruct Hx as [<-|Hx]; [split; [exact Cs|destruct Ha as [-> | ->]; discriminate]|]. destruct (Fr x Hx) as [A C]. split; [exact C|destruct A as [-> | ->]; discriminate].
      + exact Hn.
      + exact Ha.
      + intros x Hx. destruct (Fr x Hx) as [[-> | ->] _]; discriminate.
      + cbn [path_nfa]. rewrite E. cbn [bind]. eexists _, _. split; [reflexivity|]. constructor; [exact P1|exact P2|exact P3|].
        assert (forall x, In x r -> ax x <> Descendant) as Hr by (intros x Hx; destruct (Fr x Hx) as [[-> | ->] _]; discriminate).
        intros c k Ec Fc. rewrite (P4 c k Ec Fc). cbn [path_selects]. split.
        * intros (above & below & Es & F). exists above, below. split; [exact Es|]. apply (Forall2_gap s r below Hr) in F. destruct F as (k' & rest & -> & Sx & R).
          exists [], k', rest. repeat apply conj; [reflexivity|left; reflexivity|exact Sx|exact R].
        * intros (above & below & Es & (gap & k' & rest & -> & _ & Sx & R)). exists (above ++ gap), (k' :: rest). rewrite <- app_assoc. split; [exact Es|].
          apply (Forall2_gap s r _ Hr). exists k', rest. repeat apply conj; [reflexivity|exact Sx|exact R].
    - rewrite Forall_forall in Cp. destruct (absolute_nfa_ok l empty_nfa c0 c0 (Nat.le_refl _) (or_introl eq_refl)) as (m & c' & E & Lc & B & R).
      + intros s Hs. destruct (Cp s Hs) as [A C]. split; [apply Ip; exact Hs|]. split; [exact C|exact A].
      + cbn [path_nfa]. exists m, c'. split; [exact E|]. destruct B as [->|(W & Ns & Hh)].
        * constructor; [exact Lc|apply (wf_impl stepped stepped c0 c0); auto; apply wf_empty|reflexivity|]. intros c k Ec Fc. split; [intros A; destruct (accepts_empty _ A)|].
          intros H. cbn [path_selects] in H. exfalso.
          destruct (proj2 (R (c ++ [k]))) as [[_ K]|A]; [|destruct c; discriminate|destruct (accepts_empty _ A)].
          exists [], (c ++ [k]). split; [reflexivity|]. split; [left; split; reflexivity|]. apply amatch_selects; [intros s Hs; split; [apply Ip; exact Hs|apply (Cp s Hs)]|exact Fc|apply shape_snoc; exact Ec|exact H].
        * assert (m <> empty_nfa) as Ne by (intros K; apply Ns; rewrite K; reflexivity).
          constructor; [exact Lc|exact W|exact Hh|]. intros c k Ec Fc. cbn [path_selects].
          rewrite <- (amatch_selects l (c ++ [k])); [|intros s Hs; split; [apply Ip; exact Hs|apply (Cp s Hs)]|exact Fc|apply shape_snoc; exact Ec]. split.
          -- intros A. destruct (proj1 (R (c ++ [k])) (or_intror A)) as (c1 & c2 & Es & [[_ ->]|A'] & M); [|destruct (accepts_empty _ A')]. cbn in Es. subst. exact M.
          -- intros M. destruct (proj2 (R (c ++ [k]))) as [[K _]|A]; [exists [], (c ++ [k]); split; [reflexivity|]; split; [left; split; reflexivity|exact M]|congruence|exact A].
    - destruct l as [|s r]; [contradiction|]. destruct Cp as (Ha & Hn & Cs & Fr). rewrite Forall_forall in Fr.
      destruct (looped_path s r c0) as (m & c' & E & [P1 P2 P3 P4]).
      + intros x Hx. split; [apply Ip; exact Hx|]. destruct Hx as [<-|Hx]; [split; [exact Cs|rewrite Ha; discriminate]|]. destruct (Fr x Hx) as [A C]. split; [exact C|destruct A as [-> | ->]; discriminate].
      + exact Hn.
      + right. exact Ha.
      + intros x Hx. destruct (Fr x Hx) as [[-> | ->] _]; discriminate.
      + cbn [path_nfa]. rewrite E. cbn [bind]. eexists _, _. split; [reflexivity|]. constructor; [exact P1|exact P2|exact P3|].
        assert (forall x, In x r -> ax x <> Descendant) as Hr by (intros x Hx; destruct (Fr x Hx) as [[-> | ->] _]; discriminate).
        intros c k Ec Fc. rewrite (P4 c k Ec Fc). cbn [path_selects]. split.
        * intros (above & below & Es & F). apply (Forall2_gap s r below Hr) in F. destruct F as (k' & rest & -> & Sx & R).
          exists above, k', rest. repeat apply conj; [exact Es|right; exact Ha|exact Sx|exact R].
        * intros (gap & k' & rest & Es & _ & Sx & R). exists gap, (k' :: rest). split; [exact Es|].
          apply (Forall2_gap s r _ Hr). exists k', rest. repeat apply conj; [reflexivity|exact Sx|exact R].
    - contradiction.
  Qed.

  Lemma union_ok : forall lo mid hi m o f g, path_ok lo mid m f -> path_ok mid hi o g -> path_ok lo hi (union m o) (fun c => f c \/ g c).
  Proof.
    intros lo mid hi m o f g [A1 A2 A3 A4] [B1 B2 B3 B4]. constructor; [lia|apply (wf_union stepped lo mid hi); assumption|apply union_handlers; assumption|].
    intros c k Ec Fc. rewrite <- (A4 c k Ec Fc), <- (B4 c k Ec Fc). unfold accepts. cbn [terminal union]. split.
    - intros (t & Ht & R). apply (reach_union stepped lo mid hi m o A1 B1 A2 B2) in R. apply in_app_or in Ht.
      destruct R as [R|R].
      + left. exists t. split; [|exact R]. destruct Ht as [Ht|Ht]; [exact Ht|]. apply (w_term _ _ _ _ B2) in Ht. apply (reach_in _ _ _ _ _ _ A2) in R. apply (w_ids _ _ _ _ A2) in R. apply (w_ids _ _ _ _ B2) in Ht. lia.
      + right. exists t. split; [|exact R]. destruct Ht as [Ht|Ht]; [|exact Ht]. apply (w_term _ _ _ _ A2) in Ht. apply (reach_in _ _ _ _ _ _ B2) in R. apply (w_ids _ _ _ _ B2) in R. apply (w_ids _ _ _ _ A2) in Ht. lia.
    - intros [(t & Ht & R)|(t & Ht & R)]; exists t; (split; [apply in_or_app; auto|]); apply (reach_union stepped lo mid hi m o A1 B1 A2 B2); auto.
  Qed.
  Lemma path_ok_ext : forall lo hi m f g, (forall c, f c <-> g c) -> path_ok lo hi m f -> path_ok lo hi m g.
  Proof. intros lo hi m f g H [A B C D]. constructor; auto. intros c k Ec Fc. rewrite (D c k Ec Fc). apply H. Qed.

  Lemma union_nfas_ok : forall l m lo c0 f, path_ok lo c0 m f -> (forall p, In p l -> covered_path n p /\ incl (path_steps p) L) ->
    exists m' c', union_nfas n l m c0 = Ok (m', c') /\ path_ok lo c' m' (fun c => f c \/ exists p, In p l /\ path_selects n p c).
  Proof.
    induction l as [|p l IH]; intros m lo c0 f O Hl.
    - exists m, c0. split; [reflexivity|]. eapply path_ok_ext; [|exact O]. intros c. split; [intros H; left; exact H|intros [H|(p & [] & _)]; exact H].
    - destruct (Hl p (or_introl eq_refl)) as [Cp Ip]. destruct (path_nfa_ok p c0 Cp Ip) as (o & c1 & Eo & Oo).
      destruct (IH (union m o) lo c1 _ (union_ok _ _ _ _ _ _ _ O Oo)) as (m' & c' & E & O'); [intros q Hq; apply Hl; right; exact Hq|].
      exists m', c'. cbn [union_nfas]. rewrite Eo. cbn [bind]. split; [exact E|]. eapply path_ok_ext; [|exact O']. intros c. split.
      + intros [[H|H]|(q & Hq & H)]; [left; exact H|right; exists p; split; [left; reflexivity|exact H]|right; exists q; split; [right; exact Hq|exact H]].
      + intros [H|(q & [<-|Hq] & H)]; [left; left; exact H|left; right; exact H|right; exists q; split; assumption].
  Qed.
  Lemma to_nfa_ok : forall e c0, e <> [] -> (forall p, In p e -> covered_path n p) -> incl (flat_map path_steps e) L ->
    exists m c', to_nfa n e c0 = Ok (m, c') /\ path_ok c0 c' m (pattern_selects n e).
  Proof.
    intros [|p e] c0 Ne He Hi; [congruence|].
    assert (forall q, In q (p :: e) -> incl (path_steps q) L) as Hq by (intros q Hq s Hs; apply Hi; apply in_flat_map; exists q; split; assumption).
    destruct (path_nfa_ok p c0) as (o & c1 & Eo & Oo); [apply He; left; reflexivity|apply Hq; left; reflexivity|].
    destruct (union_nfas_ok e o c0 c1 _ Oo) as (m' & c' & E & O'); [intros q K; split; [apply He|apply Hq]; right; exact K|].
    exists m', c'. cbn [to_nfa]. rewrite Eo. cbn [bind]. split; [exact E|]. eapply path_ok_ext; [|exact O']. intros c. unfold pattern_selects. split.
    - intros [H|(q & K & H)]; [exists p; split; [left; reflexivity|exact H]|exists q; split; [right; exact K|exact H]].
    - intros (q & [<-|K] & H); [left; exact H|right; exists q; split; assumption].
  Qed.

  (** *** The labelled union *)
  Record labelled_ok (lo hi : nat) (m : nfa) (lab : nat -> list kind -> Prop) : Prop := {
    lb_le : lo <= hi;
    lb_wf : wf stepped lo hi m;
    lb_lang : forall c k l, elems c -> (forall x, In x (c ++ [k]) -> faithful x) -> ((exists i, reach m (c ++ [k]) i /\ In l (handlers m i)) <-> lab l (c ++ [k])) }.
  Lemma add_handler_ok : forall lo hi m f i, path_ok lo hi m f -> labelled_ok lo hi (add_handler m i) (fun l c => l = i /\ f c).
  Proof.
    intros lo hi m f i [A B C D]. constructor; [exact A| |].
    - destruct B as [B1 B2 B3 B4 B5 B6 B7]. constructor; cbn; auto. intros j l H. destruct (memb j (terminal m)) eqn:E; [apply B4, memb_in; exact E|rewrite C in H; destruct H].
    - intros c k l Ec Fc. rewrite <- (D c k Ec Fc). unfold accepts. split.
      + intros (j & R & H). cbn in H. rewrite C in H. destruct (memb j (terminal m)) eqn:E; [|destruct H]. destruct H as [<-|[]]. split; [reflexivity|]. exists j. split; [apply memb_in; exact E|].
        eapply reach_ext; [| |exact R]; intros; assumption.
      + intros (-> & j & Hj & R). exists j. split; [eapply reach_ext; [| |exact R]; intros; assumption|]. cbn. rewrite (proj2 (memb_in j (terminal m)) Hj). apply in_or_app. right. left. reflexivity.
  Qed.
  Lemma labelled_union : forall lo mid hi m o f g, labelled_ok lo mid m f -> labelled_ok mid hi o g -> labelled_ok lo hi (union m o) (fun l c => f l c \/ g l c).
  Proof.
    intros lo mid hi m o f g [A1 A2 A3] [B1 B2 B3]. constructor; [lia|apply (wf_union stepped lo mid hi); assumption|].
    intros c k l Ec Fc. rewrite <- (A3 c k l Ec Fc), <- (B3 c k l Ec Fc). split.
    - intros (i & R & H). apply (reach_union stepped lo mid hi m o A1 B1 A2 B2) in R. destruct R as [R|R].
      + left. exists i. split; [exact R|]. rewrite (union_handlers_m stepped lo mid hi m o A1 B1 A2 B2) in H by apply (reach_in _ _ _ _ _ _ A2 R). exact H.
      + right. exists i. split; [exact R|]. rewrite (union_handlers_o m o) in H by apply (reach_in _ _ _ _ _ _ B2 R). exact H.
    - intros [(i & R & H)|(i & R & H)]; exists i.
      + split; [apply (reach_union stepped lo mid hi m o A1 B1 A2 B2); left; exact R|]. rewrite (union_handlers_m stepped lo mid hi m o A1 B1 A2 B2) by apply (reach_in _ _ _ _ _ _ A2 R). exact H.
      + split; [apply (reach_union stepped lo mid hi m o A1 B1 A2 B2); right; exact R|]. rewrite (union_handlers_o m o) by apply (reach_in _ _ _ _ _ _ B2 R). exact H.
  Qed.
  Lemma labelled_ext : forall lo hi m f g, (forall l c, f l c <-> g l c) -> labelled_ok lo hi m f -> labelled_ok lo hi m g.
  Proof. intros lo hi m f g H [A B C]. constructor; auto. intros c k l Ec Fc. rewrite (C c k l Ec Fc). apply H. Qed.

  Lemma manager_ok : forall l i c0, (forall e, In e l -> e <> [] /\ (forall p, In p e -> covered_path n p) /\ incl (flat_map path_steps e) L) ->
    exists ms, manager_nfas n l i c0 = Ok ms /\ List.length ms = List.length l /\
      forall m0 lo f, labelled_ok lo c0 m0 f -> exists hi, labelled_ok lo hi (fold_left union ms m0) (fun j c => f j c \/ exists k e, j = i + k /\ nth_error l k = Some e /\ pattern_selects n e c).
  Proof.
    induction l as [|e l IH]; intros i c0 Hl.
    - exists []. split; [reflexivity|]. split; [reflexivity|]. intros m0 lo f O. exists c0. eapply labelled_ext; [|exact O]. intros j c. split; [intros H; left; exact H|].
      intros [H|([|k] & e & _ & K & _)]; [exact H|discriminate K|discriminate K].
    - destruct (Hl e (or_introl eq_refl)) as (H1 & H2 & H3). destruct (to_nfa_ok e c0 H1 H2 H3) as (m & c1 & Em & Om).
      destruct (IH (S i) c1) as (ms & E & Len & F); [intros e' He'; apply Hl; right; exact He'|].
      exists (add_handler m i :: ms). cbn [manager_nfas]. rewrite Em. cbn [bind]. rewrite E. cbn [bind]. split; [reflexivity|]. split; [cbn; rewrite Len; reflexivity|].
      intros m0 lo f O. cbn [fold_left]. destruct (F _ _ _ (labelled_union _ _ _ _ _ _ _ O (add_handler_ok _ _ _ _ i Om))) as (hi & O'). exists hi.
      eapply labelled_ext; [|exact O']. intros j c. split.
      + intros [[H|[-> H]]|(k & e' & -> & K & H)]; [left; exact H|right; exists 0, e; repeat apply conj; [lia|reflexivity|exact H]|right; exists (S k), e'; repeat apply conj; [lia|exact K|exact H]].
      + intros [H|([|k] & e' & -> & K & H)]; [left; left; exact H|left; right; cbn in K; injection K as <-; split; [lia|exact H]|right; exists k, e'; repeat apply conj; [lia|exact K|exact H]].
  Qed.
End path.

Lemma machine_nfa_ok : forall n l c0, covered n l -> exists m hi, machine_nfa n l c0 = Ok m /\
  labelled_ok n (all_steps l) c0 hi m (fun j c => exists e, nth_error l j = Some e /\ pattern_selects n e c).
Proof.
  intros n l c0 [Nl Hl].
  assert (forall e, In e l -> incl (flat_map path_steps e) (all_steps l)) as Hi by (intros e He s Hs; unfold all_steps; apply in_flat_map; exists e; split; assumption).
  destruct l as [|e l]; [congruence|]. unfold machine_nfa. cbn [manager_nfas].
  destruct (Hl e (or_introl eq_refl)) as (H1 & H2). destruct (to_nfa_ok n (all_steps (e :: l)) e c0 H1 H2 (Hi e (or_introl eq_refl))) as (m & c1 & Em & Om).
  destruct (manager_ok n (all_steps (e :: l)) l 1 c1) as (ms & E & Len & F).
  { intros e' He'. destruct (Hl e' (or_intror He')) as (A & B). repeat apply conj; [exact A|exact B|apply Hi; right; exact He']. }
  rewrite Em. cbn [bind]. rewrite E. cbn [bind]. destruct (F _ _ _ (add_handler_ok _ _ _ _ _ _ 0 Om)) as (hi & O).
  exists (fold_left union ms (add_handler m 0)), hi. split; [reflexivity|]. eapply labelled_ext; [|exact O]. intros j c. split.
  - intros [[-> H]|(k & e' & -> & K & H)]; [exists e; split; [reflexivity|exact H]|exists e'; split; [exact K|exact H]].
  - intros (e' & K & H). destruct j as [|j]; [left; cbn in K; injection K as <-; split; [reflexivity|exact H]|right; exists j, e'; repeat apply conj; [lia|exact K|exact H]].
Qed.
