(** * Running the machine: it follows the sets of NFA nodes *)
From Coq Require Import NArith ZArith String List Bool Lia Arith Sorted Permutation.
From Verif Require Import PyStr PyErr PtModel PtSpec PtTree PtDfa.
Import ListNotations.
Open Scope nat_scope.

(** The node [i] of the NFA is reached by reading a chain of nodes. *)
Inductive reach (m : nfa) : list kind -> nat -> Prop :=
| reach_start : forall k i t, In (i, t) (start_edges m) -> tmatch t k = true -> reach m [k] i
| reach_step : forall c k i j t, reach m c i -> In (j, t) (edges m i) -> tmatch t k = true -> reach m (c ++ [k]) j.

Lemma snoc_inj : forall {A} (a b : list A) x y, a ++ [x] = b ++ [y] -> a = b /\ x = y.
Proof. intros A a b x y H. apply app_inj_tail in H. exact H. Qed.
Lemma reach_not_nil : forall m c i, reach m c i -> c <> [].
Proof. intros m c i H. destruct H; [discriminate|]. destruct c; discriminate. Qed.
Lemma reach_snoc : forall m c k j, reach m (c ++ [k]) j <->
  (c = [] /\ exists t, In (j, t) (start_edges m) /\ tmatch t k = true) \/ (c <> [] /\ exists i t, reach m c i /\ In (j, t) (edges m i) /\ tmatch t k = true).
Proof.
  intros m c k j. split.
  - intros H. inversion H as [k' i t Hi Mt Ec Ei|c' k' i j' t R He Mt Ec Ej]; subst.
    + left. destruct c as [|a c]; [|destruct c; discriminate]. cbn in Ec. injection Ec as ->. split; [reflexivity|exists t; split; assumption].
    + right. apply snoc_inj in Ec. destruct Ec as [-> ->]. split; [apply (reach_not_nil _ _ _ R)|exists i, t; repeat apply conj; assumption].
  - intros [[-> (t & Ht & Mt)]|[_ (i & t & R & He & Mt)]]; [apply (reach_start m k j t Ht Mt)|apply (reach_step m c k i j t R He Mt)].
Qed.

(** Facts about [state_handlers]. *)
Lemma fold_insert : forall l acc, ssorted acc -> ssorted (fold_left (fun acc x => insert x acc) l acc) /\
  forall x, In x (fold_left (fun acc x => insert x acc) l acc) <-> In x acc \/ In x l.
Proof.
  induction l as [|y l IH]; intros acc H; cbn [fold_left].
  - split; [exact H|]. intros x. cbn. tauto.
  - destruct (IH (insert y acc) (insert_sorted y acc H)) as [S1 S2]. split; [exact S1|]. intros x. rewrite S2, in_insert. cbn. intuition (subst; auto).
Qed.
Lemma state_handlers_spec : forall m s, ssorted (state_handlers m (Nodes s)) /\ forall l, In l (state_handlers m (Nodes s)) <-> exists i, In i s /\ In l (handlers m i).
Proof.
  intros m s. cbn [state_handlers].
  assert (forall s acc, ssorted acc -> ssorted (fold_left (fun acc i => fold_left (fun acc l => insert l acc) (handlers m i) acc) s acc) /\
    forall l, In l (fold_left (fun acc i => fold_left (fun acc l => insert l acc) (handlers m i) acc) s acc) <-> In l acc \/ exists i, In i s /\ In l (handlers m i)) as H.
  { clear s. induction s as [|i s IH]; intros acc Ha; cbn [fold_left].
    - split; [exact Ha|]. intros l. split; [tauto|]. intros [K|(i & [] & _)]. exact K.
    - destruct (fold_insert (handlers m i) acc Ha) as [S1 S2]. destruct (IH _ S1) as [S3 S4]. split; [exact S3|]. intros l. rewrite S4, S2. split.
      + intros [[K|K]|(j & Hj & K)]; [left; exact K|right; exists i; split; [left; reflexivity|exact K]|right; exists j; split; [right; exact Hj|exact K]].
      + intros [K|(j & [<-|Hj] & K)]; [left; left; exact K|left; right; exact K|right; exists j; split; assumption]. }
  destruct (H s [] ltac:(constructor)) as [H1 H2]. split; [exact H1|]. intros l. rewrite H2. split; [intros [[]|K]; exact K|intros K; right; exact K].
Qed.

Section run.
  Variables (io : list nat -> list nat) (m : nfa) (B : nat) (d : list (dstate * table)) (ms : list mstate).
  Hypothesis IO : forall s, Permutation (io s) s.
  Hypothesis start_good : forall id t, In (id, t) (start_edges m) -> good_test t /\ id < B.
  Hypothesis edges_good : forall i id t, In (id, t) (edges m i) -> good_test t /\ id < B.
  Hypothesis start_typed : forall id t, In (id, t) (start_edges m) -> match_types m id = match_type t.
  Hypothesis edges_typed : forall i id t, In (id, t) (edges m i) -> match_types m id = match_type t.
  (** Where any element may follow, a name test may too. *)
  Hypothesis start_looped : forall id, In (id, TAny) (start_edges m) -> exists i ns ln p, In (i, TNode ns ln p) (start_edges m).
  Hypothesis edges_looped : forall j id, In (id, TAny) (edges m j) -> exists i ns ln p, In (i, TNode ns ln p) (edges m j).
  Hypothesis D : dfa_ok io m d.

  Definition is_test (t : test) : Prop := (exists id, In (id, t) (start_edges m)) \/ exists i id, In (id, t) (edges m i).
  Definition at_most_one (k : kind) : Prop := forall t u, is_test t -> is_test u -> t <> TAny -> u <> TAny -> tmatch t k = true -> tmatch u k = true -> t = u.

  Lemma transition_tests : forall q id t, In (id, t) (all_transitions io m q) -> is_test t.
  Proof.
    intros q id t H. apply (transitions_in io m IO) in H. destruct q as [|s]; [left; exists id; exact H|]. destruct H as (i & _ & _ & H). right. exists i, id. exact H.
  Qed.
  Lemma transitions_agree : forall q k, at_most_one k -> agree (map snd (all_transitions io m q)) k.
  Proof.
    intros q k A t u Ht Hu. apply in_map_iff in Ht, Hu. destruct Ht as ([i t'] & <- & Ht). destruct Hu as ([j u'] & <- & Hu).
    apply A; [apply (transition_tests q i t' Ht)|apply (transition_tests q j u' Hu)].
  Qed.
  Lemma tables_ok : forall q tb, In (q, tb) d -> table_ok (all_transitions io m q) tb.
  Proof.
    intros q tb H. pose proof (do_tables _ _ _ D q tb H) as E.
    destruct (table_of_ok (all_transitions io m q)) as (tb' & E' & O).
    - intros id t Ht. apply (transitions_good io m B IO start_good edges_good) in Ht. apply Ht.
    - rewrite E in E'. injection E' as <-. exact O.
  Qed.
  Definition named (s : list nat) : Prop := exists k tb', number_of d s = Ok k /\ nth_error d k = Some (Nodes s, tb').
  Lemma leaf_named : forall q tb s, In (q, tb) d -> (In s (leaves (node_tree tb)) \/ In s (leaves (attr_tree tb)) \/ In s (leaves (pi_tree tb))) -> s <> [] -> named s.
  Proof.
    intros q tb s Hq Hs Ns. apply (do_closed _ _ _ D q tb s Hq). unfold final_nodes. apply in_dedup. split; [|exact Ns]. rewrite !in_app_iff. tauto.
  Qed.
  Lemma named_positive : forall s k, named s -> number_of d s = Ok k -> 0 < k.
  Proof.
    intros s k _ E. destruct (do_start _ _ _ D) as (tb & r & ->). cbn [number_of] in E. destruct (number_of r s) as [j|e]; cbn in E; [injection E as <-; lia|discriminate].
  Qed.
  Lemma numbered_tree : forall b, (forall t, In t (tests b) -> good_test t /\ t <> TAny /\ match_type t = MNode) ->
    (forall s, In s (leaves b) -> s <> [] -> named s) -> numbered d b.
  Proof.
    induction b as [s|t x IHx y IHy]; intros T L; cbn [numbered].
    - destruct s as [|x s]; [left; reflexivity|]. right. destruct (L (x :: s)) as (k & tb' & E & N); [left; reflexivity|discriminate|]. exists k. split; [exact E|].
      apply (named_positive (x :: s) k); [exists k, tb'; split; assumption|exact E].
    - split; [|split].
      + destruct (T t (or_introl eq_refl)) as (_ & N & K). destruct t as [|ns ln p|ns ln|t0]; try discriminate K; [congruence|exists ns, ln, p; reflexivity].
      + apply IHx; [intros u Hu; apply T; right; apply in_or_app; left; exact Hu|intros s Hs; apply L; apply in_or_app; left; exact Hs].
      + apply IHy; [intros u Hu; apply T; right; apply in_or_app; right; exact Hu|intros s Hs; apply L; apply in_or_app; right; exact Hs].
  Qed.

  (** *** The operations of a state *)
  Lemma nodes_total : forall q tb, In (q, tb) d -> exists ops, node_ops d (node_tree tb) = Ok ops /\
    ((ops = [] /\ node_tree tb = Leaf []) \/ ops <> [] /\ forall nm, exists r, run_ops (S (List.length ops)) ops 0 nm = Ok r /\ goes d (decide (node_tree tb) (KElem nm)) r).
  Proof.
    intros q tb Hq. pose proof (tables_ok q tb Hq) as O.
    destruct (is_branch (node_tree tb)) eqn:Br.
    - destruct (node_ops_spec d (node_tree tb) Br) as (ops & E & N & R).
      + apply numbered_tree; [apply (ok_tests _ _ (tok_node _ _ O))|]. intros s Hs. apply (leaf_named q tb s Hq). left. exact Hs.
      + exists ops. split; [exact E|]. right. split; assumption.
    - destruct (node_tree tb) as [s|t x y] eqn:En; [|discriminate]. destruct s as [|x s].
      + exists []. split; [reflexivity|]. left. split; reflexivity.
      + exfalso.
        assert (~ exists id ns ln p, In (id, TNode ns ln p) (all_transitions io m q)) as NoN.
        { intros H. apply (tok_branch _ _ O) in H. rewrite En in H. discriminate. }
        assert (agree (map snd (all_transitions io m q)) (KElem (None, []))) as A.
        { intros t u Ht _ Nt _ Mt _. exfalso. apply in_map_iff in Ht. destruct Ht as ([i t'] & <- & Ht). cbn in *.
          destruct t' as [|ns ln p|ns ln|t0]; cbn in Mt; try discriminate; [congruence|]. apply NoN. exists i, ns, ln, p. exact Ht. }
        pose proof (tok_decide _ _ O _ A x) as Dx. cbn [tree_for] in Dx. rewrite En in Dx. cbn [decide] in Dx.
        destruct (proj1 Dx (or_introl eq_refl)) as (t & Ht & Mt).
        destruct t as [|ns ln p|ns ln|t0]; cbn in Mt; try discriminate; [|apply NoN; exists x, ns, ln, p; exact Ht].
        apply NoN. apply (transitions_in io m IO) in Ht. destruct q as [|sq].
        * destruct (start_looped _ Ht) as (i & ns & ln & p & Hi). exists i, ns, ln, p. apply (transitions_in io m IO). exact Hi.
        * destruct Ht as (j & Hj & Mj & Ht). destruct (edges_looped _ _ Ht) as (i & ns & ln & p & Hi). exists i, ns, ln, p. apply (transitions_in io m IO). exists j. repeat apply conj; assumption.
  Qed.

  Lemma decide_last : forall b k, (forall t, In t (tests b) -> tmatch t k = false) -> decide b k = last_leaf b.
  Proof.
    induction b as [s|t x IHx y IHy]; intros k H; cbn [decide last_leaf]; [reflexivity|].
    rewrite (H t (or_introl eq_refl)). apply IHy. intros u Hu. apply H. right. apply in_or_app. right. exact Hu.
  Qed.
  Lemma comb_rest : forall t x y k, comb (Branch t x y) -> agree (t :: tests y) k -> t <> TAny -> (forall u, In u (tests y) -> u <> TAny) -> tmatch t k = true ->
    decide y k = last_leaf y.
  Proof.
    intros t x y k (_ & N & _) A Nt Ny Mt. apply decide_last. intros u Hu. destruct (tmatch u k) eqn:Mu; [|reflexivity]. exfalso. apply N.
    rewrite (A t u) by (assumption || (left; reflexivity) || (right; exact Hu) || apply Ny, Hu). exact Hu.
  Qed.

  Lemma attrs_total : forall b, tree_ok MAttr b -> full b -> last_leaf b = [] -> (forall s, In s (leaves b) -> s <> [] -> named s) -> exists ops, attr_ops d b = Ok ops.
  Proof.
    induction b as [s|t x IHx y IHy]; intros O F L N.
    - cbn in L. subst. exists []. reflexivity.
    - destruct O as [T C S]. destruct C as ((s & ->) & Nin & C). destruct F as [Fx F]. destruct S as [Sx Sy].
      destruct (T t (or_introl eq_refl)) as (_ & Nt & Kt). destruct t as [|ns ln p|ns ln|t0]; try discriminate Kt.
      cbn [attr_ops]. destruct (N s) as (k & tb' & E & _); [left; reflexivity|intros ->; apply Fx; reflexivity|]. rewrite E. cbn [bind].
      destruct IHy as (ops & E').
      + constructor; [intros u Hu; apply T; right; exact Hu|exact C|exact Sy].
      + exact F.
      + exact L.
      + intros s' Hs'. apply N. right. exact Hs'.
      + rewrite E'. cbn [bind]. exists ((ns, ln, k) :: ops). reflexivity.
  Qed.
  Lemma pis_total : forall b, tree_ok MPi b -> full b -> last_leaf b = [] -> (forall s, In s (leaves b) -> s <> [] -> named s) -> exists ops, pi_ops d b = Ok ops.
  Proof.
    induction b as [s|t x IHx y IHy]; intros O F L N.
    - cbn in L. subst. exists []. reflexivity.
    - destruct O as [T C S]. destruct C as ((s & ->) & Nin & C). destruct F as [Fx F]. destruct S as [Sx Sy].
      destruct (T t (or_introl eq_refl)) as (_ & Nt & Kt). destruct t as [|ns ln p|ns ln|t0]; try discriminate Kt.
      cbn [pi_ops]. destruct (N s) as (k & tb' & E & _); [left; reflexivity|intros ->; apply Fx; reflexivity|]. rewrite E. cbn [bind].
      destruct IHy as (ops & E').
      + constructor; [intros u Hu; apply T; right; exact Hu|exact C|exact Sy].
      + exact F.
      + exact L.
      + intros s' Hs'. apply N. right. exact Hs'.
      + rewrite E'. cbn [bind]. exists ((t0, k) :: ops). reflexivity.
  Qed.

  (** *** The states *)
  Record state_ok (q : dstate) (tb : table) (st : mstate) : Prop := {
    so_handlers : st_handlers st = state_handlers m q;
    so_nodes : node_ops d (node_tree tb) = Ok (st_nodes st);
    so_attrs : attr_ops d (attr_tree tb) = Ok (st_attrs st);
    so_pis : pi_ops d (pi_tree tb) = Ok (st_pis st) }.
  Lemma build_states_total : forall r, incl r d -> exists l, build_states m d r = Ok l /\ forall k q tb, nth_error r k = Some (q, tb) -> exists st, nth_error l k = Some st /\ state_ok q tb st.
  Proof.
    induction r as [|[q tb] r IH]; intros I.
    - exists []. split; [reflexivity|]. intros [|k] q tb H; discriminate.
    - assert (In (q, tb) d) as Hq by (apply I; left; reflexivity). pose proof (tables_ok q tb Hq) as O. destruct (tok_last _ _ O) as (La & Lp & Fa & Fp).
      destruct (nodes_total q tb Hq) as (n & En & _).
      destruct (attrs_total (attr_tree tb) (tok_attr _ _ O) Fa La) as (a & Ea); [intros s Hs; apply (leaf_named q tb s Hq); right; left; exact Hs|].
      destruct (pis_total (pi_tree tb) (tok_pi _ _ O) Fp Lp) as (p & Ep); [intros s Hs; apply (leaf_named q tb s Hq); right; right; exact Hs|].
      destruct IH as (l & El & Hl); [intros x Hx; apply I; right; exact Hx|].
      cbn [build_states]. rewrite En, Ea, Ep, El. cbn [bind]. eexists. split; [reflexivity|].
      intros [|k] q' tb' H; cbn in H.
      + injection H as <- <-. eexists. split; [reflexivity|]. constructor; assumption || reflexivity.
      + apply Hl. exact H.
  Qed.

  Hypothesis MS : forall k q tb, nth_error d k = Some (q, tb) -> exists st, nth_error ms k = Some st /\ state_ok q tb st.

  Lemma get_state_set : forall s k, named s -> number_of d s = Ok k -> exists st tb, get_state ms k = Ok st /\ nth_error d k = Some (Nodes s, tb) /\ state_ok (Nodes s) tb st.
  Proof.
    intros s k (k' & tb & E & N) E'. rewrite E in E'. injection E' as ->. destruct (MS _ _ _ N) as (st & Hst & O). exists st, tb. unfold get_state. rewrite Hst. repeat apply conj; [reflexivity|exact N|exact O].
  Qed.

  Lemma attr_calls_spec : forall b ops id nm, tree_ok MAttr b -> full b -> last_leaf b = [] -> (forall s, In s (leaves b) -> s <> [] -> named s) -> attr_ops d b = Ok ops ->
    agree (tests b) (KAttr nm) -> attr_calls ms id nm ops = Ok (map (fun l => CAttr l id nm) (state_handlers m (Nodes (decide b (KAttr nm))))).
  Proof.
    induction b as [s|t x IHx y IHy]; intros ops id nm O F L N E A.
    - cbn in L. subst. cbn in E. injection E as <-. reflexivity.
    - destruct O as [T C S]. pose proof C as C0. destruct C as ((s & ->) & Nin & C). destruct F as [Fx F]. destruct S as [Sx Sy].
      destruct (T t (or_introl eq_refl)) as (_ & Nt & Kt). destruct t as [|ns ln p|ns ln|t0]; try discriminate Kt.
      assert (s <> []) as Ns by (intros ->; apply Fx; reflexivity).
      pose proof (N s (or_introl eq_refl) Ns) as Nm. pose proof Nm as (k & tb' & Ek & Nk).
      cbn [attr_ops] in E. rewrite Ek in E. cbn [bind] in E. destruct (attr_ops d y) as [r|e] eqn:Er; cbn [bind] in E; [|discriminate]. injection E as <-.
      cbn [attr_calls]. destruct (get_state_set s k Nm Ek) as (st & tb2 & Eg & _ & Ost). rewrite Eg. cbn [bind].
      rewrite (IHy r id nm).
      + cbn [decide tmatch]. destruct (test_name ns ln nm) eqn:Mt; cbn [bind].
        * rewrite (comb_rest (TAttr ns ln) (Leaf s) y (KAttr nm) C0).
          -- cbn [last_leaf] in L. rewrite L. cbn. rewrite app_nil_r. rewrite (so_handlers _ _ _ Ost). reflexivity.
          -- intros u v Hu Hv. apply A; cbn; cbn in Hu, Hv; tauto.
          -- discriminate.
          -- intros u Hu. apply T. right. exact Hu.
          -- exact Mt.
        * reflexivity.
      + constructor; [intros u Hu; apply T; right; exact Hu|exact C|exact Sy].
      + exact F.
      + exact L.
      + intros s' Hs'. apply N. right. exact Hs'.
      + reflexivity.
      + intros u v Hu Hv. apply A; right; assumption.
  Qed.
  Lemma pi_calls_spec : forall b ops id tg, tree_ok MPi b -> full b -> last_leaf b = [] -> (forall s, In s (leaves b) -> s <> [] -> named s) -> pi_ops d b = Ok ops ->
    agree (tests b) (KPi tg) -> pi_calls ms id tg ops = Ok (map (fun l => CPi l id) (state_handlers m (Nodes (decide b (KPi tg))))).
  Proof.
    induction b as [s|t x IHx y IHy]; intros ops id tg O F L N E A.
    - cbn in L. subst. cbn in E. injection E as <-. reflexivity.
    - destruct O as [T C S]. pose proof C as C0. destruct C as ((s & ->) & Nin & C). destruct F as [Fx F]. destruct S as [Sx Sy].
      destruct (T t (or_introl eq_refl)) as (_ & Nt & Kt). destruct t as [|ns ln p|ns ln|t0]; try discriminate Kt.
      assert (s <> []) as Ns by (intros ->; apply Fx; reflexivity).
      pose proof (N s (or_introl eq_refl) Ns) as Nm. pose proof Nm as (k & tb' & Ek & Nk).
      cbn [pi_ops] in E. rewrite Ek in E. cbn [bind] in E. destruct (pi_ops d y) as [r|e] eqn:Er; cbn [bind] in E; [|discriminate]. injection E as <-.
      cbn [pi_calls]. destruct (get_state_set s k Nm Ek) as (st & tb2 & Eg & _ & Ost). rewrite Eg. cbn [bind].
      rewrite (IHy r id tg).
      + cbn [decide tmatch]. destruct (opt_eqb t0 (Some tg)) eqn:Mt; cbn [bind].
        * rewrite (comb_rest (TPi t0) (Leaf s) y (KPi tg) C0).
          -- cbn [last_leaf] in L. rewrite L. cbn. rewrite app_nil_r. rewrite (so_handlers _ _ _ Ost). reflexivity.
          -- intros u v Hu Hv. apply A; cbn; cbn in Hu, Hv; tauto.
          -- discriminate.
          -- intros u Hu. apply T. right. exact Hu.
          -- exact Mt.
        * reflexivity.
      + constructor; [intros u Hu; apply T; right; exact Hu|exact C|exact Sy].
      + exact F.
      + exact L.
      + intros s' Hs'. apply N. right. exact Hs'.
      + reflexivity.
      + intros u v Hu Hv. apply A; right; assumption.
  Qed.

  (** *** The state on top of the stack *)
  Definition set_of (c : list kind) (s : list nat) : Prop := ssorted s /\ forall i, In i s <-> reach m c i.
  Definition elems (c : list kind) : Prop := forall k, In k c -> exists nm, k = KElem nm.
  Definition at_state (top : option nat) (c : list kind) : Prop :=
    match top with
    | None => c <> [] /\ forall i, ~ reach m c i
    | Some j => exists q tb, nth_error d j = Some (q, tb) /\ ((c = [] /\ q = Start) \/ (c <> [] /\ exists s, q = Nodes s /\ set_of c s))
    end.

  Lemma reach_elem_type : forall c i, elems c -> reach m c i -> match_types m i = MNode.
  Proof.
    intros c i Hc R. inversion R as [k i' t Hi Mt Ec Ei|c' k i' j' t R' He Mt Ec Ej]; subst.
    - destruct (Hc k (or_introl eq_refl)) as (nm & ->). rewrite (start_typed i t Hi). destruct t; try discriminate Mt; reflexivity.
    - destruct (Hc k) as (nm & ->); [apply in_or_app; right; left; reflexivity|]. rewrite (edges_typed i' i t He). destruct t; try discriminate Mt; reflexivity.
  Qed.

  Lemma next_set : forall j q tb c k, nth_error d j = Some (q, tb) -> ((c = [] /\ q = Start) \/ (c <> [] /\ exists s, q = Nodes s /\ set_of c s)) ->
    elems c -> at_most_one k -> set_of (c ++ [k]) (decide (tree_for tb k) k).
  Proof.
    intros j q tb c k Nj Hq Ec A. pose proof (tables_ok q tb (nth_error_In _ _ Nj)) as O. split.
    - apply sorted_leaves_decide. destruct k; cbn [tree_for]; [apply (ok_sorted _ _ (tok_node _ _ O))|apply (ok_sorted _ _ (tok_attr _ _ O))|apply (ok_sorted _ _ (tok_pi _ _ O))].
    - intros i. rewrite (tok_decide _ _ O k (transitions_agree q k A) i). rewrite reach_snoc. split.
      + intros (t & Ht & Mt). apply (transitions_in io m IO) in Ht. destruct Hq as [[-> ->]|[Nc (s & -> & Ss & Hs)]].
        * left. split; [reflexivity|exists t; split; assumption].
        * right. split; [exact Nc|]. destruct Ht as (i' & Hi' & _ & He). exists i', t. repeat apply conj; [apply Hs; exact Hi'|exact He|exact Mt].
      + intros [[-> (t & Ht & Mt)]|[Nc (i' & t & R & He & Mt)]].
        * destruct Hq as [[_ ->]|[Nc _]]; [|congruence]. exists t. split; [apply (transitions_in io m IO); exact Ht|exact Mt].
        * destruct Hq as [[-> _]|[_ (s & -> & Ss & Hs)]]; [congruence|]. exists t. split; [|exact Mt]. apply (transitions_in io m IO). exists i'. repeat apply conj; [apply Hs; exact R|apply (reach_elem_type c i' Ec R)|exact He].
  Qed.
  Lemma dead_next : forall c k, c <> [] -> (forall i, ~ reach m c i) -> forall i, ~ reach m (c ++ [k]) i.
  Proof.
    intros c k Nc H i R. apply reach_snoc in R. destruct R as [[-> _]|[_ (i' & t & R & _)]]; [congruence|exact (H i' R)].
  Qed.

  (** *** The calls *)
  Variables (sel : nat -> list kind -> bool) (count : nat) (K : kind -> Prop).
  Hypothesis amo : forall k, K k -> at_most_one k.
  (** On chains of nodes of the document, [sel] is what the NFA says. *)
  Hypothesis SEL : forall c k l, elems c -> (forall x, In x (c ++ [k]) -> K x) ->
    (l < count /\ sel l (c ++ [k]) = true <-> exists i, reach m (c ++ [k]) i /\ In l (handlers m i)).

  Lemma seq_sorted : forall n a, ssorted (seq a n).
  Proof.
    induction n as [|n IH]; intros a; cbn [seq]; constructor; [apply IH|]. apply Forall_forall. intros x Hx. apply in_seq in Hx. lia.
  Qed.
  Lemma filter_sorted : forall f l, ssorted l -> ssorted (filter f l).
  Proof.
    intros f l. induction l as [|x l IH]; intros H; cbn; [constructor|]. inversion H as [|? ? H1 H2]; subst.
    destruct (f x); [|apply IH; exact H1]. constructor; [apply IH; exact H1|]. apply Forall_forall. intros y Hy. apply filter_In in Hy. rewrite Forall_forall in H2. apply H2, Hy.
  Qed.
  Lemma selecting_set : forall c k s, elems c -> (forall x, In x (c ++ [k]) -> K x) -> set_of (c ++ [k]) s -> state_handlers m (Nodes s) = selecting sel count (c ++ [k]).
  Proof.
    intros c k s Ec HK [Ss Hs]. apply ssorted_ext.
    - apply state_handlers_spec.
    - apply filter_sorted, seq_sorted.
    - intros l. rewrite (proj2 (state_handlers_spec m s)). unfold selecting. rewrite filter_In, in_seq.
      specialize (SEL c k l Ec HK). split.
      + intros (i & Hi & Hl). apply Hs in Hi. assert (l < count /\ sel l (c ++ [k]) = true) as [H1 H2] by (apply SEL; exists i; split; assumption). split; [lia|exact H2].
      + intros [H1 H2]. destruct (proj1 SEL) as (i & Hi & Hl); [split; [lia|exact H2]|]. exists i. split; [apply Hs; exact Hi|exact Hl].
  Qed.
  Lemma selecting_dead : forall c k, elems c -> (forall x, In x (c ++ [k]) -> K x) -> (forall i, ~ reach m (c ++ [k]) i) -> selecting sel count (c ++ [k]) = [].
  Proof.
    intros c k Ec HK H. rewrite <- (selecting_set c k [] Ec HK); [reflexivity|]. split; [constructor|]. intros i. split; [intros []|intros R; exact (H i R)].
  Qed.

  Lemma attrs_calls_spec : forall j s tb st c nm0 id attrs, nth_error d j = Some (Nodes s, tb) -> state_ok (Nodes s) tb st -> set_of (c ++ [KElem nm0]) s ->
    elems (c ++ [KElem nm0]) -> (forall x, In x (c ++ [KElem nm0]) -> K x) -> (forall a, In a attrs -> K (KAttr a)) ->
    attrs_calls ms id attrs (st_attrs st) = Ok (flat_map (fun a => map (fun l => CAttr l id a) (selecting sel count ((c ++ [KElem nm0]) ++ [KAttr a]))) attrs).
  Proof.
    intros j s tb st c nm0 id attrs Nj O So Ec HK. pose proof (nth_error_In _ _ Nj) as Hin. pose proof (tables_ok _ _ Hin) as T. destruct (tok_last _ _ T) as (La & Lp & Fa & Fp).
    induction attrs as [|a attrs IH]; intros HA; cbn [attrs_calls flat_map]; [reflexivity|].
    assert (K (KAttr a)) as Ka by (apply HA; left; reflexivity).
    assert (c ++ [KElem nm0] <> []) as Nc by (destruct c; discriminate).
    rewrite (attr_calls_spec (attr_tree tb) (st_attrs st) id a (tok_attr _ _ T) Fa La).
    - cbn [bind]. rewrite IH by (intros b Hb; apply HA; right; exact Hb). cbn [bind].
      rewrite (selecting_set (c ++ [KElem nm0]) (KAttr a) (decide (attr_tree tb) (KAttr a)) Ec); [reflexivity| |].
      + intros x Hx. apply in_app_or in Hx. destruct Hx as [Hx|[<-|[]]]; [apply HK; exact Hx|exact Ka].
      + apply (next_set j (Nodes s) tb (c ++ [KElem nm0]) (KAttr a) Nj); [right; split; [exact Nc|exists s; split; [reflexivity|exact So]]|exact Ec|apply amo; exact Ka].
    - intros s' Hs'. apply (leaf_named _ _ s' Hin). right. left. exact Hs'.
    - apply (so_attrs _ _ _ O).
    - eapply agree_incl; [|apply (transitions_agree (Nodes s) (KAttr a) (amo _ Ka))].
      intros u Hu. destruct (proj1 (tok_tests _ _ T u)) as (_ & i & Hi); [rewrite !in_app_iff; tauto|]. apply in_map_iff. exists (i, u). split; [reflexivity|exact Hi].
  Qed.

  Lemma handle_app : forall l stack l', handle_all ms stack (l ++ l') =
    (do x <- handle_all ms stack l ; let (stack, c) := x : list (option nat) * list call in
     do y <- handle_all ms stack l' ; let (stack, c') := y : list (option nat) * list call in Ok (stack, c ++ c')).
  Proof.
    induction l as [|e l IH]; intros stack l'; cbn [app handle_all bind].
    - destruct (handle_all ms stack l') as [[st c]|e]; reflexivity.
    - destruct (handle ms stack e) as [[st c]|x]; cbn [bind]; [|reflexivity]. rewrite IH.
      destruct (handle_all ms st l) as [[st1 c1]|x]; cbn [bind]; [|reflexivity].
      destruct (handle_all ms st1 l') as [[st2 c2]|x]; cbn [bind]; [|reflexivity]. rewrite app_assoc. reflexivity.
  Qed.

  Fixpoint item_ind' (P : item -> Prop) (HE : forall id nm attrs kids, Forall P kids -> P (Elem id nm attrs kids)) (HP : forall id t, P (PI id t)) (i : item) : P i :=
    match i with
    | Elem id nm attrs kids => HE id nm attrs kids ((fix go (l : list item) : Forall P l := match l with [] => Forall_nil P | x :: r => Forall_cons x (item_ind' P HE HP x) (go r) end) kids)
    | PI id t => HP id t
    end.

  Lemma start_spec : forall top above id nm attrs, at_state top above -> elems above -> (forall x, In x above -> K x) -> K (KElem nm) -> (forall a, In a attrs -> K (KAttr a)) ->
    exists top', start_element ms top id nm attrs = Ok (top', map (fun l => CStart l id) (selecting sel count (above ++ [KElem nm])) ++
        flat_map (fun a => map (fun l => CAttr l id a) (selecting sel count ((above ++ [KElem nm]) ++ [KAttr a]))) attrs) /\ at_state top' (above ++ [KElem nm]).
  Proof.
    intros top above id nm attrs At Ea HK Kn Ka.
    assert (above ++ [KElem nm] <> []) as Nn by (destruct above; discriminate).
    assert (forall x, In x (above ++ [KElem nm]) -> K x) as HK' by (intros x Hx; apply in_app_or in Hx; destruct Hx as [Hx|[<-|[]]]; auto).
    assert (elems (above ++ [KElem nm])) as Ee by (intros x Hx; apply in_app_or in Hx; destruct Hx as [Hx|[<-|[]]]; [apply Ea; exact Hx|exists nm; reflexivity]).
    assert ((forall i, ~ reach m (above ++ [KElem nm]) i) -> map (fun l => CStart l id) (selecting sel count (above ++ [KElem nm])) ++
        flat_map (fun a => map (fun l => CAttr l id a) (selecting sel count ((above ++ [KElem nm]) ++ [KAttr a]))) attrs = []) as Dead.
    { intros Dd. rewrite (selecting_dead above (KElem nm) Ea HK' Dd). cbn [map app].
      induction attrs as [|a attrs IH]; [reflexivity|]. cbn [flat_map]. rewrite IH by (intros b Hb; apply Ka; right; exact Hb). rewrite app_nil_r.
      rewrite (selecting_dead (above ++ [KElem nm]) (KAttr a) Ee); [reflexivity| |apply (dead_next _ _ Nn Dd)].
      intros x Hx. apply in_app_or in Hx. destruct Hx as [Hx|[<-|[]]]; [apply HK'; exact Hx|apply Ka; left; reflexivity]. }
    destruct top as [j|].
    - destruct At as (q & tb & Nj & Hq). pose proof (next_set j q tb above (KElem nm) Nj Hq Ea (amo _ Kn)) as NS. cbn [tree_for] in NS.
      destruct (MS j q tb Nj) as (st & Nst & O). cbn [start_element]. unfold get_state. rewrite Nst. cbn [bind].
      destruct (nodes_total q tb (nth_error_In _ _ Nj)) as (ops & Eops & Hops). rewrite (so_nodes _ _ _ O) in Eops. injection Eops as Eops. rewrite Eops.
      destruct Hops as [[-> Leaf0]|[Nops Hr]].
      + exists None. rewrite Leaf0 in NS. cbn in NS.
        assert (forall i, ~ reach m (above ++ [KElem nm]) i) as Dd by (intros i R; apply (proj2 NS i) in R; exact R).
        split; [rewrite (Dead Dd); reflexivity|]. split; assumption.
      + destruct ops as [|o ops]; [congruence|]. destruct (Hr nm) as (r & Er & G). rewrite Er. cbn [bind].
        destruct G as [[Es ->]|[Ns (k & Ek & ->)]].
        * exists None. assert (forall i, ~ reach m (above ++ [KElem nm]) i) as Dd by (intros i R; apply (proj2 NS i) in R; rewrite Es in R; exact R).
          split; [rewrite (Dead Dd); reflexivity|]. split; assumption.
        * set (s := decide (node_tree tb) (KElem nm)) in *.
          assert (named s) as Nm by (apply (leaf_named q tb s (nth_error_In _ _ Nj)); [left; apply decide_leaves|exact Ns]).
          destruct (get_state_set s k Nm Ek) as (st' & tb' & Eg & Nk & O'). unfold get_state in Eg. rewrite Eg. cbn [bind].
          rewrite (attrs_calls_spec k s tb' st' above nm id attrs Nk O' NS Ee HK' Ka). cbn [bind].
          exists (Some k). split; [|exists (Nodes s), tb'; split; [exact Nk|right; split; [exact Nn|exists s; split; [reflexivity|exact NS]]]].
          rewrite (so_handlers _ _ _ O'), (selecting_set above (KElem nm) s Ea HK' NS). reflexivity.
    - destruct At as [Nc Dd]. exists None. pose proof (dead_next above (KElem nm) Nc Dd) as Dd'. cbn [start_element]. split; [rewrite (Dead Dd'); reflexivity|]. split; [exact Nn|exact Dd'].
  Qed.

  Lemma end_spec : forall top above id nm, at_state top (above ++ [KElem nm]) -> elems above -> (forall x, In x (above ++ [KElem nm]) -> K x) ->
    end_element ms top id = Ok (map (fun l => CEnd l id) (rev (selecting sel count (above ++ [KElem nm])))).
  Proof.
    intros top above id nm At Ea HK. destruct top as [j|]; cbn [end_element].
    - destruct At as (q & tb & Nj & [[E _]|[_ (s & -> & So)]]); [destruct above; discriminate|].
      destruct (MS _ _ _ Nj) as (st & Nst & O). unfold get_state. rewrite Nst. cbn [bind]. rewrite (so_handlers _ _ _ O), (selecting_set above (KElem nm) s Ea HK So). reflexivity.
    - destruct At as [_ Dd]. rewrite (selecting_dead above (KElem nm) Ea HK Dd). reflexivity.
  Qed.

  Lemma pi_spec : forall top above id t, at_state top above -> elems above -> (forall x, In x above -> K x) -> K (KPi t) ->
    processing_instruction ms top id t = Ok (map (fun l => CPi l id) (selecting sel count (above ++ [KPi t]))).
  Proof.
    intros top above id t At Ea HK Kt.
    assert (forall x, In x (above ++ [KPi t]) -> K x) as HK' by (intros x Hx; apply in_app_or in Hx; destruct Hx as [Hx|[<-|[]]]; auto).
    destruct top as [j|]; cbn [processing_instruction].
    - destruct At as (q & tb & Nj & Hq). pose proof (next_set j q tb above (KPi t) Nj Hq Ea (amo _ Kt)) as NS. cbn [tree_for] in NS.
      destruct (MS j q tb Nj) as (st & Nst & O). unfold get_state. rewrite Nst. cbn [bind].
      pose proof (nth_error_In _ _ Nj) as Hin. pose proof (tables_ok _ _ Hin) as T. destruct (tok_last _ _ T) as (La & Lp & Fa & Fp).
      rewrite (pi_calls_spec (pi_tree tb) (st_pis st) id t (tok_pi _ _ T) Fp Lp).
      + rewrite (selecting_set above (KPi t) _ Ea HK' NS). reflexivity.
      + intros s' Hs'. apply (leaf_named _ _ s' Hin). right. right. exact Hs'.
      + apply (so_pis _ _ _ O).
      + eapply agree_incl; [|apply (transitions_agree q (KPi t) (amo _ Kt))].
        intros u Hu. destruct (proj1 (tok_tests _ _ T u)) as (_ & i & Hi); [rewrite !in_app_iff; tauto|]. apply in_map_iff. exists (i, u). split; [reflexivity|exact Hi].
    - destruct At as [Nc Dd]. rewrite (selecting_dead above (KPi t) Ea HK' (dead_next above (KPi t) Nc Dd)). reflexivity.
  Qed.

  Lemma item_spec : forall i above top rest, at_state top above -> elems above -> (forall x, In x above -> K x) -> (forall x, In x (item_kinds i) -> K x) ->
    handle_all ms (top :: rest) (events i) = Ok (top :: rest, expected sel count above i).
  Proof.
    induction i as [id nm attrs kids IH|id t] using item_ind'; intros above top rest At Ea HK HI.
    - cbn [item_kinds] in HI. assert (K (KElem nm)) as Kn by (apply HI; left; reflexivity).
      assert (forall a, In a attrs -> K (KAttr a)) as Ka by (intros a Ha; apply HI; right; apply in_or_app; left; apply in_map; exact Ha).
      assert (forall x, In x (above ++ [KElem nm]) -> K x) as HK' by (intros x Hx; apply in_app_or in Hx; destruct Hx as [Hx|[<-|[]]]; auto).
      assert (elems (above ++ [KElem nm])) as Ee by (intros x Hx; apply in_app_or in Hx; destruct Hx as [Hx|[<-|[]]]; [apply Ea; exact Hx|exists nm; reflexivity]).
      destruct (start_spec top above id nm attrs At Ea HK Kn Ka) as (top' & Es & At').
      cbn [events handle_all handle]. rewrite Es. cbn [bind]. rewrite handle_app.
      assert (handle_all ms (top' :: top :: rest) (flat_map events kids) = Ok (top' :: top :: rest, flat_map (expected sel count (above ++ [KElem nm])) kids)) as Ekids.
      { assert (forall x, In x (flat_map item_kinds kids) -> K x) as HKk by (intros x Hx; apply HI; right; apply in_or_app; right; exact Hx).
        clear Es HI. revert HKk. induction IH as [|i kids Hi _ IHk]; intros HKk; [reflexivity|].
        cbn [flat_map]. rewrite handle_app. rewrite (Hi (above ++ [KElem nm]) top' (top :: rest) At' Ee HK'); [|intros x Hx; apply HKk; cbn; apply in_or_app; left; exact Hx].
        cbn [bind]. rewrite IHk; [reflexivity|]. intros x Hx. apply HKk. cbn. apply in_or_app. right. exact Hx. }
      rewrite Ekids. cbn [bind handle_all handle]. rewrite (end_spec top' above id nm At' Ea HK'). cbn [bind expected].
      rewrite app_nil_r, <- !app_assoc. reflexivity.
    - cbn [events handle_all handle]. rewrite (pi_spec top above id t At Ea HK); [|apply HI; left; reflexivity]. cbn [bind expected]. rewrite app_nil_r. reflexivity.
  Qed.

  Lemma run_spec : forall doc, (forall x, In x (doc_kinds doc) -> K x) -> run_machine ms doc = Ok (expected_calls sel count doc).
  Proof.
    intros doc HK. unfold run_machine, expected_calls.
    assert (at_state (Some 0) []) as A0.
    { destruct (do_start _ _ _ D) as (tb & r & Ed). exists Start, tb. split; [rewrite Ed; reflexivity|]. left. split; reflexivity. }
    assert (forall doc, (forall x, In x (doc_kinds doc) -> K x) -> handle_all ms [Some 0] (flat_map events doc) = Ok ([Some 0], flat_map (expected sel count []) doc)) as H.
    { clear doc HK. induction doc as [|i doc IH]; intros HK; [reflexivity|]. cbn [flat_map]. rewrite handle_app.
      rewrite (item_spec i [] (Some 0) [] A0); [|intros x []|intros x []|intros x Hx; apply HK; cbn; apply in_or_app; left; exact Hx].
      cbn [bind]. rewrite IH; [reflexivity|]. intros x Hx. apply HK. cbn. apply in_or_app. right. exact Hx. }
    rewrite (H doc HK). reflexivity.
  Qed.
End run.
