(** * Lemmas on the determinisation and on the machine states *)
From Coq Require Import NArith ZArith String List Bool Lia Arith Sorted Permutation.
From Verif Require Import PyStr PyErr PtModel PtSpec PtTree.
Import ListNotations.
Open Scope nat_scope.

(** ** Every id in a leaf is the target of an edge *)
Definition leaf_ids (P : nat -> Prop) (b : tree) : Prop := forall s x, In s (leaves b) -> In x s -> P x.
Lemma leaf_ids_branch : forall P t x y, leaf_ids P (Branch t x y) <-> leaf_ids P x /\ leaf_ids P y.
Proof.
  intros P t x y. unfold leaf_ids. cbn. split.
  - intros H. split; intros s z Hs; apply H; apply in_or_app; auto.
  - intros [A B] s z Hs. apply in_app_or in Hs. destruct Hs as [Hs|Hs]; [apply (A s z Hs)|apply (B s z Hs)].
Qed.
Lemma leaf_ids_leaf : forall (P : nat -> Prop) s, leaf_ids P (Leaf s) <-> forall x, In x s -> P x.
Proof. intros P s. unfold leaf_ids. cbn. split; [intros H x; apply H; auto|intros H s' x [<-|[]]; apply H]. Qed.
Lemma leaf_ids_add : forall (P : nat -> Prop) b id, P id -> leaf_ids P b -> leaf_ids P (add_to_leaves b id).
Proof.
  intros P b id Hid. induction b as [s|t x IHx y IHy]; cbn [add_to_leaves].
  - rewrite !leaf_ids_leaf. intros H x Hx. apply in_insert in Hx. destruct Hx as [->|Hx]; auto.
  - rewrite !leaf_ids_branch. intros [A B]. auto.
Qed.
Lemma leaf_ids_insert : forall (P : nat -> Prop) s id, P id -> leaf_ids P (Leaf s) -> leaf_ids P (Leaf (insert id s)).
Proof. intros P s id. apply (leaf_ids_add P (Leaf s)). Qed.
Lemma leaf_ids_place : forall (P : nat -> Prop) a b id add b', P id -> leaf_ids P b -> (forall t b', add t = Ok b' -> leaf_ids P b') ->
  place a b id add = Ok b' -> leaf_ids P b'.
Proof.
  intros P a b id add b' Hid Hb Ha H. destruct a as [| |t]; cbn in H.
  - injection H as <-. apply leaf_ids_add; assumption.
  - injection H as <-. exact Hb.
  - destruct b as [s|q x y]; [|apply (Ha t); exact H]. injection H as <-. apply leaf_ids_branch. split; [apply leaf_ids_insert; assumption|exact Hb].
Qed.
Lemma leaf_ids_branch_add : forall (P : nat -> Prop) i b t id b', P id -> leaf_ids P b -> add_branch i b t id = Ok b' -> leaf_ids P b'.
Proof.
  intros P i b. induction b as [s|q x IHx y IHy]; intros t id b' Hid Hb H.
  - cbn in H. injection H as <-. exact Hb.
  - rewrite add_branch_eq in H. apply leaf_ids_branch in Hb. destruct Hb as [Bx By].
    destruct (i (Some q) t) as [[a1 a2]|e]; cbn [bind] in H; [|discriminate].
    destruct (place a1 x id (fun t => add_branch i x t id)) as [x'|e] eqn:E1; cbn [bind] in H; [|discriminate].
    destruct (place a2 y id (fun t => add_branch i y t id)) as [y'|e] eqn:E2; cbn [bind] in H; [|discriminate].
    injection H as <-. apply leaf_ids_branch. split.
    + eapply leaf_ids_place; [exact Hid|exact Bx| |exact E1]. cbn. intros t' b' Hb'. exact (IHx t' id b' Hid Bx Hb').
    + eapply leaf_ids_place; [exact Hid|exact By| |exact E2]. cbn. intros t' b' Hb'. exact (IHy t' id b' Hid By Hb').
Qed.
Definition table_ids (P : nat -> Prop) (tb : table) : Prop := leaf_ids P (node_tree tb) /\ leaf_ids P (attr_tree tb) /\ leaf_ids P (pi_tree tb).
Lemma leaf_ids_root : forall (P : nat -> Prop) i b t id b', P id -> leaf_ids P b -> add_root i b t id = Ok b' -> leaf_ids P b'.
Proof.
  intros P i b t id b' Hid Hb H. unfold add_root in H. destruct (i None t) as [a|e]; cbn [bind] in H; [|discriminate].
  eapply leaf_ids_place; [exact Hid|exact Hb| |exact H]. cbn. intros t' b'' Hb''. eapply leaf_ids_branch_add; eassumption.
Qed.
Lemma table_ids_of : forall (P : nat -> Prop) l tb tb', (forall id t, In (id, t) l -> P id) -> table_ids P tb -> table_of l tb = Ok tb' -> table_ids P tb'.
Proof.
  intros P l. induction l as [|[id t] l IH]; intros tb tb' Hl Hb H; cbn [table_of] in H; [injection H as <-; exact Hb|].
  destruct (table_add tb (id, t)) as [tb1|e] eqn:E; cbn [bind] in H; [|discriminate].
  apply (IH tb1); [intros i u Hi; apply (Hl i u); right; exact Hi| |exact H].
  assert (P id) as Hid by (apply (Hl id t); left; reflexivity).
  destruct Hb as (Hn & Ha & Hp).
  destruct t as [|ns ln p|ns ln|t0]; cbn [table_add] in E;
  match type of E with bind ?r _ = _ => destruct r as [x|e] eqn:F; cbn [bind] in E; [|discriminate]; injection E as <- end;
  repeat apply conj; cbn [node_tree attr_tree pi_tree]; try assumption; (eapply leaf_ids_root; [exact Hid| |exact F]; assumption).
Qed.
Lemma table_ids_final : forall (P : nat -> Prop) tb s x, table_ids P tb -> In s (final_nodes tb) -> In x s -> P x.
Proof.
  intros P tb s x (Hn & Ha & Hp) Hs Hx. unfold final_nodes in Hs. apply in_dedup in Hs. destruct Hs as [Hs _].
  apply in_app_or in Hs. destruct Hs as [Hs|Hs]; [exact (Hn s x Hs Hx)|]. apply in_app_or in Hs. destruct Hs as [Hs|Hs]; [exact (Ha s x Hs Hx)|exact (Hp s x Hs Hx)].
Qed.

(** ** Subsets *)
Fixpoint subsets (l : list nat) : list (list nat) := match l with [] => [[]] | x :: r => map (cons x) (subsets r) ++ subsets r end.
Lemma in_subsets : forall n a s, ssorted s -> (forall x, In x s -> a <= x < a + n) -> In s (subsets (seq a n)).
Proof.
  induction n as [|n IH]; intros a s Hs Hb.
  - destruct s as [|x s]; [left; reflexivity|]. specialize (Hb x (or_introl eq_refl)). lia.
  - cbn [seq subsets]. apply in_or_app. destruct s as [|x s].
    + right. apply IH; [exact Hs|intros y []].
    + inversion Hs as [|? ? Hs' F]; subst. rewrite Forall_forall in F. destruct (Nat.eq_dec x a) as [->|Ne].
      * left. apply in_map. apply IH; [exact Hs'|]. intros y Hy. pose proof (F y Hy). pose proof (Hb y (or_intror Hy)). lia.
      * right. apply IH; [exact Hs|]. intros y Hy. pose proof (Hb y Hy). destruct Hy as [<-|Hy]; [lia|]. pose proof (F y Hy). pose proof (Hb x (or_introl eq_refl)). lia.
Qed.

(** ** The worklist *)
Section dfa.
  Variables (io : list nat -> list nat) (so : dstate -> list (list nat) -> list (list nat)) (m : nfa) (B : nat).
  Hypothesis IO : forall s, Permutation (io s) s.
  Hypothesis SO : forall q l, Permutation (so q l) l.
  (** The edges have tests without predicates, and targets below [B]. *)
  Hypothesis start_good : forall id t, In (id, t) (start_edges m) -> good_test t /\ id < B.
  Hypothesis edges_good : forall i id t, In (id, t) (edges m i) -> good_test t /\ id < B.

  Lemma transitions_in : forall q e, In e (all_transitions io m q) <->
    match q with Start => In e (start_edges m) | Nodes s => exists i, In i s /\ match_types m i = MNode /\ In e (edges m i) end.
  Proof.
    intros [|s] e; cbn; [reflexivity|]. rewrite in_flat_map. split.
    - intros (i & Hi & He). exists i. split; [apply (Permutation_in i (IO s) Hi)|]. destruct (match_types m i); [split; [reflexivity|exact He]|destruct He|destruct He].
    - intros (i & Hi & M & He). exists i. split; [apply (Permutation_in i (Permutation_sym (IO s)) Hi)|]. rewrite M. exact He.
  Qed.
  Lemma transitions_good : forall q id t, In (id, t) (all_transitions io m q) -> good_test t /\ id < B.
  Proof.
    intros q id t H. apply transitions_in in H. destruct q as [|s]; [apply start_good; exact H|]. destruct H as (i & _ & _ & H). apply (edges_good i). exact H.
  Qed.

  Definition admissible (s : list nat) : Prop := ssorted s /\ forall x, In x s -> x < B.
  Lemma final_admissible : forall q tb s, table_of (all_transitions io m q) empty_table = Ok tb -> In s (final_nodes tb) -> admissible s.
  Proof.
    intros q tb s E Hs.
    destruct (table_of_ok (all_transitions io m q)) as (tb' & E' & O); [intros id t H; apply transitions_good in H; apply H|].
    rewrite E in E'. injection E' as <-. split.
    - pose proof Hs as Hs'. unfold final_nodes in Hs'. apply in_dedup in Hs'. destruct Hs' as [Hs' _]. destruct O as [N A P _ _ _ _].
      apply in_app_or in Hs'. destruct Hs' as [H|H]; [apply (sorted_leaves_in _ _ (ok_sorted _ _ N) H)|].
      apply in_app_or in H. destruct H as [H|H]; [apply (sorted_leaves_in _ _ (ok_sorted _ _ A) H)|apply (sorted_leaves_in _ _ (ok_sorted _ _ P) H)].
    - intros x Hx. apply (table_ids_final (fun x => x < B) tb s x); [|exact Hs|exact Hx].
      eapply table_ids_of; [|split; [|split]|exact E]; [intros id t H; apply transitions_good in H; apply H| | |]; apply leaf_ids_leaf; intros y [].
  Qed.

  Lemma push_unseen_spec : forall l todo seen todo' seen', push_unseen l todo seen = (todo', seen') ->
    NoDup seen -> (forall s, In s l -> admissible s) -> (forall s, In s seen -> admissible s) ->
    NoDup seen' /\ (forall s, In s seen' <-> In s seen \/ In s l) /\ (forall s, In s seen' -> admissible s) /\
    (forall q, In q todo -> In q todo') /\ (forall s, In s seen' -> In s seen \/ In (Nodes s) todo') /\
    List.length todo' + List.length seen = List.length todo + List.length seen'.
  Proof.
    induction l as [|s l IH]; intros todo seen todo' seen' E ND Al As; cbn [push_unseen] in E.
    - injection E as <- <-. repeat apply conj; try tauto; try lia. intros s. cbn. tauto.
    - destruct (set_mem s seen) eqn:M.
      + apply set_mem_in in M. destruct (IH _ _ _ _ E ND) as (H1 & H2 & H3 & H4 & H5 & H6); [intros x Hx; apply Al; right; exact Hx|exact As|].
        repeat apply conj; auto. intros x. rewrite H2. cbn. intuition (subst; auto).
      + assert (~ In s seen) as Ns by (intros K; apply set_mem_in in K; congruence).
        destruct (IH _ _ _ _ E) as (H1 & H2 & H3 & H4 & H5 & H6).
        * constructor; assumption.
        * intros x Hx. apply Al. right. exact Hx.
        * intros x [<-|Hx]; [apply Al; left; reflexivity|apply As; exact Hx].
        * repeat apply conj; auto.
          -- intros x. rewrite H2. cbn. intuition.
          -- intros q Hq. apply H4. right. exact Hq.
          -- intros x Hx. destruct (H5 x Hx) as [[<-|Hx']|Hx']; [right; apply H4; left; reflexivity|left; exact Hx'|right; exact Hx'].
          -- cbn in H6. lia.
  Qed.

  Definition universe : list (list nat) := subsets (seq 0 B).
  Record loop_inv (todo : list dstate) (seen : list (list nat)) (done : list (dstate * table)) : Prop := {
    li_tables : forall q tb, In (q, tb) done -> table_of (all_transitions io m q) empty_table = Ok tb;
    li_closed : forall q tb s, In (q, tb) done -> In s (final_nodes tb) -> In s seen;
    li_seen : forall s, In s seen -> In (Nodes s) todo \/ exists tb, In (Nodes s, tb) done;
    li_nodup : NoDup seen;
    li_adm : forall s, In s seen -> admissible s }.

  Lemma loop_spec : forall fuel todo seen done, loop_inv todo seen done ->
    List.length todo + List.length universe <= fuel + List.length seen ->
    exists d, dfa_loop io so m fuel todo seen done = Ok d /\ (exists l, d = done ++ l) /\ exists seen', loop_inv [] seen' d.
  Proof.
    induction fuel as [|fuel IH]; intros todo seen done I F.
    - destruct todo as [|q todo].
      + exists done. split; [reflexivity|]. split; [exists []; symmetry; apply app_nil_r|exists seen; exact I].
      + exfalso. assert (List.length seen <= List.length universe) as L.
        { apply NoDup_incl_length; [apply (li_nodup _ _ _ I)|]. intros s Hs. destruct (li_adm _ _ _ I s Hs) as [S1 S2]. apply in_subsets; [exact S1|]. intros x Hx. specialize (S2 x Hx). lia. }
        cbn in F. lia.
    - destruct todo as [|q todo].
      + exists done. split; [reflexivity|]. split; [exists []; symmetry; apply app_nil_r|exists seen; exact I].
      + cbn [dfa_loop].
        destruct (table_of_ok (all_transitions io m q)) as (tb & E & O); [intros id t H; apply transitions_good in H; apply H|].
        rewrite E. cbn [bind]. destruct (push_unseen (so q (final_nodes tb)) todo seen) as [todo' seen'] eqn:P.
        assert (forall s, In s (so q (final_nodes tb)) <-> In s (final_nodes tb)) as SOi.
        { intros s. split; apply Permutation_in; [|apply Permutation_sym]; apply SO. }
        destruct (push_unseen_spec _ _ _ _ _ P (li_nodup _ _ _ I)) as (H1 & H2 & H3 & H4 & H5 & H6).
        { intros s Hs. apply SOi in Hs. apply (final_admissible q tb s E Hs). }
        { apply (li_adm _ _ _ I). }
        destruct (IH todo' seen' (done ++ [(q, tb)])) as (d & Ed & (l & ->) & (sn & Id)).
        { constructor.
          - intros q' tb' Hq. apply in_app_or in Hq. destruct Hq as [Hq|[[= <- <-]|[]]]; [apply (li_tables _ _ _ I); exact Hq|exact E].
          - intros q' tb' s Hq Hs. apply H2. apply in_app_or in Hq. destruct Hq as [Hq|[[= <- <-]|[]]]; [left; apply (li_closed _ _ _ I q' tb' s Hq Hs)|right; apply SOi; exact Hs].
          - intros s Hs. destruct (H5 s Hs) as [Hs'|Hs']; [|left; exact Hs'].
            destruct (li_seen _ _ _ I s Hs') as [[->|Ht]|(tb' & Ht)].
            + right. exists tb. apply in_or_app. right. left. reflexivity.
            + left. apply H4. exact Ht.
            + right. exists tb'. apply in_or_app. left. exact Ht.
          - exact H1.
          - exact H3. }
        { cbn in F. lia. }
        exists ((done ++ [(q, tb)]) ++ l). split; [exact Ed|]. split; [exists ([(q, tb)] ++ l); rewrite app_assoc; reflexivity|exists sn; exact Id].
  Qed.

  Lemma number_of_in : forall d s tb, In (Nodes s, tb) d -> exists k tb', number_of d s = Ok k /\ nth_error d k = Some (Nodes s, tb').
  Proof.
    induction d as [|[q tb0] d IH]; intros s tb H; [destruct H|].
    destruct q as [|s']; cbn [number_of].
    - destruct H as [H|H]; [discriminate|]. destruct (IH s tb H) as (k & tb' & E & N). rewrite E. exists (S k), tb'. split; [reflexivity|exact N].
    - destruct (set_eqb s' s) eqn:Q.
      + apply set_eqb_eq in Q. subst. exists 0, tb0. split; reflexivity.
      + destruct H as [[= -> _]|H]; [rewrite (proj2 (set_eqb_eq s s) eq_refl) in Q; discriminate|].
        destruct (IH s tb H) as (k & tb' & E & N). rewrite E. exists (S k), tb'. split; [reflexivity|exact N].
  Qed.

  Record dfa_ok (d : list (dstate * table)) : Prop := {
    do_start : exists tb r, d = (Start, tb) :: r;
    do_tables : forall q tb, In (q, tb) d -> table_of (all_transitions io m q) empty_table = Ok tb;
    do_closed : forall q tb s, In (q, tb) d -> In s (final_nodes tb) -> exists k tb', number_of d s = Ok k /\ nth_error d k = Some (Nodes s, tb') }.

  Lemma nfa_to_dfa_ok : exists bound, forall fuel, bound <= fuel -> exists d, nfa_to_dfa io so m fuel = Ok d /\ dfa_ok d.
  Proof.
    exists (S (List.length universe)). intros fuel F.
    destruct fuel as [|fuel]; [lia|].
    assert (loop_inv [Start] [] []) as I0 by (constructor; try (intros; contradiction); constructor).
    destruct (loop_spec (S fuel) [Start] [] [] I0) as (d & E & (l & L) & (sn & I)); [cbn; lia|].
    exists d. split; [exact E|].
    assert (exists tb r, d = (Start, tb) :: r) as Hs.
    { unfold nfa_to_dfa in E. cbn [dfa_loop] in E.
      destruct (table_of (all_transitions io m Start) empty_table) as [tb|e] eqn:Et; cbn [bind] in E; [|discriminate].
      destruct (push_unseen (so Start (final_nodes tb)) [] []) as [todo' seen'] eqn:P.
      assert (forall s, In s (so Start (final_nodes tb)) <-> In s (final_nodes tb)) as SOi.
      { intros s. split; apply Permutation_in; [|apply Permutation_sym]; apply SO. }
      destruct (push_unseen_spec _ _ _ _ _ P (NoDup_nil _)) as (H1 & H2 & H3 & H4 & H5 & H6).
      { intros s Hs. apply SOi in Hs. apply (final_admissible Start tb s Et Hs). }
      { intros s []. }
      destruct (loop_spec fuel todo' seen' ([] ++ [(Start, tb)])) as (d' & E' & (r & L') & _).
      - constructor.
        + intros q' tb' [[= <- <-]|[]]. exact Et.
        + intros q' tb' s [[= <- <-]|[]] Hs. apply H2. right. apply SOi. exact Hs.
        + intros s Hs. destruct (H5 s Hs) as [[]|Hs']. left. exact Hs'.
        + exact H1.
        + exact H3.
      - cbn in H6. lia.
      - rewrite E in E'. injection E' as ->. exists tb, r. exact L'. }
    constructor; [exact Hs|apply (li_tables _ _ _ I)|].
    intros q tb s Hq Hf. pose proof (li_closed _ _ _ I q tb s Hq Hf) as Hseen.
    destruct (li_seen _ _ _ I s Hseen) as [[]|(tb' & Hd)]. exact (number_of_in d s tb' Hd).
  Qed.

  (** ** Flattening the tree *)
  Section flatten.
    Variable d : list (dstate * table).
    Inductive rep (ops : list op) : nat -> Z -> tree -> Prop :=
    | rep_dead : forall lo, rep ops lo 0%Z (Leaf [])
    | rep_state : forall lo s k, s <> [] -> number_of d s = Ok k -> 0 < k -> rep ops lo (- Z.of_nat k)%Z (Leaf s)
    | rep_tree : forall lo j b, lo <= j -> is_branch b = true -> nth_error ops j = Some (OTree b) -> rep ops lo (Z.of_nat j) b
    | rep_op : forall lo j ns ln p x y a c, lo <= j -> nth_error ops j = Some (OOp ns ln a c) -> rep ops (S j) a x -> rep ops (S j) c y ->
        rep ops lo (Z.of_nat j) (Branch (TNode ns ln p) x y).
    Lemma rep_weaken : forall ops lo z b, rep ops lo z b -> forall lo', lo' <= lo -> rep ops lo' z b.
    Proof.
      intros ops lo z b H lo' L. destruct H.
      - constructor.
      - constructor; assumption.
      - apply rep_tree; [lia|assumption|assumption].
      - eapply rep_op; [lia|eassumption|assumption|assumption].
    Qed.
    Lemma rep_mono : forall ops ops', (forall j ns ln a c, nth_error ops j = Some (OOp ns ln a c) -> nth_error ops' j = Some (OOp ns ln a c)) ->
      (forall j b, is_branch b = true -> nth_error ops j = Some (OTree b) -> rep ops' j (Z.of_nat j) b) ->
      forall lo z b, rep ops lo z b -> rep ops' lo z b.
    Proof.
      intros ops ops' H1 H2 lo z b R. induction R as [lo|lo s k Hs Hn Hk|lo j b L Br N|lo j ns ln p x y a c L N Ra IHa Rc IHc].
      - constructor.
      - constructor; assumption.
      - eapply rep_weaken; [apply H2; eassumption|exact L].
      - eapply rep_op; [exact L|apply H1; exact N|exact IHa|exact IHc].
    Qed.
    Lemma nth_set_same : forall ops i x, i < List.length ops -> nth_error (set_nth ops i x) i = Some x.
    Proof. induction ops as [|o ops IH]; intros [|i] x H; cbn in H |- *; try lia; [reflexivity|apply IH; lia]. Qed.
    Lemma nth_set_other : forall ops i j x, i <> j -> nth_error (set_nth ops i x) j = nth_error ops j.
    Proof. induction ops as [|o ops IH]; intros [|i] [|j] x H; cbn; try reflexivity; try congruence. apply IH. congruence. Qed.
    Lemma set_nth_length : forall ops i x, List.length (set_nth ops i x) = List.length ops.
    Proof. induction ops as [|o ops IH]; intros [|i] x; cbn; try reflexivity. rewrite IH. reflexivity. Qed.

    (** A tree whose tests are name tests and whose leaves have numbers. *)
    Fixpoint numbered (b : tree) : Prop :=
      match b with
      | Leaf s => s = [] \/ exists k, number_of d s = Ok k /\ 0 < k
      | Branch t x y => (exists ns ln p, t = TNode ns ln p) /\ numbered x /\ numbered y
      end.
    Definition size_at (ops : list op) (i : nat) : nat := match nth_error ops i with Some (OTree b) => size b | _ => 0 end.
    Definition todo_size (ops : list op) (todo : list nat) : nat := list_sum (map (size_at ops) todo).
    Record fl_inv (b0 : tree) (todo : list nat) (ops : list op) : Prop := {
      fi_rep : rep ops 0 0%Z b0;
      fi_todo : forall i, In i todo -> exists b, nth_error ops i = Some (OTree b) /\ is_branch b = true /\ numbered b;
      fi_trees : forall i b, nth_error ops i = Some (OTree b) -> In i todo;
      fi_nodup : NoDup todo;
      fi_short : forall i, nth_error ops i <> Some OShort }.

    Lemma target_side : forall b (ops : list op), numbered b -> exists z, target d b (Z.of_nat (List.length ops)) = Ok z /\
      (is_branch b = false -> (z <= 0)%Z /\ forall ops' lo, rep ops' lo z b) /\ (is_branch b = true -> z = Z.of_nat (List.length ops)).
    Proof.
      intros [s|t x y] ops N; cbn [target].
      - destruct s as [|x s].
        + exists 0%Z. split; [reflexivity|]. split; [intros _; split; [lia|intros; constructor]|discriminate].
        + destruct N as [N|(k & E & K)]; [discriminate|]. rewrite E. exists (- Z.of_nat k)%Z. split; [reflexivity|].
          split; [intros _; split; [lia|intros; constructor; [discriminate|exact E|exact K]]|discriminate].
      - exists (Z.of_nat (List.length ops)). split; [reflexivity|]. split; [discriminate|reflexivity].
    Qed.
    Definition grow (ops : list op) (b : tree) : list op := if is_branch b then ops ++ [OTree b] else ops.
    Lemma nth_grow : forall ops b j o, nth_error ops j = Some o -> nth_error (grow ops b) j = Some o.
    Proof. intros ops b j o H. unfold grow. destruct (is_branch b); [|exact H]. rewrite nth_error_app1; [exact H|]. apply nth_error_Some. congruence. Qed.
    Lemma nth_grow_inv : forall ops b j o, nth_error (grow ops b) j = Some o -> nth_error ops j = Some o \/ (is_branch b = true /\ j = List.length ops /\ o = OTree b).
    Proof.
      intros ops b j o H. unfold grow in H. destruct (is_branch b) eqn:Eb; [|left; exact H].
      destruct (Nat.lt_ge_cases j (List.length ops)) as [L|L].
      - left. rewrite nth_error_app1 in H; assumption.
      - right. rewrite nth_error_app2 in H by exact L. destruct (j - List.length ops) as [|k] eqn:K; [|destruct k; discriminate].
        injection H as <-. repeat apply conj; [reflexivity|lia|reflexivity].
    Qed.
    Lemma grow_length : forall ops b, List.length (grow ops b) = (if is_branch b then S (List.length ops) else List.length ops).
    Proof. intros ops b. unfold grow. destruct (is_branch b); [rewrite app_length; cbn; lia|reflexivity]. Qed.
    Definition push (z : Z) (todo : list nat) : list nat := if (0 <? z)%Z then Z.to_nat z :: todo else todo.

    Lemma todo_size_ext : forall ops ops' todo, (forall i, In i todo -> nth_error ops' i = nth_error ops i) -> todo_size ops' todo = todo_size ops todo.
    Proof.
      intros ops ops' todo H. unfold todo_size. f_equal. apply map_ext_in. intros i Hi. unfold size_at. rewrite H by exact Hi. reflexivity.
    Qed.

    Lemma todo_size_cons : forall ops i todo, todo_size ops (i :: todo) = size_at ops i + todo_size ops todo.
    Proof. reflexivity. Qed.

    Lemma flatten_spec : forall fuel b0 todo ops, fl_inv b0 todo ops -> todo_size ops todo <= fuel ->
      exists ops', flatten d fuel todo ops = Ok ops' /\ fl_inv b0 [] ops'.
    Proof.
      induction fuel as [|fuel IH]; intros b0 todo ops I F.
      - destruct todo as [|i todo]; [exists ops; split; [reflexivity|exact I]|].
        exfalso. destruct (fi_todo _ _ _ I i (or_introl eq_refl)) as (b & Nb & Br & _). unfold todo_size in F. cbn in F. unfold size_at in F. rewrite Nb in F.
        destruct b; [discriminate|]. cbn in F. lia.
      - destruct todo as [|i todo]; [exists ops; split; [reflexivity|exact I]|].
        destruct (fi_todo _ _ _ I i (or_introl eq_refl)) as (b & Nb & Br & Nu). destruct b as [s|t x y]; [discriminate|].
        destruct Nu as ((ns & ln & p & ->) & Nx & Ny).
        assert (i < List.length ops) as Li by (apply nth_error_Some; congruence).
        destruct (target_side x ops Nx) as (a & Ea & Ra & Sa).
        destruct (target_side y (grow ops x) Ny) as (c & Ec & Rc & Sc).
        cbn [flatten]. rewrite Nb, Ea. cbn [bind]. fold (grow ops x). rewrite Ec. cbn [bind]. fold (grow (grow ops x) y).
        fold (push c todo). fold (push a (push c todo)).
        set (ops1 := grow (grow ops x) y). set (ops2 := set_nth ops1 i (OOp ns ln a c)).
        assert (List.length ops <= List.length ops1) as Lops.
        { unfold ops1. rewrite grow_length, grow_length. destruct (is_branch x), (is_branch y); lia. }
        assert (forall j o, nth_error ops j = Some o -> nth_error ops1 j = Some o) as Up by (intros j o Hj; apply nth_grow, nth_grow; exact Hj).
        assert (forall j, j <> i -> nth_error ops2 j = nth_error ops1 j) as N2 by (intros j Hj; apply nth_set_other; congruence).
        assert (nth_error ops2 i = Some (OOp ns ln a c)) as Ni by (apply nth_set_same; lia).
        assert (rep ops2 (S i) a x) as Rax.
        { destruct (is_branch x) eqn:Bx; [|apply (proj2 (Ra eq_refl))]. rewrite (Sa eq_refl). apply rep_tree; [lia|exact Bx|].
          rewrite N2 by lia. unfold ops1. apply nth_grow. unfold grow. rewrite Bx, nth_error_app2, Nat.sub_diag by lia. reflexivity. }
        assert (List.length ops <= List.length (grow ops x)) as Lg by (rewrite grow_length; destruct (is_branch x); lia).
        assert (rep ops2 (S i) c y) as Rcy.
        { destruct (is_branch y) eqn:By; [|apply (proj2 (Rc eq_refl))]. rewrite (Sc eq_refl). apply rep_tree; [lia|exact By|].
          rewrite N2 by lia. unfold ops1. unfold grow at 1. rewrite By, nth_error_app2, Nat.sub_diag by lia. reflexivity. }
        assert (forall j, In j (push a (push c todo)) <-> (is_branch x = true /\ j = List.length ops) \/ (is_branch y = true /\ j = List.length (grow ops x)) \/ In j todo) as Pin.
        { intros j. unfold push. destruct (is_branch x) eqn:Bx, (is_branch y) eqn:By;
          repeat match goal with
          | H : true = false -> _ |- _ => clear H
          | H : false = true -> _ |- _ => clear H
          | H : true = true -> _ |- _ => specialize (H eq_refl)
          | H : false = false -> _ |- _ => specialize (H eq_refl)
          end; subst.
          - rewrite !(proj2 (Z.ltb_lt 0 _)) by lia. cbn [In]. rewrite !Nat2Z.id. intuition.
          - destruct Rc as [Rc _]. rewrite (proj2 (Z.ltb_ge 0 c)) by lia. rewrite (proj2 (Z.ltb_lt 0 _)) by lia. cbn [In]. rewrite !Nat2Z.id. intuition congruence.
          - destruct Ra as [Ra _]. rewrite (proj2 (Z.ltb_ge 0 a)) by lia. rewrite (proj2 (Z.ltb_lt 0 _)) by lia. cbn [In]. rewrite !Nat2Z.id. intuition congruence.
          - destruct Ra as [Ra _]. destruct Rc as [Rc _]. rewrite (proj2 (Z.ltb_ge 0 a)) by lia. rewrite (proj2 (Z.ltb_ge 0 c)) by lia. intuition congruence. }
        assert (forall j, In j todo -> j <> i /\ j < List.length ops) as Tod.
        { intros j Hj. split.
          - intros ->. pose proof (fi_nodup _ _ _ I) as ND. inversion ND; subst. contradiction.
          - destruct (fi_todo _ _ _ I j (or_intror Hj)) as (b & Hb & _). apply nth_error_Some. congruence. }
        assert (is_branch x = true -> nth_error ops2 (List.length ops) = Some (OTree x)) as Nx2.
        { intros Bx. rewrite N2 by lia. unfold ops1. apply nth_grow. unfold grow. rewrite Bx, nth_error_app2, Nat.sub_diag by lia. reflexivity. }
        assert (is_branch y = true -> nth_error ops2 (List.length (grow ops x)) = Some (OTree y)) as Ny2.
        { intros By. rewrite N2 by lia. unfold ops1. unfold grow at 1. rewrite By, nth_error_app2, Nat.sub_diag by lia. reflexivity. }
        apply (IH b0).
        + constructor.
          * apply (rep_mono ops ops2); [| |apply (fi_rep _ _ _ I)].
            -- intros j n1 l1 a1 c1 Hj. rewrite N2; [apply Up; exact Hj|]. intros ->. congruence.
            -- intros j b Bb Hj. destruct (Nat.eq_dec j i) as [->|Ne].
               ++ rewrite Nb in Hj. injection Hj as <-. eapply rep_op; [lia|exact Ni|exact Rax|exact Rcy].
               ++ apply rep_tree; [lia|exact Bb|]. rewrite N2 by exact Ne. apply Up. exact Hj.
          * intros j Hj. apply Pin in Hj. destruct Hj as [[Bx ->]|[[By ->]|Hj]].
            -- exists x. repeat apply conj; auto.
            -- exists y. repeat apply conj; auto.
            -- destruct (fi_todo _ _ _ I j (or_intror Hj)) as (b & Hb & Bb & Nbb). exists b. repeat apply conj; [|exact Bb|exact Nbb].
               rewrite N2 by apply (Tod j Hj). apply Up. exact Hb.
          * intros j b Hj. apply Pin. destruct (Nat.eq_dec j i) as [->|Ne]; [congruence|]. rewrite N2 in Hj by exact Ne. unfold ops1 in Hj.
            apply nth_grow_inv in Hj. destruct Hj as [Hj|(By & -> & _)]; [|right; left; split; [exact By|reflexivity]].
            apply nth_grow_inv in Hj. destruct Hj as [Hj|(Bx & -> & _)]; [|left; split; [exact Bx|reflexivity]].
            right. right. destruct (fi_trees _ _ _ I j b Hj) as [E|Hj']; [congruence|exact Hj'].
          * pose proof (fi_nodup _ _ _ I) as ND. inversion ND as [|? ? _ ND']; subst.
            assert (NoDup (push c todo)) as NDc.
            { unfold push. destruct (0 <? c)%Z eqn:Lc; [|exact ND']. apply Z.ltb_lt in Lc. constructor; [|exact ND'].
              destruct (is_branch y) eqn:By; [|destruct (Rc eq_refl); lia]. rewrite (Sc eq_refl), Nat2Z.id. intros K. apply Tod in K. lia. }
            unfold push at 1. destruct (0 <? a)%Z eqn:La; [|exact NDc]. apply Z.ltb_lt in La. constructor; [|exact NDc].
            destruct (is_branch x) eqn:Bx; [|destruct (Ra eq_refl); lia]. rewrite (Sa eq_refl), Nat2Z.id. unfold push. destruct (0 <? c)%Z eqn:Lc.
            -- apply Z.ltb_lt in Lc. destruct (is_branch y) eqn:By; [|destruct (Rc eq_refl); lia]. rewrite (Sc eq_refl), Nat2Z.id. rewrite grow_length, Bx.
               intros [K|K]; [lia|]. apply Tod in K. lia.
            -- intros K. apply Tod in K. lia.
          * intros j Hj. destruct (Nat.eq_dec j i) as [->|Ne]; [congruence|]. rewrite N2 in Hj by exact Ne. unfold ops1 in Hj.
            apply nth_grow_inv in Hj. destruct Hj as [Hj|(_ & _ & ?)]; [|discriminate]. apply nth_grow_inv in Hj. destruct Hj as [Hj|(_ & _ & ?)]; [|discriminate].
            exact (fi_short _ _ _ I j Hj).
        + assert (todo_size ops2 todo = todo_size ops todo) as Et.
          { apply todo_size_ext. intros j Hj. destruct (fi_todo _ _ _ I j (or_intror Hj)) as (b & Hb & _). rewrite N2 by apply (Tod j Hj). rewrite Hb. apply Up. exact Hb. }
          rewrite todo_size_cons in F.
          unfold size_at in F at 1. rewrite Nb in F. cbn [size] in F.
          assert (todo_size ops2 (push c todo) <= size y + todo_size ops todo) as Hc.
          { unfold push. destruct (0 <? c)%Z eqn:Lc; [|lia]. apply Z.ltb_lt in Lc. destruct (is_branch y) eqn:By; [|destruct (Rc eq_refl); lia].
            rewrite (Sc eq_refl), Nat2Z.id. rewrite todo_size_cons.
            unfold size_at at 1. rewrite (Ny2 eq_refl). lia. }
          assert (todo_size ops2 (push a (push c todo)) <= size x + todo_size ops2 (push c todo)) as Ha.
          { unfold push at 1. destruct (0 <? a)%Z eqn:La; [|lia]. apply Z.ltb_lt in La. destruct (is_branch x) eqn:Bx; [|destruct (Ra eq_refl); lia].
            rewrite (Sa eq_refl), Nat2Z.id. rewrite todo_size_cons.
            unfold size_at at 1. rewrite (Nx2 eq_refl). lia. }
          lia.
    Qed.

    (** The state a set stands for. *)
    Definition goes (s : list nat) (r : option nat) : Prop := (s = [] /\ r = None) \/ (s <> [] /\ exists k, number_of d s = Ok k /\ r = Some k).

    Lemma run_rep : forall ops nm, (forall i b, nth_error ops i <> Some (OTree b)) ->
      forall lo z b, rep ops lo z b ->
      (is_branch b = false -> exists r, goes (decide b (KElem nm)) r /\ (z = 0%Z /\ r = None \/ (z < 0)%Z /\ r = Some (Z.to_nat (- z)))) /\
      (is_branch b = true -> exists j, z = Z.of_nat j /\ lo <= j /\ forall fuel, List.length ops - j < fuel -> exists r, run_ops fuel ops j nm = Ok r /\ goes (decide b (KElem nm)) r).
    Proof.
      intros ops nm NT lo z b R. induction R as [lo|lo s k Hs Hn Hk|lo j b L Br N|lo j ns ln p x y a c L N Ra [IHa IHa'] Rc [IHc IHc']].
      - split; [|discriminate]. intros _. exists None. split; [left; split; reflexivity|]. left. split; reflexivity.
      - split; [|discriminate]. intros _. exists (Some k). split; [right; split; [exact Hs|exists k; split; [exact Hn|reflexivity]]|]. right. split; [lia|]. f_equal. lia.
      - exfalso. exact (NT _ _ N).
      - split; [discriminate|]. intros _. exists j. split; [reflexivity|]. split; [exact L|]. intros fuel F.
        assert (j < List.length ops) as Lj by (apply nth_error_Some; congruence).
        destruct fuel as [|fuel]; [lia|]. cbn [run_ops]. rewrite N. cbn [decide tmatch].
        destruct (test_name ns ln nm).
        + destruct (is_branch x) eqn:Bx.
          * destruct (IHa' eq_refl) as (j' & -> & Lj' & Hr). assert ((Z.of_nat j' =? 0)%Z = false) as -> by (apply Z.eqb_neq; lia).
            assert ((Z.of_nat j' <? 0)%Z = false) as -> by (apply Z.ltb_ge; lia). rewrite Nat2Z.id. apply Hr. lia.
          * destruct (IHa eq_refl) as (r & G & [[-> ->]|[Lz ->]]).
            -- exists None. split; [reflexivity|exact G].
            -- assert ((a =? 0)%Z = false) as -> by (apply Z.eqb_neq; lia). assert ((a <? 0)%Z = true) as -> by (apply Z.ltb_lt; lia). exists (Some (Z.to_nat (- a))). split; [reflexivity|exact G].
        + destruct (is_branch y) eqn:By.
          * destruct (IHc' eq_refl) as (j' & -> & Lj' & Hr). assert ((Z.of_nat j' =? 0)%Z = false) as -> by (apply Z.eqb_neq; lia).
            assert ((Z.of_nat j' <? 0)%Z = false) as -> by (apply Z.ltb_ge; lia). rewrite Nat2Z.id. apply Hr. lia.
          * destruct (IHc eq_refl) as (r & G & [[-> ->]|[Lz ->]]).
            -- exists None. split; [reflexivity|exact G].
            -- assert ((c =? 0)%Z = false) as -> by (apply Z.eqb_neq; lia). assert ((c <? 0)%Z = true) as -> by (apply Z.ltb_lt; lia). exists (Some (Z.to_nat (- c))). split; [reflexivity|exact G].
    Qed.

    Lemma node_ops_spec : forall b, is_branch b = true -> numbered b ->
      exists ops, node_ops d b = Ok ops /\ ops <> [] /\ forall nm, exists r, run_ops (S (List.length ops)) ops 0 nm = Ok r /\ goes (decide b (KElem nm)) r.
    Proof.
      intros b Br Nu. destruct b as [s|t x y]; [discriminate|]. cbn [node_ops].
      destruct (flatten_spec (size (Branch t x y)) (Branch t x y) [0] [OTree (Branch t x y)]) as (ops & E & I).
      - constructor.
        + apply (rep_tree _ 0 0); [lia|reflexivity|reflexivity].
        + intros i [<-|[]]. exists (Branch t x y). split; [reflexivity|]. split; [reflexivity|exact Nu].
        + intros [|[|i]] b H; cbn in H; try discriminate. left. reflexivity.
        + repeat constructor. intros [].
        + intros [|[|i]] H; discriminate.
      - unfold todo_size. cbn. lia.
      - exists ops. split; [exact E|]. pose proof (fi_rep _ _ _ I) as R.
        assert (forall i b, nth_error ops i <> Some (OTree b)) as NT by (intros i b H; exact (fi_trees _ _ _ I i b H)).
        split.
        + intros ->. inversion R; destruct j; discriminate.
        + intros nm. destruct (proj2 (run_rep ops nm NT 0 0%Z _ R) eq_refl) as (j & Ej & _ & Hr). assert (j = 0) as Ej0 by lia. subst j. apply Hr. lia.
    Qed.
  End flatten.
End dfa.
