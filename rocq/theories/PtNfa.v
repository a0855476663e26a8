(** * The language of the NFA of a pattern *)
From Coq Require Import NArith ZArith String List Bool Lia Arith Sorted Permutation.
From Verif Require Import PyStr PyErr PtModel PtSpec PtTree PtDfa PtRun.
Import ListNotations.
Open Scope nat_scope.

Definition looped (l : list edge) : Prop := forall id, In (id, TAny) l -> exists i ns ln p, In (i, TNode ns ln p) l.
Lemma looped_app : forall a b, looped a -> looped b -> looped (a ++ b).
Proof.
  intros a b Ha Hb id H. apply in_app_or in H. destruct H as [H|H]; [destruct (Ha id H) as (i & ns & ln & p & K)|destruct (Hb id H) as (i & ns & ln & p & K)];
  exists i, ns, ln, p; apply in_or_app; auto.
Qed.
Lemma looped_nil : looped [].
Proof. intros id []. Qed.

Record wf (P : test -> Prop) (lo hi : nat) (m : nfa) : Prop := {
  w_ids : forall i, In i (ids m) -> lo <= i < hi;
  w_start : forall id t, In (id, t) (start_edges m) -> In id (ids m) /\ match_types m id = match_type t /\ P t;
  w_edges : forall i id t, In (id, t) (edges m i) -> In i (ids m) /\ In id (ids m) /\ match_types m id = match_type t /\ P t;
  w_term : forall i, In i (terminal m) -> In i (ids m);
  w_lstart : looped (start_edges m);
  w_ledges : forall i, looped (edges m i);
  w_hand : forall i l, In l (handlers m i) -> In i (ids m) }.

Lemma wf_impl : forall (P Q : test -> Prop) lo hi lo' hi' m, (forall t, P t -> Q t) -> lo' <= lo -> hi <= hi' -> wf P lo hi m -> wf Q lo' hi' m.
Proof.
  intros P Q lo hi lo' hi' m H L1 L2 [A B C D E F G]. constructor; auto.
  - intros i Hi. specialize (A i Hi). lia.
  - intros id t Hi. destruct (B id t Hi) as (X & Y & Z). auto.
  - intros i id t Hi. destruct (C i id t Hi) as (X & Y & Z & W). auto.
Qed.
Lemma wf_empty : forall P lo, wf P lo lo empty_nfa.
Proof. intros P lo. constructor; cbn; try (intros; contradiction); intros; apply looped_nil. Qed.

Lemma reach_in : forall P lo hi m c i, wf P lo hi m -> reach m c i -> In i (ids m).
Proof. intros P lo hi m c i W R. destruct R as [k i t Hi _|c k i j t R He _]; [apply (w_start _ _ _ _ W i t Hi)|apply (w_edges _ _ _ _ W i j t He)]. Qed.
Lemma reach_ext : forall m m', (forall e, In e (start_edges m) -> In e (start_edges m')) -> (forall i e, In e (edges m i) -> In e (edges m' i)) -> forall c i, reach m c i -> reach m' c i.
Proof. intros m m' H1 H2 c i R. induction R as [k i t Hi Mt|c k i j t R IH He Mt]; [apply (reach_start m' k i t (H1 _ Hi) Mt)|apply (reach_step m' c k i j t IH (H2 _ _ He) Mt)]. Qed.

Lemma memb_false : forall x s, ~ In x s -> memb x s = false.
Proof. intros x s H. destruct (memb x s) eqn:E; [|reflexivity]. apply memb_in in E. contradiction. Qed.
Lemma memb_true : forall x s, In x s -> memb x s = true.
Proof. intros x s H. apply memb_in. exact H. Qed.

(** ** extend *)
Section extend.
  Variables (P : test -> Prop) (lo mid hi : nat) (m o : nfa).
  Hypothesis LM : lo <= mid.
  Hypothesis MH : mid <= hi.
  Hypothesis Wm : wf P lo mid m.
  Hypothesis Wo : wf P mid hi o.
  Lemma disjoint : forall i, In i (ids m) -> In i (ids o) -> False.
  Proof. intros i A B. apply (w_ids _ _ _ _ Wm) in A. apply (w_ids _ _ _ _ Wo) in B. lia. Qed.
  Lemma extend_edges_m : forall i, In i (ids m) -> edges (extend m o) i = if memb i (terminal m) then edges m i ++ start_edges o else edges m i.
  Proof. intros i Hi. cbn. unfold join_maps. rewrite (memb_false i (ids o)) by (intros K; exact (disjoint i Hi K)). reflexivity. Qed.
  Lemma extend_edges_o : forall i, In i (ids o) -> edges (extend m o) i = edges o i.
  Proof.
    intros i Hi. cbn. unfold join_maps. rewrite (memb_true i (ids o) Hi). rewrite memb_false; [reflexivity|]. intros K. apply (w_term _ _ _ _ Wm) in K. exact (disjoint i K Hi).
  Qed.
  Lemma extend_edges_none : forall i, ~ In i (ids m) -> ~ In i (ids o) -> edges (extend m o) i = [].
  Proof.
    intros i H1 H2. cbn. unfold join_maps. rewrite (memb_false i (ids o) H2). rewrite memb_false by (intros K; apply (w_term _ _ _ _ Wm) in K; contradiction).
    destruct (edges m i) as [|[j t] l] eqn:E; [reflexivity|]. exfalso. apply H1. apply (w_edges _ _ _ _ Wm i j t). rewrite E. left. reflexivity.
  Qed.
  Lemma extend_types_m : forall i, In i (ids m) -> match_types (extend m o) i = match_types m i.
  Proof. intros i Hi. cbn. unfold join_maps. rewrite (memb_false i (ids o)) by (intros K; exact (disjoint i Hi K)). reflexivity. Qed.
  Lemma extend_types_o : forall i, In i (ids o) -> match_types (extend m o) i = match_types o i.
  Proof. intros i Hi. cbn. unfold join_maps. rewrite (memb_true i (ids o) Hi). reflexivity. Qed.


  Lemma extend_cases : forall i, In i (ids m) \/ In i (ids o) \/ (~ In i (ids m) /\ ~ In i (ids o)).
  Proof.
    intros i. destruct (memb i (ids m)) eqn:E; [left; apply memb_in; exact E|]. destruct (memb i (ids o)) eqn:F; [right; left; apply memb_in; exact F|].
    right. right. split; intros K; apply memb_in in K; congruence.
  Qed.
  Lemma wf_extend : wf P lo hi (extend m o).
  Proof.
    constructor.
    - cbn. intros i Hi. apply in_app_or in Hi. destruct Hi as [Hi|Hi]; [apply (w_ids _ _ _ _ Wm) in Hi|apply (w_ids _ _ _ _ Wo) in Hi]; lia.
    - intros id t Hi. cbn [start_edges extend] in Hi. cbn [ids extend].
      assert (In (id, t) (start_edges m) \/ In (id, t) (start_edges o)) as [H|H] by (destruct (start_edges m); [right|left]; exact Hi).
      + destruct (w_start _ _ _ _ Wm id t H) as (A & B & C). split; [apply in_or_app; left; exact A|]. rewrite extend_types_m by exact A. split; assumption.
      + destruct (w_start _ _ _ _ Wo id t H) as (A & B & C). split; [apply in_or_app; right; exact A|]. rewrite extend_types_o by exact A. split; assumption.
    - intros i id t Hi. destruct (extend_cases i) as [I|[I|[I1 I2]]].
      + rewrite extend_edges_m in Hi by exact I. cbn [ids extend]. split; [apply in_or_app; left; exact I|].
        assert (In (id, t) (edges m i) \/ In (id, t) (start_edges o)) as [H|H] by (destruct (memb i (terminal m)); [apply in_app_or in Hi; exact Hi|left; exact Hi]).
        * destruct (w_edges _ _ _ _ Wm i id t H) as (_ & A & B & C). split; [apply in_or_app; left; exact A|]. rewrite extend_types_m by exact A. split; assumption.
        * destruct (w_start _ _ _ _ Wo id t H) as (A & B & C). split; [apply in_or_app; right; exact A|]. rewrite extend_types_o by exact A. split; assumption.
      + rewrite extend_edges_o in Hi by exact I. cbn [ids extend]. split; [apply in_or_app; right; exact I|].
        destruct (w_edges _ _ _ _ Wo i id t Hi) as (_ & A & B & C). split; [apply in_or_app; right; exact A|]. rewrite extend_types_o by exact A. split; assumption.
      + rewrite extend_edges_none in Hi by assumption. destruct Hi.
    - cbn. intros i Hi. apply in_or_app. right. apply (w_term _ _ _ _ Wo). exact Hi.
    - cbn. pose proof (w_lstart _ _ _ _ Wm) as L. destruct (start_edges m); [apply (w_lstart _ _ _ _ Wo)|exact L].
    - intros i. destruct (extend_cases i) as [I|[I|[I1 I2]]].
      + rewrite extend_edges_m by exact I. destruct (memb i (terminal m)); [apply looped_app; [apply (w_ledges _ _ _ _ Wm)|apply (w_lstart _ _ _ _ Wo)]|apply (w_ledges _ _ _ _ Wm)].
      + rewrite extend_edges_o by exact I. apply (w_ledges _ _ _ _ Wo).
      + rewrite extend_edges_none by assumption. apply looped_nil.
    - intros i l. cbn. unfold join_maps. destruct (memb i (ids o)) eqn:E.
      + intros _. apply in_or_app. right. apply memb_in. exact E.
      + intros H. apply in_or_app. left. apply (w_hand _ _ _ _ Wm i l H).
  Qed.
  Lemma reach_extend : start_edges m <> [] -> forall c i, reach (extend m o) c i <->
    reach m c i \/ exists c1 c2 t, c = c1 ++ c2 /\ reach m c1 t /\ In t (terminal m) /\ reach o c2 i.
  Proof.
    intros NS.
    assert (start_edges (extend m o) = start_edges m) as Es by (cbn; destruct (start_edges m); [congruence|reflexivity]).
    assert (forall c i, reach m c i -> reach (extend m o) c i) as Left.
    { intros c i R. induction R as [k i t Hi Mt|c k i j t R IH He Mt].
      - apply (reach_start _ k i t); [rewrite Es; exact Hi|exact Mt].
      - apply (reach_step _ c k i j t IH); [|exact Mt]. rewrite extend_edges_m by apply (w_edges _ _ _ _ Wm i j t He). destruct (memb i (terminal m)); [apply in_or_app; left|]; exact He. }
    intros c i. split.
    - intros R. induction R as [k i t Hi Mt|c k i j t R IH He Mt].
      + left. rewrite Es in Hi. apply (reach_start m k i t Hi Mt).
      + destruct IH as [IH|(c1 & c2 & t' & -> & R1 & Ht' & R2)].
        * pose proof (reach_in _ _ _ _ _ _ Wm IH) as I. rewrite extend_edges_m in He by exact I. destruct (memb i (terminal m)) eqn:T.
          -- apply in_app_or in He. destruct He as [He|He]; [left; apply (reach_step m c k i j t IH He Mt)|].
             right. exists c, [k], i. repeat apply conj; [reflexivity|exact IH|apply memb_in; exact T|apply (reach_start o k j t He Mt)].
          -- left. apply (reach_step m c k i j t IH He Mt).
        * right. exists c1, (c2 ++ [k]), t'. rewrite app_assoc. repeat apply conj; [reflexivity|exact R1|exact Ht'|].
          rewrite extend_edges_o in He by apply (reach_in _ _ _ _ _ _ Wo R2). apply (reach_step o c2 k i j t R2 He Mt).
    - intros [R|(c1 & c2 & t & -> & R1 & Ht & R2)]; [apply Left; exact R|].
      induction R2 as [k i u Hi Mt|c k i j u R IH He Mt].
      + apply (reach_step _ c1 k t i u (Left _ _ R1)); [|exact Mt]. rewrite extend_edges_m by apply (w_term _ _ _ _ Wm t Ht). rewrite (memb_true t (terminal m) Ht). apply in_or_app. right. exact Hi.
      + rewrite app_assoc. apply (reach_step _ (c1 ++ c) k i j u IH); [|exact Mt]. rewrite extend_edges_o by apply (reach_in _ _ _ _ _ _ Wo R). exact He.
  Qed.
  Lemma extend_handlers : (forall i, handlers m i = []) -> (forall i, handlers o i = []) -> forall i, handlers (extend m o) i = [].
  Proof. intros A B i. cbn. unfold join_maps. destruct (memb i (ids o)); auto. Qed.

  (** ** union *)
  Lemma union_edges_m : forall i, In i (ids m) -> edges (union m o) i = edges m i.
  Proof. intros i Hi. cbn. unfold join_maps. rewrite (memb_false i (ids o)) by (intros K; exact (disjoint i Hi K)). reflexivity. Qed.
  Lemma union_edges_o : forall i, In i (ids o) -> edges (union m o) i = edges o i.
  Proof. intros i Hi. cbn. unfold join_maps. rewrite (memb_true i (ids o) Hi). reflexivity. Qed.
  Lemma union_edges_none : forall i, ~ In i (ids m) -> ~ In i (ids o) -> edges (union m o) i = [].
  Proof.
    intros i H1 H2. cbn. unfold join_maps. rewrite (memb_false i (ids o) H2).
    destruct (edges m i) as [|[j t] l] eqn:E; [reflexivity|]. exfalso. apply H1. apply (w_edges _ _ _ _ Wm i j t). rewrite E. left. reflexivity.
  Qed.
  Lemma union_types_m : forall i, In i (ids m) -> match_types (union m o) i = match_types m i.
  Proof. intros i Hi. cbn. unfold join_maps. rewrite (memb_false i (ids o)) by (intros K; exact (disjoint i Hi K)). reflexivity. Qed.
  Lemma union_types_o : forall i, In i (ids o) -> match_types (union m o) i = match_types o i.
  Proof. intros i Hi. cbn. unfold join_maps. rewrite (memb_true i (ids o) Hi). reflexivity. Qed.
  Lemma wf_union : wf P lo hi (union m o).
  Proof.
    constructor.
    - cbn. intros i Hi. apply in_app_or in Hi. destruct Hi as [Hi|Hi]; [apply (w_ids _ _ _ _ Wm) in Hi|apply (w_ids _ _ _ _ Wo) in Hi]; lia.
    - intros id t Hi. cbn [start_edges union] in Hi. cbn [ids union]. apply in_app_or in Hi. destruct Hi as [H|H].
      + destruct (w_start _ _ _ _ Wm id t H) as (A & B & C). split; [apply in_or_app; left; exact A|]. rewrite union_types_m by exact A. split; assumption.
      + destruct (w_start _ _ _ _ Wo id t H) as (A & B & C). split; [apply in_or_app; right; exact A|]. rewrite union_types_o by exact A. split; assumption.
    - intros i id t Hi. cbn [ids union]. destruct (extend_cases i) as [I|[I|[I1 I2]]].
      + rewrite union_edges_m in Hi by exact I. split; [apply in_or_app; left; exact I|].
        destruct (w_edges _ _ _ _ Wm i id t Hi) as (_ & A & B & C). split; [apply in_or_app; left; exact A|]. rewrite union_types_m by exact A. split; assumption.
      + rewrite union_edges_o in Hi by exact I. split; [apply in_or_app; right; exact I|].
        destruct (w_edges _ _ _ _ Wo i id t Hi) as (_ & A & B & C). split; [apply in_or_app; right; exact A|]. rewrite union_types_o by exact A. split; assumption.
      + rewrite union_edges_none in Hi by assumption. destruct Hi.
    - cbn. intros i Hi. apply in_or_app. apply in_app_or in Hi. destruct Hi as [Hi|Hi]; [left; apply (w_term _ _ _ _ Wm)|right; apply (w_term _ _ _ _ Wo)]; exact Hi.
    - cbn. apply looped_app; [apply (w_lstart _ _ _ _ Wm)|apply (w_lstart _ _ _ _ Wo)].
    - intros i. destruct (extend_cases i) as [I|[I|[I1 I2]]].
      + rewrite union_edges_m by exact I. apply (w_ledges _ _ _ _ Wm).
      + rewrite union_edges_o by exact I. apply (w_ledges _ _ _ _ Wo).
      + rewrite union_edges_none by assumption. apply looped_nil.
    - intros i l. cbn. unfold join_maps. destruct (memb i (ids o)) eqn:E.
      + intros _. apply in_or_app. right. apply memb_in. exact E.
      + intros H. apply in_or_app. left. apply (w_hand _ _ _ _ Wm i l H).
  Qed.
  Lemma reach_union : forall c i, reach (union m o) c i <-> reach m c i \/ reach o c i.
  Proof.
    intros c i. split.
    - intros R. induction R as [k i t Hi Mt|c k i j t R IH He Mt].
      + cbn in Hi. apply in_app_or in Hi. destruct Hi as [Hi|Hi]; [left|right]; apply (reach_start _ k i t Hi Mt).
      + destruct IH as [IH|IH].
        * left. rewrite union_edges_m in He by apply (reach_in _ _ _ _ _ _ Wm IH). apply (reach_step m c k i j t IH He Mt).
        * right. rewrite union_edges_o in He by apply (reach_in _ _ _ _ _ _ Wo IH). apply (reach_step o c k i j t IH He Mt).
    - intros [R|R].
      + apply (reach_ext m); [intros e He; cbn; apply in_or_app; left; exact He| |exact R].
        intros j [id t] He. rewrite union_edges_m by apply (w_edges _ _ _ _ Wm j id t He). exact He.
      + apply (reach_ext o); [intros e He; cbn; apply in_or_app; right; exact He| |exact R].
        intros j [id t] He. rewrite union_edges_o by apply (w_edges _ _ _ _ Wo j id t He). exact He.
  Qed.
  Lemma union_handlers_m : forall i, In i (ids m) -> handlers (union m o) i = handlers m i.
  Proof. intros i Hi. cbn. unfold join_maps. rewrite (memb_false i (ids o)) by (intros K; exact (disjoint i Hi K)). reflexivity. Qed.
  Lemma union_handlers_o : forall i, In i (ids o) -> handlers (union m o) i = handlers o i.
  Proof. intros i Hi. cbn. unfold join_maps. rewrite (memb_true i (ids o) Hi). reflexivity. Qed.
  Lemma union_handlers : (forall i, handlers m i = []) -> (forall i, handlers o i = []) -> forall i, handlers (union m o) i = [].
  Proof. intros A B i. cbn. unfold join_maps. destruct (memb i (ids o)); auto. Qed.
End extend.

Lemma reach_extend_empty : forall P lo hi o, wf P lo hi o -> forall c i, reach (extend empty_nfa o) c i <-> reach o c i.
Proof.
  intros P lo hi o W c i. split; apply reach_ext.
  - intros e He. exact He.
  - intros j e He. cbn in He. unfold join_maps in He. destruct (memb j (ids o)); [exact He|destruct He].
  - intros e He. exact He.
  - intros j [id t] He. cbn. unfold join_maps. rewrite memb_true; [exact He|]. apply (w_edges _ _ _ _ W j id t He).
Qed.

(** ** The initial loop *)
Definition with_loop (m : nfa) (c : nat) : nfa :=
  {| start_edges := start_edges m ++ [(c, TAny)]; ids := c :: ids m; edges := fun n => if n =? c then start_edges m ++ [(c, TAny)] else edges m n;
     match_types := upd (match_types m) c MNode; handlers := upd (handlers m) c []; terminal := terminal m |}.
Lemma add_edges_fields : forall l m c, let m' := fold_left (fun m e => add_edge m (Some c) e) l m in
  start_edges m' = start_edges m /\ ids m' = ids m /\ (forall n, edges m' n = if n =? c then edges m c ++ l else edges m n) /\
  match_types m' = match_types m /\ handlers m' = handlers m /\ terminal m' = terminal m.
Proof.
  induction l as [|e l IH]; intros m c; cbn [fold_left].
  - repeat apply conj; try reflexivity. intros n. destruct (n =? c) eqn:E; [|reflexivity]. apply Nat.eqb_eq in E. subst. rewrite app_nil_r. reflexivity.
  - destruct (IH (add_edge m (Some c) e) c) as (H1 & H2 & H3 & H4 & H5 & H6). rewrite H1, H2, H4, H5, H6. cbn [add_edge start_edges ids match_types handlers terminal].
    repeat apply conj; try reflexivity. intros n. rewrite H3. cbn [add_edge edges]. unfold upd. rewrite Nat.eqb_refl. destruct (n =? c); [rewrite <- app_assoc; reflexivity|reflexivity].
Qed.
Lemma loop_fields : forall m c, let m' := add_initial_loop m c in
  start_edges m' = start_edges m ++ [(c, TAny)] /\ ids m' = c :: ids m /\ (forall n, edges m' n = edges (with_loop m c) n) /\
  (forall n, match_types m' n = match_types (with_loop m c) n) /\ (forall n, handlers m' n = handlers (with_loop m c) n) /\ terminal m' = terminal m.
Proof.
  intros m c. unfold add_initial_loop. destruct (add_edges_fields (start_edges m) (new_node m None TAny c) c) as (H1 & H2 & H3 & H4 & H5 & H6).
  set (f := fold_left (fun m e => add_edge m (Some c) e) (start_edges m) (new_node m None TAny c)) in *.
  cbn [add_edge start_edges ids match_types handlers terminal edges]. rewrite H1, H2, H4, H5, H6.
  repeat apply conj; try reflexivity.
  intros n. unfold upd. rewrite !H3, Nat.eqb_refl. cbn. unfold upd. rewrite Nat.eqb_refl. destruct (n =? c); [|reflexivity]. reflexivity.
Qed.

Section loop.
  Variables (P : test -> Prop) (lo hi : nat) (m : nfa).
  Hypothesis W : wf P lo hi m.
  Hypothesis LH : lo <= hi.
  Hypothesis PA : P TAny.
  Hypothesis named_start : exists i ns ln p, In (i, TNode ns ln p) (start_edges m).
  Let m' := add_initial_loop m hi.
  Lemma not_hi : forall i, In i (ids m) -> i =? hi = false.
  Proof. intros i Hi. apply (w_ids _ _ _ _ W) in Hi. apply Nat.eqb_neq. lia. Qed.
  Lemma loop_list : looped (start_edges m ++ [(hi, TAny)]).
  Proof. intros id _. destruct named_start as (i & ns & ln & p & H). exists i, ns, ln, p. apply in_or_app. left. exact H. Qed.
  Lemma loop_edge : forall id t, In (id, t) (start_edges m ++ [(hi, TAny)]) -> In id (hi :: ids m) /\ upd (match_types m) hi MNode id = match_type t /\ P t.
  Proof.
    intros id t H. apply in_app_or in H. destruct H as [H|[[= <- <-]|[]]].
    - destruct (w_start _ _ _ _ W id t H) as (A & B & C). split; [right; exact A|]. unfold upd. rewrite not_hi by exact A. split; assumption.
    - split; [left; reflexivity|]. unfold upd. rewrite Nat.eqb_refl. split; [reflexivity|exact PA].
  Qed.
  Lemma wf_loop : wf P lo (S hi) m'.
  Proof.
    destruct (loop_fields m hi) as (H1 & H2 & H3 & H4 & H5 & H6). fold m' in H1, H2, H3, H4, H5, H6. constructor.
    - rewrite H2. intros i [<-|Hi]; [lia|]. apply (w_ids _ _ _ _ W) in Hi. lia.
    - rewrite H1, H2. intros id t H. rewrite H4. apply loop_edge. exact H.
    - rewrite H2. intros i id t H. rewrite H3 in H. rewrite H4. cbn [with_loop edges match_types] in *. destruct (i =? hi) eqn:E.
      + apply Nat.eqb_eq in E. subst. split; [left; reflexivity|]. apply loop_edge. exact H.
      + destruct (w_edges _ _ _ _ W i id t H) as (A & B & C & D). split; [right; exact A|]. split; [right; exact B|]. unfold upd. rewrite not_hi by exact B. split; assumption.
    - rewrite H2, H6. intros i Hi. right. apply (w_term _ _ _ _ W). exact Hi.
    - rewrite H1. apply loop_list.
    - intros i. rewrite H3. cbn [with_loop edges]. destruct (i =? hi); [apply loop_list|apply (w_ledges _ _ _ _ W)].
    - intros i l. rewrite H5, H2. cbn [with_loop handlers]. unfold upd. destruct (i =? hi); [intros []|]. intros H. right. apply (w_hand _ _ _ _ W i l H).
  Qed.
  Lemma reach_loop : forall c i, reach m' c i <-> (i = hi /\ c <> [] /\ elems c) \/ exists pre suf, c = pre ++ suf /\ elems pre /\ reach m suf i.
  Proof.
    destruct (loop_fields m hi) as (H1 & H2 & H3 & H4 & H5 & H6). fold m' in H1, H2, H3, H4, H5, H6.
    assert (edges m' hi = start_edges m ++ [(hi, TAny)]) as Eh by (rewrite H3; cbn; rewrite Nat.eqb_refl; reflexivity).
    assert (forall i, In i (ids m) -> edges m' i = edges m i) as Ei by (intros i Hi; rewrite H3; cbn [with_loop edges]; rewrite not_hi by exact Hi; reflexivity).
    assert (forall c, c <> [] -> elems c -> reach m' c hi) as Any.
    { intros c. induction c as [|k c IH] using rev_ind; intros Nc Ec; [congruence|].
      destruct (Ec k) as (nm & ->); [apply in_or_app; right; left; reflexivity|]. destruct c as [|k0 c].
      - apply (reach_start _ (KElem nm) hi TAny); [rewrite H1; apply in_or_app; right; left; reflexivity|reflexivity].
      - apply (reach_step _ (k0 :: c) (KElem nm) hi hi TAny); [|rewrite Eh; apply in_or_app; right; left; reflexivity|reflexivity].
        apply IH; [discriminate|]. intros x Hx. apply Ec. apply in_or_app. left. exact Hx. }
    intros c i. split.
    - intros R. induction R as [k i t Hi Mt|c k i j t R IH He Mt].
      + rewrite H1 in Hi. apply in_app_or in Hi. destruct Hi as [Hi|[[= <- <-]|[]]].
        * right. exists [], [k]. repeat apply conj; [reflexivity|intros x []|apply (reach_start m k i t Hi Mt)].
        * left. repeat apply conj; [reflexivity|discriminate|]. intros x [<-|[]]. destruct k as [nm|nm|tg]; try discriminate Mt. exists nm. reflexivity.
      + destruct IH as [(-> & Nc & Ec)|(pre & suf & -> & Ep & Rm)].
        * rewrite Eh in He. apply in_app_or in He. destruct He as [He|[[= <- <-]|[]]].
          -- right. exists c, [k]. repeat apply conj; [reflexivity|exact Ec|apply (reach_start m k j t He Mt)].
          -- left. repeat apply conj; [reflexivity|destruct c; discriminate|]. intros x Hx. apply in_app_or in Hx. destruct Hx as [Hx|[<-|[]]]; [apply Ec; exact Hx|].
             destruct k as [nm|nm|tg]; try discriminate Mt. exists nm. reflexivity.
        * rewrite Ei in He by apply (reach_in _ _ _ _ _ _ W Rm). right. exists pre, (suf ++ [k]). rewrite app_assoc. repeat apply conj; [reflexivity|exact Ep|apply (reach_step m suf k i j t Rm He Mt)].
    - intros [(-> & Nc & Ec)|(pre & suf & -> & Ep & R)]; [apply Any; assumption|].
      induction R as [k i t Hi Mt|c k i j t R IH He Mt].
      + destruct pre as [|k0 pre].
        * apply (reach_start _ k i t); [rewrite H1; apply in_or_app; left; exact Hi|exact Mt].
        * apply (reach_step _ (k0 :: pre) k hi i t); [apply Any; [discriminate|exact Ep]|rewrite Eh; apply in_or_app; left; exact Hi|exact Mt].
      + rewrite app_assoc. apply (reach_step _ (pre ++ c) k i j t IH); [|exact Mt]. rewrite Ei by apply (w_edges _ _ _ _ W i j t He). exact He.
  Qed.
  Lemma loop_handlers : (forall i, handlers m i = []) -> forall i, handlers m' i = [].
  Proof. intros H i. destruct (loop_fields m hi) as (_ & _ & _ & _ & H5 & _). fold m' in H5. rewrite H5. cbn [with_loop handlers]. unfold upd. destruct (i =? hi); auto. Qed.
End loop.
