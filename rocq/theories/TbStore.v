(** * The builder's operations on the store (proofs) *)
From Coq Require Import NArith ZArith String List Bool Lia Arith.
From Verif Require Import PyStr PyErr RdModel RdSpec DomModel DomSpec DomCells DomInv DomOps DomStep TbModel TbSpec.
Import ListNotations.
Local Open Scope nat_scope.

Lemma kids_get s s' i : get s' i = get s i -> kids s' i = kids s i.
Proof. unfold kids, get_children. now intros ->. Qed.
Lemma parent_get s s' i : get s' i = get s i -> parent_of s' i = parent_of s i.
Proof. unfold parent_of. now intros ->. Qed.
Lemma kind_get' s s' i : get s' i = get s i -> kind_of s' i = kind_of s i.
Proof. unfold kind_of. now intros ->. Qed.
Lemma data_get s s' i : get s' i = get s i -> data_of s' i = data_of s i.
Proof. unfold data_of. now intros ->. Qed.
Lemma attrs_get s s' i : get s' i = get s i -> attrs_of s' i = attrs_of s i.
Proof. unfold attrs_of. now intros ->. Qed.

(** ** Appending *)
Lemma fast_append_get_other s p c j : j <> p -> j <> c -> get (fast_append s p c) j = get s j.
Proof. intros H1 H2. unfold fast_append. rewrite !get_upd. apply Nat.eqb_neq in H1, H2. now rewrite H1, H2. Qed.

Lemma fast_append_node_spec n c l : n_count n = length l -> holds (n_cells n) l ->
  let n' := fast_append_node c n in
  n_count n' = length (l ++ [c]) /\ holds (n_cells n') (l ++ [c]) /\ n_kind n' = n_kind n /\ n_parent n' = n_parent n /\ n_data n' = n_data n /\ n_attrs n' = n_attrs n /\ n_index n' = n_index n.
Proof.
  intros C [H1 H2]. unfold fast_append_node. cbn [n_count set_count set_cells n_cells n_kind n_parent n_data n_attrs n_index].
  split; [rewrite app_length; cbn [length]; lia|]. split; [|repeat split; reflexivity].
  replace (n_count n + 1 - 1) with (length l) by lia. destruct (Nat.leb_spec (length (n_cells n)) (n_count n + 1)) as [H|H].
  - apply appended_holds; [reflexivity| |].
    + rewrite app_length, firstn_length, repeat_length. lia.
    + intros i Hi. rewrite app_nth1 by (rewrite firstn_length; lia). rewrite firstn_all2 by lia. apply H2, Hi.
  - apply appended_holds; [reflexivity|lia|exact H2].
Qed.

Lemma fast_append_edited s p c : forest s -> exists_node s p -> exists_node s c -> p <> c -> parent_of s c = None ->
  edited s (fast_append s p c) (fun q => if q =? p then kids s p ++ [c] else without c (kids s q)) (set_par (parent_of s) c (Some p)).
Proof.
  intros F Hp Hc N P. apply edited_intro.
  - unfold fast_append. now rewrite !upd_len.
  - unfold fast_append. now rewrite !upd_counter.
  - intros j n G. destruct (forest_holds s j n F G) as [C H].
    assert (W : without c (kids s j) = kids s j) by (apply without_other; [exact F|rewrite P; discriminate]).
    unfold fast_append. rewrite !get_upd.
    destruct (Nat.eqb_spec j p) as [->|NJ].
    + apply Nat.eqb_neq in N. rewrite N. rewrite G. cbn [option_map].
      destruct (fast_append_node_spec n c (kids s p) C H) as (A1 & A2 & A3 & A4 & A5 & A6 & A7).
      eexists; split; [reflexivity|]. repeat split; try assumption; [|apply A2|apply A2].
      rewrite A4. unfold set_par. rewrite N. symmetry. now apply parent_of_get.
    + rewrite W. destruct (Nat.eqb_spec j c) as [->|NC].
      * rewrite G. cbn [option_map]. eexists; split; [reflexivity|]. cbn. repeat split; try apply H; try assumption. unfold set_par. now rewrite Nat.eqb_refl.
      * eexists; split; [exact G|]. repeat split; try apply H; try assumption. unfold set_par. apply Nat.eqb_neq in NC. rewrite NC. symmetry. now apply parent_of_get.
  - intros j G. unfold set_par. destruct (Nat.eqb_spec j c) as [->|]; [|now apply parent_of_none].
    exfalso. destruct (get_ex s c Hc) as [n E]. congruence.
Qed.

Lemma fast_append_forest s p c : forest s -> (exists k, kind_of s p = Some k /\ is_container k = true) ->
  (exists k, kind_of s c = Some k /\ child_kind k = true) -> p <> c -> parent_of s c = None -> parent_of s p = None ->
  forest (fast_append s p c).
Proof.
  intros F KP KC N P PP.
  assert (Hp : exists_node s p) by (destruct KP as (k & K & _); eapply kind_exists; eauto).
  assert (Hc : exists_node s c) by (destruct KC as (k & K & _); eapply kind_exists; eauto).
  assert (NI : ~ In c (kids s p)) by (intro X; apply (kids_parent s p c F) in X; congruence).
  eapply forest_move; [exact F|exact KP|exact KC| | | |apply fast_append_edited; assumption].
  - intros [E|E]; [congruence|]. inversion E; congruence.
  - rewrite <- insert_end. apply nodup_insert_at; [apply (f_nodup s F)|exact NI].
  - intros x. rewrite (without_other s p c F) by congruence. rewrite in_app_iff. cbn. intuition.
Qed.

(** What the append leaves as it was. *)
Lemma edited_kids s s' kid par q : edited s s' kid par -> exists_node s q -> kids s' q = kid q.
Proof. intros E H. unfold kids. now rewrite (e_kids _ _ _ _ E q H). Qed.

(** ** Working arrays *)
Lemma set_working_edited s i cells : forest s -> kids s i = [] -> edited s (upd s i (set_working cells)) (kids s) (parent_of s).
Proof.
  intros F K. apply edited_intro; [apply upd_len|apply upd_counter| |apply parent_of_none].
  intros j n G. destruct (forest_holds s j n F G) as [C H]. rewrite get_upd. destruct (Nat.eqb_spec j i) as [->|].
  - rewrite G. cbn [option_map]. eexists; split; [reflexivity|]. cbn. rewrite K in *. repeat split; try assumption.
    + symmetry. now apply parent_of_get.
    + cbn. lia.
    + intros q Hq. cbn in Hq. lia.
  - eexists; split; [exact G|]. repeat split; try assumption; try apply H. symmetry. now apply parent_of_get.
Qed.
Lemma set_working_forest s i cells : forest s -> kids s i = [] -> forest (upd s i (set_working cells)).
Proof. intros F K. eapply forest_edited_same; [exact F|now apply set_working_edited]. Qed.
Lemma freeze_forest s i : forest s -> forest (upd s i freeze_node).
Proof. intros F. destruct (freeze_spec s i F) as (s' & E & H). unfold container_freeze in E. apply (f_equal fst) in E. cbn [fst] in E. subst s'. eapply forest_edited_same; eauto. Qed.
Lemma freeze_edited s i : forest s -> edited s (upd s i freeze_node) (kids s) (parent_of s).
Proof. intros F. destruct (freeze_spec s i F) as (s' & E & H). unfold container_freeze in E. apply (f_equal fst) in E. cbn [fst] in E. now subst s'. Qed.

(** ** What an operation keeps *)
Definition kept (s s' : store) (o : op) (i : nat) : Prop :=
  exists_node s' i /\ kind_of s' i = kind_of s i /\
  (parent_of s i = None -> ~ moves i o -> parent_of s' i = None) /\
  (kids s i = [] -> ~ fills i o -> kids s' i = []).
Lemma kept_refl s o i : exists_node s i -> kept s s o i.
Proof. intros H. repeat split; auto. Qed.
Lemma edited_exists s s' kid par i : edited s s' kid par -> exists_node s i -> exists_node s' i.
Proof. intros E H. unfold exists_node in *. now rewrite (e_len _ _ _ _ E). Qed.

Lemma step_kept s o i : forest s -> safe s o -> exists_node s i -> kept s (fst (step s o)) o i.
Proof.
  intros F S HX. destruct o as [k d|p c|p w c|p c|p o n|p|p d|p]; cbn [step].
  - destruct (kind_eqb k KAttr); [now apply kept_refl|]. cbn [fst].
    split; [unfold exists_node in *; rewrite new_len; lia|]. split; [rewrite new_kind; unfold exists_node in HX; destruct (Nat.eqb_spec i (length (s_nodes s))); [lia|reflexivity]|].
    rewrite new_parent, new_kids. split; auto.
  - destruct (on_container_inv s p [c] (container_append s p c)) as [[e ->]|[-> [HP HA]]]; [now apply kept_refl|].
    assert (exists_node s c) as Hc by (apply HA; left; reflexivity). assert (exists_node s p) as Hp by (destruct HP as [k [K _]]; eapply kind_exists; eauto).
    destruct (ensure_hierarchy_ok s p c F Hp Hc) as [[HE _]|[HE _]].
    + destruct (append_edited s p c F Hp Hc HE S) as [s' [-> E]]. cbn [fst]. split; [eapply edited_exists; eauto|]. split; [apply (e_kind _ _ _ _ E)|].
      rewrite (e_par _ _ _ _ E), (edited_kids _ _ _ _ _ E HX). unfold set_par. cbn [moves fills]. split; intros P M.
      * destruct (Nat.eqb_spec i c); [congruence|exact P].
      * destruct (Nat.eqb_spec i p); [congruence|now rewrite P].
    + unfold container_append. rewrite HE. now apply kept_refl.
  - destruct (on_container_inv s p [c] (container_insert s p w c)) as [[e ->]|[-> [HP HA]]]; [now apply kept_refl|].
    assert (exists_node s c) as Hc by (apply HA; left; reflexivity). assert (exists_node s p) as Hp by (destruct HP as [k [K _]]; eapply kind_exists; eauto).
    destruct (ensure_hierarchy_ok s p c F Hp Hc) as [[HE _]|[HE _]].
    + destruct (insert_edited s p w c F Hp Hc HE S) as [s' [-> E]]. cbn [fst]. split; [eapply edited_exists; eauto|]. split; [apply (e_kind _ _ _ _ E)|].
      rewrite (e_par _ _ _ _ E), (edited_kids _ _ _ _ _ E HX). unfold set_par. cbn [moves fills]. split; intros P M.
      * destruct (Nat.eqb_spec i c); [congruence|exact P].
      * destruct (Nat.eqb_spec i p); [congruence|now rewrite P].
    + unfold container_insert. rewrite HE. now apply kept_refl.
  - destruct (on_container_inv s p [c] (container_remove s p c)) as [[e ->]|[-> [HP HA]]]; [now apply kept_refl|].
    assert (exists_node s p) as Hp by (destruct HP as [k [K _]]; eapply kind_exists; eauto).
    destruct (in_dec Nat.eq_dec c (kids s p)) as [I|N].
    + destruct (remove_edited s p c F I) as [s' [-> E]]. cbn [fst]. split; [eapply edited_exists; eauto|]. split; [apply (e_kind _ _ _ _ E)|].
      rewrite (e_par _ _ _ _ E), (edited_kids _ _ _ _ _ E HX). unfold set_par. split; intros P M.
      * destruct (Nat.eqb i c); [reflexivity|exact P].
      * now rewrite P.
    + rewrite remove_absent by assumption. now apply kept_refl.
  - destruct (on_container_inv s p [o; n] (container_replace s p o n)) as [[e ->]|[-> [HP HA]]]; [now apply kept_refl|].
    assert (exists_node s n) as Hn by (apply HA; right; left; reflexivity). assert (exists_node s p) as Hp by (destruct HP as [k [K _]]; eapply kind_exists; eauto).
    destruct (in_dec Nat.eq_dec o (kids s p)) as [I|N]; [|rewrite replace_absent by assumption; now apply kept_refl].
    destruct (Nat.eq_dec o n) as [->|Hon]; [rewrite replace_self by assumption; now apply kept_refl|].
    destruct (replace_edited s p o n F Hp Hn I Hon S) as [s' [-> E]]. cbn [fst]. split; [eapply edited_exists; eauto|]. split; [apply (e_kind _ _ _ _ E)|].
    rewrite (e_par _ _ _ _ E), (edited_kids _ _ _ _ _ E HX). unfold set_par. cbn [moves fills]. split; intros P M.
    + destruct (Nat.eqb_spec i n); [congruence|]. destruct (Nat.eqb i o); [reflexivity|exact P].
    + destruct (Nat.eqb_spec i p) as [->|]; [rewrite P in I; destruct I|now rewrite P].
  - destruct (on_container_inv s p [] (normalize s p)) as [[e ->]|[-> [HP HA]]]; [now apply kept_refl|].
    assert (exists_node s p) as Hp by (destruct HP as [k [K _]]; eapply kind_exists; eauto).
    destruct (normalize_ok s p F Hp) as [s' [l' [-> [HT [HI _]]]]]. cbn [fst].
    split; [unfold exists_node in *; now rewrite (t_len _ _ _ _ HT)|]. split; [apply (t_kind _ _ _ _ HT)|]. split; intros P M.
    + destruct (t_par _ _ _ _ HT i) as [E|[E _]]; congruence.
    + rewrite (t_kids _ _ _ _ HT). destruct (Nat.eqb_spec i p) as [->|]; [|exact P]. rewrite P in HI. destruct l' as [|x l']; [reflexivity|]. destruct (HI x (or_introl eq_refl)).
  - destruct (add_attr s p d) as [s' r] eqn:E. cbn [fst]. unfold add_attr in E. destruct (get s p) as [n|] eqn:G; [|injection E as <- _; now apply kept_refl].
    destruct (kind_eqb (n_kind n) KElement) eqn:K; [|injection E as <- _; now apply kept_refl].
    destruct (add_attr_ok s p d n G ltac:(destruct (n_kind n); try discriminate; reflexivity)) as (s2 & E2 & HL & _ & HK & HKi & HPar & _).
    assert (s' = s2) as -> by (unfold add_attr in E2; rewrite G, K in E2; congruence).
    unfold kept. rewrite HPar, HK, HKi. unfold exists_node in *. destruct (Nat.eqb_spec i (length (s_nodes s))); [lia|]. repeat split; auto. lia.
  - destruct (on_container_inv s p [] (container_freeze s p)) as [[e ->]|[-> [HP HA]]]; [now apply kept_refl|].
    destruct (freeze_spec s p F) as [s' [-> E]]. cbn [fst]. split; [eapply edited_exists; eauto|]. split; [apply (e_kind _ _ _ _ E)|].
    rewrite (e_par _ _ _ _ E), (edited_kids _ _ _ _ _ E HX). auto.
Qed.

Lemma run_cons s o ops : run s (o :: ops) = run (fst (step s o)) ops.
Proof. reflexivity. Qed.
Lemma run_kept : forall ops s i, forest s -> safe_run s ops -> exists_node s i ->
  exists_node (run s ops) i /\ kind_of (run s ops) i = kind_of s i /\
  (parent_of s i = None -> (forall o, In o ops -> ~ moves i o) -> parent_of (run s ops) i = None) /\
  (kids s i = [] -> (forall o, In o ops -> ~ fills i o) -> kids (run s ops) i = []).
Proof.
  induction ops as [|o ops IH]; intros s i F S HX; [cbn; auto|]. destruct S as [S1 S2].
  destruct (step_kept s o i F S1 HX) as (K1 & K2 & K3 & K4). rewrite run_cons.
  destruct (IH _ i (step_forest s o F S1) S2 K1) as (I1 & I2 & I3 & I4).
  split; [exact I1|]. split; [congruence|]. split; intros P M.
  - apply I3; [apply K3; [exact P|apply M; left; reflexivity]|]. intros q Hq. apply M. right. exact Hq.
  - apply I4; [apply K4; [exact P|apply M; left; reflexivity]|]. intros q Hq. apply M. right. exact Hq.
Qed.
Lemma run_len_le : forall ops s, forest s -> safe_run s ops -> length (s_nodes s) <= length (s_nodes (run s ops)).
Proof.
  intros ops s F S. destruct (Nat.eq_dec (length (s_nodes s)) 0) as [E|E]; [lia|].
  destruct (run_kept ops s (length (s_nodes s) - 1) F S) as (X & _); [unfold exists_node; lia|]. unfold exists_node in X. lia.
Qed.
