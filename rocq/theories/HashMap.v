(** * Open addressing: termination and correctness *)
From Coq Require Import NArith ZArith String List Bool Lia Arith Permutation.
From Verif Require Import PyStr PyErr HashModel HashProbe.
Import ListNotations.
Local Open Scope nat_scope.

Lemma nth_set_slot {A} (l : list A) i j x d : nth i (set_slot l j x) d = if (i =? j) && (j <? length l) then x else nth i l d.
Proof.
  revert i j. induction l as [|a l IH]; intros i j; cbn [set_slot length].
  - rewrite andb_false_r. reflexivity.
  - destruct j as [|j], i as [|i]; cbn [nth]; try reflexivity. now rewrite IH.
Qed.
Lemma length_set_slot {A} (l : list A) j x : length (set_slot l j x) = length l.
Proof. revert j. induction l as [|a l IH]; intros [|j]; cbn; auto. Qed.

Section Table.
Context {K V : Type}.
Variable eqb : K -> K -> bool.
Variable hash : K -> N.
Hypothesis eqb_eq : forall a b, eqb a b = true <-> a = b.
Notation table := (table K V).
Notation hmap := (hmap K V).
Notation get_entry := (get_entry (V := V) eqb hash).

(** ** Termination of the loop *)
Lemma size_shift p : p <> 0%N -> N.size_nat (N.shiftr p 5) < N.size_nat p.
Proof.
  intros H. rewrite N.shiftr_div_pow2. change (2 ^ 5)%N with 32%N.
  assert (forall n, N.size_nat n = N.to_nat (N.size n)) as SZ by (intros [|q]; cbn; [reflexivity|]; induction q as [q IH|q IH|]; cbn; rewrite ?IH; lia).
  rewrite !SZ. assert (N.size (p / 32) < N.size p)%N as X; [|lia].
  destruct (N.eq_dec (p / 32) 0) as [->|Z]; [cbn; destruct p; [congruence|reflexivity]|].
  rewrite (N.size_log2 _ Z), (N.size_log2 _ H).
  assert (N.log2 (p / 32) < N.log2 p)%N; [|lia].
  apply N.log2_lt_pow2; [now apply N.neq_0_lt_0|]. pose proof (N.log2_spec p (proj1 (N.neq_0_lt_0 p) H)) as [L1 L2].
  assert (2 ^ N.succ (N.log2 p) = 2 * 2 ^ N.log2 p)%N as E by (rewrite N.pow_succ_r'; reflexivity).
  remember (2 ^ N.log2 p)%N as w. clear - L1 L2 E. apply N.div_lt_upper_bound; lia.
Qed.
Lemma probe_cycle (t : table) stop k : length t = 2 ^ k -> forall n fuel i, stop (nth (slot k (it n (Z.of_N i))) t None) = true -> n < fuel -> exists e, probe fuel stop t i 0 = Some e.
Proof.
  intros L. induction n as [|n IH]; intros fuel i H Hf; (destruct fuel as [|f]; [lia|]); cbn [probe]; unfold mask; rewrite L, land_slot.
  - cbn [it] in H. rewrite H. eauto.
  - destruct (stop (nth (slot k (Z.of_N i)) t None)); [eauto|]. change (N.shiftr 0 5) with 0%N. apply IH; [|lia].
    replace (Z.of_N (N.shiftl i 2 + i + 0 + 1)) with (it 1 (Z.of_N i)); [now rewrite <- it_add, Nat.add_1_r|].
    cbn [it]. rewrite N.shiftl_mul_pow2. change (2 ^ 2)%N with 4%N. lia.
Qed.
Lemma probe_stops (t : table) stop k r : length t = 2 ^ k -> r < length t -> stop (nth r t None) = true ->
  forall m fuel i p, N.size_nat p <= m -> m + length t < fuel -> exists e, probe fuel stop t i p = Some e.
Proof.
  intros L R S. induction m as [|m IH]; intros fuel i p Hp Hf.
  - assert (p = 0%N) as -> by (destruct p as [|q]; [reflexivity|cbn in Hp; destruct q; cbn in Hp; lia]).
    rewrite L in R. destruct (it_all k (Z.of_N i) r R) as [n [Hn E]]. apply (probe_cycle t stop k L n); [now rewrite E|lia].
  - destruct (N.eq_dec p 0) as [->|NZ]; [apply (IH fuel i 0%N); [cbn; lia|lia]|].
    destruct fuel as [|f]; [lia|]. clear S. cbn [probe]. destruct (stop _); [eauto|]. apply IH; [|lia]. pose proof (size_shift p NZ). lia.
Qed.
Lemma probe_some (t : table) stop k : length t = 2 ^ k -> forall fuel i p e, probe fuel stop t i p = Some e -> stop (nth e t None) = true /\ e < length t.
Proof.
  intros L. induction fuel as [|f IH]; intros i p e; cbn [probe]; [discriminate|]. destruct (stop _) eqn:S; [|apply IH].
  intros [= <-]. split; [exact S|]. unfold mask. rewrite L, land_slot. unfold slot. pose proof (Z.mod_pos_bound (Z.of_N i) (2 ^ Z.of_nat k) ltac:(apply Z.pow_pos_nonneg; lia)). rewrite <- pow_nat in *. lia.
Qed.
(** Changing slots that the search does not stop at. *)
Lemma probe_ext (t t' : table) stop stop' : length t' = length t -> forall fuel i p e, probe fuel stop t i p = Some e ->
  (forall j, stop (nth j t None) = false -> stop' (nth j t' None) = false) -> stop' (nth e t' None) = true -> probe fuel stop' t' i p = Some e.
Proof.
  intros L. induction fuel as [|f IH]; intros i p e H Hf He; cbn [probe] in *; [discriminate|].
  assert (mask t' = mask t) as M by (unfold mask; now rewrite L). rewrite M. destruct (stop _) eqn:S.
  - injection H as <-. now rewrite He.
  - rewrite (Hf _ S). now apply IH.
Qed.

(** ** Entries *)
Definition ent (o : option (K * V)) : list (K * V) := match o with Some kv => [kv] | None => [] end.
Definition entries (t : table) : list (K * V) := flat_map ent t.
Lemma iterate_entries (m : hmap) : iterate m = entries (m_table m).
Proof. reflexivity. Qed.
Lemma entries_slot (t : table) : forall e, e < length t -> exists l1 l2, entries t = l1 ++ ent (nth e t None) ++ l2 /\ forall o, entries (set_slot t e o) = l1 ++ ent o ++ l2.
Proof.
  induction t as [|a t IH]; intros e He; cbn in He; [lia|]. destruct e as [|e].
  - exists [], (entries t). cbn. auto.
  - destruct (IH e ltac:(lia)) as [l1 [l2 [E1 E2]]]. exists (ent a ++ l1), l2. cbn. split; [rewrite <- app_assoc; now f_equal|]. intros o. rewrite <- app_assoc. f_equal. apply E2.
Qed.
Lemma in_entries (t : table) kv : In kv (entries t) <-> exists e, nth e t None = Some kv.
Proof.
  unfold entries. rewrite in_flat_map. split.
  - intros [o [I1 I2]]. destruct o as [x|]; [|destruct I2]. destruct I2 as [->|[]]. destruct (In_nth _ _ None I1) as [e [_ E]]. eauto.
  - intros [e E]. exists (Some kv). split; [|left; reflexivity]. rewrite <- E. apply nth_In. destruct (Nat.lt_ge_cases e (length t)); [assumption|]. rewrite nth_overflow in E by assumption. discriminate.
Qed.
Lemma count_le (t : table) : length (entries t) <= length t.
Proof. unfold entries. induction t as [|[a|] t IH]; cbn in *; lia. Qed.
Lemma empty_slot (t : table) : length (entries t) < length t -> exists r, r < length t /\ nth r t None = None.
Proof.
  induction t as [|[a|] t IH]; cbn; intros H; [lia| |exists 0; split; [lia|reflexivity]].
  destruct IH as [r [R E]]; [unfold entries; lia|]. exists (S r). split; [lia|exact E].
Qed.
Lemma collect_all (t : table) : collect (length (entries t)) t = Ok (entries t).
Proof.
  induction t as [|[a|] t IH]; cbn [entries flat_map ent app length]; [reflexivity| |].
  - cbn [collect]. fold (entries t). rewrite IH. reflexivity.
  - fold (entries t). cbn [collect]. destruct (length (entries t)) eqn:E; [|exact IH]. apply length_zero_iff_nil in E. now rewrite E.
Qed.

(** ** The state of a table *)
Record good (t : table) : Prop := {
  g_size : exists k, length t = 2 ^ (3 + k);
  g_room : 3 * length (entries t) < 2 * length t
}.
Definition good_map (m : hmap) : Prop := good (m_table m) /\ m_used m = length (entries (m_table m)).
Lemma good_empty (t : table) : good t -> exists r, r < length t /\ nth r t None = None.
Proof. intros [_ R]. apply empty_slot. lia. Qed.
Lemma get_entry_ex (t : table) k : good t -> exists e, get_entry t k = Some e.
Proof.
  intros G. destruct (good_empty t G) as [r [R E]]. destruct (g_size t G) as [n L]. unfold HashModel.get_entry.
  eapply (probe_stops t _ (3 + n) r L R); [now rewrite E|apply le_n|]. unfold enough. lia.
Qed.
Lemma get_entry_spec (t : table) k e : good t -> get_entry t k = Some e -> e < length t /\ (nth e t None = None \/ exists v, nth e t None = Some (k, v)).
Proof.
  intros G H. destruct (g_size t G) as [n L]. apply (probe_some t _ (3 + n) L) in H. destruct H as [S Lt]. split; [exact Lt|].
  destruct (nth e t None) as [[k' v]|]; [|left; reflexivity]. right. cbn in S. apply eqb_eq in S. subst. eauto.
Qed.

(** Every stored key is found where it is. *)
Definition findable (t : table) : Prop := forall e k v, nth e t None = Some (k, v) -> get_entry t k = Some e.
Lemma findable_key t e1 e2 k v1 v2 : findable t -> nth e1 t None = Some (k, v1) -> nth e2 t None = Some (k, v2) -> e1 = e2.
Proof. intros F H1 H2. apply F in H1, H2. congruence. Qed.
Lemma nodup_keys (t : table) : (forall e1 e2 k v1 v2, nth e1 t None = Some (k, v1) -> nth e2 t None = Some (k, v2) -> e1 = e2) -> NoDup (map fst (entries t)).
Proof.
  induction t as [|o t IH]; intros H; [constructor|].
  assert (NoDup (map fst (entries t))) as D by (apply IH; intros e1 e2 k v1 v2 H1 H2; apply (f_equal pred (H (S e1) (S e2) k v1 v2 H1 H2))).
  destruct o as [[k v]|]; cbn; [|exact D]. constructor; [|exact D]. intros I. apply in_map_iff in I. destruct I as [[k' v'] [E I]]. cbn in E. subst k'. apply in_entries in I. destruct I as [e I].
  discriminate (H 0 (S e) k v v' eq_refl I).
Qed.
Lemma findable_nodup t : findable t -> NoDup (map fst (entries t)).
Proof. intros F. apply nodup_keys. intros. eapply findable_key; eauto. Qed.

(** Filling the slot that the search for [k] ends at. *)
Lemma set_findable t k v e : good t -> findable t -> get_entry t k = Some e -> findable (set_slot t e (Some (k, v))).
Proof.
  intros G F H e' k' v'. destruct (get_entry_spec t k e G H) as [Lt C]. rewrite nth_set_slot.
  assert ((e <? length t) = true) as LT by now apply Nat.ltb_lt. rewrite LT, andb_true_r.
  assert (forall j k0, (nth j t None = None -> j = e) -> at_key eqb k0 (nth j t None) = false -> j <> e -> at_key eqb k0 (nth j (set_slot t e (Some (k, v))) None) = false) as OUT.
  { intros j k0 _ A N. rewrite nth_set_slot. apply Nat.eqb_neq in N. now rewrite N. }
  unfold HashModel.get_entry, enough, mask. rewrite length_set_slot.
  destruct (Nat.eqb_spec e' e) as [->|N].
  - intros [= <- <-]. refine (probe_ext t _ _ _ (length_set_slot _ _ _) _ _ _ _ H _ _).
    + intros j A. rewrite nth_set_slot, LT, andb_true_r. destruct (Nat.eqb_spec j e) as [->|]; [|exact A].
      exfalso. destruct C as [C|[w C]]; rewrite C in A; cbn in A; [discriminate|]. assert (eqb k k = true) by now apply eqb_eq. congruence.
    + rewrite nth_set_slot, Nat.eqb_refl, LT. cbn. now apply eqb_eq.
  - intros E. pose proof (F e' k' v' E) as FE. refine (probe_ext t _ _ _ (length_set_slot _ _ _) _ _ _ _ FE _ _).
    + intros j A. rewrite nth_set_slot, LT, andb_true_r. destruct (Nat.eqb_spec j e) as [->|]; [|exact A].
      destruct C as [C|[w C]]; rewrite C in A; cbn in A; [discriminate|]. exact A.
    + rewrite nth_set_slot. apply Nat.eqb_neq in N. rewrite N. cbn [andb]. rewrite E. cbn. now apply eqb_eq.
Qed.

(** ** set_entry, copy, resize *)
Lemma set_entry_ok t k v n : length t = 2 ^ n -> length (entries t) < length t ->
  exists e, nth e t None = None /\ e < length t /\ set_entry hash t k v = Ok (set_slot t e (Some (k, v))) /\ (~ In k (map fst (entries t)) -> get_entry t k = Some e).
Proof.
  intros L R. destruct (empty_slot t R) as [r [R1 R2]]. unfold set_entry.
  destruct (probe_stops t at_empty n r L R1) with (m := N.size_nat (hash k)) (fuel := enough t (hash k)) (i := N.land (hash k) (mask t)) (p := hash k) as [e E]; [now rewrite R2|apply le_n|unfold enough; lia|].
  rewrite E. destruct (probe_some t at_empty n L _ _ _ _ E) as [S Lt]. exists e. split; [destruct (nth e t None); [discriminate|reflexivity]|]. split; [exact Lt|]. split; [reflexivity|].
  intros N. refine (probe_ext t t _ _ eq_refl _ _ _ _ E _ _).
  - intros j A. destruct (nth j t None) as [[k' v']|] eqn:EJ; [|discriminate]. cbn. destruct (eqb k' k) eqn:EK; [|reflexivity]. apply eqb_eq in EK. subst k'. exfalso. apply N.
    apply in_map_iff. exists (k, v'). split; [reflexivity|]. apply in_entries. eauto.
  - destruct (nth e t None); [discriminate|reflexivity].
Qed.
Lemma perm_fill t e kv : e < length t -> nth e t None = None -> Permutation (entries (set_slot t e (Some kv))) (kv :: entries t).
Proof.
  intros L E. destruct (entries_slot t e L) as [l1 [l2 [E1 E2]]]. rewrite E2, E1, E. cbn. symmetry. apply Permutation_middle.
Qed.
Definition roomy (t : table) : Prop := exists k, length t = 2 ^ (3 + k).
Lemma copy_ok n : forall old new, length new = 2 ^ n -> length (entries new) + length (entries old) < length new ->
  exists new', copy hash (length (entries old)) old new = Ok new' /\ length new' = length new /\ Permutation (entries new') (entries new ++ entries old) /\
    (findable new -> NoDup (map fst (entries new ++ entries old)) -> (exists k, n = 3 + k) -> 3 * (length (entries new) + length (entries old)) < 2 * length new -> findable new').
Proof.
  induction old as [|o old IH]; intros new L R.
  - exists new. cbn. rewrite app_nil_r. auto.
  - destruct o as [[k v]|]; cbn [entries flat_map ent app length] in R |- *; fold (entries old) in *.
    + destruct (set_entry_ok new k v n L ltac:(lia)) as [e [E1 [E2 [E3 E4]]]]. pose proof (perm_fill new e (k, v) E2 E1) as PF.
      pose proof (Permutation_length PF) as PL. cbn in PL.
      destruct (IH (set_slot new e (Some (k, v)))) as [new' [C1 [C2 [C3 C4]]]]; [now rewrite length_set_slot|rewrite length_set_slot; lia|].
      exists new'. cbn [copy]. rewrite E3. cbn [bind]. split; [exact C1|]. rewrite length_set_slot in C2. split; [exact C2|]. split.
      * rewrite C3. rewrite (Permutation_app_tail _ PF). cbn. apply Permutation_middle.
      * intros F D Hn Hr. assert (NoDup (map fst (entries new)) /\ ~ In k (map fst (entries new))) as [D1 D2].
        { rewrite map_app in D. cbn in D. split; [|intro; apply NoDup_remove_2 in D; apply D, in_or_app; auto]. apply NoDup_remove_1 in D. clear - D. induction (map fst (entries new)) as [|x l IHl]; [constructor|]. cbn in D. inversion D; subst. constructor; [intro; apply H1, in_or_app; auto|auto]. }
        apply C4.
        -- apply set_findable; [|exact F|now apply E4]. destruct Hn as [q ->]. split; [eauto|lia].
        -- eapply Permutation_NoDup; [|exact D]. apply Permutation_map. rewrite (Permutation_app_tail _ PF). cbn. symmetry. apply Permutation_middle.
        -- exact Hn.
        -- rewrite length_set_slot. lia.
    + destruct (IH new L R) as [new' [C1 C2]]. exists new'. split; [|exact C2]. cbn [copy]. destruct (length (entries old)) eqn:Z; [|exact C1].
      apply length_zero_iff_nil in Z. clear - C1. destruct old; cbn in C1; congruence.
Qed.
Lemma entries_repeat n : entries (repeat None n) = [].
Proof. induction n; cbn; auto. Qed.
Lemma nth_repeat_none n e : nth e (repeat (@None (K * V)) n) None = None.
Proof. revert e. induction n as [|n IH]; intros [|e]; cbn; auto. Qed.
Lemma resize_ok m k : length (m_table m) = 2 ^ (3 + k) -> m_used m = length (entries (m_table m)) ->
  exists m', resize_table hash m = Ok m' /\ good_map m' /\ Permutation (entries (m_table m')) (entries (m_table m)) /\
    (NoDup (map fst (entries (m_table m))) -> findable (m_table m')).
Proof.
  intros L U. assert (8 <= length (m_table m)) as B. { rewrite L. rewrite Nat.pow_add_r. change (2 ^ 3) with 8. assert (2 ^ k <> 0) by (apply Nat.pow_nonzero; lia). lia. }
  unfold resize_table. destruct (Nat.leb_spec (2 * length (m_table m)) MINSIZE); [unfold MINSIZE in *; lia|]. rewrite U.
  pose proof (count_le (m_table m)) as CL.
  destruct (copy_ok (3 + S k) (m_table m) (repeat None (2 * length (m_table m)))) as [t [C1 [C2 [C3 C4]]]].
  - rewrite repeat_length, L. replace (3 + S k) with (S (3 + k)) by lia. rewrite Nat.pow_succ_r'. reflexivity.
  - rewrite entries_repeat, repeat_length. cbn [length Nat.add]. lia.
  - rewrite C1. cbn [bind]. eexists. split; [reflexivity|]. rewrite entries_repeat in *. cbn [app length Nat.add] in *. rewrite repeat_length in *. unfold good_map. cbn [m_table m_used].
    pose proof (Permutation_length C3) as PL.
    split; [|split; [exact C3|]].
    + split; [|lia]. split; [exists (S k); rewrite C2, L; replace (3 + S k) with (S (3 + k)) by lia; now rewrite Nat.pow_succ_r'|]. lia.
    + intros D. apply C4; [|exact D|eauto|lia]. intros e k' v'. rewrite nth_repeat_none. discriminate.
Qed.

(** ** The calls *)
Definition keys (m : hmap) : list K := map fst (entries (m_table m)).
(** What [set_node] and [set_item] do to the entries. *)
Definition stored (m m' : hmap) (k : K) (v : V) : Prop :=
  forall k' v', In (k', v') (entries (m_table m')) <-> (k' = k /\ v' = v) \/ (k' <> k /\ In (k', v') (entries (m_table m))).

Lemma new_good : good_map (new_map (K := K) (V := V)) /\ findable (m_table (new_map (K := K) (V := V))).
Proof.
  split; [split; [split; [exists 0; reflexivity|cbn; lia]|reflexivity]|]. intros e k v. unfold new_map. cbn [m_table]. rewrite nth_repeat_none. discriminate.
Qed.
Lemma get_ok m k : good_map m -> exists o, get_node eqb hash m k = Ok o /\ (forall v, o = Some v -> In (k, v) (entries (m_table m))) /\ (findable (m_table m) -> forall v, In (k, v) (entries (m_table m)) -> o = Some v).
Proof.
  intros [G _]. destruct (get_entry_ex (m_table m) k G) as [e E]. unfold get_node. rewrite E. eexists. split; [reflexivity|].
  destruct (get_entry_spec _ _ _ G E) as [Lt C]. split.
  - intros v H. destruct C as [C|[w C]]; rewrite C in H; [discriminate|]. injection H as ->. apply in_entries. eauto.
  - intros F v I. apply in_entries in I. destruct I as [e' I]. pose proof (F e' k v I) as FE. rewrite E in FE. injection FE as <-. now rewrite I.
Qed.
Lemma set_slot_good t e o : good t -> e < length t -> 3 * length (entries (set_slot t e o)) < 2 * length t -> good (set_slot t e o).
Proof. intros [S _] L R. split; rewrite length_set_slot; assumption. Qed.
Lemma pow3 k : 8 <= 2 ^ (3 + k).
Proof. rewrite Nat.pow_add_r. change (2 ^ 3) with 8. assert (2 ^ k <> 0) by (apply Nat.pow_nonzero; lia). lia. Qed.

Lemma set_node_ok m k v : good_map m -> exists m', set_node eqb hash m k v = Ok m' /\ good_map m' /\
  (findable (m_table m) -> findable (m_table m') /\ stored m m' k v).
Proof.
  intros [G U]. destruct (get_entry_ex (m_table m) k G) as [e E]. destruct (get_entry_spec _ _ _ G E) as [Lt C]. destruct (g_size _ G) as [n L].
  unfold set_node. rewrite E. cbn zeta. set (t' := set_slot (m_table m) e (Some (k, v))). destruct (entries_slot (m_table m) e Lt) as [l1 [l2 [E1 E2]]].
  assert (match nth e (m_table m) None with None => S (m_used m) | Some _ => m_used m end = length (entries t')) as U'.
  { unfold t'. rewrite E2, U, E1, !app_length. destruct C as [->|[w ->]]; cbn; lia. }
  rewrite U'. cbn [m_table]. assert (length t' = 2 ^ (3 + n)) as L' by (unfold t'; now rewrite length_set_slot).
  assert (findable (m_table m) -> findable t' /\ forall k' v', In (k', v') (entries t') <-> (k' = k /\ v' = v) \/ (k' <> k /\ In (k', v') (entries (m_table m)))) as FT.
  { intros F. pose proof (set_findable _ k v e G F E) as F'. split; [exact F'|]. pose proof (findable_nodup _ F') as D'. fold t' in D'.
    intros k' v'. unfold t' in *. rewrite E2 in *. rewrite E1. cbn in *. rewrite map_app in D'. cbn in D'. apply NoDup_remove_2 in D'.
    assert (forall x, In (k, x) l1 \/ In (k, x) l2 -> False) as NK.
    { intros x X. apply D'. apply in_or_app. destruct X as [X|X]; [left|right]; apply (in_map fst) in X; exact X. }
    rewrite !in_app_iff. cbn. split.
    - intros [X|[[= <- <-]|X]].
      + right. split; [intros ->; apply (NK v'); auto|auto].
      + left; auto.
      + right. split; [intros ->; apply (NK v'); auto|rewrite ?in_app_iff; auto].
    - intros [[-> ->]|[N X]]; [auto|]. destruct X as [X|X]; [auto|]. rewrite ?in_app_iff in X. destruct C as [C|[w C]]; rewrite C in X; cbn in X; [tauto|]. destruct X as [[[= <- <-]|[]]|X]; [congruence|auto]. }
  destruct (Nat.leb_spec (length t' * 2) (length (entries t') * 3)) as [H|H].
  - destruct (resize_ok {| m_used := length (entries t'); m_table := t' |} n L' eq_refl) as [m' [R1 [R2 [R3 R4]]]]. exists m'. split; [exact R1|]. split; [exact R2|].
    intros F. destruct (FT F) as [F1 F2]. split; [apply R4; now apply findable_nodup|]. intros k' v'. rewrite <- F2. split; apply Permutation_in; [exact R3|now symmetry].
  - eexists. split; [reflexivity|]. split; [split; [|reflexivity]; split; [eauto|cbn [m_table]; lia]|]. exact FT.
Qed.

Lemma set_item_ok m k v : good_map m -> exists m', set_item eqb hash m k v = Ok m' /\ good_map m' /\
  (findable (m_table m) -> findable (m_table m') /\ stored m m' k v).
Proof.
  intros GM. pose proof GM as [G U]. destruct (get_entry_ex (m_table m) k G) as [e E]. destruct (get_entry_spec _ _ _ G E) as [Lt C].
  unfold set_item. rewrite E. destruct C as [C|[w C]]; rewrite C; [now apply set_node_ok|].
  destruct (set_node_ok m k v GM) as [m' [S1 [S2 S3]]]. unfold set_node in S1. rewrite E, C in S1. cbn zeta in S1. cbn [m_table] in S1. rewrite length_set_slot in S1.
  destruct (Nat.leb_spec (length (m_table m) * 2) (m_used m * 3)) as [H|H]; [exfalso; destruct G as [_ R]; lia|]. injection S1 as <-.
  eexists. split; [reflexivity|]. split; assumption.
Qed.

Lemma del_node_ok m k : good_map m ->
  (exists m' v, del_node eqb hash m k = Ok m' /\ good_map m' /\ In (k, v) (entries (m_table m)) /\
     (findable (m_table m) -> (forall k' v', In (k', v') (entries (m_table m')) <-> k' <> k /\ In (k', v') (entries (m_table m))) /\ NoDup (keys m') /\ get_node eqb hash m' k = Ok None /\ m_used m = S (m_used m'))) \/
  (del_node eqb hash m k = Err AttributeError /\ (findable (m_table m) -> forall v, ~ In (k, v) (entries (m_table m)))).
Proof.
  intros GM. pose proof GM as [G U]. destruct (get_entry_ex (m_table m) k G) as [e E]. destruct (get_entry_spec _ _ _ G E) as [Lt C]. destruct (entries_slot (m_table m) e Lt) as [l1 [l2 [E1 E2]]].
  unfold del_node. rewrite E. destruct C as [C|[w C]]; rewrite C in *.
  - right. split; [reflexivity|]. intros F v I. apply in_entries in I. destruct I as [e' I]. pose proof (F e' k v I) as FE. rewrite E in FE. injection FE as <-. congruence.
  - left. eexists. exists w. split; [reflexivity|]. pose proof (E2 None) as E3. cbn in E1, E3.
    assert (good_map {| m_used := m_used m - 1; m_table := set_slot (m_table m) e None |}) as GM'.
    { split; cbn [m_table m_used]; [|rewrite E3, U, E1, !app_length; cbn; lia]. destruct (g_size _ G) as [n L]. split; [rewrite length_set_slot; eauto|]. rewrite length_set_slot, E3. pose proof (g_room _ G) as R. rewrite E1 in R. rewrite app_length in *. cbn in R. lia. }
    split; [exact GM'|]. split; [apply in_entries; eauto|]. intros F. pose proof (findable_nodup _ F) as D. rewrite E1, map_app in D. cbn in D.
    assert (forall k' v', In (k', v') (entries (set_slot (m_table m) e None)) <-> k' <> k /\ In (k', v') (entries (m_table m))) as ST.
    { intros k' v'. rewrite E1, E3, !in_app_iff. cbn. apply NoDup_remove_2 in D. split.
      - intros X. split; [|tauto]. intros ->. apply D, in_or_app. destruct X as [X|X]; [left|right]; apply (in_map fst) in X; exact X.
      - intros [N [X|[[= <- <-]|X]]]; [auto|congruence|auto]. }
    cbn [m_table m_used]. split; [exact ST|]. split; [unfold keys; cbn [m_table]; rewrite E3, map_app; eapply NoDup_remove_1; eauto|]. split.
    + destruct (get_ok _ k GM') as [o [O1 [O2 _]]]. cbn [m_table] in *. rewrite O1. f_equal. destruct o as [v|]; [|reflexivity]. exfalso. specialize (O2 v eq_refl). apply ST in O2. tauto.
    + rewrite U, E1, app_length. cbn. lia.
Qed.
End Table.
