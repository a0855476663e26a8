(** * The child array of a container (proofs about container.c's array code) *)
From Coq Require Import NArith ZArith String List Bool Lia Arith.
From Verif Require Import PyStr PyErr DomModel DomSpec.
Import ListNotations.
Local Open Scope nat_scope.

(** The first slots of [cells] are the nodes [l]. *)
Definition holds (cells : list (option nat)) (l : list nat) : Prop :=
  length l <= length cells /\ forall i, i < length l -> nth i cells None = nth_error l i.

Lemma read_cells_holds k cells l : read_cells k cells = Ok l <-> k = length l /\ holds cells l.
Proof.
  revert cells l. induction k as [|k IH]; intros cells l; cbn [read_cells].
  - split.
    + intros [= <-]. split; [reflexivity|]. split; cbn; [lia|intros; lia].
    + intros [H _]. destruct l; [reflexivity|discriminate].
  - destruct cells as [|[c|] cells].
    + split; [discriminate|]. intros [H [Hl _]]. cbn in Hl. lia.
    + unfold bind. destruct (read_cells k cells) as [r|e] eqn:E.
      * apply IH in E. destruct E as [E1 [E2 E3]]. split.
        -- intros [= <-]. split; [cbn; lia|]. split; [cbn; lia|]. intros [|i] Hi; cbn in *; [reflexivity|apply E3; lia].
        -- intros [H1 [H2 H3]]. destruct l as [|c' l]; [discriminate|]. f_equal.
           pose proof (H3 0 ltac:(cbn; lia)) as H0. cbn in H0. injection H0 as ->. f_equal.
           cbn in H1. injection H1 as H1.
           assert (read_cells k cells = Ok r) as X by (apply IH; split; [exact E1|split; assumption]).
           enough (read_cells k cells = Ok l) by congruence. apply IH. split; [exact H1|]. split; [cbn in H2; lia|]. intros i Hi. apply (H3 (S i)). cbn. lia.
      * split; [discriminate|]. intros [H1 [H2 H3]]. destruct l as [|c' l]; [discriminate|].
        cbn in H1. injection H1 as H1. exfalso.
        assert (read_cells k cells = Ok l) as X; [|congruence]. apply IH. split; [exact H1|].
        split; [cbn in H2; lia|]. intros i Hi. apply (H3 (S i)). cbn. lia.
    + split; [discriminate|]. intros [H1 [_ H3]]. destruct l as [|c' l]; [discriminate|].
      specialize (H3 0 ltac:(cbn; lia)). discriminate.
Qed.

Lemma nth_set_nth {A} (l : list A) i j x d : nth i (set_nth l j x) d = if (i =? j) && (j <? length l) then x else nth i l d.
Proof.
  revert i j. induction l as [|y l IH]; intros i j; cbn [set_nth].
  - destruct i; cbn [nth length]; replace (j <? 0) with false by (symmetry; apply Nat.ltb_ge; lia); now rewrite andb_false_r.
  - destruct j, i; cbn [nth length]; try reflexivity. rewrite IH. reflexivity.
Qed.
Lemma length_set_nth {A} (l : list A) j x : length (set_nth l j x) = length l.
Proof. revert j. induction l as [|y l IH]; intros [|j]; cbn; auto. Qed.

(** Reallocation keeps the slots that are in use, and makes enough of them. *)
Lemma resize_cells n k : k <= length (n_cells (container_resize n k)) /\ forall i, i < k -> nth i (n_cells (container_resize n k)) None = nth i (n_cells n) None.
Proof.
  unfold container_resize.
  destruct ((k <=? length (n_cells n)) && ((length (n_cells n) / 2 <=? k) || negb (n_frozen n))) eqn:E.
  - apply andb_true_iff in E. destruct E as [E _]. apply Nat.leb_le in E. cbn. split; [exact E|reflexivity].
  - cbn [n_cells set_count set_cells].
    set (na := if k =? 0 then 0 else k / 8 + (if k <? 9 then 3 else 6) + k).
    assert (k <= na) as Hna. { unfold na. destruct (Nat.eqb_spec k 0); [lia|]. set (q := k / 8). lia. }
    clearbody na. split.
    + rewrite app_length, firstn_length, repeat_length. lia.
    + intros i Hi. destruct (Nat.lt_ge_cases i (length (n_cells n))) as [H|H].
      * rewrite app_nth1 by (rewrite firstn_length; lia).
        rewrite <- (firstn_skipn na (n_cells n)) at 2. rewrite app_nth1 by (rewrite firstn_length; lia). reflexivity.
      * rewrite (nth_overflow (n_cells n)) by exact H.
        rewrite app_nth2 by (rewrite firstn_length; lia). apply nth_repeat.
Qed.
Lemma resize_room n k : 0 < k -> k < length (n_cells n) -> k < length (n_cells (container_resize n k)).
Proof.
  intros H0 H. unfold container_resize.
  destruct ((k <=? length (n_cells n)) && ((length (n_cells n) / 2 <=? k) || negb (n_frozen n))); [exact H|].
  cbn [n_cells set_count set_cells]. destruct (Nat.eqb_spec k 0); [lia|].
  rewrite app_length, firstn_length, repeat_length. set (q := k / 8). destruct (k <? 9); lia.
Qed.
Lemma resize_count n k : n_count (container_resize n k) = k.
Proof. unfold container_resize. destruct (_ && _); reflexivity. Qed.

Lemma nth_firstn {A} k (l : list A) i d : nth i (firstn k l) d = if i <? k then nth i l d else d.
Proof.
  revert k i. induction l as [|x l IH]; intros k i.
  - rewrite firstn_nil. destruct i; destruct (_ <? k); reflexivity.
  - destruct k; [destruct i; reflexivity|]. destruct i; [reflexivity|]. cbn [firstn nth]. rewrite IH. reflexivity.
Qed.
Lemma nth_skipn {A} k (l : list A) i d : nth i (skipn k l) d = nth (k + i) l d.
Proof. revert l. induction k; intros l; [reflexivity|]. destruct l; cbn; [destruct i; reflexivity|apply IHk]. Qed.

Lemma shift_down_nth cells idx k i : idx < k -> k <= length cells ->
  nth i (shift_down cells idx k) None = if (idx <=? i) && (i <? k - 1) then nth (S i) cells None else nth i cells None.
Proof.
  intros H1 H2. unfold shift_down.
  destruct (Nat.lt_ge_cases i idx) as [H|H].
  - rewrite app_nth1 by (rewrite firstn_length; lia). rewrite nth_firstn.
    destruct (Nat.ltb_spec i idx); [|lia]. destruct (Nat.leb_spec idx i); [lia|]. reflexivity.
  - rewrite app_nth2; rewrite firstn_length; [|lia]. rewrite (Nat.min_l idx) by lia.
    destruct (Nat.leb_spec idx i); [|lia]. cbn [andb].
    destruct (Nat.ltb_spec i (k - 1)).
    + rewrite app_nth1 by (rewrite firstn_length, skipn_length; lia). rewrite nth_firstn.
      destruct (Nat.ltb_spec (i - idx) (k - S idx)); [|lia]. rewrite nth_skipn. f_equal. lia.
    + rewrite app_nth2; rewrite firstn_length, skipn_length; [|lia]. rewrite nth_skipn. f_equal. lia.
Qed.
Lemma shift_down_length cells idx k : idx < k -> k <= length cells -> length (shift_down cells idx k) = length cells.
Proof. intros. unfold shift_down. rewrite !app_length, !firstn_length, !skipn_length. lia. Qed.

Lemma shift_up_length w k : forall cells, length (shift_up cells w k) = length cells.
Proof. induction k; intros cells; cbn [shift_up]; [reflexivity|]. destruct (w <=? k); [|reflexivity]. rewrite IHk. apply length_set_nth. Qed.
Lemma shift_up_nth w k : forall cells i, k < length cells ->
  nth i (shift_up cells w k) None = if (w <? i) && (i <=? k) then nth (i - 1) cells None else nth i cells None.
Proof.
  induction k as [|k IH]; intros cells i Hk; cbn [shift_up].
  - destruct (Nat.ltb_spec w i), (Nat.leb_spec i 0); cbn [andb]; try reflexivity. lia.
  - destruct (Nat.leb_spec w k) as [H|H].
    + rewrite IH by (rewrite length_set_nth; lia). rewrite !nth_set_nth.
      destruct (Nat.ltb_spec w i), (Nat.leb_spec i k), (Nat.leb_spec i (S k)); cbn [andb]; try lia;
        destruct (Nat.eqb_spec i (S k)), (Nat.eqb_spec (i - 1) (S k)), (Nat.ltb_spec (S k) (length cells)); cbn [andb]; try lia; try reflexivity.
      subst i. f_equal. lia.
    + destruct (Nat.ltb_spec w i), (Nat.leb_spec i (S k)); cbn [andb]; try reflexivity. lia.
Qed.

(** Searching from the end. *)
Lemma rfind_some cells c k i : rfind cells c k = Some i -> i < k /\ nth i cells None = Some c.
Proof.
  induction k as [|k IH]; cbn [rfind]; [discriminate|].
  destruct (nth_error cells k) as [[x|]|] eqn:E.
  - destruct (Nat.eqb_spec x c) as [->|].
    + intros [= <-]. split; [lia|]. now apply nth_error_nth.
    + intros H. apply IH in H. split; [lia|tauto].
  - intros H. apply IH in H. split; [lia|tauto].
  - intros H. apply IH in H. split; [lia|tauto].
Qed.
Lemma rfind_none cells c k i : rfind cells c k = None -> i < k -> nth i cells None <> Some c.
Proof.
  induction k as [|k IH]; cbn [rfind]; intros H Hi; [lia|].
  destruct (Nat.eq_dec i k) as [->|].
  - destruct (nth_error cells k) as [[x|]|] eqn:E.
    + destruct (Nat.eqb_spec x c) as [->|]; [discriminate|]. rewrite (nth_error_nth _ _ _ E). congruence.
    + rewrite (nth_error_nth _ _ _ E). discriminate.
    + apply nth_error_None in E. rewrite nth_overflow by exact E. discriminate.
  - apply IH; [|lia]. destruct (nth_error cells k) as [[x|]|]; try exact H. destruct (Nat.eqb x c); [discriminate|exact H].
Qed.
Lemma lfind_some cells c : forall left i r, lfind cells c i left = Some r -> i <= r < i + left /\ nth r cells None = Some c /\ forall k, i <= k < r -> nth k cells None <> Some c.
Proof.
  induction left as [|left IH]; intros i r; cbn [lfind]; [discriminate|].
  assert (forall (H : lfind cells c (S i) left = Some r), nth i cells None <> Some c -> i <= r < i + S left /\ nth r cells None = Some c /\ forall k, i <= k < r -> nth k cells None <> Some c) as G.
  { intros H Hn. apply IH in H. destruct H as [H1 [H2 H3]]. split; [lia|]. split; [exact H2|]. intros k Hk. destruct (Nat.eq_dec k i) as [->|]; [exact Hn|apply H3; lia]. }
  destruct (nth_error cells i) as [[x|]|] eqn:E.
  - destruct (Nat.eqb_spec x c) as [->|].
    + intros [= <-]. split; [lia|]. split; [now apply nth_error_nth|]. intros; lia.
    + intros H. apply (G H). rewrite (nth_error_nth _ _ _ E). congruence.
  - intros H. apply (G H). rewrite (nth_error_nth _ _ _ E). discriminate.
  - intros H. apply (G H). apply nth_error_None in E. rewrite nth_overflow by exact E. discriminate.
Qed.
Lemma lfind_none cells c : forall left i k, lfind cells c i left = None -> i <= k < i + left -> nth k cells None <> Some c.
Proof.
  induction left as [|left IH]; intros i k H Hk; cbn [lfind] in H; [lia|].
  destruct (Nat.eq_dec k i) as [->|].
  - destruct (nth_error cells i) as [[x|]|] eqn:E.
    + destruct (Nat.eqb_spec x c) as [->|]; [discriminate|]. rewrite (nth_error_nth _ _ _ E). congruence.
    + rewrite (nth_error_nth _ _ _ E). discriminate.
    + apply nth_error_None in E. rewrite nth_overflow by exact E. discriminate.
  - apply (IH (S i)); [|lia]. destruct (nth_error cells i) as [[x|]|]; try exact H. destruct (Nat.eqb x c); [discriminate|exact H].
Qed.

(** Positions in a list without repetition. *)
Lemma nodup_nth (l : list nat) i j c : NoDup l -> nth_error l i = Some c -> nth_error l j = Some c -> i = j.
Proof.
  intros H Hi Hj. apply (proj1 (NoDup_nth_error l) H); [apply nth_error_Some; congruence|congruence].
Qed.

Lemma nodup_app_cons (l1 l2 : list nat) c : NoDup (l1 ++ c :: l2) -> ~ In c l1 /\ ~ In c l2.
Proof. intros H. apply NoDup_remove_2 in H. split; intro; apply H, in_or_app; auto. Qed.

Lemma without_notin c l : ~ In c l -> without c l = l.
Proof.
  induction l as [|x l IH]; intros H; [reflexivity|]. cbn. destruct (Nat.eqb_spec x c) as [->|]; cbn.
  - exfalso. apply H. left. reflexivity.
  - f_equal. apply IH. intro. apply H. right. assumption.
Qed.
Lemma without_app c a b : without c (a ++ b) = without c a ++ without c b.
Proof. apply filter_app. Qed.
Lemma without_mid c l1 l2 : NoDup (l1 ++ c :: l2) -> without c (l1 ++ c :: l2) = l1 ++ l2.
Proof.
  intros H. apply nodup_app_cons in H. destruct H as [H1 H2]. rewrite without_app, (without_notin c l1) by exact H1. cbn. rewrite Nat.eqb_refl. cbn. f_equal. now apply without_notin.
Qed.
Lemma in_without c l x : In x (without c l) <-> In x l /\ x <> c.
Proof. unfold without. rewrite filter_In, negb_true_iff, Nat.eqb_neq. reflexivity. Qed.
Lemma nodup_without c l : NoDup l -> NoDup (without c l).
Proof. apply NoDup_filter. Qed.

Lemma nth_error_mid {A} (l1 l2 : list A) c i : nth_error (l1 ++ c :: l2) i = if i <? length l1 then nth_error l1 i else if i =? length l1 then Some c else nth_error l2 (i - S (length l1)).
Proof.
  destruct (Nat.ltb_spec i (length l1)).
  - now apply nth_error_app1.
  - rewrite nth_error_app2 by lia. destruct (Nat.eqb_spec i (length l1)) as [->|].
    + now rewrite Nat.sub_diag.
    + replace (i - length l1) with (S (i - S (length l1))) by lia. reflexivity.
Qed.
Lemma nth_error_cat {A} (l1 l2 : list A) i : nth_error (l1 ++ l2) i = if i <? length l1 then nth_error l1 i else nth_error l2 (i - length l1).
Proof. destruct (Nat.ltb_spec i (length l1)); [now apply nth_error_app1|now apply nth_error_app2]. Qed.

(** ** Removal *)

(** The result of the search for the child among the visible slots. *)
Lemma rfind_holds cells l1 c l2 : NoDup (l1 ++ c :: l2) -> holds cells (l1 ++ c :: l2) -> rfind cells c (length (l1 ++ c :: l2)) = Some (length l1).
Proof.
  intros Hd [Hl Hn].
  assert (length l1 < length (l1 ++ c :: l2)) as Hlt by (rewrite app_length; cbn; lia).
  assert (nth_error (l1 ++ c :: l2) (length l1) = Some c) as Hc. { rewrite nth_error_mid, Nat.ltb_irrefl, Nat.eqb_refl. reflexivity. }
  destruct (rfind cells c (length (l1 ++ c :: l2))) as [i|] eqn:E.
  - apply rfind_some in E. destruct E as [E1 E2]. f_equal. rewrite Hn in E2 by exact E1. eapply nodup_nth; eauto.
  - exfalso. apply (rfind_none _ _ _ _ E Hlt). rewrite Hn by exact Hlt. exact Hc.
Qed.
Lemma rfind_absent cells l c : ~ In c l -> holds cells l -> rfind cells c (length l) = None.
Proof.
  intros Hn [Hl H]. destruct (rfind cells c (length l)) as [i|] eqn:E; [|reflexivity].
  apply rfind_some in E. destruct E as [E1 E2]. rewrite H in E2 by exact E1. exfalso. apply Hn. eapply nth_error_In. exact E2.
Qed.
Lemma lfind_holds cells l1 c l2 : NoDup (l1 ++ c :: l2) -> holds cells (l1 ++ c :: l2) -> lfind cells c 0 (length (l1 ++ c :: l2)) = Some (length l1).
Proof.
  intros Hd [Hl Hn].
  assert (length l1 < length (l1 ++ c :: l2)) as Hlt by (rewrite app_length; cbn; lia).
  assert (nth_error (l1 ++ c :: l2) (length l1) = Some c) as Hc. { rewrite nth_error_mid, Nat.ltb_irrefl, Nat.eqb_refl. reflexivity. }
  destruct (lfind cells c 0 (length (l1 ++ c :: l2))) as [i|] eqn:E.
  - apply lfind_some in E. destruct E as [E1 [E2 _]]. f_equal. rewrite Hn in E2 by lia. eapply nodup_nth; eauto.
  - exfalso. apply (lfind_none _ _ _ _ (length l1) E); [lia|]. rewrite Hn by exact Hlt. exact Hc.
Qed.
Lemma lfind_absent cells l c : ~ In c l -> holds cells l -> lfind cells c 0 (length l) = None.
Proof.
  intros Hn [Hl H]. destruct (lfind cells c 0 (length l)) as [i|] eqn:E; [|reflexivity].
  apply lfind_some in E. destruct E as [E1 [E2 _]]. rewrite H in E2 by lia. exfalso. apply Hn. eapply nth_error_In. exact E2.
Qed.

(** The slots after a removal, [k] slots being in use. *)
Lemma removed_nth n idx k i : idx < k -> k <= length (n_cells n) -> i < k - 1 ->
  nth i (n_cells (container_resize (set_cells n (shift_down (n_cells n) idx k)) (k - 1))) None = nth (if idx <=? i then S i else i) (n_cells n) None.
Proof.
  intros H1 H2 H3. rewrite (proj2 (resize_cells _ _)) by exact H3. cbn [n_cells set_cells].
  rewrite shift_down_nth by assumption. destruct (Nat.leb_spec idx i); cbn [andb]; [|reflexivity].
  destruct (Nat.ltb_spec i (k - 1)); [reflexivity|lia].
Qed.
Lemma removed_holds n l1 c l2 : holds (n_cells n) (l1 ++ c :: l2) ->
  holds (n_cells (container_resize (set_cells n (shift_down (n_cells n) (length l1) (length (l1 ++ c :: l2)))) (length (l1 ++ c :: l2) - 1))) (l1 ++ l2).
Proof.
  intros [Hl Hn].
  assert (length (l1 ++ c :: l2) = S (length (l1 ++ l2))) as El by (rewrite !app_length; cbn; lia).
  assert (length (l1 ++ l2) = length l1 + length l2) as El2 by apply app_length.
  split.
  - etransitivity; [|apply (resize_cells _ _)]. lia.
  - intros i Hi. rewrite removed_nth by lia.
    rewrite Hn by (destruct (_ <=? _); lia). rewrite nth_error_mid, nth_error_cat.
    destruct (Nat.leb_spec (length l1) i).
    + destruct (Nat.ltb_spec (S i) (length l1)); [lia|]. destruct (Nat.eqb_spec (S i) (length l1)); [lia|].
      destruct (Nat.ltb_spec i (length l1)); [lia|]. f_equal.
    + destruct (Nat.ltb_spec i (length l1)); [reflexivity|lia].
Qed.

(** ** Insertion *)
Lemma insert_at_length w c l : length (insert_at w c l) = S (length l).
Proof. unfold insert_at. rewrite app_length, firstn_length. cbn. rewrite skipn_length. lia. Qed.
Lemma insert_at_nth w c l i : w <= length l -> nth_error (insert_at w c l) i = if i <? w then nth_error l i else if i =? w then Some c else nth_error l (i - 1).
Proof.
  intros H. unfold insert_at.
  assert (length (firstn w l) = w) as Lw by (rewrite firstn_length; lia).
  rewrite nth_error_mid, Lw.
  destruct (Nat.ltb_spec i w).
  - rewrite <- (firstn_skipn w l) at 2. rewrite nth_error_app1 by lia. reflexivity.
  - destruct (Nat.eqb_spec i w); [reflexivity|].
    rewrite <- (firstn_skipn w l) at 2. rewrite nth_error_app2 by lia. f_equal. lia.
Qed.
Lemma inserted_holds cells w c k l : w <= length l -> length l <= k -> k < length cells ->
  (forall i, i < length l -> nth i cells None = nth_error l i) -> holds (set_nth (shift_up cells w k) w (Some c)) (insert_at w c l).
Proof.
  intros Hw Hk Hc Hn. split.
  - rewrite length_set_nth, shift_up_length, insert_at_length. lia.
  - rewrite insert_at_length. intros i Hi. rewrite nth_set_nth, shift_up_length, insert_at_nth, shift_up_nth by assumption.
    destruct (Nat.eqb_spec i w) as [->|].
    + destruct (Nat.ltb_spec w (length cells)); [|lia]. cbn [andb]. now rewrite Nat.ltb_irrefl.
    + cbn [andb]. destruct (Nat.ltb_spec w i), (Nat.ltb_spec i w), (Nat.leb_spec i k); cbn [andb]; try lia; apply Hn; lia.
Qed.

Lemma clamp_py i n : clamp_index i n = py_index i n.
Proof.
  unfold clamp_index, py_index. destruct (Z.ltb_spec i 0); [f_equal; lia|].
  destruct (Z.gtb_spec i (Z.of_nat n)); lia.
Qed.
Lemma clamp_le i n : clamp_index i n <= n.
Proof. unfold clamp_index. destruct (Z.ltb_spec i 0); [lia|]. destruct (Z.gtb_spec i (Z.of_nat n)); lia. Qed.

Lemma insert_end c l : insert_at (length l) c l = l ++ [c].
Proof. unfold insert_at. rewrite firstn_all, skipn_all. reflexivity. Qed.
Lemma in_insert_at w c l x : In x (insert_at w c l) <-> x = c \/ In x l.
Proof.
  unfold insert_at. rewrite in_app_iff. cbn. rewrite <- (firstn_skipn w l) at 3. rewrite in_app_iff. intuition.
Qed.
Lemma nodup_insert_at w c l : NoDup l -> ~ In c l -> NoDup (insert_at w c l).
Proof.
  intros H Hn. unfold insert_at. apply NoDup_Add with (a := c) (l := firstn w l ++ skipn w l).
  - apply Add_app.
  - rewrite firstn_skipn. split; assumption.
Qed.
Lemma appended_holds cells c k l : length l = k -> k < length cells -> (forall i, i < length l -> nth i cells None = nth_error l i) -> holds (set_nth cells k (Some c)) (l ++ [c]).
Proof.
  intros <- Hc Hn. split.
  - rewrite length_set_nth, app_length. cbn. lia.
  - rewrite app_length. cbn [length]. intros i Hi. rewrite nth_set_nth, nth_error_mid.
    destruct (Nat.eqb_spec i (length l)) as [->|].
    + destruct (Nat.ltb_spec (length l) (length cells)); [|lia]. cbn [andb]. now rewrite Nat.ltb_irrefl.
    + cbn [andb]. destruct (Nat.ltb_spec i (length l)); [|lia]. apply Hn. lia.
Qed.
Lemma substituted_holds cells l1 o l2 n : holds cells (l1 ++ o :: l2) -> holds (set_nth cells (length l1) (Some n)) (l1 ++ n :: l2).
Proof.
  intros [Hl Hn].
  assert (length (l1 ++ n :: l2) = length (l1 ++ o :: l2)) as El by (rewrite !app_length; reflexivity).
  split; [rewrite length_set_nth; lia|]. rewrite El. intros i Hi. rewrite nth_set_nth.
  destruct (Nat.eqb_spec i (length l1)) as [->|].
  - destruct (Nat.ltb_spec (length l1) (length cells)); [|lia]. cbn [andb]. rewrite nth_error_mid, Nat.ltb_irrefl, Nat.eqb_refl. reflexivity.
  - cbn [andb]. rewrite Hn by exact Hi. rewrite !nth_error_mid. destruct (Nat.eqb_spec i (length l1)); [lia|]. reflexivity.
Qed.
