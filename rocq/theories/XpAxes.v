(** * Proofs about the axes: what the iterators yield *)
From Coq Require Import NArith ZArith String List Bool Lia Arith Sorted.
From Verif Require Import PyStr PyErr DomModel DomSpec DomCells DomInv DomOps DomStep DomOrder XpModel XpSpec XpTree.
Import ListNotations.
Local Open Scope nat_scope.

Lemma kids_container s n c : forest s -> In c (kids s n) -> is_element s n || is_entity s n = true.
Proof.
  intros F I. apply (kid_parent s n c F) in I. destruct (f_parent s F n c I) as [k [K C]].
  unfold is_element, is_entity, has_kind. unfold kind_of in K. destruct (get s n) as [m|]; [|discriminate]. injection K as <-. destruct (n_kind m); cbn in *; auto; discriminate.
Qed.
Lemma child_next_ok s n i : forest s -> exists_node s n ->
  child_axis_next s (Some n, i) = Ok (match nth_error (kids s n) i with Some c => Some (c, (Some n, S i)) | None => None end).
Proof.
  intros F E. destruct (get_ex s n E) as [m G]. unfold child_axis_next. rewrite G. destruct (forest_holds s n m F G) as [C H]. rewrite C.
  destruct (Nat.ltb_spec i (length (kids s n))) as [L|L].
  - destruct (nth_error (kids s n) i) as [c|] eqn:N; [|apply nth_error_None in N; lia]. now rewrite (holds_nth _ _ _ _ H N).
  - apply nth_error_None in L. now rewrite L.
Qed.
Lemma skipn_nth {A} (l : list A) i : skipn i l = match nth_error l i with Some x => x :: skipn (S i) l | None => [] end.
Proof. revert i. induction l as [|x l IH]; intros [|i]; cbn; try reflexivity. rewrite IH. reflexivity. Qed.
Lemma kids_short s n : forest s -> length (kids s n) <= length (s_nodes s).
Proof. intros F. apply (sorted_short s); [exact F|intros x X; eapply kid_exists; eauto|apply (f_nodup s F)]. Qed.
Lemma drain_children_ok s n : forest s -> exists_node s n -> forall fuel i, i <= length (kids s n) -> length (kids s n) < fuel + i -> drain_children fuel s (Some n, i) = Ok (skipn i (kids s n)).
Proof.
  intros F E. induction fuel as [|f IH]; intros i Li L; [lia|].
  cbn [drain_children]. rewrite child_next_ok by assumption. cbn [bind]. rewrite (skipn_nth _ i).
  destruct (nth_error (kids s n) i) as [c|] eqn:N; [|reflexivity]. assert (i < length (kids s n)) by (apply nth_error_Some; congruence).
  rewrite IH by lia. reflexivity.
Qed.
Lemma child_axis_ok s n : forest s -> exists_node s n -> child_axis s n = Ok (kids s n).
Proof.
  intros F E. unfold child_axis, child_axis_init. destruct (is_element s n || is_entity s n) eqn:C.
  - rewrite drain_children_ok; [reflexivity|exact F|exact E|lia|]. pose proof (kids_short s n F). unfold bound. lia.
  - cbn. destruct (kids s n) as [|c l] eqn:K; [reflexivity|]. rewrite (kids_container s n c F) in C; [discriminate|]. rewrite K. now left.
Qed.

(** ** The descendant iterator *)
Definition iter_rep (s : store) (it : child_iter) (ts : list tree) : Prop :=
  Forall (rep s) ts /\
  match it with
  | (None, _) => ts = []
  | (Some n, i) => exists_node s n /\ skipn i (kids s n) = map root ts
  end.
Definition left_over (tss : list (list tree)) : list nat := flat_map (flat_map pre) tss.

Lemma iter_init s n ts : forest s -> exists_node s n -> rep s (T n ts) -> iter_rep s (child_axis_init s n) ts.
Proof.
  intros F E R. inversion R as [n' ts' K RT X]. subst. split; [exact RT|]. unfold child_axis_init. destruct (is_element s n || is_entity s n) eqn:C.
  - split; [exact E|exact K].
  - destruct ts as [|t ts]; [reflexivity|]. rewrite (kids_container s n (root t) F) in C; [discriminate|]. rewrite K. now left.
Qed.
Lemma next_ok s : forest s -> forall stack tss, Forall2 (iter_rep s) stack tss ->
  match left_over tss with
  | [] => descendant_axis_next s stack = Ok None
  | c :: l => exists stack' tss', descendant_axis_next s stack = Ok (Some (c, stack')) /\ Forall2 (iter_rep s) stack' tss' /\ left_over tss' = l
  end.
Proof.
  intros F stack tss H. induction H as [|it ts below tsb HI HB IH]; [reflexivity|]. cbn [left_over flat_map descendant_axis_next].
  destruct HI as [R HI]. destruct ts as [|[c cs] ts].
  - assert (child_axis_next s it = Ok None) as ->.
    { destruct it as [[n|] i]; [|reflexivity]. destruct HI as [E K]. rewrite child_next_ok by assumption. rewrite skipn_nth in K. destruct (nth_error (kids s n) i); [discriminate|reflexivity]. }
    cbn. exact IH.
  - destruct it as [[n|] i]; [|discriminate HI]. destruct HI as [E K]. rewrite skipn_nth in K. rewrite child_next_ok by assumption.
    destruct (nth_error (kids s n) i) as [c'|] eqn:N; [|discriminate]. cbn [map root] in K. injection K as -> K. cbn.
    inversion R as [|? ? R1 R2]; subst. pose proof (nth_error_In _ _ N) as IC. pose proof (kid_exists s n c F IC) as EC.
    pose proof (iter_init s c cs F EC R1) as I1.
    destruct (is_element s c) eqn:EL.
    + exists (child_axis_init s c :: (Some n, S i) :: below), (cs :: ts :: tsb). split; [reflexivity|]. split.
      * constructor; [exact I1|]. constructor; [|exact HB]. split; [exact R2|]. split; [exact E|exact K].
      * cbn. now rewrite app_assoc.
    + exists ((Some n, S i) :: below), (ts :: tsb). split; [reflexivity|].
      assert (cs = []) as ->.
      { destruct cs as [|d cs]; [reflexivity|]. exfalso. inversion R1 as [? ? KC _]; subst. destruct (f_kind s F n c IC) as [k [KK CK]].
        assert (is_element s c || is_entity s c = true) as X by (apply (kids_container s c (root d) F); rewrite KC; now left).
        rewrite EL in X. cbn in X. unfold is_entity, has_kind in X. unfold kind_of in KK. destruct (get s c) as [m|]; [|discriminate]. injection KK as <-. destruct (n_kind m); discriminate. }
      split; [constructor; [split; [exact R2|split; [exact E|exact K]]|exact HB]|reflexivity].
Qed.
Lemma drain_descendants_ok s : forest s -> forall fuel stack tss, Forall2 (iter_rep s) stack tss -> length (left_over tss) < fuel -> drain_descendants fuel s stack = Ok (left_over tss).
Proof.
  intros F. induction fuel as [|f IH]; intros stack tss H L; [lia|]. cbn [drain_descendants]. pose proof (next_ok s F stack tss H) as N.
  destruct (left_over tss) as [|c l]; [now rewrite N|]. destruct N as [stack' [tss' [E [H' L']]]]. rewrite E. cbn [bind]. rewrite (IH stack' tss' H') by (rewrite L'; cbn in L; lia). cbn. now rewrite L'.
Qed.
Lemma descendant_axis_ok s n ts : forest s -> exists_node s n -> rep s (T n ts) -> descendant_axis s n = Ok (flat_map pre ts).
Proof.
  intros F E R. unfold descendant_axis. rewrite (drain_descendants_ok s F (bound s) [child_axis_init s n] [ts]).
  - cbn. now rewrite app_nil_r.
  - constructor; [now apply iter_init|constructor].
  - pose proof (pre_length s (T n ts) F R E) as L. cbn in L |- *. rewrite app_nil_r. unfold bound. lia.
Qed.

(** ** Siblings *)
Lemma cells_from_ok cells l : holds cells l -> forall left i, i + left = length l -> cells_from cells i left = Ok (skipn i l).
Proof.
  intros H. induction left as [|k IH]; intros i L; cbn [cells_from].
  - now rewrite skipn_all2 by lia.
  - rewrite skipn_nth. destruct (nth_error l i) as [c|] eqn:N; [|apply nth_error_None in N; lia]. rewrite (holds_nth _ _ _ _ H N), IH by lia. reflexivity.
Qed.
Lemma following_sibling_ok s p i n : forest s -> nth_error (kids s p) i = Some n -> following_sibling_axis s n = Ok (skipn (S i) (kids s p)).
Proof.
  intros F N. pose proof (kid_parent_nth s p i n F N) as P. unfold following_sibling_axis. rewrite P. destruct (sibling_get s p n F P) as [m [G [C H]]]. rewrite G, C.
  rewrite (lfind_nth _ _ _ _ (f_nodup s F p) H N). apply cells_from_ok; [exact H|]. assert (i < length (kids s p)) by (apply nth_error_Some; congruence). lia.
Qed.
Lemma firstn_snoc {A} (l : list A) i x : nth_error l i = Some x -> firstn (S i) l = firstn i l ++ [x].
Proof. revert i. induction l as [|y l IH]; intros [|i]; cbn; try discriminate; [now intros [= ->]|]. intros H. f_equal. now apply IH. Qed.
Lemma preceding_siblings_ok s p : forest s -> forall i fuel, i <= fuel -> i <= length (kids s p) ->
  preceding_siblings fuel s (match i with O => None | S j => nth_error (kids s p) j end) = Ok (rev (firstn i (kids s p))).
Proof.
  intros F. induction i as [|i IH]; intros fuel L H; [destruct fuel; reflexivity|].
  destruct fuel as [|f]; [lia|]. destruct (nth_error (kids s p) i) as [x|] eqn:N; [|apply nth_error_None in N; lia].
  cbn [preceding_siblings]. rewrite (preceding_ok s p i x F N). cbn [bind]. rewrite IH by lia. cbn [bind]. rewrite (firstn_snoc _ _ _ N), rev_app_distr. reflexivity.
Qed.

(** ** following and preceding *)
Lemma nth_map_root ts i t : nth_error ts i = Some t -> nth_error (map root ts) i = Some (root t).
Proof. intros H. now apply map_nth_error. Qed.
Lemma following_loop_ok s p ts : forest s -> kids s p = map root ts -> Forall (rep s) ts -> forall k fuel i, i + k = length ts -> k <= fuel ->
  following_loop fuel s (nth_error (kids s p) i) = Ok (flat_map pre (skipn i ts)).
Proof.
  intros F K R. induction k as [|k IH]; intros fuel i L Lf.
  - assert (nth_error (kids s p) i = None) as -> by (apply nth_error_None; rewrite K, map_length; lia). rewrite skipn_all2 by lia. destruct fuel; reflexivity.
  - destruct fuel as [|f]; [lia|]. destruct (nth_error ts i) as [t|] eqn:N; [|apply nth_error_None in N; lia].
    assert (nth_error (kids s p) i = Some (root t)) as N' by (rewrite K; now apply nth_map_root). rewrite N'. cbn [following_loop].
    pose proof (nth_error_In _ _ N) as It. rewrite Forall_forall in R. pose proof (R t It) as Rt. destruct t as [x xs]. cbn [root] in *.
    assert (exists_node s x) as Ex by (apply (kid_exists s p x F); eapply nth_error_In; eauto).
    rewrite (descendant_axis_ok s x xs F Ex Rt). cbn [bind]. rewrite (following_ok s p i x F N'). cbn [bind]. rewrite IH by lia. cbn [bind].
    rewrite (skipn_nth ts i), N. cbn. reflexivity.
Qed.
Lemma last_child_ok s n : forest s -> exists_node s n -> get_last_child s n = Ok (match length (kids s n) with O => None | S k => nth_error (kids s n) k end).
Proof.
  intros F E. destruct (get_ex s n E) as [m G]. unfold get_last_child. rewrite G. destruct (forest_holds s n m F G) as [C H]. rewrite C.
  destruct (length (kids s n)) as [|k] eqn:L; [reflexivity|]. destruct (nth_error (kids s n) k) as [c|] eqn:N; [|apply nth_error_None in N; lia]. now rewrite (holds_nth _ _ _ _ H N).
Qed.
Fixpoint height (t : tree) : nat := match t with T _ ts => S (list_max (map height ts) + length ts) end.

Lemma flat_rev ts : flat_map (fun t => rev (pre t)) (rev ts) = rev (flat_map pre ts).
Proof. induction ts as [|t ts IH]; [reflexivity|]. cbn. rewrite flat_map_app, IH. cbn. now rewrite app_nil_r, rev_app_distr. Qed.

(** The generator started at the i-th child (1-based) of [p], with room for the
    nodes it visits. *)
Lemma preceding_gen_ok s : forest s -> forall fuel p ts i, kids s p = map root ts -> Forall (rep s) ts -> i <= length ts -> length (flat_map pre (firstn i ts)) <= fuel ->
  preceding_gen fuel s (match i with O => None | S j => nth_error (kids s p) j end) = Ok (rev (flat_map pre (firstn i ts))).
Proof.
  intros F. induction fuel as [|f IH]; intros p ts i K R Li L.
  - destruct i as [|i]; [reflexivity|]. exfalso. destruct ts as [|[x xs] ts]; cbn in *; lia.
  - destruct i as [|i]; [reflexivity|]. destruct (nth_error ts i) as [t|] eqn:N; [|apply nth_error_None in N; lia].
    assert (nth_error (kids s p) i = Some (root t)) as N' by (rewrite K; now apply nth_map_root). rewrite N'.
    pose proof (nth_error_In _ _ N) as It. pose proof R as R0. rewrite Forall_forall in R0. pose proof (R0 t It) as Rt. destruct t as [x xs]. cbn [root] in *.
    pose proof (nth_error_In _ _ N') as Ix. assert (exists_node s x) as Ex by exact (kid_exists s p x F Ix).
    rewrite (firstn_snoc _ _ _ N), flat_map_app, app_length in L. cbn [flat_map pre] in L. rewrite app_nil_r in L. cbn [length] in L.
    inversion Rt as [? ? KX RX]; subst.
    cbn [preceding_gen].
    assert ((if is_element s x then do c <- get_last_child s x ; preceding_gen f s c else Ok []) = Ok (rev (flat_map pre xs))) as ->.
    { destruct (is_element s x) eqn:EL.
      - rewrite (last_child_ok s x F Ex). cbn [bind]. pose proof (IH x xs (length xs) KX RX (le_n _)) as X. rewrite firstn_all in X. rewrite KX, map_length in *. apply X. lia.
      - destruct xs as [|d xs]; [reflexivity|]. exfalso. destruct (f_kind s F p x Ix) as [k [KK CK]].
        assert (is_element s x || is_entity s x = true) as X by (apply (kids_container s x (root d) F); rewrite KX; now left).
        rewrite EL in X. cbn in X. unfold is_entity, has_kind in X. unfold kind_of in KK. destruct (get s x) as [m|]; [|discriminate]. injection KK as <-. destruct (n_kind m); discriminate. }
    cbn [bind]. rewrite (preceding_ok s p i x F N'). cbn [bind]. rewrite (IH p ts i K R) by lia. cbn [bind].
    rewrite (firstn_snoc _ _ _ N), flat_map_app, rev_app_distr. cbn [flat_map pre]. rewrite app_nil_r. cbn [rev]. now rewrite <- app_assoc.
Qed.
