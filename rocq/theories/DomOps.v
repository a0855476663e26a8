(** * The effect of append, insert, remove and replace on a consistent forest *)
From Coq Require Import NArith ZArith String List Bool Lia Arith.
From Verif Require Import PyStr PyErr DomModel DomSpec DomCells DomInv.
Import ListNotations.
Local Open Scope nat_scope.

Lemma resize_meta n k : n_kind (container_resize n k) = n_kind n /\ n_parent (container_resize n k) = n_parent n /\ n_data (container_resize n k) = n_data n /\
  n_attrs (container_resize n k) = n_attrs n /\ n_index (container_resize n k) = n_index n /\ n_frozen (container_resize n k) = n_frozen n.
Proof. unfold container_resize. destruct (_ && _); repeat split; reflexivity. Qed.
Ltac rmeta := repeat match goal with
  | |- context[n_kind (container_resize ?n ?k)] => rewrite (proj1 (resize_meta n k))
  | |- context[n_parent (container_resize ?n ?k)] => rewrite (proj1 (proj2 (resize_meta n k)))
  | |- context[n_data (container_resize ?n ?k)] => rewrite (proj1 (proj2 (proj2 (resize_meta n k))))
  | |- context[n_attrs (container_resize ?n ?k)] => rewrite (proj1 (proj2 (proj2 (proj2 (resize_meta n k)))))
  | |- context[n_index (container_resize ?n ?k)] => rewrite (proj1 (proj2 (proj2 (proj2 (proj2 (resize_meta n k))))))
  | |- context[n_count (container_resize ?n ?k)] => rewrite (resize_count n k)
  end.

(** The node of a container after Container_Remove. *)
Definition removed (m : node) (c : nat) : node :=
  match rfind (n_cells m) c (n_count m) with
  | Some idx => container_resize (set_cells m (shift_down (n_cells m) idx (n_count m))) (n_count m - 1)
  | None => m
  end.
Definition is_opt (o : option nat) (j : nat) : bool := match o with Some q => j =? q | None => false end.
Definition orphan (m : node) (b : bool) : node := if b then set_parent m None else m.

Lemma set_parent_id m : n_parent m = None -> set_parent m None = m.
Proof. destruct m. cbn. intros ->. reflexivity. Qed.

Lemma remove_get s q c n idx : get s q = Some n -> rfind (n_cells n) c (n_count n) = Some idx ->
  exists s', container_remove s q c = (s', Ok tt) /\ length (s_nodes s') = length (s_nodes s) /\ s_counter s' = s_counter s /\
    forall j, get s' j = option_map (fun m => let m1 := orphan m (j =? c) in if j =? q then removed m1 c else m1) (get s j).
Proof.
  intros G R. unfold container_remove. rewrite G, R. eexists. split; [reflexivity|].
  rewrite !upd_len, !upd_counter. split; [reflexivity|]. split; [reflexivity|].
  intros j. rewrite !get_upd. unfold orphan. destruct (Nat.eqb_spec j q) as [->|].
  - rewrite G. destruct (q =? c); cbn [option_map]; f_equal; unfold removed; cbn [set_parent n_cells n_count]; rewrite R; reflexivity.
  - destruct (j =? c); destruct (get s j); reflexivity.
Qed.

Lemma detach_get s c : (forall q, parent_of s c = Some q -> exists n idx, get s q = Some n /\ rfind (n_cells n) c (n_count n) = Some idx) ->
  exists s', detach s c = (s', Ok tt) /\ length (s_nodes s') = length (s_nodes s) /\ s_counter s' = s_counter s /\
    forall j, get s' j = option_map (fun m => let m1 := orphan m (j =? c) in if is_opt (parent_of s c) j then removed m1 c else m1) (get s j).
Proof.
  intros H. unfold detach. destruct (parent_of s c) as [q|] eqn:P.
  - destruct (H q eq_refl) as [n [idx [G R]]]. destruct (remove_get s q c n idx G R) as [s' [E1 [E2 [E3 E4]]]].
    exists s'. repeat (split; [assumption|]). exact E4.
  - exists s. repeat (split; [reflexivity|]). intros j. cbn [is_opt]. destruct (get s j) as [m|] eqn:G; [|reflexivity].
    cbn. f_equal. unfold orphan. destruct (Nat.eqb_spec j c) as [->|]; [|reflexivity].
    symmetry. apply set_parent_id. unfold parent_of in P. now rewrite G in P.
Qed.

Lemma in_kids_split s p c : In c (kids s p) -> exists l1 l2, kids s p = l1 ++ c :: l2.
Proof. apply in_split. Qed.
Lemma forest_rfind s p c n : forest s -> get s p = Some n -> In c (kids s p) -> exists idx, rfind (n_cells n) c (n_count n) = Some idx.
Proof.
  intros F G I. destruct (forest_holds s p n F G) as [C H]. destruct (in_split _ _ I) as [l1 [l2 E]].
  rewrite C. rewrite E in *. exists (length l1). apply rfind_holds; [|exact H]. rewrite <- E. apply (f_nodup s F).
Qed.
Lemma removed_spec m c l : holds (n_cells m) l -> n_count m = length l -> NoDup l -> In c l -> n_count (removed m c) = length (without c l) /\ holds (n_cells (removed m c)) (without c l).
Proof.
  intros H C D I. destruct (in_split _ _ I) as [l1 [l2 ->]]. unfold removed. rewrite C, rfind_holds by assumption.
  rewrite resize_count, without_mid by exact D. split; [rewrite !app_length; cbn; lia|]. now apply removed_holds.
Qed.
Lemma removed_meta m c : n_kind (removed m c) = n_kind m /\ n_parent (removed m c) = n_parent m /\ n_data (removed m c) = n_data m /\ n_attrs (removed m c) = n_attrs m /\ n_index (removed m c) = n_index m.
Proof. unfold removed. destruct (rfind _ _ _); [|repeat split; reflexivity]. rmeta. repeat split; reflexivity. Qed.
Lemma orphan_meta m b : n_kind (orphan m b) = n_kind m /\ n_data (orphan m b) = n_data m /\ n_attrs (orphan m b) = n_attrs m /\ n_index (orphan m b) = n_index m /\ n_cells (orphan m b) = n_cells m /\ n_count (orphan m b) = n_count m /\ n_parent (orphan m b) = if b then None else n_parent m.
Proof. destruct b; repeat split; reflexivity. Qed.

Lemma kids_parent s p c : forest s -> In c (kids s p) -> parent_of s c = Some p.
Proof. intros F H. now apply (f_link s F) in H. Qed.
Lemma without_other s p c : forest s -> parent_of s c <> Some p -> without c (kids s p) = kids s p.
Proof. intros F H. apply without_notin. intro I. apply H. now apply kids_parent. Qed.
Lemma parent_none s par i c v : (forall j, get s j = None -> par j = None) -> get s c <> None -> get s i = None -> set_par par c v i = None.
Proof. intros H Hc Hi. unfold set_par. destruct (Nat.eqb_spec i c) as [->|]; [contradiction|now apply H]. Qed.
Lemma parent_of_none s j : get s j = None -> parent_of s j = None.
Proof. unfold parent_of. now intros ->. Qed.
Lemma parent_of_get s j n : get s j = Some n -> parent_of s j = n_parent n.
Proof. unfold parent_of. now intros ->. Qed.

(** ** Container_Remove *)
Lemma remove_edited s p c : forest s -> In c (kids s p) ->
  exists s', container_remove s p c = (s', Ok tt) /\ edited s s' (fun q => without c (kids s q)) (set_par (parent_of s) c None).
Proof.
  intros F I. pose proof (kids_parent s p c F I) as P. destruct (parent_ex s c p P) as [nc [Gc _]].
  destruct (f_parent s F p c P) as [k [K _]]. unfold kind_of in K. destruct (get s p) as [n|] eqn:G; [|discriminate]. clear K k.
  destruct (forest_rfind s p c n F G I) as [idx R].
  destruct (remove_get s p c n idx G R) as [s' [E1 [E2 [E3 E4]]]]. exists s'. split; [exact E1|].
  apply edited_intro; [exact E2|exact E3| |].
  - intros j m Gj. rewrite E4, Gj. cbn [option_map]. eexists. split; [reflexivity|]. cbv zeta.
    destruct (orphan_meta m (j =? c)) as [O1 [O2 [O3 [O4 [O5 [O6 O7]]]]]].
    assert (n_parent (orphan m (j =? c)) = set_par (parent_of s) c None j) as OP.
    { rewrite O7. unfold set_par. destruct (j =? c); [reflexivity|]. symmetry. now apply parent_of_get. }
    destruct (forest_holds s j m F Gj) as [HC HH].
    destruct (Nat.eqb_spec j p) as [->|Hj].
    + destruct (removed_meta (orphan m (p =? c)) c) as [R1 [R2 [R3 [R4 R5]]]].
      rewrite R1, R2, R3, R4, R5. do 5 (split; [congruence|]).
      apply removed_spec; [congruence|congruence|apply (f_nodup s F)|exact I].
    + do 5 (split; [congruence|]). rewrite O5, O6, without_other; [split; assumption|exact F|congruence].
  - intros j Gj. apply (parent_none s); [apply parent_of_none|congruence|exact Gj].
Qed.
Lemma remove_absent s p c : forest s -> exists_node s p -> ~ In c (kids s p) -> container_remove s p c = (s, Err ValueError).
Proof.
  intros F Hp N. destruct (get_ex s p Hp) as [n G]. unfold container_remove. rewrite G.
  destruct (forest_holds s p n F G) as [C H]. rewrite C, rfind_absent by assumption. reflexivity.
Qed.

(** ** Container_Append and Container_Insert, for a child of another parent *)
Definition grow (s : store) (p : nat) : store := upd s p (fun n => container_resize n (length (kids s p) + 1)).
Lemma grow_get s p j : get (grow s p) j = if j =? p then option_map (fun n => container_resize n (length (kids s p) + 1)) (get s j) else get s j.
Proof. apply get_upd. Qed.
Lemma grow_parent s p j : parent_of (grow s p) j = parent_of s j.
Proof. unfold parent_of. rewrite grow_get. destruct (j =? p); [|reflexivity]. destruct (get s j); [|reflexivity]. cbn. now rmeta. Qed.

(** Detaching [c] from another node than [p], after room was made in [p]. *)
Lemma grow_detach s p c : forest s -> exists_node s p -> kind_of s c <> Some KAttr -> parent_of s c <> Some p ->
  exists s', detach (grow s p) c = (s', Ok tt) /\ length (s_nodes s') = length (s_nodes s) /\ s_counter s' = s_counter s /\
    forall j m, get s j = Some m -> exists m', get s' j = Some m' /\ n_kind m' = n_kind m /\ n_data m' = n_data m /\ n_attrs m' = n_attrs m /\ n_index m' = n_index m /\
      n_parent m' = set_par (parent_of s) c None j /\
      (j <> p -> n_count m' = length (without c (kids s j)) /\ holds (n_cells m') (without c (kids s j))) /\
      (j = p -> n_count m' = S (length (kids s p)) /\ length (kids s p) < length (n_cells m') /\ forall i, i < length (kids s p) -> nth i (n_cells m') None = nth_error (kids s p) i).
Proof.
  intros F Hp Kc Pc.
  destruct (detach_get (grow s p) c) as [s' [E1 [E2 [E3 E4]]]].
  - intros q. rewrite grow_parent. intros Q. assert (q <> p) as Hqp by congruence.
    assert (In c (kids s q)) as I by (apply (f_link s F); split; assumption).
    destruct (f_parent s F q c Q) as [k [K _]]. unfold kind_of in K. destruct (get s q) as [n|] eqn:G; [|discriminate].
    destruct (forest_rfind s q c n F G I) as [idx R]. exists n, idx. split; [|exact R].
    rewrite grow_get. destruct (Nat.eqb_spec q p); [congruence|exact G].
  - exists s'. split; [exact E1|]. rewrite E2, E3. unfold grow at 1 2. rewrite upd_len, upd_counter. split; [reflexivity|]. split; [reflexivity|].
    intros j m G. rewrite E4, grow_get, G, grow_parent.
    destruct (forest_holds s j m F G) as [HC [HL HH]].
    destruct (Nat.eqb_spec j p) as [->|Hj].
    + cbn [option_map]. eexists. split; [reflexivity|]. cbv zeta.
      replace (is_opt (parent_of s c) p) with false by (unfold is_opt; destruct (parent_of s c) as [q|]; [|reflexivity]; destruct (Nat.eqb_spec p q); congruence).
      destruct (orphan_meta (container_resize m (length (kids s p) + 1)) (p =? c)) as [O1 [O2 [O3 [O4 [O5 [O6 O7]]]]]].
      rewrite O1, O2, O3, O4, O5, O6, O7. rmeta.
      do 4 (split; [reflexivity|]). split.
      { unfold set_par. destruct (p =? c); [reflexivity|]. symmetry. now apply parent_of_get. }
      split; [congruence|]. intros _. destruct (resize_cells m (length (kids s p) + 1)) as [RC1 RC2]. split; [lia|]. split; [lia|].
      intros i Hi. rewrite RC2 by lia. now apply HH.
    + cbn [option_map]. eexists. split; [reflexivity|]. cbv zeta.
      destruct (orphan_meta m (j =? c)) as [O1 [O2 [O3 [O4 [O5 [O6 O7]]]]]].
      assert (n_parent (orphan m (j =? c)) = set_par (parent_of s) c None j) as OP.
      { rewrite O7. unfold set_par. destruct (j =? c); [reflexivity|]. symmetry. now apply parent_of_get. }
      unfold is_opt. destruct (parent_of s c) as [q|] eqn:Q.
      * destruct (Nat.eqb_spec j q) as [->|Hq].
        -- destruct (removed_meta (orphan m (q =? c)) c) as [R1 [R2 [R3 [R4 R5]]]].
           rewrite R1, R2, R3, R4, R5. do 5 (split; [congruence|]). split; [|congruence]. intros _.
           apply removed_spec; [split; rewrite O5; assumption|congruence|apply (f_nodup s F)|apply (f_link s F); split; assumption].
        -- do 5 (split; [congruence|]). split; [|congruence]. intros _. rewrite O5, O6, without_other; [split; [assumption|split; assumption]|exact F|congruence].
      * do 5 (split; [congruence|]). split; [|congruence]. intros _. rewrite O5, O6, without_other; [split; [assumption|split; assumption]|exact F|congruence].
Qed.

(** What remains to be done once room has been made and [c] detached: write
    slots of [p], and set the parent of [c]. *)
Lemma attach_edited s s2 p c (f : list (option nat) -> list (option nat)) L :
  p <> c -> get s c <> None -> length (s_nodes s2) = length (s_nodes s) -> s_counter s2 = s_counter s ->
  (forall j m, get s j = Some m -> exists m', get s2 j = Some m' /\ n_kind m' = n_kind m /\ n_data m' = n_data m /\ n_attrs m' = n_attrs m /\ n_index m' = n_index m /\
      n_parent m' = set_par (parent_of s) c None j /\
      (j <> p -> n_count m' = length (without c (kids s j)) /\ holds (n_cells m') (without c (kids s j))) /\
      (j = p -> n_count m' = length L /\ holds (f (n_cells m')) L)) ->
  edited s (upd (upd s2 p (fun n => set_cells n (f (n_cells n)))) c (fun x => set_parent x (Some p)))
    (fun q => if q =? p then L else without c (kids s q)) (set_par (parent_of s) c (Some p)).
Proof.
  intros Hpc Hc E2 E3 H. apply edited_intro.
  - rewrite !upd_len. exact E2.
  - rewrite !upd_counter. exact E3.
  - intros j m G. destruct (H j m G) as [m' [G' [M1 [M2 [M3 [M4 [M5 [M6 M7]]]]]]]].
    rewrite !get_upd, G'. unfold set_par in *. destruct (Nat.eqb_spec j c) as [->|Hjc].
    + destruct (Nat.eqb_spec c p); [congruence|]. cbn [option_map]. eexists. split; [reflexivity|]. cbn [set_parent n_kind n_data n_attrs n_index n_parent n_count n_cells].
      do 4 (split; [assumption|]). split; [reflexivity|]. now apply M6.
    + destruct (Nat.eqb_spec j p) as [->|Hjp]; cbn [option_map]; eexists; (split; [reflexivity|]).
      * cbn [set_cells n_kind n_data n_attrs n_index n_parent n_count n_cells]. do 5 (split; [assumption|]). now apply M7.
      * do 5 (split; [assumption|]). now apply M6.
  - intros j G. apply (parent_none s); [apply parent_of_none|assumption|exact G].
Qed.

Lemma append_edited s p c : forest s -> exists_node s p -> exists_node s c -> ensure_hierarchy s p c = Ok tt -> parent_of s c <> Some p ->
  exists s', container_append s p c = (s', Ok tt) /\ edited s s' (fun q => if q =? p then kids s p ++ [c] else without c (kids s q)) (set_par (parent_of s) c (Some p)).
Proof.
  intros F Hp Hc HE Pc.
  destruct (ensure_hierarchy_ok s p c F Hp Hc) as [[_ [[k [K1 K2]] HA]]|[X _]]; [|congruence].
  pose proof (not_attr s c k K1 K2) as Kc.
  destruct (get_ex s p Hp) as [n G]. destruct (get_ex s c Hc) as [nc Gc]. destruct (forest_holds s p n F G) as [C _].
  unfold container_append. rewrite HE, G, C. fold (grow s p).
  destruct (grow_detach s p c F Hp Kc Pc) as [s2 [E1 [E2 [E3 E4]]]]. rewrite E1. eexists. split; [reflexivity|].
  apply (attach_edited s s2 p c (fun cells => set_nth cells (length (kids s p)) (Some c))).
  - intros ->. apply HA. left. reflexivity.
  - congruence.
  - exact E2.
  - exact E3.
  - intros j m Gj. destruct (E4 j m Gj) as [m' [G' [M1 [M2 [M3 [M4 [M5 [M6 M7]]]]]]]]. exists m'. do 6 (split; [assumption|]). split; [exact M6|].
    intros ->. destruct (M7 eq_refl) as [N1 [N2 N3]]. split; [rewrite app_length; cbn; lia|]. now apply appended_holds.
Qed.

Lemma insert_edited_other s p i c : forest s -> exists_node s p -> exists_node s c -> ensure_hierarchy s p c = Ok tt -> parent_of s c <> Some p ->
  exists s', container_insert s p i c = (s', Ok tt) /\
    edited s s' (fun q => if q =? p then insert_at (clamp_index i (length (kids s p))) c (kids s p) else without c (kids s q)) (set_par (parent_of s) c (Some p)).
Proof.
  intros F Hp Hc HE Pc.
  destruct (ensure_hierarchy_ok s p c F Hp Hc) as [[_ [[k [K1 K2]] HA]]|[X _]]; [|congruence].
  pose proof (not_attr s c k K1 K2) as Kc.
  destruct (get_ex s p Hp) as [n G]. destruct (get_ex s c Hc) as [nc Gc]. destruct (forest_holds s p n F G) as [C _].
  unfold container_insert. rewrite HE, G, C. fold (grow s p).
  destruct (grow_detach s p c F Hp Kc Pc) as [s2 [E1 [E2 [E3 E4]]]]. rewrite E1. eexists. split; [reflexivity|]. cbv zeta.
  set (w := clamp_index i (length (kids s p))). assert (w <= length (kids s p)) as Hw by apply clamp_le. clearbody w.
  apply (attach_edited s s2 p c (fun cells => set_nth (shift_up cells w (length (kids s p))) w (Some c))).
  - intros ->. apply HA. left. reflexivity.
  - congruence.
  - exact E2.
  - exact E3.
  - intros j m Gj. destruct (E4 j m Gj) as [m' [G' [M1 [M2 [M3 [M4 [M5 [M6 M7]]]]]]]]. exists m'. do 6 (split; [assumption|]). split; [exact M6|].
    intros ->. destruct (M7 eq_refl) as [N1 [N2 N3]]. split; [rewrite insert_at_length; lia|]. now apply inserted_holds.
Qed.

(** Container_Insert within the same parent. *)
Lemma insert_edited_same s p i c : forest s -> exists_node s p -> exists_node s c -> ensure_hierarchy s p c = Ok tt -> parent_of s c = Some p ->
  clamp_index i (length (kids s p)) < length (kids s p) -> slot_after s p <> Some c ->
  exists s', container_insert s p i c = (s', Ok tt) /\
    edited s s' (fun q => if q =? p then insert_at (clamp_index i (length (kids s p))) c (without c (kids s p)) else without c (kids s q)) (set_par (parent_of s) c (Some p)).
Proof.
  intros F Hp Hc HE Pc.
  set (w := clamp_index i (length (kids s p))) in *. intros Hw HS.
  destruct (ensure_hierarchy_ok s p c F Hp Hc) as [[_ [[k [K1 K2]] HA]]|[X _]]; [|congruence].
  pose proof (not_attr s c k K1 K2) as Kc.
  destruct (get_ex s p Hp) as [n G]. destruct (get_ex s c Hc) as [nc Gc]. destruct (forest_holds s p n F G) as [C [HL HH]].
  assert (In c (kids s p)) as I by (apply (f_link s F); split; assumption).
  destruct (in_split _ _ I) as [l1 [l2 EK]].
  assert (p <> c) as Hpc by (intros ->; apply HA; left; reflexivity).
  set (K := length (kids s p)) in *.
  set (n1 := container_resize n (K + 1)).
  destruct (resize_cells n (K + 1)) as [RC1 RC2]. fold n1 in RC1, RC2.
  assert (n_count n1 = S K) as C1 by (unfold n1; rewrite resize_count; lia).
  assert (rfind (n_cells n1) c (n_count n1) = Some (length l1)) as R.
  { rewrite C1. cbn [rfind].
    assert (rfind (n_cells n1) c K = Some (length l1)) as R0.
    { unfold K. rewrite EK. apply rfind_holds; [rewrite <- EK; apply (f_nodup s F)|]. rewrite <- EK. split; [fold K; lia|]. fold K. intros j Hj. rewrite RC2 by lia. now apply HH. }
    destruct (nth_error (n_cells n1) K) as [[x|]|] eqn:N; try exact R0.
    destruct (Nat.eqb_spec x c) as [->|]; [|exact R0]. exfalso. apply HS. unfold slot_after. rewrite G, C. fold K.
    rewrite <- RC2 by lia. now apply nth_error_nth. }
  unfold container_insert. rewrite HE, G, C. fold K. unfold K at 1. fold (grow s p).
  assert (get (grow s p) p = Some n1) as G1 by (rewrite grow_get, Nat.eqb_refl, G; reflexivity).
  destruct (detach_get (grow s p) c) as [s2 [E1 [E2 [E3 E4]]]].
  { intros q. rewrite grow_parent, Pc. intros [= <-]. exists n1, (length l1). split; assumption. }
  rewrite E1. eexists. split; [reflexivity|]. cbv zeta. fold w.
  apply (attach_edited s s2 p c (fun cells => set_nth (shift_up cells w K) w (Some c))).
  - exact Hpc.
  - congruence.
  - rewrite E2. unfold grow. apply upd_len.
  - rewrite E3. unfold grow. apply upd_counter.
  - intros j m Gj. rewrite E4, grow_get, grow_parent, Pc, Gj. cbn [is_opt].
    destruct (Nat.eqb_spec j p) as [->|Hj].
    + rewrite G in Gj. injection Gj as <-. cbn [option_map]. cbv zeta. fold K. fold n1.
      destruct (Nat.eqb_spec p c); [congruence|]. unfold orphan. eexists. split; [reflexivity|].
      destruct (removed_meta n1 c) as [R1 [R2 [R3 [R4 R5]]]]. rewrite R1, R2, R3, R4, R5. unfold n1 at 1 2 3 4 5. rmeta.
      do 4 (split; [reflexivity|]). split; [rewrite set_par_other by congruence; symmetry; now apply parent_of_get|].
      split; [congruence|]. intros _. unfold removed. rewrite R.
      assert (length (without c (kids s p)) = K - 1 /\ length l1 + length l2 = K - 1 /\ length l1 < K) as [LW [LL LB]].
      { rewrite EK, without_mid by (rewrite <- EK; apply (f_nodup s F)). unfold K. rewrite EK, !app_length. cbn. lia. }
      rewrite resize_count, C1, insert_at_length. split; [lia|].
      destruct (resize_cells (set_cells n1 (shift_down (n_cells n1) (length l1) (S K))) (S K - 1)) as [Q1 Q2].
      (* the cells beyond the count may have been cut off by the reallocation *)
      set (cells2 := n_cells (container_resize (set_cells n1 (shift_down (n_cells n1) (length l1) (S K))) (S K - 1))) in *.
      assert (forall i, i < K - 1 -> nth i cells2 None = nth_error (without c (kids s p)) i) as Q3.
      { intros j Hj. unfold cells2. rewrite removed_nth by lia. rewrite RC2 by (destruct (_ <=? _); lia).
        rewrite HH by (destruct (_ <=? _); fold K; lia). rewrite EK, without_mid by (rewrite <- EK; apply (f_nodup s F)).
        rewrite nth_error_mid, nth_error_cat. destruct (Nat.leb_spec (length l1) j).
        - destruct (Nat.ltb_spec (S j) (length l1)); [lia|]. destruct (Nat.eqb_spec (S j) (length l1)); [lia|]. destruct (Nat.ltb_spec j (length l1)); [lia|]. f_equal.
        - destruct (Nat.ltb_spec j (length l1)); [reflexivity|lia]. }
      apply inserted_holds; [lia|lia| |rewrite LW; exact Q3].
      replace K with (S K - 1) by lia. unfold cells2. apply resize_room; [lia|]. cbn [n_cells set_cells]. rewrite shift_down_length by lia. lia.
    + destruct (forest_holds s j m F Gj) as [HCj HHj]. cbn [option_map]. cbv zeta. eexists. split; [reflexivity|].
      destruct (orphan_meta m (j =? c)) as [O1 [O2 [O3 [O4 [O5 [O6 O7]]]]]]. do 4 (split; [congruence|]).
      split; [rewrite O7; unfold set_par; destruct (j =? c); [reflexivity|symmetry; now apply parent_of_get]|].
      split; [|congruence]. intros _. rewrite O5, O6, without_other; [split; assumption|exact F|congruence].
Qed.

Lemma insert_edited s p i c : forest s -> exists_node s p -> exists_node s c -> ensure_hierarchy s p c = Ok tt -> safe s (Insert p i c) ->
  exists s', container_insert s p i c = (s', Ok tt) /\
    edited s s' (fun q => if q =? p then insert_at (py_index i (length (kids s p))) c (without c (kids s p)) else without c (kids s q)) (set_par (parent_of s) c (Some p)).
Proof.
  intros F Hp Hc HE HS. rewrite <- clamp_py.
  destruct (option_map (Nat.eqb p) (parent_of s c)) as [[|]|] eqn:D; destruct (parent_of s c) as [q|] eqn:Q; try discriminate; cbn in D.
  - injection D as D. apply Nat.eqb_eq in D. subst q. destruct (HS Q) as [S1 S2]. apply insert_edited_same; assumption.
  - injection D as D. apply Nat.eqb_neq in D. rewrite (without_other s p c) by (assumption || congruence). apply insert_edited_other; try assumption. congruence.
  - rewrite (without_other s p c) by (assumption || congruence). apply insert_edited_other; try assumption. congruence.
Qed.

(** ** Container_Replace *)
Lemma index_of_some l c : forall i x, index_of l c i = Some x -> i <= x /\ nth_error l (x - i) = Some c.
Proof.
  induction l as [|y l IH]; intros i x; cbn [index_of]; [discriminate|].
  destruct (Nat.eqb_spec y c) as [->|].
  - intros [= ->]. rewrite Nat.sub_diag. split; [lia|reflexivity].
  - intros H. apply IH in H. destruct H as [H1 H2]. split; [lia|]. replace (x - i) with (S (x - S i)) by lia. exact H2.
Qed.
Lemma pos_split l c x : pos_in l c = Some x -> exists l1 l2, l = l1 ++ c :: l2 /\ length l1 = x.
Proof. intros H. apply index_of_some in H. destruct H as [_ H]. rewrite Nat.sub_0_r in H. now apply nth_error_split. Qed.

Lemma substitute_mid o n l1 l2 : ~ In o l1 -> ~ In o l2 -> substitute o n (l1 ++ o :: l2) = l1 ++ n :: l2.
Proof.
  assert (forall l, ~ In o l -> substitute o n l = l) as G.
  { induction l as [|x l IH]; intros H; [reflexivity|]. cbn. destruct (Nat.eqb_spec x o) as [->|]; [exfalso; apply H; left; reflexivity|]. f_equal. apply IH. intro. apply H. right. assumption. }
  intros H1 H2. unfold substitute in *. rewrite map_app. cbn. rewrite Nat.eqb_refl, !G by assumption. reflexivity.
Qed.
Lemma replace_absent s p o n : forest s -> exists_node s p -> ~ In o (kids s p) -> container_replace s p o n = (s, Err ValueError).
Proof.
  intros F Hp N. destruct (get_ex s p Hp) as [m G]. unfold container_replace. rewrite G.
  destruct (forest_holds s p m F G) as [C H]. rewrite C, rfind_absent by assumption. reflexivity.
Qed.
Lemma replace_self s p o : forest s -> In o (kids s p) -> container_replace s p o o = (s, Ok tt).
Proof.
  intros F I. unfold container_replace. destruct (get s p) as [m|] eqn:G; [|rewrite kids_none in I by exact G; destruct I].
  destruct (forest_rfind s p o m F G I) as [idx R]. rewrite R, Nat.eqb_refl. reflexivity.
Qed.
Lemma replace_edited s p o n : forest s -> exists_node s p -> exists_node s n -> In o (kids s p) -> o <> n -> safe s (Replace p o n) ->
  exists s', container_replace s p o n = (s', Ok tt) /\
    edited s s' (fun q => if q =? p then substitute o n (without n (kids s p)) else without n (kids s q)) (set_par (set_par (parent_of s) o None) n (Some p)).
Proof.
  intros F Hp Hn I Hon [X|[HK [HA HP]]]; [contradiction|].
  destruct (get_ex s p Hp) as [m G]. destruct (get_ex s n Hn) as [mn Gn].
  pose proof (HK _ (kind_get s n mn Gn)) as Kn. pose proof (not_attr s n _ (kind_get s n mn Gn) Kn) as KA.
  destruct (forest_holds s p m F G) as [C H].
  pose proof (kids_parent s p o F I) as Po.
  assert (o <> p) as Hop by (intros ->; apply (f_acyclic s F p); now apply above_parent).
  assert (n <> p) as Hnp by (intros ->; apply HA; left; reflexivity).
  (* where the old child is, before and after the new one is detached *)
  assert (exists l1 l2 l2', kids s p = l1 ++ o :: l2 /\ without n (kids s p) = l1 ++ o :: l2') as [l1 [l2 [l2' [EK EW]]]].
  { destruct (option_map (Nat.eqb p) (parent_of s n)) as [[|]|] eqn:D; destruct (parent_of s n) as [q|] eqn:Q; try discriminate; cbn in D.
    - injection D as D. apply Nat.eqb_eq in D. subst q. destruct (HP eq_refl) as [x [y [Px [Py Lt]]]].
      apply pos_split in Px, Py. destruct Px as [a1 [a2 [EA LA]]], Py as [b1 [b2 [EB LB]]].
      exists a1, a2, (without n a2). split; [exact EA|]. rewrite EA, without_app. cbn. destruct (Nat.eqb_spec o n); [contradiction|]. cbn. f_equal.
      apply without_notin. intro J. apply In_nth_error in J. destruct J as [t T].
      assert (t < length a1) as Ht by (apply nth_error_Some; congruence).
      assert (t = y); [|lia]. apply (nodup_nth (kids s p) t y n (f_nodup s F p)).
      + rewrite EA, nth_error_app1 by exact Ht. exact T.
      + rewrite EB, <- LB, nth_error_mid, Nat.ltb_irrefl, Nat.eqb_refl. reflexivity.
    - injection D as D. apply Nat.eqb_neq in D. destruct (in_split _ _ I) as [a1 [a2 EA]]. exists a1, a2, a2. split; [exact EA|]. rewrite without_other by (assumption || congruence). exact EA.
    - destruct (in_split _ _ I) as [a1 [a2 EA]]. exists a1, a2, a2. split; [exact EA|]. rewrite without_other by (assumption || congruence). exact EA. }
  assert (rfind (n_cells m) o (n_count m) = Some (length l1)) as R.
  { rewrite C, EK. apply rfind_holds; rewrite <- EK; [apply (f_nodup s F)|exact H]. }
  unfold container_replace. rewrite G, R. destruct (Nat.eqb_spec o n); [contradiction|].
  destruct (detach_get s n) as [s2 [E1 [E2 [E3 E4]]]].
  { intros q Q. assert (In n (kids s q)) as J by (apply (f_link s F); split; assumption).
    destruct (f_parent s F q n Q) as [k [K _]]. unfold kind_of in K. destruct (get s q) as [mq|] eqn:Gq; [|discriminate].
    destruct (forest_rfind s q n mq F Gq J) as [idx Rq]. eauto. }
  rewrite E1. eexists. split; [reflexivity|]. apply edited_intro.
  - rewrite !upd_len. exact E2.
  - rewrite !upd_counter. exact E3.
  - assert (substitute o n (without n (kids s p)) = l1 ++ n :: l2') as ES.
    { rewrite EW. assert (NoDup (l1 ++ o :: l2')) as ND by (rewrite <- EW; apply nodup_without, (f_nodup s F)). apply nodup_app_cons in ND. apply substitute_mid; tauto. }
    intros j x Gj.
    assert (exists x2, get s2 j = Some x2 /\ n_kind x2 = n_kind x /\ n_data x2 = n_data x /\ n_attrs x2 = n_attrs x /\ n_index x2 = n_index x /\ n_parent x2 = set_par (parent_of s) n None j /\
              n_count x2 = length (without n (kids s j)) /\ holds (n_cells x2) (without n (kids s j))) as [x2 [G2 [M1 [M2 [M3 [M4 [M5 [M6 M7]]]]]]]].
    { rewrite E4, Gj. cbn [option_map]. cbv zeta. eexists. split; [reflexivity|].
      destruct (orphan_meta x (j =? n)) as [O1 [O2 [O3 [O4 [O5 [O6 O7]]]]]]. destruct (forest_holds s j x F Gj) as [HC HH].
      assert (n_parent (orphan x (j =? n)) = set_par (parent_of s) n None j) as OP.
      { rewrite O7. unfold set_par. destruct (j =? n); [reflexivity|]. symmetry. now apply parent_of_get. }
      destruct (is_opt (parent_of s n) j) eqn:Q.
      - destruct (removed_meta (orphan x (j =? n)) n) as [R1 [R2 [R3 [R4 R5]]]]. rewrite R1, R2, R3, R4, R5. do 5 (split; [congruence|]).
        unfold is_opt in Q. destruct (parent_of s n) as [q|] eqn:QQ; [|discriminate]. apply Nat.eqb_eq in Q. subst j.
        apply removed_spec; [congruence|congruence|apply (f_nodup s F)|apply (f_link s F); split; assumption].
      - do 5 (split; [congruence|]). rewrite O5, O6, without_other; [split; assumption|exact F|]. intro QQ. rewrite QQ in Q. cbn in Q. rewrite Nat.eqb_refl in Q. discriminate. }
    rewrite !get_upd, G2. unfold set_par in M5 |- *.
    destruct (Nat.eqb_spec j n) as [->|Hjn].
    + destruct (Nat.eqb_spec n p); [congruence|]. destruct (Nat.eqb_spec n o); [congruence|].
      cbn [option_map]. eexists. split; [reflexivity|]. cbn [set_parent n_kind n_data n_attrs n_index n_parent n_count n_cells]. do 4 (split; [assumption|]). split; [reflexivity|]. split; assumption.
    + destruct (Nat.eqb_spec j p) as [->|Hjp].
      * destruct (Nat.eqb_spec p o); [congruence|]. cbn [option_map]. eexists. split; [reflexivity|].
        cbn [set_cells n_kind n_data n_attrs n_index n_parent n_count n_cells]. do 5 (split; [assumption|]).
        rewrite ES. rewrite EW in M6, M7. split; [rewrite M6, !app_length; reflexivity|]. eapply substituted_holds. exact M7.
      * destruct (Nat.eqb_spec j o) as [->|Hjo]; cbn [option_map]; eexists; (split; [reflexivity|]).
        -- cbn [set_parent n_kind n_data n_attrs n_index n_parent n_count n_cells]. do 4 (split; [assumption|]). split; [reflexivity|]. split; assumption.
        -- do 5 (split; [assumption|]). split; assumption.
  - intros j Gj. unfold set_par. destruct (Nat.eqb_spec j n) as [->|]; [congruence|]. destruct (Nat.eqb_spec j o) as [->|]; [reflexivity|]. now apply parent_of_none.
Qed.
Lemma forest_replace s s' p o n : forest s -> (exists k, kind_of s p = Some k /\ is_container k = true) -> (exists k, kind_of s n = Some k /\ child_kind k = true) -> In o (kids s p) -> o <> n -> ~ above_or_self (parent_of s) n p ->
  edited s s' (fun q => if q =? p then substitute o n (without n (kids s p)) else without n (kids s q)) (set_par (set_par (parent_of s) o None) n (Some p)) -> forest s'.
Proof.
  intros F Hp [k [Hk1 Hk2]] I Hon HA E. pose proof (not_attr s n k Hk1 Hk2) as KA.
  assert (kind_of s o <> Some KAttr) as KO by (apply (f_link s F) in I; tauto).
  pose proof (kids_parent s p o F I) as Po.
  assert (In o (without n (kids s p))) as Iw by (apply in_without; split; assumption).
  assert (NoDup (without n (kids s p))) as ND by apply nodup_without, (f_nodup s F).
  destruct (in_split _ _ Iw) as [l1 [l2 EW]].
  assert (substitute o n (without n (kids s p)) = l1 ++ n :: l2) as ES. { rewrite EW in *. apply nodup_app_cons in ND. apply substitute_mid; tauto. }
  assert (~ In n (l1 ++ l2)) as NN. { intro J. assert (In n (without n (kids s p))) as J2 by (rewrite EW; apply in_app_or in J; apply in_or_app; cbn; tauto). apply in_without in J2. tauto. }
  rewrite EW in ND.
  assert (forall x, In x (l1 ++ n :: l2) <-> x = n \/ (In x (kids s p) /\ x <> n /\ x <> o)) as HI.
  { intros x. assert (In x (l1 ++ l2) <-> In x (kids s p) /\ x <> n /\ x <> o) as HX.
    { rewrite <- (without_mid o l1 l2 ND), <- EW, !in_without. tauto. }
    rewrite <- HX, !in_app_iff. cbn. intuition. }
  eapply edited_forest; [exact F|exact E| | | | | |].
  - intros q _. cbn beta. destruct (q =? p); [|apply nodup_without, (f_nodup s F)]. rewrite ES.
    apply NoDup_Add with (a := n) (l := l1 ++ l2); [apply Add_app|]. split; [now apply NoDup_remove_1 in ND|exact NN].
  - intros q x _. cbn beta. unfold set_par. destruct (Nat.eqb_spec q p) as [->|Hq].
    + rewrite ES, HI, (f_link s F). destruct (Nat.eqb_spec x n) as [->|]; [tauto|]. destruct (Nat.eqb_spec x o) as [->|]; [|tauto]. split; [tauto|intros [[=] _]].
    + rewrite in_without, (f_link s F). destruct (Nat.eqb_spec x n) as [->|]; [split; [tauto|intros [[=] _]; congruence]|].
      destruct (Nat.eqb_spec x o) as [->|]; [|tauto]. split; [|intros [[=] _]]. intros [[X _] _]. congruence.
  - intros a Ha. rewrite !set_par_other by congruence. reflexivity.
  - intros q x. unfold set_par. destruct (x =? n); [intros [= <-]; exact Hp|]. destruct (x =? o); [discriminate|]. apply (f_parent s F).
  - intros q x _ Hx. cbn beta in Hx. destruct (q =? p).
    + rewrite ES in Hx. apply HI in Hx. destruct Hx as [->|[Hx _]]; [exists k; auto|]. eapply (f_kind s F), Hx.
    + apply in_without in Hx. eapply (f_kind s F). apply Hx.
  - apply acyclic_move; [apply acyclic_clear, (f_acyclic s F)|]. intros [X|X]; apply HA; [left; exact X|right; eapply above_clear; exact X].
Qed.
