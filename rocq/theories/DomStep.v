(** * Every call on a consistent forest: effect, errors and consistency *)
From Coq Require Import NArith ZArith String List Bool Lia Arith.
From Verif Require Import PyStr PyErr DomModel DomSpec DomCells DomInv DomOps.
Import ListNotations.
Local Open Scope nat_scope.

(** The same links give a consistent forest. *)
Lemma forest_congr s s' : length (s_nodes s') = length (s_nodes s) -> s_counter s' = s_counter s ->
  (forall i, get_children s' i = get_children s i) -> (forall i, parent_of s' i = parent_of s i) -> (forall i, kind_of s' i = kind_of s i) ->
  (forall i, attrs_of s' i = attrs_of s i) -> (forall i, index_of_entity s' i = index_of_entity s i) -> forest s -> forest s'.
Proof.
  intros L C K P KD A I F.
  assert (forall i, kids s' i = kids s i) as KK by (intros i; unfold kids; now rewrite K).
  split.
  - intros p Hp. rewrite K, KK. apply (f_read s F). unfold exists_node in *. now rewrite <- L.
  - intros p. rewrite KK. apply (f_nodup s F).
  - intros p c. rewrite KK, P, KD. apply (f_link s F).
  - intros p. rewrite A. apply (f_anodup s F).
  - intros p a. rewrite A, P, KD. apply (f_alink s F).
  - intros p c. rewrite P, KD. apply (f_parent s F).
  - intros p a. rewrite A, KD. apply (f_aparent s F).
  - intros p c. rewrite KK, KD. apply (f_kind s F).
  - intros n Hn. apply (f_acyclic s F n). eapply above_set_ext; [|exact Hn]. exact P.
  - intros a b i. rewrite !I. apply (f_index s F).
  - intros a i. rewrite I, C. apply (f_counter s F).
Qed.

Lemma forest_empty : forest empty.
Proof.
  assert (forall i, get empty i = None) as G by (intros [|i]; reflexivity).
  assert (forall i, parent_of empty i = None) as P by (intros i; unfold parent_of; now rewrite G).
  assert (forall i, kids empty i = []) as K by (intros i; apply kids_none, G).
  assert (forall i, attrs_of empty i = []) as A by (intros i; unfold attrs_of; now rewrite G).
  assert (forall i, index_of_entity empty i = None) as I by (intros i; unfold index_of_entity, doc_index; now rewrite G).
  split.
  - intros p Hp. unfold exists_node in Hp. cbn in Hp. lia.
  - intros p. rewrite K. constructor.
  - intros p c. rewrite K, P. cbn. split; [tauto|intros [[=] _]].
  - intros p. rewrite A. constructor.
  - intros p c. rewrite A, P. cbn. split; [tauto|intros [[=] _]].
  - intros p c. rewrite P. discriminate.
  - intros p c. rewrite A. intros [].
  - intros p c. rewrite K. intros [].
  - intros n Hn. inversion Hn; congruence.
  - intros a b i. rewrite I. discriminate.
  - intros a i. rewrite I. discriminate.
Qed.

(** ** New nodes *)
Lemma get_new s k d j : get (fst (new_node s k d)) j = if j =? length (s_nodes s) then
    Some {| n_kind := k; n_parent := None; n_count := 0; n_cells := []; n_frozen := false; n_data := d; n_attrs := []; n_index := if kind_eqb k KEntity then (s_counter s + 1)%N else 0%N |}
  else get s j.
Proof.
  unfold get, new_node. cbn [fst s_nodes]. destruct (Nat.eqb_spec j (length (s_nodes s))) as [->|].
  - rewrite nth_error_app2, Nat.sub_diag by lia. reflexivity.
  - destruct (Nat.lt_ge_cases j (length (s_nodes s))).
    + now rewrite nth_error_app1.
    + rewrite (proj2 (nth_error_None (s_nodes s) j)) by lia. apply nth_error_None. rewrite app_length. cbn. lia.
Qed.
Lemma new_len s k d : length (s_nodes (fst (new_node s k d))) = S (length (s_nodes s)).
Proof. cbn. rewrite app_length. cbn. lia. Qed.
Lemma get_last s : get s (length (s_nodes s)) = None.
Proof. apply nth_error_None. lia. Qed.

Lemma new_parent s k d j : parent_of (fst (new_node s k d)) j = parent_of s j.
Proof. unfold parent_of. rewrite get_new. destruct (Nat.eqb_spec j (length (s_nodes s))) as [->|]; [now rewrite get_last|reflexivity]. Qed.
Lemma new_kids s k d j : kids (fst (new_node s k d)) j = kids s j.
Proof. unfold kids, get_children. rewrite get_new. destruct (Nat.eqb_spec j (length (s_nodes s))) as [->|]; [now rewrite get_last|reflexivity]. Qed.
Lemma new_attrs s k d j : attrs_of (fst (new_node s k d)) j = attrs_of s j.
Proof. unfold attrs_of. rewrite get_new. destruct (Nat.eqb_spec j (length (s_nodes s))) as [->|]; [now rewrite get_last|reflexivity]. Qed.
Lemma new_kind s k d j : kind_of (fst (new_node s k d)) j = if j =? length (s_nodes s) then Some k else kind_of s j.
Proof. unfold kind_of. rewrite get_new. destruct (j =? _); reflexivity. Qed.
Lemma new_index s k d j : index_of_entity (fst (new_node s k d)) j = if j =? length (s_nodes s) then (if kind_eqb k KEntity then Some (s_counter s + 1)%N else None) else index_of_entity s j.
Proof. unfold index_of_entity, doc_index. rewrite get_new. destruct (j =? _); [|reflexivity]. cbn. destruct (kind_eqb k KEntity); reflexivity. Qed.
Lemma kind_lt s i k : kind_of s i = Some k -> i < length (s_nodes s).
Proof. unfold kind_of. destruct (get s i) eqn:G; [|discriminate]. intros _. eapply get_some; eauto. Qed.
Lemma parent_lt s i p : parent_of s i = Some p -> i < length (s_nodes s).
Proof. intros H. destruct (parent_ex s i p H) as [n [G _]]. eapply get_some; eauto. Qed.
Lemma ltb_ne i n : i < n -> (i =? n) = false.
Proof. intros. apply Nat.eqb_neq. lia. Qed.

Lemma forest_new s k d : forest s -> forest (fst (new_node s k d)).
Proof.
  intros F. set (s' := fst (new_node s k d)).
  split.
  - intros p Hp. unfold s', kids. unfold get_children. rewrite get_new. destruct (Nat.eqb_spec p (length (s_nodes s))) as [->|Hne]; [reflexivity|].
    assert (exists_node s p) as E by (unfold exists_node, s' in *; rewrite new_len in Hp; lia). pose proof (f_read s F p E) as R.
    unfold get_children in R. unfold kids, get_children in R. destruct (get s p); [|discriminate]. destruct (read_cells _ _); [reflexivity|discriminate].
  - intros p. unfold s'. rewrite new_kids. apply (f_nodup s F).
  - intros p c. unfold s'. rewrite new_kids, new_parent, new_kind, (f_link s F). destruct (Nat.eqb_spec c (length (s_nodes s))) as [->|]; [|tauto].
    assert (parent_of s (length (s_nodes s)) = None) as X by (apply parent_of_none, get_last). rewrite X. split; intros [[=] _].
  - intros p. unfold s'. rewrite new_attrs. apply (f_anodup s F).
  - intros p c. unfold s'. rewrite new_attrs, new_parent, new_kind, (f_alink s F). destruct (Nat.eqb_spec c (length (s_nodes s))) as [->|]; [|tauto].
    assert (parent_of s (length (s_nodes s)) = None) as X by (apply parent_of_none, get_last). rewrite X. split; intros [[=] _].
  - intros p c. unfold s'. rewrite new_parent, new_kind. intros H. destruct (f_parent s F p c H) as [k' [K1 K2]]. rewrite ltb_ne by (eapply kind_lt; eauto). eauto.
  - intros p a. unfold s'. rewrite new_attrs, new_kind. intros H. pose proof (f_aparent s F p a H) as K. rewrite ltb_ne by (eapply kind_lt; eauto). exact K.
  - intros p c. unfold s'. rewrite new_kids, new_kind. intros H. destruct (f_kind s F p c H) as [k' [K1 K2]]. rewrite ltb_ne by (eapply kind_lt; eauto). eauto.
  - intros n Hn. apply (f_acyclic s F n). eapply above_set_ext; [|exact Hn]. intros i. apply new_parent.
  - assert (forall a i, index_of_entity s a = Some i -> (i <= s_counter s)%N) as FC by apply (f_counter s F).
    intros a b i. unfold s'. rewrite !new_index. destruct (Nat.eqb_spec a (length (s_nodes s))) as [->|], (Nat.eqb_spec b (length (s_nodes s))) as [->|]; try (intros; reflexivity).
    + destruct (kind_eqb k KEntity); [|discriminate]. intros [= <-] H. apply FC in H. lia.
    + destruct (kind_eqb k KEntity); [|discriminate]. intros H [= <-]. apply FC in H. lia.
    + apply (f_index s F).
  - intros a i. unfold s'. rewrite new_index. cbn [new_node fst s_counter]. destruct (Nat.eqb_spec a (length (s_nodes s))) as [->|].
    + destruct (kind_eqb k KEntity); [|discriminate]. intros [= <-]. lia.
    + intros H. apply (f_counter s F) in H. destruct (kind_eqb k KEntity); lia.
Qed.

(** ** Attributes *)
Lemma add_attr_ok s p d n : get s p = Some n -> n_kind n = KElement -> exists s', add_attr s p d = (s', Ok tt) /\
  length (s_nodes s') = S (length (s_nodes s)) /\ s_counter s' = s_counter s /\
  (forall j, kids s' j = kids s j) /\ (forall j, kind_of s' j = if j =? length (s_nodes s) then Some KAttr else kind_of s j) /\
  (forall j, parent_of s' j = if j =? length (s_nodes s) then Some p else parent_of s j) /\
  (forall j, attrs_of s' j = if j =? p then attrs_of s p ++ [length (s_nodes s)] else attrs_of s j) /\
  (forall j, index_of_entity s' j = index_of_entity s j) /\
  (forall j, get_children s' j = if j =? length (s_nodes s) then Ok [] else get_children s j) /\
  (forall j, data_of s' j = if j =? length (s_nodes s) then d else data_of s j).
Proof.
  intros G K. unfold add_attr. rewrite G, K. cbn [kind_eqb].
  destruct (new_node s KAttr d) as [s1 a] eqn:N.
  assert (s1 = fst (new_node s KAttr d) /\ a = length (s_nodes s)) as [E1 E2] by (split; [now rewrite N|unfold new_node in N; now injection N]).
  subst a. pose proof (get_some _ _ _ G) as Lp.
  eexists. split; [reflexivity|].
  set (s2 := upd (upd s1 (length (s_nodes s)) (fun x => set_parent x (Some p))) p (fun x => set_attrs x (n_attrs x ++ [length (s_nodes s)]))).
  assert (forall j, get s2 j = if j =? length (s_nodes s) then
      Some {| n_kind := KAttr; n_parent := Some p; n_count := 0; n_cells := []; n_frozen := false; n_data := d; n_attrs := []; n_index := 0%N |}
    else if j =? p then Some (set_attrs n (n_attrs n ++ [length (s_nodes s)])) else get s j) as GS.
  { intros j. unfold s2. rewrite !get_upd, E1, get_new. destruct (Nat.eqb_spec j (length (s_nodes s))) as [->|].
    - destruct (Nat.eqb_spec (length (s_nodes s)) p); [lia|]. reflexivity.
    - destruct (Nat.eqb_spec j p) as [->|]; [now rewrite G|reflexivity]. }
  split; [unfold s2; rewrite !upd_len, E1; apply new_len|]. split; [unfold s2; rewrite !upd_counter, E1; reflexivity|].
  repeat split; intros j; unfold kids, kind_of, parent_of, attrs_of, index_of_entity, doc_index, data_of, get_children; rewrite GS;
    destruct (Nat.eqb_spec j (length (s_nodes s))) as [->|]; try rewrite get_last; try reflexivity;
    try (destruct (Nat.eqb_spec j p) as [->|]; [rewrite G; try reflexivity|reflexivity]).
  - destruct (Nat.eqb_spec (length (s_nodes s)) p); [lia|reflexivity].
Qed.
Lemma forest_attr s p d s' r : forest s -> add_attr s p d = (s', r) -> forest s'.
Proof.
  intros F H. destruct (get s p) as [n|] eqn:G.
  2:{ unfold add_attr in H. rewrite G in H. injection H as <- _. exact F. }
  destruct (kind_eqb (n_kind n) KElement) eqn:K.
  2:{ unfold add_attr in H. rewrite G, K in H. injection H as <- _. exact F. }
  assert (n_kind n = KElement) as K' by (destruct (n_kind n); try discriminate; reflexivity).
  destruct (add_attr_ok s p d n G K') as [s2 [E [L [C [KK [KD [P [A [I [GC DD]]]]]]]]]]. rewrite E in H. injection H as <- _.
  pose proof (get_some _ _ _ G) as Lp. set (a := length (s_nodes s)) in *.
  assert (parent_of s a = None) as Pa by (apply parent_of_none, get_last).
  assert (forall q x, In x (kids s q) -> x < a) as KL by (intros q x X; apply (f_link s F) in X; destruct X as [X _]; eapply parent_lt; eauto).
  assert (forall q x, In x (attrs_of s q) -> x < a) as AL by (intros q x X; apply (f_alink s F) in X; destruct X as [X _]; eapply parent_lt; eauto).
  assert (kind_of s p = Some KElement) as Kp by (rewrite (kind_get s p n G), K'; reflexivity).
  assert (kind_of s a = None) as Ka by (unfold kind_of, a; now rewrite get_last).
  split.
  - intros q Hq. rewrite GC, KK. destruct (Nat.eqb_spec q a) as [->|]; [rewrite kids_none by apply get_last; reflexivity|]. apply (f_read s F). unfold exists_node in *. lia.
  - intros q. rewrite KK. apply (f_nodup s F).
  - intros q c. rewrite KK, P, KD, (f_link s F). destruct (Nat.eqb_spec c a) as [->|]; [|tauto]. rewrite Pa. split; [intros [[=] _]|intros [_ X]; congruence].
  - intros q. rewrite A. destruct (Nat.eqb_spec q p) as [->|]; [|apply (f_anodup s F)].
    apply NoDup_Add with (a := a) (l := attrs_of s p); [|split; [apply (f_anodup s F)|intro X; apply AL in X; lia]].
    rewrite <- (app_nil_r (attrs_of s p)) at 1. apply Add_app.
  - intros q c. rewrite A, P, KD. destruct (Nat.eqb_spec c a) as [->|].
    + split; [|intros [[= <-] _]; rewrite Nat.eqb_refl; apply in_or_app; right; left; reflexivity].
      destruct (Nat.eqb_spec q p) as [->|]; [split; reflexivity|]. intros X. apply AL in X. lia.
    + destruct (Nat.eqb_spec q p) as [->|]; [|apply (f_alink s F)]. rewrite in_app_iff, (f_alink s F). cbn. intuition congruence.
  - intros q c. rewrite P, KD. destruct (Nat.eqb_spec c a) as [->|].
    + intros [= <-]. rewrite ltb_ne by exact Lp. eauto.
    + intros H. destruct (f_parent s F q c H) as [k [K1 K2]]. rewrite ltb_ne by (eapply kind_lt; eauto). eauto.
  - intros q c. rewrite A, KD. destruct (Nat.eqb_spec q p) as [->|]; intros X.
    + rewrite ltb_ne by exact Lp. exact Kp.
    + apply (f_aparent s F) in X. rewrite ltb_ne by (eapply kind_lt; eauto). exact X.
  - intros q c. rewrite KK, KD. intros X. rewrite ltb_ne by (eapply KL; eauto). eapply (f_kind s F); eauto.
  - assert (forall i, parent_of s2 i = set_par (parent_of s) a (Some p) i) as PP by (intros i; apply P).
    intros m Hm. apply (acyclic_attach (parent_of s) a p Pa (f_acyclic s F)) with (n := m).
    + intros [->|X]; [lia|]. clear - X F Ka. assert (exists y, parent_of s y = Some a) as [y Y] by (induction X; eauto).
      destruct (f_parent s F a y Y) as [k [K _]]. congruence.
    + eapply above_set_ext; [|exact Hm]. exact PP.
  - intros x y i. rewrite !I. apply (f_index s F).
  - intros x i. rewrite I, C. apply (f_counter s F).
Qed.

(** ** Freezing *)
Lemma freeze_spec s p : forest s -> exists s', container_freeze s p = (s', Ok tt) /\ edited s s' (kids s) (parent_of s).
Proof.
  intros F. unfold container_freeze. eexists. split; [reflexivity|].
  apply edited_intro; [apply upd_len|apply upd_counter| |apply parent_of_none].
  intros j n G. rewrite get_upd, G. destruct (forest_holds s j n F G) as [C [L H]]. destruct (j =? p); cbn [option_map]; eexists; (split; [reflexivity|]).
  - cbn [freeze_node n_kind n_data n_attrs n_index n_parent n_count n_cells]. do 4 (split; [reflexivity|]). split; [symmetry; now apply parent_of_get|]. split; [exact C|].
    split; [rewrite firstn_length; lia|]. intros i Hi. rewrite nth_firstn. destruct (Nat.ltb_spec i (n_count n)); [now apply H|lia].
  - do 4 (split; [reflexivity|]). split; [symmetry; now apply parent_of_get|]. split; [exact C|]. split; assumption.
Qed.
Lemma forest_edited_same s s' : forest s -> edited s s' (kids s) (parent_of s) -> forest s'.
Proof.
  intros F E. assert (forall i, get_children s' i = get_children s i) as K.
  { intros i. destruct (Nat.lt_ge_cases i (length (s_nodes s))) as [H|H].
    - rewrite (e_kids _ _ _ _ E i H). symmetry. now apply (f_read s F).
    - unfold get_children, get. rewrite !(proj2 (nth_error_None _ _)); [reflexivity|exact H|rewrite (e_len _ _ _ _ E); exact H]. }
  apply (forest_congr s s' (e_len _ _ _ _ E) (e_counter _ _ _ _ E) K (e_par _ _ _ _ E) (e_kind _ _ _ _ E) (e_attrs _ _ _ _ E) (e_index _ _ _ _ E) F).
Qed.

(** ** xml_normalize *)
Lemma is_text_kind s i : is_text s i = match kind_of s i with Some k => kind_eqb k KText | None => false end.
Proof. unfold is_text, kind_of. destruct (get s i); reflexivity. Qed.

Lemma na_mid txt a x b : no_adjacent txt (a ++ [x]) -> no_adjacent txt (x :: b) -> no_adjacent txt (a ++ x :: b).
Proof.
  induction a as [|y a IH]; intros H1 H2; [exact H2|].
  destruct a as [|z a].
  - cbn in H1. cbn [app]. split; [tauto|exact H2].
  - cbn [app] in *. destruct H1 as [H0 H1]. split; [exact H0|]. now apply IH.
Qed.
Lemma na_prefix txt a b : no_adjacent txt (a ++ b) -> no_adjacent txt a.
Proof.
  induction a as [|x a IH]; intros H; [exact I|]. destruct a as [|y a]; [exact I|]. cbn [app] in *. destruct H as [H0 H]. split; [exact H0|]. now apply IH.
Qed.
Lemma na_nontext txt a x z : no_adjacent txt (a ++ [x]) -> txt x = false -> no_adjacent txt (a ++ [x; z]).
Proof. intros H Hx. apply na_mid; [exact H|]. cbn. split; [|exact I]. intros [E _]. congruence. Qed.
Lemma na_ext txt txt' l : (forall x, txt x = txt' x) -> no_adjacent txt l -> no_adjacent txt' l.
Proof. intros E. induction l as [|x l IH]; [tauto|]. destruct l as [|y l]; [tauto|]. intros [H0 H]. split; [rewrite <- !E; exact H0|]. now apply IH. Qed.

Lemma trimmed_refl s p : forest s -> trimmed s s p (kids s p).
Proof. intros F. split; try reflexivity; [exact F| |left; reflexivity]. intros q. destruct (Nat.eqb_spec q p) as [->|]; reflexivity. Qed.
Lemma trimmed_trans s s1 s2 p l1 l2 : trimmed s s1 p l1 -> trimmed s1 s2 p l2 -> incl l1 (kids s p) -> incl l2 l1 -> trimmed s s2 p l2.
Proof.
  intros [F1 L1 K1 C1 P1 D1 A1] [F2 L2 K2 C2 P2 D2 A2] I1 I2. split.
  - exact F2.
  - congruence.
  - intros i. now rewrite K2, K1.
  - intros q. rewrite C2, C1. destruct (q =? p); reflexivity.
  - intros i. rewrite C1, Nat.eqb_refl in P2. destruct (P2 i) as [E|[E1 [E2 E3]]].
    + rewrite E. destruct (P1 i) as [X|[X1 [X2 X3]]]; [left; exact X|right]. split; [exact X1|]. split; [exact X2|]. intro; apply X3; now apply I2.
    + right. split; [exact E1|]. split; [now apply I1|exact E3].
  - intros i Hi. rewrite D2, D1; [reflexivity|exact Hi|]. rewrite C1, Nat.eqb_refl. destruct Hi as [Hi|Hi]; [left; intro; apply Hi; now apply I1|right].
    rewrite is_text_kind, K1, <- is_text_kind. exact Hi.
  - intros i. now rewrite A2, A1.
Qed.

(** One merge: the text of [y] goes to [cur], and [y] leaves the child list. *)
Lemma merge_step s p a cur y r : forest s -> kids s p = a ++ cur :: y :: r -> is_text s cur = true -> is_text s y = true ->
  exists s2, container_remove (upd s cur (fun c => set_data c (n_data c ++ data_of s y))) p y = (s2, Ok tt) /\ trimmed s s2 p (a ++ cur :: r) /\
    flat s2 (a ++ cur :: r) = flat s (a ++ cur :: y :: r).
Proof.
  intros F K Tc Ty. set (s1 := upd s cur (fun c => set_data c (n_data c ++ data_of s y))).
  assert (forall j, get s1 j = if j =? cur then option_map (fun c => set_data c (n_data c ++ data_of s y)) (get s j) else get s j) as G1 by (intros j; apply get_upd).
  assert (forall i, get_children s1 i = get_children s i) as GC1 by (intros i; unfold get_children; rewrite G1; destruct (i =? cur); destruct (get s i); reflexivity).
  assert (forall i, parent_of s1 i = parent_of s i) as P1 by (intros i; unfold parent_of; rewrite G1; destruct (i =? cur); destruct (get s i); reflexivity).
  assert (forall i, kind_of s1 i = kind_of s i) as K1 by (intros i; unfold kind_of; rewrite G1; destruct (i =? cur); destruct (get s i); reflexivity).
  assert (forall i, attrs_of s1 i = attrs_of s i) as A1 by (intros i; unfold attrs_of; rewrite G1; destruct (i =? cur); destruct (get s i); reflexivity).
  assert (forall i, index_of_entity s1 i = index_of_entity s i) as I1 by (intros i; unfold index_of_entity, doc_index; rewrite G1; destruct (i =? cur); destruct (get s i); reflexivity).
  assert (forall i, kids s1 i = kids s i) as KK1 by (intros i; unfold kids; now rewrite GC1).
  assert (forall i, data_of s1 i = if i =? cur then data_of s cur ++ data_of s y else data_of s i) as D1.
  { intros i. unfold data_of at 1. rewrite G1. destruct (Nat.eqb_spec i cur) as [->|]; [|reflexivity].
    unfold data_of at 2. unfold is_text in Tc. destruct (get s cur); [reflexivity|discriminate]. }
  assert (forest s1) as F1.
  { apply (forest_congr s s1); try assumption; unfold s1; [apply upd_len|apply upd_counter]. }
  assert (NoDup (a ++ cur :: y :: r)) as ND by (rewrite <- K; apply (f_nodup s F)).
  assert (NoDup ((a ++ [cur]) ++ y :: r)) as ND2 by (rewrite <- app_assoc; exact ND).
  assert (without y (kids s p) = a ++ cur :: r) as W.
  { rewrite K. change (cur :: y :: r) with ([cur] ++ y :: r). rewrite app_assoc, without_mid by exact ND2. now rewrite <- app_assoc. }
  destruct (remove_edited s1 p y F1) as [s2 [E2 ED]].
  { rewrite KK1, K. apply in_or_app. right. right. left. reflexivity. }
  exists s2. split; [exact E2|].
  assert (kind_of s1 y <> Some KAttr) as KY. { rewrite K1. rewrite is_text_kind in Ty. intro X. rewrite X in Ty. discriminate. }
  pose proof (forest_detach s1 s2 y F1 KY ED) as F2.
  assert (forall q, kids s2 q = without y (kids s q)) as KK2.
  { intros q. destruct (Nat.lt_ge_cases q (length (s_nodes s1))) as [H|H].
    - unfold kids at 1. rewrite (e_kids _ _ _ _ ED q H). now rewrite KK1.
    - rewrite !kids_none; [reflexivity| |]; apply nth_error_None; [unfold s1 in H; rewrite upd_len in H; exact H|rewrite (e_len _ _ _ _ ED); exact H]. }
  assert (~ In cur a /\ ~ In cur r /\ ~ In y a /\ ~ In y r /\ cur <> y) as [Na [Nr [Ya [Yr Ncy]]]].
  { apply nodup_app_cons in ND. apply nodup_app_cons in ND2. destruct ND as [X1 X2], ND2 as [X3 X4]. repeat split; try tauto.
    - intro; apply X2; right; assumption.
    - intro; apply X3; apply in_or_app; left; assumption.
    - intros ->. apply X2. left. reflexivity. }
  assert (parent_of s y = Some p) as Py by (apply kids_parent; [exact F|]; rewrite K; apply in_or_app; right; right; left; reflexivity).
  split.
  - split.
    + exact F2.
    + rewrite (e_len _ _ _ _ ED). apply upd_len.
    + intros i. now rewrite (e_kind _ _ _ _ ED), K1.
    + intros q. rewrite KK2. destruct (Nat.eqb_spec q p) as [->|]; [exact W|]. apply without_other; [exact F|congruence].
    + intros i. rewrite (e_par _ _ _ _ ED). unfold set_par. destruct (Nat.eqb_spec i y) as [->|]; [|left; apply P1].
      right. split; [reflexivity|]. rewrite K. split; [apply in_or_app; right; right; left; reflexivity|].
      intro X. apply in_app_or in X. destruct X as [X|[X|X]]; tauto.
    + intros i Hi. rewrite (e_data _ _ _ _ ED), D1. destruct (Nat.eqb_spec i cur) as [->|]; [|reflexivity]. exfalso.
      destruct Hi as [Hi|Hi]; [apply Hi; rewrite K; apply in_or_app; right; left; reflexivity|congruence].
    + intros i. now rewrite (e_attrs _ _ _ _ ED), A1.
  - assert (forall i, is_text s2 i = is_text s i) as T2 by (intros i; rewrite !is_text_kind, (e_kind _ _ _ _ ED), K1; reflexivity).
    assert (forall l, ~ In cur l -> flat s2 l = flat s l) as FL.
    { intros l Hl. unfold flat. induction l as [|x l IH]; [reflexivity|]. cbn [flat_map]. rewrite T2, (e_data _ _ _ _ ED), D1.
      destruct (Nat.eqb_spec x cur) as [->|]; [exfalso; apply Hl; left; reflexivity|]. f_equal. apply IH. intro; apply Hl; right; assumption. }
    pose proof (FL a Na) as FA. pose proof (FL r Nr) as FR. unfold flat in *. rewrite !flat_map_app. cbn [flat_map].
    rewrite FA, FR, T2, Tc, Ty, (e_data _ _ _ _ ED), D1, Nat.eqb_refl, map_app, <- app_assoc. reflexivity.
Qed.

Lemma child_at_ok s p pre x r : forest s -> exists_node s p -> kids s p = pre ++ x :: r -> child_at s p (length pre) = Ok x.
Proof.
  intros F Hp K. destruct (get_ex s p Hp) as [n G]. unfold child_at. rewrite G. destruct (forest_holds s p n F G) as [_ [L H]].
  specialize (H (length pre)). rewrite K in *. assert (length pre < length (pre ++ x :: r)) as Hlt by (rewrite app_length; cbn; lia). specialize (H Hlt).
  rewrite nth_error_mid, Nat.ltb_irrefl, Nat.eqb_refl in H.
  rewrite (nth_error_nth' (n_cells n) None) by lia. rewrite H. reflexivity.
Qed.

Lemma merge_texts_ok p a cur : forall rest fuel s, forest s -> exists_node s p -> kids s p = a ++ cur :: rest -> is_text s cur = true -> length rest <= fuel ->
  exists s' r2, merge_texts s p cur (S (length a)) (length (a ++ cur :: rest)) fuel = (s', Ok (length (a ++ cur :: r2))) /\ trimmed s s' p (a ++ cur :: r2) /\
    flat s' (a ++ cur :: r2) = flat s (a ++ cur :: rest) /\ length r2 <= length rest /\ incl r2 rest /\ match r2 with y :: _ => is_text s y = false | [] => True end.
Proof.
  induction rest as [|y r IH]; intros fuel s F Hp K Tc Hf.
  - exists s, []. assert (merge_texts s p cur (S (length a)) (length (a ++ [cur])) fuel = (s, Ok (length (a ++ [cur])))) as E.
    { destruct fuel; cbn [merge_texts]; [reflexivity|]. rewrite app_length. cbn [length]. destruct (Nat.ltb_spec (S (length a)) (length a + 1)); [lia|reflexivity]. }
    split; [exact E|]. split; [rewrite <- K; now apply trimmed_refl|]. repeat split; [lia|intros x X; exact X].
  - destruct fuel as [|fuel]; [cbn in Hf; lia|]. cbn [merge_texts].
    assert (S (length a) < length (a ++ cur :: y :: r)) as Hlt by (rewrite app_length; cbn; lia).
    apply Nat.ltb_lt in Hlt. rewrite Hlt.
    assert (kids s p = (a ++ [cur]) ++ y :: r) as K' by (rewrite <- app_assoc; exact K).
    pose proof (child_at_ok s p _ y r F Hp K') as CA. rewrite app_length in CA. cbn [length] in CA. rewrite Nat.add_1_r in CA. rewrite CA.
    destruct (is_text s y) eqn:Ty.
    + destruct (merge_step s p a cur y r F K Tc Ty) as [s2 [E2 [T2 FL2]]]. rewrite E2.
      assert (kids s2 p = a ++ cur :: r) as K2 by (rewrite (t_kids _ _ _ _ T2), Nat.eqb_refl; reflexivity).
      destruct (IH fuel s2 (t_forest _ _ _ _ T2)) as [s' [r2 [E' [T' [FL' [L' [I' H']]]]]]].
      * unfold exists_node in *. rewrite (t_len _ _ _ _ T2). exact Hp.
      * exact K2.
      * rewrite is_text_kind, (t_kind _ _ _ _ T2), <- is_text_kind. exact Tc.
      * cbn in Hf. lia.
      * exists s', r2. replace (length (a ++ cur :: y :: r) - 1) with (length (a ++ cur :: r)) by (rewrite !app_length; cbn; lia).
        split; [exact E'|]. split.
        { eapply trimmed_trans; [exact T2|exact T'| |].
          - rewrite K. intros x X. apply in_app_or in X. apply in_or_app. cbn in *. tauto.
          - intros x X. apply in_app_or in X. apply in_or_app. destruct X as [X|[X|X]]; [tauto|right; left; exact X|right; right; now apply I']. }
        split; [congruence|]. split; [cbn; lia|]. split; [intros x X; right; now apply I'|].
        destruct r2 as [|z r2]; [exact I|]. rewrite is_text_kind, (t_kind _ _ _ _ T2), <- is_text_kind in H'. exact H'.
    + exists s, (y :: r). split; [reflexivity|]. split; [rewrite <- K; now apply trimmed_refl|]. repeat split; [lia|intros x X; exact X|exact Ty].
Qed.

Lemma normalize_loop_ok p : forall fuel s pre rest, forest s -> exists_node s p -> kids s p = pre ++ rest -> length rest <= fuel -> (forall z, no_adjacent (is_text s) (pre ++ [z])) ->
  exists s' l', normalize_loop s p (length pre) (length (pre ++ rest)) fuel = (s', Ok tt) /\ trimmed s s' p l' /\ incl l' (pre ++ rest) /\
    flat s' l' = flat s (pre ++ rest) /\ no_adjacent (is_text s) l'.
Proof.
  induction fuel as [|f IH]; intros s pre rest F Hp K Hf NA.
  - destruct rest; [|cbn in Hf; lia]. exists s, pre. rewrite app_nil_r in *. split; [reflexivity|]. split; [rewrite <- K; now apply trimmed_refl|].
    split; [intros x X; exact X|]. split; [reflexivity|]. exact (na_prefix _ _ _ (NA 0)).
  - cbn [normalize_loop]. destruct rest as [|x rest].
    { rewrite app_nil_r in *. rewrite Nat.ltb_irrefl. exists s, pre. split; [reflexivity|]. split; [rewrite <- K; now apply trimmed_refl|].
      split; [intros x X; exact X|]. split; [reflexivity|]. exact (na_prefix _ _ _ (NA 0)). }
    assert (length pre < length (pre ++ x :: rest)) as Hlt by (rewrite app_length; cbn; lia). apply Nat.ltb_lt in Hlt. rewrite Hlt.
    rewrite (child_at_ok s p pre x rest F Hp K). destruct (is_text s x) eqn:Tx.
    + destruct (merge_texts_ok p pre x rest (length (pre ++ x :: rest)) s F Hp K Tx) as [s1 [r2 [E1 [T1 [FL1 [L1 [I1 H1]]]]]]]; [rewrite app_length; cbn; lia|].
      rewrite E1.
      assert (kids s1 p = pre ++ x :: r2) as K1 by (rewrite (t_kids _ _ _ _ T1), Nat.eqb_refl; reflexivity).
      assert (forall i, is_text s1 i = is_text s i) as TX by (intros i; rewrite !is_text_kind, (t_kind _ _ _ _ T1); reflexivity).
      assert (exists_node s1 p) as Hp1 by (unfold exists_node in *; rewrite (t_len _ _ _ _ T1); exact Hp).
      assert (incl (pre ++ x :: r2) (pre ++ x :: rest)) as II.
      { intros z Z. apply in_app_or in Z. apply in_or_app. destruct Z as [Z|[Z|Z]]; [left; exact Z|right; left; exact Z|right; right; now apply I1]. }
      destruct r2 as [|y r2].
      * exists s1, (pre ++ [x]). assert (normalize_loop s1 p (S (S (length pre))) (length (pre ++ [x])) f = (s1, Ok tt)) as E.
        { destruct f; cbn [normalize_loop]; [reflexivity|]. rewrite app_length. cbn [length]. destruct (Nat.ltb_spec (S (S (length pre))) (length pre + 1)); [lia|reflexivity]. }
        split; [exact E|]. split; [exact T1|]. split; [exact II|]. split; [exact FL1|apply NA].
      * assert (length (pre ++ [x; y]) = S (S (length pre))) as Lp by (rewrite app_length; cbn; lia).
        assert (pre ++ x :: y :: r2 = (pre ++ [x; y]) ++ r2) as EA by (rewrite <- app_assoc; reflexivity).
        destruct (IH s1 (pre ++ [x; y]) r2 (t_forest _ _ _ _ T1) Hp1) as [s' [l' [E' [T' [I' [FL' NA']]]]]].
        -- rewrite K1. exact EA.
        -- cbn in *. lia.
        -- intros z. rewrite <- app_assoc. apply (na_ext (is_text s)); [symmetry; apply TX|]. change (pre ++ [x; y] ++ [z]) with (pre ++ x :: [y; z]).
           apply na_mid; [apply NA|]. cbn. rewrite H1. split; [intros [_ X]; discriminate|]. split; [intros [X _]; discriminate|exact I].
        -- exists s', l'. rewrite Lp, <- EA in E'. rewrite <- EA in I', FL'. split; [exact E'|].
           split; [|split; [|split; [congruence|]]].
           ++ apply (trimmed_trans s s1 s' p _ l' T1 T'); [rewrite K; exact II|exact I'].
           ++ intros z Z. apply II, I', Z.
           ++ apply (na_ext (is_text s1)); [exact TX|exact NA'].
    + assert (pre ++ x :: rest = (pre ++ [x]) ++ rest) as EA by (rewrite <- app_assoc; reflexivity).
      destruct (IH s (pre ++ [x]) rest F Hp) as [s' [l' [E' [T' [I' [FL' NA']]]]]].
      * now rewrite K.
      * cbn in Hf. lia.
      * intros z. rewrite <- app_assoc. apply na_nontext; [apply NA|exact Tx].
      * exists s', l'. rewrite <- EA in *. rewrite app_length in E' at 1. cbn [length] in E'. rewrite Nat.add_1_r in E'. split; [exact E'|]. repeat (split; [assumption|]). assumption.
Qed.
Lemma normalize_ok s p : forest s -> exists_node s p ->
  exists s' l', normalize s p = (s', Ok tt) /\ trimmed s s' p l' /\ incl l' (kids s p) /\ flat s' l' = flat s (kids s p) /\ no_adjacent (is_text s) l'.
Proof.
  intros F Hp. destruct (get_ex s p Hp) as [n G]. destruct (forest_holds s p n F G) as [C _]. unfold normalize. rewrite G, C.
  destruct (Nat.ltb_spec (length (kids s p)) 2) as [H|H].
  - exists s, (kids s p). split; [reflexivity|]. split; [now apply trimmed_refl|]. split; [intros x X; exact X|]. split; [reflexivity|].
    destruct (kids s p) as [|x [|y l]]; [exact I|exact I|cbn in H; lia].
  - destruct (normalize_loop_ok p (length (kids s p)) s [] (kids s p) F Hp eq_refl (le_n _)) as [s' [l' X]]; [intros z; exact I|]. exists s', l'. exact X.
Qed.

(** ** The string-value *)
Scheme text_ind2 := Minimality for text_of Sort Prop with texts_ind2 := Minimality for texts_of Sort Prop.
Combined Scheme text_mut from text_ind2, texts_ind2.

Inductive flat_text (s : store) : list (N + nat) -> str -> Prop :=
| ft_nil : flat_text s [] []
| ft_char c f v : flat_text s f v -> flat_text s (inl c :: f) (c :: v)
| ft_inner x f u v : text_of s x u -> flat_text s f v -> flat_text s (inr x :: f) (u ++ v)
| ft_other x k f v : kind_of s x = Some k -> is_container k = false -> flat_text s f v -> flat_text s (inr x :: f) v.
Lemma ft_chars s d f v : flat_text s f v -> flat_text s (map inl d ++ f) (d ++ v).
Proof. intros H. induction d as [|c d IH]; [exact H|]. cbn. now constructor. Qed.
Lemma ft_chars_inv s d : forall f v, flat_text s (map inl d ++ f) v -> exists v', v = d ++ v' /\ flat_text s f v'.
Proof.
  induction d as [|c d IH]; intros f v H; [exists v; auto|]. cbn in H. inversion H; subst. destruct (IH _ _ H3) as [v' [-> X]]. exists v'. auto.
Qed.
Lemma text_kind s x u : text_of s x u -> exists k, kind_of s x = Some k /\ is_container k = true.
Proof. intros H. inversion H. eauto. Qed.
Lemma container_not_text k : is_container k = true -> kind_eqb k KText = false.
Proof. destruct k; cbn; congruence. Qed.
Lemma flat_texts s l : forall v, flat_text s (flat s l) v -> texts_of s l v.
Proof.
  induction l as [|x l IH]; intros v H; [inversion H; constructor|].
  unfold flat in H. cbn [flat_map] in H. fold (flat s l) in H. destruct (is_text s x) eqn:T.
  - apply ft_chars_inv in H. destruct H as [v' [-> H]]. constructor; [|now apply IH].
    rewrite is_text_kind in T. destruct (kind_of s x) as [[]|]; try discriminate. reflexivity.
  - cbn in H. inversion H; subst; [constructor; auto|]. eapply texts_other; eauto. intros ->. rewrite is_text_kind, H2 in T. discriminate.
Qed.

Lemma normalize_text s s' p l' : forest s -> trimmed s s' p l' -> flat s' l' = flat s (kids s p) -> forall q v, text_of s q v -> text_of s' q v.
Proof.
  intros F T FL.
  assert ((forall q v, text_of s q v -> text_of s' q v) /\
          (forall l v, texts_of s l v -> ((forall x, In x l -> is_text s x = true -> data_of s' x = data_of s x) -> texts_of s' l v) /\ flat_text s' (flat s l) v)) as [G _]; [|exact G].
  apply text_mut.
  - intros q k v K C _ [H1 H2]. apply (text_container s' q k v); [now rewrite (t_kind _ _ _ _ T)|exact C|]. rewrite (t_kids _ _ _ _ T).
    destruct (Nat.eqb_spec q p) as [->|Hq].
    + apply flat_texts. now rewrite FL.
    + apply H1. intros x X _. apply (t_data _ _ _ _ T). left. intro Y. apply (kids_parent s _ _ F) in X, Y. congruence.
  - split; [constructor|constructor].
  - intros x l v K _ [H1 H2]. split.
    + intros H. rewrite <- H; [|left; reflexivity|rewrite is_text_kind, K; reflexivity]. constructor; [now rewrite (t_kind _ _ _ _ T)|]. apply H1. intros y Y. apply H. right. exact Y.
    + unfold flat. cbn [flat_map]. rewrite is_text_kind, K. cbn. now apply ft_chars.
  - intros x l u v TX HX _ [H1 H2]. split.
    + intros H. constructor; [exact HX|]. apply H1. intros y Y. apply H. right. exact Y.
    + unfold flat. cbn [flat_map]. destruct (text_kind _ _ _ TX) as [k [K C]]. rewrite is_text_kind, K, container_not_text by exact C. cbn. now constructor.
  - intros x k l v K C NT _ [H1 H2]. split.
    + intros H. eapply texts_other; [rewrite (t_kind _ _ _ _ T); exact K|exact C|exact NT|]. apply H1. intros y Y. apply H. right. exact Y.
    + unfold flat. cbn [flat_map]. assert (kind_eqb k KText = false) as KT by (destruct k; cbn; congruence). rewrite is_text_kind, K, KT. cbn. eapply ft_other; eauto. now rewrite (t_kind _ _ _ _ T).
Qed.

(** ** One call *)
Lemma on_container_cases s p args c : forall k, kind_of s p = Some k ->
  on_container s p args c = if is_container k then if forallb (fun a => a <? length (s_nodes s)) args then c else (s, Err TypeError) else (s, Err AttributeError).
Proof. intros k K. unfold on_container. unfold kind_of in K. destruct (get s p); [|discriminate]. injection K as <-. reflexivity. Qed.
Lemma on_container_none s p args c : kind_of s p = None -> on_container s p args c = (s, Err NameError).
Proof. unfold on_container, kind_of. destruct (get s p); [discriminate|reflexivity]. Qed.
Lemma args1 s c : exists_node s c -> forallb (fun a => a <? length (s_nodes s)) [c] = true.
Proof. intros H. cbn. rewrite andb_true_r. now apply Nat.ltb_lt. Qed.
Lemma args2 s c d : exists_node s c -> exists_node s d -> forallb (fun a => a <? length (s_nodes s)) [c; d] = true.
Proof. intros H1 H2. cbn. rewrite andb_true_r. apply andb_true_iff. split; now apply Nat.ltb_lt. Qed.
Lemma kind_exists s p k : kind_of s p = Some k -> exists_node s p.
Proof. apply kind_lt. Qed.

(** Dispatch on the guard of a container method: either it raises and changes
    nothing, or the container and the arguments are there. *)
Lemma on_container_inv s p args c : (exists e, on_container s p args c = (s, Err e)) \/
  (on_container s p args c = c /\ (exists k, kind_of s p = Some k /\ is_container k = true) /\ forall a, In a args -> exists_node s a).
Proof.
  destruct (kind_of s p) as [k|] eqn:K; [|left; exists NameError; now apply on_container_none].
  rewrite (on_container_cases s p args c k K). destruct (is_container k) eqn:C; [|left; eauto].
  destruct (forallb _ args) eqn:A; [|left; eauto]. right. split; [reflexivity|]. split; [eauto|].
  intros a Ha. rewrite forallb_forall in A. apply A in Ha. now apply Nat.ltb_lt in Ha.
Qed.

Theorem step_forest s o : forest s -> safe s o -> forest (fst (step s o)).
Proof.
  intros F S. destruct o as [k d|p c|p i c|p c|p o n|p|p d|p]; cbn [step].
  - destruct (kind_eqb k KAttr); [exact F|]. now apply forest_new.
  - destruct (on_container_inv s p [c] (container_append s p c)) as [[e ->]|[-> [HP HA]]]; [exact F|].
    assert (exists_node s c) as Hc by (apply HA; left; reflexivity). assert (exists_node s p) as Hp by (destruct HP as [k [K _]]; eapply kind_exists; eauto).
    destruct (ensure_hierarchy_ok s p c F Hp Hc) as [[HE [KC NA]]|[HE _]].
    + destruct (append_edited s p c F Hp Hc HE S) as [s' [-> E]]. cbn [fst]. eapply forest_move; [exact F|exact HP|exact KC|exact NA| | |exact E].
      * rewrite <- insert_end. apply nodup_insert_at; [apply (f_nodup s F)|]. intro X. apply S. now apply kids_parent.
      * intros x. rewrite (without_other s p c F S), in_app_iff. cbn. intuition.
    + unfold container_append. rewrite HE. exact F.
  - destruct (on_container_inv s p [c] (container_insert s p i c)) as [[e ->]|[-> [HP HA]]]; [exact F|].
    assert (exists_node s c) as Hc by (apply HA; left; reflexivity). assert (exists_node s p) as Hp by (destruct HP as [k [K _]]; eapply kind_exists; eauto).
    destruct (ensure_hierarchy_ok s p c F Hp Hc) as [[HE [KC NA]]|[HE _]].
    + destruct (insert_edited s p i c F Hp Hc HE S) as [s' [-> E]]. cbn [fst]. eapply forest_move; [exact F|exact HP|exact KC|exact NA| | |exact E].
      * apply nodup_insert_at; [apply nodup_without, (f_nodup s F)|]. intro X. apply in_without in X. tauto.
      * intros x. apply in_insert_at.
    + unfold container_insert. rewrite HE. exact F.
  - destruct (on_container_inv s p [c] (container_remove s p c)) as [[e ->]|[-> [HP HA]]]; [exact F|].
    assert (exists_node s p) as Hp by (destruct HP as [k [K _]]; eapply kind_exists; eauto).
    destruct (in_dec Nat.eq_dec c (kids s p)) as [I|N].
    + destruct (remove_edited s p c F I) as [s' [-> E]]. cbn [fst]. eapply forest_detach; [exact F| |exact E]. apply (f_link s F) in I. tauto.
    + rewrite remove_absent by assumption. exact F.
  - destruct (on_container_inv s p [o; n] (container_replace s p o n)) as [[e ->]|[-> [HP HA]]]; [exact F|].
    assert (exists_node s n) as Hn by (apply HA; right; left; reflexivity). assert (exists_node s p) as Hp by (destruct HP as [k [K _]]; eapply kind_exists; eauto).
    destruct (in_dec Nat.eq_dec o (kids s p)) as [I|N]; [|rewrite replace_absent by assumption; exact F].
    destruct (Nat.eq_dec o n) as [->|Hon]; [rewrite replace_self by assumption; exact F|].
    destruct (replace_edited s p o n F Hp Hn I Hon S) as [s' [-> E]]. cbn [fst]. destruct S as [X|[HK [NA _]]]; [contradiction|].
    eapply forest_replace; [exact F|exact HP| |exact I|exact Hon|exact NA|exact E].
    destruct (get_ex s n Hn) as [m G]. exists (n_kind m). split; [now apply kind_get|]. apply HK. now apply kind_get.
  - destruct (on_container_inv s p [] (normalize s p)) as [[e ->]|[-> [HP HA]]]; [exact F|].
    assert (exists_node s p) as Hp by (destruct HP as [k [K _]]; eapply kind_exists; eauto).
    destruct (normalize_ok s p F Hp) as [s' [l' [-> [T _]]]]. exact (t_forest _ _ _ _ T).
  - destruct (add_attr s p d) as [s' r] eqn:E. cbn [fst]. eapply forest_attr; eauto.
  - destruct (on_container_inv s p [] (container_freeze s p)) as [[e ->]|[-> [HP HA]]]; [exact F|].
    destruct (freeze_spec s p F) as [s' [-> E]]. eapply forest_edited_same; eauto.
Qed.
Theorem run_forest : forall ops s, forest s -> safe_run s ops -> forest (run s ops).
Proof.
  induction ops as [|o ops IH]; intros s F S; [exact F|]. destruct S as [S1 S2]. cbn [run fold_left]. apply IH; [now apply step_forest|exact S2].
Qed.

(** A call that raises leaves the store as it was. *)
Lemma detach_grow_ok s p c : forest s -> exists_node s p -> kind_of s c <> Some KAttr -> exists s', detach (grow s p) c = (s', Ok tt).
Proof.
  intros F Hp K. destruct (detach_get (grow s p) c) as [s' [E _]]; [|eauto].
  intros q. rewrite grow_parent. intros Q. assert (In c (kids s q)) as I by (apply (f_link s F); split; assumption).
  destruct (f_parent s F q c Q) as [k [KQ _]]. unfold kind_of in KQ. destruct (get s q) as [n|] eqn:G; [|discriminate].
  destruct (forest_rfind s q c n F G I) as [idx R]. rewrite grow_get, G. destruct (Nat.eqb_spec q p) as [->|]; [|cbn; eauto]. cbn [option_map].
  set (n1 := container_resize n (length (kids s p) + 1)). exists n1.
  destruct (rfind (n_cells n1) c (n_count n1)) as [i|] eqn:R1; [eauto|]. exfalso.
  apply rfind_some in R. destruct R as [R2 R3]. destruct (forest_holds s p n F G) as [C _].
  apply (rfind_none _ _ _ idx R1); [unfold n1; rewrite resize_count; lia|]. unfold n1. rewrite (proj2 (resize_cells _ _)) by lia. exact R3.
Qed.
Theorem failed_unchanged s o s' e : forest s -> step s o = (s', Err e) -> s' = s.
Proof.
  intros F. destruct o as [k d|p c|p i c|p c|p o n|p|p d|p]; cbn [step].
  - destruct (kind_eqb k KAttr); [|discriminate]. now intros [= <- _].
  - destruct (on_container_inv s p [c] (container_append s p c)) as [[e' ->]|[-> [HP HA]]]; [now intros [= <- _]|].
    assert (exists_node s c) as Hc by (apply HA; left; reflexivity). assert (exists_node s p) as Hp by (destruct HP as [k [K _]]; eapply kind_exists; eauto).
    unfold container_append. destruct (ensure_hierarchy_ok s p c F Hp Hc) as [[HE [[k [K1 K2]] NA]]|[HE _]]; rewrite HE; [|now intros [= <- _]].
    destruct (get_ex s p Hp) as [n G]. rewrite G. destruct (forest_holds s p n F G) as [C _]. rewrite C. fold (grow s p).
    destruct (detach_grow_ok s p c F Hp (not_attr _ _ _ K1 K2)) as [s2 ->]. discriminate.
  - destruct (on_container_inv s p [c] (container_insert s p i c)) as [[e' ->]|[-> [HP HA]]]; [now intros [= <- _]|].
    assert (exists_node s c) as Hc by (apply HA; left; reflexivity). assert (exists_node s p) as Hp by (destruct HP as [k [K _]]; eapply kind_exists; eauto).
    unfold container_insert. destruct (ensure_hierarchy_ok s p c F Hp Hc) as [[HE [[k [K1 K2]] NA]]|[HE _]]; rewrite HE; [|now intros [= <- _]].
    destruct (get_ex s p Hp) as [n G]. rewrite G. destruct (forest_holds s p n F G) as [C _]. rewrite C. fold (grow s p).
    destruct (detach_grow_ok s p c F Hp (not_attr _ _ _ K1 K2)) as [s2 ->]. discriminate.
  - destruct (on_container_inv s p [c] (container_remove s p c)) as [[e' ->]|[-> [HP HA]]]; [now intros [= <- _]|].
    unfold container_remove. destruct (get s p); [|now intros [= <- _]]. destruct (rfind _ _ _); [discriminate|now intros [= <- _]].
  - destruct (on_container_inv s p [o; n] (container_replace s p o n)) as [[e' ->]|[-> [HP HA]]]; [now intros [= <- _]|].
    unfold container_replace. destruct (get s p); [|now intros [= <- _]]. destruct (rfind _ _ _); [|now intros [= <- _]].
    destruct (o =? n); [discriminate|]. unfold detach. destruct (parent_of s n) as [q|]; [|discriminate].
    unfold container_remove. destruct (get s q); [|now intros [= <- _]]. destruct (rfind _ n _); [discriminate|now intros [= <- _]].
  - destruct (on_container_inv s p [] (normalize s p)) as [[e' ->]|[-> [HP HA]]]; [now intros [= <- _]|].
    assert (exists_node s p) as Hp by (destruct HP as [k [K _]]; eapply kind_exists; eauto).
    destruct (normalize_ok s p F Hp) as [s2 [l' [-> _]]]. discriminate.
  - unfold add_attr. destruct (get s p) as [n|]; [|now intros [= <- _]]. destruct (kind_eqb _ _); [|now intros [= <- _]]. destruct (new_node s KAttr d). discriminate.
  - destruct (on_container_inv s p [] (container_freeze s p)) as [[e' ->]|[-> [HP HA]]]; [now intros [= <- _]|]. discriminate.
Qed.
