(** * Proofs about the tree builder: the tree it builds *)
From Coq Require Import NArith ZArith String List Bool Lia Arith.
From Verif Require Import PyStr PyErr RdModel RdSpec RdProofs DomModel DomSpec DomCells DomInv DomOps DomStep TbModel TbSpec TbStore TbProofs.
Import ListNotations.
Local Open Scope nat_scope.

Scheme stands_ind2 := Induction for stands Sort Prop with all_stand_ind2 := Induction for all_stand Sort Prop.

Lemma stands_frame (R R' : nat -> Prop) s lab s' lab' : (forall i, R i -> R' i /\ get s' i = get s i /\ label_of lab' i = label_of lab i) ->
  (forall i t, stands R s lab i t -> stands R' s' lab' i t).
Proof.
  intros H. apply (stands_ind2 R s lab (fun i t _ => stands R' s' lab' i t) (fun p l ts _ => all_stand R' s' lab' p l ts)).
  - intros i n ns atts ct ds HR K D L HD HA _ IH. destruct (H i HR) as (H1 & H2 & H3).
    apply stands_elem with (ds := ds); [exact H1|rewrite (kind_get' _ _ _ H2); exact K|rewrite (data_get _ _ _ H2); exact D|rewrite H3; exact L|exact HD| |rewrite (kids_get _ _ _ H2); exact IH].
    rewrite (attrs_get _ _ _ H2). eapply forall2_weaken; [|exact HA]. intros x y. now apply attr_stands_frame.
  - intros i d HR K D. destruct (H i HR) as (H1 & H2 & H3). apply stands_text; [exact H1|rewrite (kind_get' _ _ _ H2); exact K|rewrite (data_get _ _ _ H2); exact D].
  - intros i t d HR K D L. destruct (H i HR) as (H1 & H2 & H3). apply stands_instr; [exact H1|rewrite (kind_get' _ _ _ H2); exact K|rewrite (data_get _ _ _ H2); exact D|rewrite H3; exact L].
  - intros i d HR K D. destruct (H i HR) as (H1 & H2 & H3). apply stands_comm; [exact H1|rewrite (kind_get' _ _ _ H2); exact K|rewrite (data_get _ _ _ H2); exact D].
  - intros p. constructor.
  - intros p c l t ts P S1 IH1 S2 IH2. constructor; [|exact IH1|exact IH2].
    assert (HR : R c) by (destruct S1; assumption). rewrite (parent_get _ _ _ (proj1 (proj2 (H c HR)))). exact P.
Qed.
Lemma all_stand_frame (R R' : nat -> Prop) s lab s' lab' p : (forall i, R i -> R' i /\ get s' i = get s i /\ label_of lab' i = label_of lab i) ->
  forall l ts, all_stand R s lab p l ts -> all_stand R' s' lab' p l ts.
Proof.
  intros H. induction 1 as [|p c l t ts P S1 S2 IH]; constructor; [|now apply (stands_frame R R' s lab)|exact IH].
  assert (HR : R c) by (destruct S1; assumption). rewrite (parent_get _ _ _ (proj1 (proj2 (H c HR)))). exact P.
Qed.
Lemma all_stand_app R s lab p : forall l1 t1 l2 t2, all_stand R s lab p l1 t1 -> all_stand R s lab p l2 t2 -> all_stand R s lab p (l1 ++ l2) (t1 ++ t2).
Proof. intros l1 t1 l2 t2 H. induction H; intros H2; [exact H2|]. cbn [app]. constructor; auto. Qed.

(** ** Namespaces *)
Lemma ostr_eqb_spec a b : reflect (a = b) (ostr_eqb a b).
Proof.
  destruct a as [x|], b as [y|]; cbn [ostr_eqb]; try (constructor; congruence).
  destruct (str_eqb x y) eqn:E; constructor; [apply str_eqb_eq in E; congruence|]. intros [= ->]. rewrite str_eqb_refl in E. discriminate.
Qed.
Lemma ns_set_in p u q v : forall d, NoDup (map fst d) -> (In (q, v) (ns_set d p u) <-> (q = p /\ v = u) \/ (q <> p /\ In (q, v) d)).
Proof.
  induction d as [|[q' v'] d IH]; intros ND; cbn [ns_set].
  - cbn. split; [intros [[= <- <-]|[]]; now left|intros [[-> ->]|[_ []]]; now left].
  - cbn [map fst] in ND. inversion_clear ND as [|? ? N1 N2]. destruct (ostr_eqb_spec p q') as [->|NE].
    + cbn [In]. split.
      * intros [[= <- <-]|X]; [now left|]. right. split; [|now right]. intros ->. apply N1. apply (in_map fst) in X. exact X.
      * intros [[-> ->]|[NQ [[= <- <-]|X]]]; [now left|congruence|now right].
    + cbn [In]. rewrite (IH N2). split.
      * intros [[= <- <-]|[[-> ->]|[NQ X]]]; [right; split; [congruence|now left]|now left|right; split; [exact NQ|now right]].
      * intros [[-> ->]|[NQ [X|X]]]; [right; now left|now left|right; right; now split].
Qed.
Lemma ns_set_keys p u : forall d q, In q (map fst (ns_set d p u)) -> q = p \/ In q (map fst d).
Proof.
  induction d as [|[q' v'] d IH]; intros q; cbn [ns_set].
  - cbn. intros [<-|[]]. now left.
  - destruct (ostr_eqb_spec p q') as [->|NE]; cbn [map fst In]; [tauto|]. intros [<-|X]; [tauto|]. apply IH in X. tauto.
Qed.
Lemma ns_set_nodup p u : forall d, NoDup (map fst d) -> NoDup (map fst (ns_set d p u)).
Proof.
  induction d as [|[q' v'] d IH]; intros ND; cbn [ns_set].
  - cbn. constructor; [intros []|constructor].
  - cbn [map fst] in ND. inversion_clear ND as [|? ? N1 N2]. destruct (ostr_eqb_spec p q') as [->|NE]; cbn [map fst]; constructor; auto.
    intros X. apply ns_set_keys in X. destruct X; [congruence|contradiction].
Qed.
Definition uri_of (o : option str) : str := match o with Some v => v | None => [] end.
Definition ns_dict (ns : list (option str * option str)) (d : list (option str * str)) := fold_left (fun d x => ns_set d (fst x) (uri_of (snd x))) ns d.
Lemma snoc_split {A} (l : list A) x l1 y l2 : l ++ [x] = l1 ++ y :: l2 -> (l2 = [] /\ l = l1 /\ x = y) \/ exists l3, l2 = l3 ++ [x] /\ l = l1 ++ y :: l3.
Proof.
  destruct l2 as [|z l2 _] using rev_ind; intros E.
  - apply app_inj_tail in E as [-> ->]. now left.
  - right. exists l2. change (y :: l2 ++ [z]) with ((y :: l2) ++ [z]) in E. rewrite app_assoc in E. apply app_inj_tail in E as [-> ->]. now split.
Qed.
Lemma ns_dict_declares : forall ns, declares ns (ns_dict ns []).
Proof.
  induction ns as [|[p o] ns [IH1 IH2]] using rev_ind.
  - split; [constructor|]. intros p u. cbn. split; [intros []|]. intros (l1 & o & l2 & E & _). destruct l1; discriminate.
  - unfold ns_dict. rewrite fold_left_app. cbn [fold_left fst snd]. fold (ns_dict ns []). split; [now apply ns_set_nodup|].
    intros q v. rewrite (ns_set_in _ _ _ _ _ IH1), IH2. split.
    + intros [[-> ->]|[NQ (l1 & o' & l2 & -> & N & ->)]].
      * exists ns, o, []. split; [reflexivity|]. split; [intros []|reflexivity].
      * exists l1, o', (l2 ++ [(p, o)]). split; [rewrite <- app_assoc; reflexivity|]. split; [|reflexivity].
        rewrite map_app, in_app_iff. cbn. intros [X|[X|[]]]; [contradiction|congruence].
    + intros (l1 & o' & l2 & E & N & ->). apply snoc_split in E as [(-> & -> & [= -> ->])|(l3 & -> & ->)].
      * left. split; reflexivity.
      * right. rewrite map_app, in_app_iff in N. cbn in N. split; [intros ->; tauto|]. exists l1, o', l3. split; [reflexivity|]. split; [tauto|reflexivity].
Qed.

(** ** Frames *)
Record grows (p : nat) (b b' : builder) : Prop := {
  g_len : length (s_nodes (b_store b)) <= length (s_nodes (b_store b'));
  g_old : forall i, exists_node (b_store b) i -> i <> p -> get (b_store b') i = get (b_store b) i;
  g_kind : kind_of (b_store b') p = kind_of (b_store b) p;
  g_parent : parent_of (b_store b') p = parent_of (b_store b) p;
  g_data : data_of (b_store b') p = data_of (b_store b) p;
  g_attrs : attrs_of (b_store b') p = attrs_of (b_store b) p;
  g_lab : forall i, exists_node (b_store b) i -> label_of (b_labels b') i = label_of (b_labels b) i
}.
Lemma grows_refl p b b' : b_store b' = b_store b -> b_labels b' = b_labels b -> grows p b b'.
Proof. intros E1 E2. split; rewrite ?E1, ?E2; auto. Qed.
Lemma grows_trans p b b1 b2 : grows p b b1 -> grows p b1 b2 -> grows p b b2.
Proof.
  intros G1 G2. pose proof (g_len _ _ _ G1). pose proof (g_len _ _ _ G2). assert (X : forall i, exists_node (b_store b) i -> exists_node (b_store b1) i) by (unfold exists_node; lia).
  split; [lia| | | | | |].
  - intros i Hi N. rewrite (g_old _ _ _ G2), (g_old _ _ _ G1); auto.
  - now rewrite (g_kind _ _ _ G2), (g_kind _ _ _ G1).
  - now rewrite (g_parent _ _ _ G2), (g_parent _ _ _ G1).
  - now rewrite (g_data _ _ _ G2), (g_data _ _ _ G1).
  - now rewrite (g_attrs _ _ _ G2), (g_attrs _ _ _ G1).
  - intros i Hi. rewrite (g_lab _ _ _ G2), (g_lab _ _ _ G1); auto.
Qed.

Section Build.
Variable h : handler.
Variable sel : list xname -> bool.
Hypothesis HH : forall past s i, h past s i = remove_matching sel past s i.

Definition apart (b b' : builder) (i : nat) (t : tree) : Prop :=
  parent_of (b_store b') i = None /\ stands (within (length (s_nodes (b_store b))) (length (s_nodes (b_store b')))) (b_store b') (b_labels b') i t.
Record built (path : list xname) (p : nat) (b b' : builder) (ps gs : list tree) : Prop := {
  u_inv : inv b';
  u_open : b_open b' = b_open b;
  u_ns : b_ns b' = [];
  u_names : open_names (b_past b') = path;
  u_grows : grows p b b';
  u_kids : exists new, kids (b_store b') p = kids (b_store b) p ++ new /\
    all_stand (within (length (s_nodes (b_store b))) (length (s_nodes (b_store b')))) (b_store b') (b_labels b') p new ps;
  u_gone : exists gone, Forall2 (apart b b') gone gs
}.

Lemma built_refl path p b b' : inv b' -> b_store b' = b_store b -> b_labels b' = b_labels b -> b_open b' = b_open b -> b_ns b' = [] -> open_names (b_past b') = path -> built path p b b' [] [].
Proof.
  intros I E1 E2 E3 E4 E5. split; try assumption.
  - now apply grows_refl.
  - exists []. rewrite app_nil_r, E1. split; [reflexivity|constructor].
  - exists []. constructor.
Qed.

Lemma built_trans path p b b1 b2 ps1 gs1 ps2 gs2 : exists_node (b_store b) p ->
  built path p b b1 ps1 gs1 -> built path p b1 b2 ps2 gs2 -> built path p b b2 (ps1 ++ ps2) (gs1 ++ gs2).
Proof.
  intros HP B1 B2. pose proof (u_grows _ _ _ _ _ _ B1) as G1. pose proof (u_grows _ _ _ _ _ _ B2) as G2.
  pose proof (g_len _ _ _ G1). pose proof (g_len _ _ _ G2).
  assert (FR : forall i, within (length (s_nodes (b_store b))) (length (s_nodes (b_store b1))) i ->
     within (length (s_nodes (b_store b))) (length (s_nodes (b_store b2))) i /\ get (b_store b2) i = get (b_store b1) i /\ label_of (b_labels b2) i = label_of (b_labels b1) i).
  { intros i Hi. unfold within, exists_node in *. split; [lia|]. split; [apply (g_old _ _ _ G2)|apply (g_lab _ _ _ G2)]; unfold exists_node; lia. }
  assert (FR2 : forall i, within (length (s_nodes (b_store b1))) (length (s_nodes (b_store b2))) i ->
     within (length (s_nodes (b_store b))) (length (s_nodes (b_store b2))) i /\ get (b_store b2) i = get (b_store b2) i /\ label_of (b_labels b2) i = label_of (b_labels b2) i).
  { intros i Hi. unfold within in *. split; [lia|]. now split. }
  split.
  - apply (u_inv _ _ _ _ _ _ B2).
  - now rewrite (u_open _ _ _ _ _ _ B2), (u_open _ _ _ _ _ _ B1).
  - apply (u_ns _ _ _ _ _ _ B2).
  - apply (u_names _ _ _ _ _ _ B2).
  - eapply grows_trans; eauto.
  - destruct (u_kids _ _ _ _ _ _ B1) as (n1 & K1 & S1). destruct (u_kids _ _ _ _ _ _ B2) as (n2 & K2 & S2). exists (n1 ++ n2).
    split; [rewrite K2, K1, app_assoc; reflexivity|]. apply all_stand_app.
    + eapply all_stand_frame; [exact FR|exact S1].
    + eapply all_stand_frame; [exact FR2|exact S2].
  - destruct (u_gone _ _ _ _ _ _ B1) as (g1 & S1). destruct (u_gone _ _ _ _ _ _ B2) as (g2 & S2). exists (g1 ++ g2). apply Forall2_app.
    + eapply forall2_weaken; [|exact S1]. intros i t [A1 A2]. split; [|eapply stands_frame; [exact FR|exact A2]].
      assert (R : within (length (s_nodes (b_store b))) (length (s_nodes (b_store b1))) i) by (destruct A2; assumption).
      rewrite (parent_get _ _ _ (proj1 (proj2 (FR i R)))). exact A1.
    + eapply forall2_weaken; [|exact S2]. intros i t [A1 A2]. split; [exact A1|eapply stands_frame; [exact FR2|exact A2]].
Qed.

Lemma on_events_app : forall l1 l2 b, on_events h b (l1 ++ l2) = (do b1 <- on_events h b l1 ; on_events h b1 l2).
Proof. induction l1 as [|e l1 IH]; intros l2 b; cbn [app on_events bind]; [reflexivity|]. destruct (on_event h b e); cbn [bind]; [apply IH|reflexivity]. Qed.

(** *** Leaves *)
Lemma label_skip lab i j : j <> i -> forall l, label_of (map (fun x => (i, x)) l ++ lab) j = label_of lab j.
Proof. intros N l. induction l as [|x l IH]; [reflexivity|]. cbn [map app label_of]. destruct (Nat.eqb_spec j i); [contradiction|exact IH]. Qed.
Lemma leaf_facts b p op k d l r : inv b -> b_open b = p :: op -> child_kind k = true -> new_leaf b k d l = Ok r ->
  let b' := fst r in let i := length (s_nodes (b_store b)) in
  inv b' /\ snd r = i /\ b_open b' = b_open b /\ b_ns b' = b_ns b /\ b_past b' = b_past b /\ grows p b b' /\ length (s_nodes (b_store b')) = S i /\
  kids (b_store b') p = kids (b_store b) p ++ [i] /\ parent_of (b_store b') i = Some p /\ kind_of (b_store b') i = Some k /\ data_of (b_store b') i = d /\
  b_labels b' = map (fun x => (i, x)) l ++ b_labels b.
Proof.
  intros I EO CK E. destruct (new_leaf_spec b k d l I CK) as (p' & op' & r' & EO' & E' & SR & FR & IV & KK). rewrite EO in EO'. injection EO' as <- <-.
  rewrite E in E'. injection E' as <-. cbn zeta. rewrite FR in *. cbn [b_store b_open b_ns b_past b_labels] in *. clear FR E.
  assert (Hp : p < length (s_nodes (b_store b))) by (apply (i_ex b p I); rewrite EO; now left).
  set (i := length (s_nodes (b_store b))) in *.
  assert (GN : forall j, get (fst (new_node (b_store b) k d)) j = if j =? i then Some {| n_kind := k; n_parent := None; n_count := 0; n_cells := []; n_frozen := false; n_data := d; n_attrs := []; n_index := if kind_eqb k KEntity then (s_counter (b_store b) + 1)%N else 0%N |} else get (b_store b) j) by (intros j; apply get_new).
  assert (GI : get (fast_append (fst (new_node (b_store b) k d)) p i) i = Some {| n_kind := k; n_parent := Some p; n_count := 0; n_cells := []; n_frozen := false; n_data := d; n_attrs := []; n_index := if kind_eqb k KEntity then (s_counter (b_store b) + 1)%N else 0%N |}).
  { unfold fast_append. rewrite get_upd, Nat.eqb_refl, get_upd. destruct (Nat.eqb_spec i p); [lia|]. rewrite GN, Nat.eqb_refl. reflexivity. }
  assert (GP : exists n, get (b_store b) p = Some n /\ get (fast_append (fst (new_node (b_store b) k d)) p i) p = Some (fast_append_node i n)).
  { destruct (get_ex (b_store b) p Hp) as (n & G). exists n. split; [exact G|]. unfold fast_append. rewrite get_upd. destruct (Nat.eqb_spec p i); [lia|].
    rewrite get_upd, Nat.eqb_refl, GN. destruct (Nat.eqb_spec p i); [lia|]. now rewrite G. }
  destruct GP as (n & GP1 & GP2).
  split; [exact IV|]. split; [exact SR|]. do 3 (split; [reflexivity|]). split; [|split].
  - split; cbn [b_store b_labels].
    + unfold fast_append. rewrite !upd_len, new_len. lia.
    + intros j Hj N. unfold exists_node in Hj. rewrite fast_append_get_other by lia. rewrite GN. destruct (Nat.eqb_spec j i); [lia|reflexivity].
    + unfold kind_of. rewrite GP1, GP2. reflexivity.
    + unfold parent_of. rewrite GP1, GP2. reflexivity.
    + unfold data_of. rewrite GP1, GP2. reflexivity.
    + unfold attrs_of. rewrite GP1, GP2. reflexivity.
    + intros j Hj. unfold exists_node in Hj. apply label_skip. lia.
  - unfold fast_append. rewrite !upd_len. apply new_len.
  - split; [exact KK|]. unfold parent_of, kind_of, data_of. rewrite GI. repeat split.
Qed.

Lemma leaf_built path p op b r k d l (t : tree) e : inv (received b e) -> b_open b = p :: op -> b_ns b = [] -> open_names (e :: b_past b) = path -> child_kind k = true ->
  new_leaf (received b e) k d l = Ok r ->
  (forall (R : nat -> Prop) s lab i, R i -> kind_of s i = Some k -> data_of s i = d -> (forall x, In x l -> label_of lab i = Some x) -> stands R s lab i t) -> (length l <= 1) ->
  built path p b (fst r) [t] [].
Proof.
  intros I EO NS NM CK E HS HL. destruct (leaf_facts (received b e) p op k d l r I EO CK E) as (A1 & A2 & A3 & A4 & A5 & A6 & A7 & A8 & A9 & A10 & A11 & A12).
  cbn zeta in *. cbn [received b_store b_open b_ns b_past b_labels] in *. split; [exact A1|exact A3|now rewrite A4|now rewrite A5| | |exists []; constructor].
  - destruct A6. split; assumption.
  - exists [length (s_nodes (b_store b))]. split; [exact A8|]. constructor; [exact A9| |constructor].
    apply HS; [unfold within; rewrite A7; lia|exact A10|exact A11|]. intros x Hx. rewrite A12. destruct l as [|y [|z l]]; [destruct Hx| |cbn in HL; lia].
    destruct Hx as [<-|[]]. cbn [map app label_of]. now rewrite Nat.eqb_refl.
Qed.

(** *** Elements *)
Lemma ns_events : forall ns b, on_events h b (map (fun d => ENsStart (fst d) (snd d)) ns) = Ok
  {| b_store := b_store b; b_open := b_open b; b_free := b_free b; b_ns := ns_dict ns (b_ns b); b_labels := b_labels b; b_past := rev (map (fun d => ENsStart (fst d) (snd d)) ns) ++ b_past b |}.
Proof.
  induction ns as [|[p o] ns IH]; intros b; cbn [map on_events fst snd rev].
  - destruct b; reflexivity.
  - cbn [on_event bind]. rewrite IH. unfold namespace_decl, received. cbn [b_store b_open b_free b_ns b_labels b_past]. rewrite <- app_assoc. reflexivity.
Qed.
Lemma ns_end_events : forall ns b, on_events h b (map (fun d : option str * option str => ENsEnd (fst d)) ns) = Ok b.
Proof. induction ns as [|d ns IH]; intros b; [reflexivity|]. cbn [map on_events on_event bind]. apply IH. Qed.
Lemma ns_names : forall ns past, open_names (map (fun d : option str * option str => ENsStart (fst d) (snd d)) ns ++ past) = open_names past.
Proof. induction ns as [|d ns IH]; intros past; [reflexivity|]. exact (IH past). Qed.

(** The start of an element, where the handler does nothing. *)
Lemma start_built b n atts : inv b -> (forall s i, h (b_past b) s i = []) ->
  let b' := start_element h b n atts in let e := length (s_nodes (b_store b)) in
  inv b' /\ b_open b' = e :: b_open b /\ b_ns b' = [] /\ b_past b' = b_past b /\ e < length (s_nodes (b_store b')) /\
  (forall i, exists_node (b_store b) i -> get (b_store b') i = get (b_store b) i /\ label_of (b_labels b') i = label_of (b_labels b) i) /\
  kind_of (b_store b') e = Some KElement /\ data_of (b_store b') e = x_qname n /\ kids (b_store b') e = [] /\ label_of (b_labels b') e = Some (LElem n (b_ns b)) /\
  Forall2 (attr_stands (within (S e) (length (s_nodes (b_store b')))) (b_store b') (b_labels b') e) (attrs_of (b_store b') e) atts.
Proof.
  intros I HN. cbn zeta.
  assert (IV : inv (start_element h b n atts)).
  { apply start_element_inv; [exact I|]. destruct (element_made_spec b n atts (i_forest b I)) as (al & m & _ & _ & _ & _ & _ & _ & EP & _).
    destruct (element_made b n atts) as [b1 e]. cbn [fst snd] in *. rewrite EP, HN. split; [split; [exact Logic.I|split; [constructor|intros ? ? _ []]]|intros ? []]. }
  destruct (element_made_spec b n atts (i_forest b I)) as (al & m & E & F & L & O & _ & NS & PA & G & LB & LE & Gm & M1 & M2 & M3 & M4 & M5 & AS).
  cbn zeta in *. unfold start_element in *. destruct (element_made b n atts) as [b2 e]. cbn [fst snd] in *. subst e.
  set (e := length (s_nodes (b_store b))) in *.
  unfold call_back in *. rewrite PA, HN in *. cbn [run fold_left] in *.
  destruct (add_context_eq (set_store b2 (b_store b2)) e) as (cells & fr & EC). rewrite EC in *. cbn [b_store b_open b_ns b_past b_labels set_store] in *.
  assert (GE : get (upd (b_store b2) e (set_working cells)) e = Some (set_working cells m)) by (rewrite get_upd, Nat.eqb_refl, Gm; reflexivity).
  assert (GO : forall j, j <> e -> get (upd (b_store b2) e (set_working cells)) j = get (b_store b2) j) by (intros j Hj; rewrite get_upd; apply Nat.eqb_neq in Hj; now rewrite Hj).
  split; [exact IV|]. split; [now rewrite O|]. split; [exact NS|]. split; [exact PA|]. rewrite upd_len. split; [exact L|].
  split; [|split; [|split; [|split; [|split; [exact LE|]]]]].
  - intros i Hi. unfold exists_node in Hi. split; [|now apply LB]. rewrite GO by (unfold e; lia). now apply G.
  - unfold kind_of. rewrite GE. cbn. now rewrite M1.
  - unfold data_of. rewrite GE. exact M4.
  - apply (childless_kids _ _ _ GE). exact M3.
  - unfold attrs_of. rewrite GE. cbn [set_working n_attrs]. rewrite M5. eapply forall2_weaken; [|exact AS]. intros i a. apply attr_stands_frame.
    intros j Hj. split; [exact Hj|]. split; [|reflexivity]. apply GO. unfold within in Hj. lia.
Qed.

(** The end of an element: it is linked to its parent, or taken out again. *)
Lemma end_built b e p op n : inv b -> b_open b = e :: p :: op -> exists b', end_element h (received b (EEnd n)) = Ok b' /\
  inv b' /\ b_open b' = p :: op /\ b_ns b' = b_ns b /\ b_past b' = EEnd n :: b_past b /\ b_labels b' = b_labels b /\
  length (s_nodes (b_store b')) = length (s_nodes (b_store b)) /\
  (forall i, i <> e -> i <> p -> get (b_store b') i = get (b_store b) i) /\
  (forall i, kind_of (b_store b') i = kind_of (b_store b) i /\ data_of (b_store b') i = data_of (b_store b) i /\ attrs_of (b_store b') i = attrs_of (b_store b) i) /\
  kids (b_store b') e = kids (b_store b) e /\ parent_of (b_store b') p = None /\
  if sel (open_names (b_past b)) then kids (b_store b') p = kids (b_store b) p /\ parent_of (b_store b') e = None
  else kids (b_store b') p = kids (b_store b) p ++ [e] /\ parent_of (b_store b') e = Some p.
Proof.
  intros I EO. apply (inv_received b (EEnd n)) in I as IR. set (br := received b (EEnd n)) in *.
  destruct (element_done_cases br IR) as [(d & EO2 & _)|(e2 & p2 & op2 & nd & EO2 & G & E)]; [change (b_open br) with (b_open b) in EO2; rewrite EO in EO2; discriminate|].
  change (b_open br) with (b_open b) in EO2. rewrite EO in EO2. injection EO2 as <- <- <-.
  pose proof (element_done_inv br _ IR E) as ID. unfold end_element. rewrite E. cbn [bind fst snd] in *. clear E.
  destruct (done_facts b e p op I EO) as (N & KE & PE & PP & KP & NI).
  set (bd := {| b_store := _ |}) in *. eexists. split; [reflexivity|]. change (b_store br) with (b_store b) in *.
  pose proof (freeze_edited (b_store b) e (i_forest b I)) as EF. pose proof (freeze_forest (b_store b) e (i_forest b I)) as FF.
  assert (XE : exists_node (b_store b) e) by (eapply kind_exists; eauto).
  assert (XP : exists_node (b_store b) p) by (destruct KP as (k & K & _); eapply kind_exists; eauto).
  set (s1 := upd (b_store b) e freeze_node) in *.
  assert (HE : edited s1 (fast_append s1 p e) (fun q => if q =? p then kids s1 p ++ [e] else without e (kids s1 q)) (set_par (parent_of s1) e (Some p))).
  { apply fast_append_edited; [exact FF|eapply edited_exists; eauto|eapply edited_exists; eauto|congruence|rewrite (e_par _ _ _ _ EF); exact PE]. }
  set (s2 := fast_append s1 p e) in *. change (b_store bd) with s2 in *.
  assert (F2 : forest s2) by exact (i_forest bd ID).
  assert (K1 : forall q, exists_node (b_store b) q -> kids s1 q = kids (b_store b) q) by (intros q Hq; apply (edited_kids _ _ _ _ _ EF Hq)).
  assert (K2p : kids s2 p = kids (b_store b) p ++ [e]).
  { rewrite (edited_kids _ _ _ _ p HE (edited_exists _ _ _ _ _ EF XP)), Nat.eqb_refl, K1 by exact XP. reflexivity. }
  assert (K2e : kids s2 e = kids (b_store b) e).
  { rewrite (edited_kids _ _ _ _ e HE (edited_exists _ _ _ _ _ EF XE)). destruct (Nat.eqb_spec e p); [contradiction|]. rewrite K1 by exact XE.
    apply without_other; [apply (i_forest b I)|rewrite PE; discriminate]. }
  assert (P2e : parent_of s2 e = Some p) by (rewrite (e_par _ _ _ _ HE); unfold set_par; now rewrite Nat.eqb_refl).
  assert (P2p : parent_of s2 p = None) by (rewrite (e_par _ _ _ _ HE); unfold set_par; destruct (Nat.eqb_spec p e); [congruence|rewrite (e_par _ _ _ _ EF); exact PP]).
  assert (G2 : forall i, i <> e -> i <> p -> get s2 i = get (b_store b) i).
  { intros i H1 H2. unfold s2. rewrite fast_append_get_other by assumption. unfold s1. rewrite get_upd. apply Nat.eqb_neq in H1. now rewrite H1. }
  assert (L2 : length (s_nodes s2) = length (s_nodes (b_store b))) by (rewrite (e_len _ _ _ _ HE); apply (e_len _ _ _ _ EF)).
  assert (O2 : forall i, kind_of s2 i = kind_of (b_store b) i /\ data_of s2 i = data_of (b_store b) i /\ attrs_of s2 i = attrs_of (b_store b) i).
  { intros i. rewrite (e_kind _ _ _ _ HE), (e_data _ _ _ _ HE), (e_attrs _ _ _ _ HE). split; [apply (e_kind _ _ _ _ EF)|split; [apply (e_data _ _ _ _ EF)|apply (e_attrs _ _ _ _ EF)]]. }
  assert (EH : h (b_past bd) s2 e = if sel (open_names (b_past b)) then [Remove p e] else []).
  { rewrite HH. change (b_past bd) with (EEnd n :: b_past b). cbn [remove_matching]. rewrite P2e. reflexivity. }
  assert (IC : inv (call_back h bd e)).
  { apply call_back_inv; [exact ID|]. change (b_store bd) with s2. rewrite EH. destruct (sel _).
    - split; [cbn; auto|]. split; [repeat constructor|]. intros i o _ [<-|[]] [].
    - split; [exact Logic.I|]. split; [constructor|intros ? ? _ []]. }
  split; [exact IC|]. unfold call_back. change (b_store bd) with s2. rewrite EH. clear IC.
  do 4 (split; [reflexivity|]). cbn [b_store set_store].
  destruct (sel (open_names (b_past b))).
  - cbn [run fold_left step].
    assert (IE : In e (kids s2 p)) by (rewrite K2p; apply in_or_app; right; now left).
    destruct (remove_edited s2 p e F2 IE) as (s3 & E3 & ED3).
    destruct (get_ex s2 p) as (np & Gp); [unfold exists_node; rewrite L2; exact XP|].
    destruct (forest_rfind s2 p e np F2 Gp IE) as (idx & RF).
    destruct (remove_get s2 p e np idx Gp RF) as (s3' & E3' & _ & _ & G3). rewrite E3 in E3'. injection E3' as <-.
    destruct KP as (k & KP & KC).
    assert (ES : on_container s2 p [e] (container_remove s2 p e) = (s3, Ok tt)).
    { rewrite (on_container_cases s2 p [e] _ k) by (rewrite (proj1 (O2 p)); exact KP). rewrite KC. rewrite args1 by (unfold exists_node; rewrite L2; exact XE). exact E3. }
    rewrite ES. cbn [fst].
    split; [rewrite (e_len _ _ _ _ ED3); exact L2|]. split; [|split; [|split; [|split; [|split]]]].
    + intros i H1 H2. rewrite G3. apply Nat.eqb_neq in H1 as H1'. apply Nat.eqb_neq in H2 as H2'. rewrite H1', H2'. cbn [orphan]. rewrite <- (G2 i H1 H2). destruct (get s2 i); reflexivity.
    + intros i. rewrite (e_kind _ _ _ _ ED3), (e_data _ _ _ _ ED3), (e_attrs _ _ _ _ ED3). apply O2.
    + rewrite (edited_kids _ _ _ _ e ED3) by (unfold exists_node; rewrite L2; exact XE). rewrite (without_other s2 e e F2) by congruence. exact K2e.
    + rewrite (e_par _ _ _ _ ED3). unfold set_par. destruct (Nat.eqb_spec p e); [congruence|exact P2p].
    + rewrite (edited_kids _ _ _ _ p ED3) by (unfold exists_node; rewrite L2; exact XP). rewrite K2p. pose proof (f_nodup s2 F2 p) as ND. rewrite K2p in ND.
      rewrite without_mid by exact ND. apply app_nil_r.
    + rewrite (e_par _ _ _ _ ED3). unfold set_par. now rewrite Nat.eqb_refl.
  - cbn [run fold_left]. split; [exact L2|]. split; [exact G2|]. split; [exact O2|]. split; [exact K2e|]. split; [exact P2p|]. split; [exact K2p|exact P2e].
Qed.

Definition builds (ts : list tree) : Prop := forall path p op b, inv b -> b_open b = p :: op -> b_ns b = [] -> open_names (b_past b) = path ->
  exists b', on_events h b (flat_map told ts) = Ok b' /\ built path p b b' (flat_map (prune sel path) ts) (flat_map (taken sel path) ts).

Lemma elem_builds n ns atts ct : builds ct -> builds [TElem n ns atts ct].
Proof.
  intros HC path p op b I EO NS NM. cbn [flat_map app]. rewrite app_nil_r. cbn [told].
  rewrite on_events_app, ns_events. cbn [bind]. rewrite NS. set (b1 := {| b_store := b_store b |}).
  assert (I1 : inv b1) by (apply (inv_ext b); [reflexivity|reflexivity|exact I]).
  assert (NM1 : open_names (b_past b1) = path) by (cbn [b_past b1]; rewrite <- map_rev, ns_names; exact NM).
  cbn [on_events on_event bind]. apply (inv_received b1 (EStart n atts)) in I1 as IR1.
  destruct (start_built (received b1 (EStart n atts)) n atts IR1) as (I2 & O2 & N2 & PA2 & L2 & G2 & K2 & D2 & C2 & LB2 & AS2); [intros s i; rewrite HH; reflexivity|].
  cbn zeta in *. set (b2 := start_element h (received b1 (EStart n atts)) n atts) in *. cbn [received b_store b_open b_ns b_past b_labels b1] in O2, PA2, L2, G2, K2, D2, C2, LB2, AS2.
  set (e := length (s_nodes (b_store b))) in *.
  assert (XP : exists_node (b_store b) p) by (apply (i_ex b p I); rewrite EO; now left).
  assert (NPE : p <> e) by (unfold exists_node in XP; unfold e; lia).
  rewrite on_events_app. rewrite EO in O2.
  destruct (HC (n :: path) e (p :: op) b2 I2 O2 N2) as (b3 & E3 & B3); [rewrite PA2; cbn [open_names]; f_equal; exact NM1|].
  rewrite E3. cbn [bind on_events on_event].
  pose proof (u_grows _ _ _ _ _ _ B3) as G3. pose proof (g_len _ _ _ G3) as L3.
  destruct (end_built b3 e p op n (u_inv _ _ _ _ _ _ B3)) as (b4 & E4 & I4 & O4 & N4 & PA4 & LB4 & L4 & GG4 & OO4 & KE4 & PP4 & HS); [rewrite (u_open _ _ _ _ _ _ B3); exact O2|].
  rewrite E4. cbn [bind]. rewrite ns_end_events. exists b4. split; [reflexivity|].
  rewrite (u_names _ _ _ _ _ _ B3) in HS.
  assert (X2 : forall i, exists_node (b_store b) i -> exists_node (b_store b2) i) by (intros i; unfold exists_node, e in *; lia).
  assert (Xe : exists_node (b_store b2) e) by (unfold exists_node; exact L2).
  (* the old nodes *)
  assert (OLD : forall i, exists_node (b_store b) i -> i <> p -> get (b_store b4) i = get (b_store b) i).
  { intros i Hi Ni. assert (i <> e) by (unfold exists_node in Hi; unfold e; lia). rewrite GG4 by assumption. rewrite (g_old _ _ _ G3) by auto. now apply G2. }
  assert (GP3 : get (b_store b3) p = get (b_store b) p) by (rewrite (g_old _ _ _ G3) by auto; now apply G2).
  (* what is below the element *)
  assert (FR : forall i, within (S e) (length (s_nodes (b_store b3))) i -> within (S e) (length (s_nodes (b_store b4))) i /\ get (b_store b4) i = get (b_store b3) i /\ label_of (b_labels b4) i = label_of (b_labels b3) i).
  { intros i Hi. rewrite L4, LB4. split; [exact Hi|]. split; [|reflexivity]. apply GG4; unfold within, exists_node, e in *; lia. }
  assert (FRi : forall i, within (length (s_nodes (b_store b2))) (length (s_nodes (b_store b3))) i -> within e (length (s_nodes (b_store b4))) i /\ get (b_store b4) i = get (b_store b3) i /\ label_of (b_labels b4) i = label_of (b_labels b3) i).
  { intros i Hi. destruct (FR i) as (_ & F1 & F2); [unfold within in *; lia|]. split; [unfold within in *; rewrite L4; lia|now split]. }
  destruct (u_kids _ _ _ _ _ _ B3) as (newc & KC & SC). rewrite C2 in KC. cbn [app] in KC.
  assert (ST : stands (within e (length (s_nodes (b_store b4)))) (b_store b4) (b_labels b4) e (TElem n ns atts (flat_map (prune sel (n :: path)) ct))).
  { destruct (OO4 e) as (Q1 & Q2 & Q3). apply stands_elem with (ds := ns_dict ns []).
    - unfold within. rewrite L4. lia.
    - rewrite Q1, (g_kind _ _ _ G3). exact K2.
    - rewrite Q2, (g_data _ _ _ G3). exact D2.
    - rewrite LB4, (g_lab _ _ _ G3) by exact Xe. exact LB2.
    - apply ns_dict_declares.
    - rewrite Q3, (g_attrs _ _ _ G3). eapply forall2_weaken; [|exact AS2]. intros i a. apply attr_stands_frame. intros j Hj.
      destruct (FR j) as (F0 & F1 & F2); [unfold within in *; lia|]. split; [unfold within in *; lia|].
      unfold within in Hj. rewrite F1, F2. split; [apply (g_old _ _ _ G3)|apply (g_lab _ _ _ G3)]; unfold exists_node; lia.
    - rewrite KE4, KC. eapply all_stand_frame; [exact FRi|exact SC]. }
  destruct (u_gone _ _ _ _ _ _ B3) as (gone & HGo).
  assert (GO : Forall2 (apart b b4) gone (flat_map (taken sel (n :: path)) ct)).
  { eapply forall2_weaken; [|exact HGo]. intros i t [A1 A2]. assert (R : within (length (s_nodes (b_store b2))) (length (s_nodes (b_store b3))) i) by (destruct A2; assumption).
    split; [rewrite (parent_get _ _ _ (proj1 (proj2 (FRi i R)))); exact A1|]. fold e. eapply stands_frame; [exact FRi|exact A2]. }
  assert (GR : grows p b b4).
  { destruct (OO4 p) as (Q1 & Q2 & Q3). split.
    - rewrite L4. unfold e in *. lia.
    - exact OLD.
    - rewrite Q1. apply (kind_get' _ _ _ GP3).
    - rewrite PP4. symmetry. apply (i_root b I). rewrite EO. now left.
    - rewrite Q2. apply (data_get _ _ _ GP3).
    - rewrite Q3. apply (attrs_get _ _ _ GP3).
    - intros i Hi. rewrite LB4, (g_lab _ _ _ G3) by auto. now apply G2. }
  cbn [prune taken]. rewrite !app_nil_r. split; [exact I4|now rewrite O4, EO|rewrite N4; apply (u_ns _ _ _ _ _ _ B3)| |exact GR| |].
  - rewrite PA4. cbn [open_names]. rewrite (u_names _ _ _ _ _ _ B3). reflexivity.
  - destruct (sel (n :: path)); destruct HS as [HS1 HS2].
    + exists []. rewrite app_nil_r, HS1, (kids_get _ _ _ GP3). split; [reflexivity|constructor].
    + exists [e]. rewrite HS1, (kids_get _ _ _ GP3). split; [reflexivity|]. constructor; [exact HS2|exact ST|constructor].
  - destruct (sel (n :: path)); destruct HS as [HS1 HS2].
    + exists (gone ++ [e]). apply Forall2_app; [exact GO|]. constructor; [split; [exact HS2|exact ST]|constructor].
    + exists gone. rewrite ?app_nil_r. exact GO.
Qed.

Lemma tree_builds : forall t, builds [t].
Proof.
  fix IH 1. intros [n ns atts ct|s|tg d|s|u].
  - apply elem_builds. induction ct as [|t ct IHc].
    + intros path p op b I EO NS NM. exists b. split; [reflexivity|]. now apply built_refl.
    + intros path p op b I EO NS NM. destruct (IH t path p op b I EO NS NM) as (b1 & E1 & B1).
      destruct (IHc path p op b1 (u_inv _ _ _ _ _ _ B1)) as (b2 & E2 & B2); [rewrite (u_open _ _ _ _ _ _ B1); exact EO|apply (u_ns _ _ _ _ _ _ B1)|apply (u_names _ _ _ _ _ _ B1)|].
      exists b2. cbn [flat_map] in *. rewrite !app_nil_r in B1. rewrite app_nil_r in E1. rewrite on_events_app, E1. split; [exact E2|].
      apply (built_trans path p b b1 b2); [apply (i_ex b p I); rewrite EO; now left|exact B1|exact B2].
  - intros path p op b I EO NS NM. destruct (new_leaf_spec (received b (EText s)) KText s [] (inv_received b _ I) eq_refl) as (p' & op' & r & _ & ER & _).
    exists (fst r). cbn [flat_map told app on_events on_event bind]. unfold characters. rewrite ER. split; [reflexivity|].
    apply (leaf_built path p op b r KText s [] (TText s) (EText s)); [apply inv_received, I|exact EO|exact NS|exact NM|reflexivity|exact ER| |cbn; lia]. intros R st lab i HR K D _. now apply stands_text.
  - intros path p op b I EO NS NM. destruct (new_leaf_spec (received b (EPI tg d)) KPI d [LPI tg] (inv_received b _ I) eq_refl) as (p' & op' & r & _ & ER & _ & FR & _).
    exists (fst r). cbn [flat_map told app on_events on_event bind]. unfold processing_instruction. rewrite ER. cbn [bind]. split.
    + unfold call_back. rewrite HH. rewrite FR. cbn [b_past received remove_matching]. unfold run, set_store. cbn. reflexivity.
    + apply (leaf_built path p op b r KPI d [LPI tg] (TInstr tg d) (EPI tg d)); [apply inv_received, I|exact EO|exact NS|exact NM|reflexivity|exact ER| |cbn; lia]. intros R st lab i HR K D HL. apply stands_instr; auto. apply HL. now left.
  - intros path p op b I EO NS NM. destruct (new_leaf_spec (received b (EComment s)) KComment s [] (inv_received b _ I) eq_refl) as (p' & op' & r & _ & ER & _).
    exists (fst r). cbn [flat_map told app on_events on_event bind]. unfold comment. rewrite ER. split; [reflexivity|].
    apply (leaf_built path p op b r KComment s [] (TComm s) (EComment s)); [apply inv_received, I|exact EO|exact NS|exact NM|reflexivity|exact ER| |cbn; lia]. intros R st lab i HR K D _. now apply stands_comm.
  - intros path p op b I EO NS NM. exists b. split; [reflexivity|]. now apply built_refl.
Qed.
Lemma trees_build : forall ts, builds ts.
Proof.
  induction ts as [|t ct IHc].
  - intros path p op b I EO NS NM. exists b. split; [reflexivity|]. now apply built_refl.
  - intros path p op b I EO NS NM. destruct (tree_builds t path p op b I EO NS NM) as (b1 & E1 & B1).
    destruct (IHc path p op b1 (u_inv _ _ _ _ _ _ B1)) as (b2 & E2 & B2); [rewrite (u_open _ _ _ _ _ _ B1); exact EO|apply (u_ns _ _ _ _ _ _ B1)|apply (u_names _ _ _ _ _ _ B1)|].
    exists b2. cbn [flat_map] in *. rewrite !app_nil_r in B1. rewrite app_nil_r in E1. rewrite on_events_app, E1. split; [exact E2|].
    apply (built_trans path p b b1 b2); [apply (i_ex b p I); rewrite EO; now left|exact B1|exact B2].
Qed.

(** The marks of CDATA sections make no difference. *)
Lemma marks_ignored : forall l b, on_events h b l = on_events h b (content_events l).
Proof.
  induction l as [|e l IH]; intros b; [reflexivity|]. unfold content_events. cbn [filter]. destruct (not_mark e) eqn:M.
  - cbn [on_events]. destruct (on_event h b e); cbn [bind]; [apply IH|reflexivity].
  - destruct e; try discriminate; cbn [on_events on_event bind]; apply IH.
Qed.

Lemma build_spec s l ts : forest s -> content_events l = flat_map told ts -> exists d b gone, build h s l = Ok (d, b) /\
  forest (b_store b) /\ (forall i, exists_node s i -> get (b_store b) i = get s i) /\
  d = length (s_nodes s) /\ kind_of (b_store b) d = Some KEntity /\ parent_of (b_store b) d = None /\ attrs_of (b_store b) d = [] /\
  all_stand (newer s) (b_store b) (b_labels b) d (kids (b_store b) d) (flat_map (prune sel []) ts) /\
  Forall2 (fun i t => parent_of (b_store b) i = None /\ stands (newer s) (b_store b) (b_labels b) i t) gone (flat_map (taken sel []) ts).
Proof.
  intros F EL. unfold build. 
  destruct (start_document_inv h s F) as (I0 & D0 & O0 & N0).
  { unfold well_begun. destruct (new_node s KEntity []) as [s1 d]. rewrite HH. cbn [remove_matching]. split; [split; [exact I|split; [constructor|intros ? ? _ []]]|intros ? []]. }
  assert (ED : start_document h (new_builder s) = (add_context (set_store (new_builder s) (fst (new_node s KEntity []))) (length (s_nodes s)), length (s_nodes s))).
  { unfold start_document. cbn [b_store new_builder]. cbv beta iota zeta delta [new_node fst snd]. unfold call_back. rewrite HH. reflexivity. }
  rewrite ED in *. cbn [fst snd] in *. set (d := length (s_nodes s)) in *.
  set (b0 := add_context (set_store (new_builder s) (fst (new_node s KEntity []))) d) in *.
  assert (S0 : exists cells, b_store b0 = upd (fst (new_node s KEntity [])) d (set_working cells) /\ b_past b0 = []) by (eexists; split; reflexivity).
  destruct S0 as (cells & S0 & PA0).
  assert (GD : exists m, get (b_store b0) d = Some m /\ n_kind m = KEntity /\ n_parent m = None /\ n_count m = 0 /\ n_attrs m = []).
  { rewrite S0, get_upd, Nat.eqb_refl, get_new. fold d. rewrite Nat.eqb_refl. cbn [option_map]. eexists. split; [reflexivity|]. repeat split. }
  destruct GD as (m & GD & M1 & M2 & M3 & M4).
  assert (L0 : length (s_nodes (b_store b0)) = S d) by (rewrite S0, upd_len; apply new_len).
  assert (G0 : forall i, exists_node s i -> get (b_store b0) i = get s i).
  { intros i Hi. unfold exists_node in Hi. fold d in Hi. rewrite S0, get_upd, get_new. fold d. destruct (Nat.eqb_spec i d); [lia|reflexivity]. }
  destruct (trees_build ts [] d [] b0 I0 O0 N0) as (b1 & E1 & B1); [rewrite PA0; reflexivity|].
  rewrite marks_ignored, EL, E1. cbn [bind]. unfold close_context. rewrite (u_open _ _ _ _ _ _ B1), O0.
  pose proof (u_inv _ _ _ _ _ _ B1) as I1. pose proof (u_grows _ _ _ _ _ _ B1) as GR. pose proof (g_len _ _ _ GR) as L1.
  destruct (get_ex (b_store b1) d) as (m1 & GD1); [unfold exists_node; lia|]. rewrite GD1. cbn [bind fst].
  destruct (u_gone _ _ _ _ _ _ B1) as (gone & HGo). destruct (u_kids _ _ _ _ _ _ B1) as (new & KN & SN).
  rewrite (childless_kids _ _ _ GD M3) in KN. cbn [app] in KN.
  exists d. eexists. exists gone. split; [reflexivity|]. cbn [b_store b_labels].
  pose proof (freeze_edited (b_store b1) d (i_forest b1 I1)) as EF.
  assert (FR : forall i, within (length (s_nodes (b_store b0))) (length (s_nodes (b_store b1))) i -> newer s i /\ get (upd (b_store b1) d freeze_node) i = get (b_store b1) i /\ label_of (b_labels b1) i = label_of (b_labels b1) i).
  { intros i Hi. unfold within in Hi. split; [unfold newer, exists_node; fold d; lia|]. split; [|reflexivity]. rewrite get_upd. destruct (Nat.eqb_spec i d); [lia|reflexivity]. }
  split; [apply freeze_forest, (i_forest b1 I1)|]. split; [|split; [reflexivity|]].
  { intros i Hi. assert (Hi2 := Hi). unfold exists_node in Hi2. fold d in Hi2. rewrite get_upd. destruct (Nat.eqb_spec i d); [lia|].
    rewrite (g_old _ _ _ GR) by (unfold exists_node in *; lia). now apply G0. }
  rewrite (e_kind _ _ _ _ EF), (e_par _ _ _ _ EF), (e_attrs _ _ _ _ EF), (g_kind _ _ _ GR), (g_parent _ _ _ GR), (g_attrs _ _ _ GR).
  unfold kind_of at 1, parent_of at 1, attrs_of at 1. rewrite GD. cbn [option_map]. rewrite M1. split; [reflexivity|]. split; [exact M2|]. split; [exact M4|]. split.
  - rewrite (edited_kids _ _ _ _ d EF) by (unfold exists_node; lia). rewrite KN. eapply all_stand_frame; [exact FR|exact SN].
  - eapply forall2_weaken; [|exact HGo]. intros i t [A1 A2]. assert (R : within (length (s_nodes (b_store b0))) (length (s_nodes (b_store b1))) i) by (destruct A2; assumption).
    split; [rewrite (parent_get _ _ _ (proj1 (proj2 (FR i R)))); exact A1|eapply stands_frame; [exact FR|exact A2]].
Qed.
End Build.
