(** * Proofs about the tree builder: the invariant *)
From Coq Require Import NArith ZArith String List Bool Lia Arith.
From Verif Require Import PyStr PyErr RdModel RdSpec DomModel DomSpec DomCells DomInv DomOps DomStep TbModel TbSpec TbStore.
Import ListNotations.
Local Open Scope nat_scope.

Notation len s := (length (s_nodes s)) (only parsing).
Definition within (lo hi i : nat) : Prop := lo <= i < hi.

Definition root_of (s : store) (i : nat) : Prop := parent_of s i = None.
(** The invariant: the elements being built and the document, without parents. *)
Record inv (b : builder) : Prop := {
  i_forest : forest (b_store b);
  i_nodup : NoDup (b_open b);
  i_root : forall i, In i (b_open b) -> parent_of (b_store b) i = None;
  i_kinds : exists es d, b_open b = es ++ [d] /\ Forall (fun e => kind_of (b_store b) e = Some KElement) es /\ kind_of (b_store b) d = Some KEntity
}.
Lemma i_cont b i : inv b -> In i (b_open b) -> exists k, kind_of (b_store b) i = Some k /\ is_container k = true.
Proof.
  intros I H. destruct (i_kinds b I) as (es & d & E & HE & HD). rewrite E in H. apply in_app_or in H as [H|[<-|[]]].
  - rewrite Forall_forall in HE. exists KElement. split; [now apply HE|reflexivity].
  - exists KEntity. split; [exact HD|reflexivity].
Qed.
Lemma i_ex b i : inv b -> In i (b_open b) -> exists_node (b_store b) i.
Proof. intros I H. destruct (i_cont b i I H) as (k & K & _). eapply kind_exists; eauto. Qed.

(** The invariant speaks of the store and the open nodes only. *)
Lemma inv_ext b b' : b_store b' = b_store b -> b_open b' = b_open b -> inv b -> inv b'.
Proof. intros E1 E2 []. split; rewrite ?E1, ?E2; assumption. Qed.
Lemma inv_store b b' : forest (b_store b') -> b_open b' = b_open b ->
  (forall i, In i (b_open b) -> parent_of (b_store b') i = None /\ kind_of (b_store b') i = kind_of (b_store b) i) -> inv b -> inv b'.
Proof.
  intros F E H I. split; [exact F|rewrite E; apply (i_nodup b I)|rewrite E; intros i Hi; now apply H|].
  destruct (i_kinds b I) as (es & d & E1 & HE & HD). exists es, d. rewrite E. split; [exact E1|]. split.
  - rewrite Forall_forall in *. intros x Hx. rewrite (proj2 (H x ltac:(rewrite E1; apply in_or_app; now left))). now apply HE.
  - rewrite (proj2 (H d ltac:(rewrite E1; apply in_or_app; right; now left))). exact HD.
Qed.

Lemma call_back_inv h b i : inv b -> gentle (b_store b) (b_open b) (h (b_past b) (b_store b) i) -> inv (call_back h b i).
Proof.
  intros I (G1 & _ & G3). unfold call_back. apply (inv_store b); [apply run_forest; [apply (i_forest b I)|exact G1]|reflexivity| |exact I].
  intros j Hj. cbn [b_store set_store]. destruct (run_kept _ (b_store b) j (i_forest b I) G1 (i_ex b j I Hj)) as (_ & K & P & _).
  split; [|exact K]. apply P; [now apply (i_root b I)|]. intros o Ho. now apply G3.
Qed.

(** ** A new element *)
Lemma add_attr_get s e d n : get s e = Some n -> n_kind n = KElement -> exists s', add_attr s e d = (s', Ok tt) /\ len s' = S (len s) /\
  (forall j, j < len s -> j <> e -> get s' j = get s j) /\ get s' e = Some (set_attrs n (n_attrs n ++ [len s])) /\
  exists m, get s' (len s) = Some m /\ n_kind m = KAttr /\ n_parent m = Some e /\ n_data m = d.
Proof.
  intros G K. unfold add_attr. rewrite G, K. cbn [kind_eqb]. cbv beta iota zeta delta [new_node]. eexists. split; [reflexivity|].
  apply get_some in G as L.
  set (s1 := {| s_nodes := s_nodes s ++ _; s_counter := _ |}).
  assert (G1 : forall j, get s1 j = get (fst (new_node s KAttr d)) j) by reflexivity.
  split; [rewrite !upd_len; unfold s1; cbn [s_nodes]; rewrite app_length; cbn [length]; lia|].
  split; [|split].
  - intros j Hj Nj. rewrite !get_upd, G1, get_new. apply Nat.eqb_neq in Nj. rewrite Nj. destruct (Nat.eqb_spec j (len s)); [lia|reflexivity].
  - rewrite get_upd, Nat.eqb_refl, get_upd, G1, get_new. destruct (Nat.eqb_spec e (len s)); [lia|]. now rewrite G.
  - rewrite get_upd, get_upd, G1, get_new, Nat.eqb_refl. destruct (Nat.eqb_spec (len s) e); [lia|]. eexists. split; [reflexivity|]. repeat split.
Qed.

Lemma forall2_weaken {A B} (P Q : A -> B -> Prop) l m : (forall x y, P x y -> Q x y) -> Forall2 P l m -> Forall2 Q l m.
Proof. intros H. induction 1; constructor; auto. Qed.
Lemma attr_stands_frame (R R' : nat -> Prop) s lab s' lab' e i a : (forall i, R i -> R' i /\ get s' i = get s i /\ label_of lab' i = label_of lab i) ->
  attr_stands R s lab e i a -> attr_stands R' s' lab' e i a.
Proof.
  intros H (A1 & A2 & A3 & A4 & A5). destruct (H i A1) as (H1 & H2 & H3). unfold attr_stands.
  rewrite (kind_get' _ _ _ H2), (parent_get _ _ _ H2), (data_get _ _ _ H2), H3. auto.
Qed.

Lemma add_attributes : forall atts b e n, forest (b_store b) -> get (b_store b) e = Some n -> n_kind n = KElement ->
  let b' := fold_left (fun b a => add_attribute b e a) atts b in
  exists al, forest (b_store b') /\ len (b_store b) <= len (b_store b') /\
    b_open b' = b_open b /\ b_free b' = b_free b /\ b_ns b' = b_ns b /\ b_past b' = b_past b /\
    (forall i, i < len (b_store b) -> i <> e -> get (b_store b') i = get (b_store b) i) /\
    get (b_store b') e = Some (set_attrs n (n_attrs n ++ al)) /\
    (forall i, i < len (b_store b) -> label_of (b_labels b') i = label_of (b_labels b) i) /\
    Forall2 (attr_stands (within (len (b_store b)) (len (b_store b'))) (b_store b') (b_labels b') e) al atts.
Proof.
  induction atts as [|a atts IH]; intros b e n F G K; cbn [fold_left].
  - exists []. rewrite app_nil_r. split; [exact F|]. split; [lia|]. do 4 (split; [reflexivity|]). split; [auto|]. split; [destruct n; exact G|]. split; [auto|constructor].
  - destruct (add_attr_get (b_store b) e (a_value a) n G K) as (s' & E & L & H1 & H2 & m & Gm & M1 & M2 & M3).
    pose proof (get_some _ _ _ G) as Le.
    assert (EB : add_attribute b e a = {| b_store := s'; b_open := b_open b; b_free := b_free b; b_ns := b_ns b; b_labels := (len (b_store b), LAttr (a_name a)) :: b_labels b; b_past := b_past b |}) by (unfold add_attribute; now rewrite E).
    rewrite EB. set (b1 := {| b_store := s' |}).
    assert (F1 : forest (b_store b1)) by (eapply forest_attr; [exact F|exact E]).
    destruct (IH b1 e (set_attrs n (n_attrs n ++ [len (b_store b)])) F1 H2 K) as (al & I1 & I2 & I3 & I4 & I5 & I6 & I7 & I8 & I9 & I10).
    cbn zeta in *. cbn [b_store b_open b_free b_ns b_past b_labels b1] in *.
    exists (len (b_store b) :: al). split; [exact I1|]. split; [lia|]. repeat (split; [assumption|]). split; [|split; [|split]].
    + intros i Hi Ni. rewrite I7 by lia. now apply H1.
    + rewrite I8. cbn [set_attrs n_attrs]. rewrite <- app_assoc. reflexivity.
    + intros i Hi. rewrite I9 by lia. cbn [label_of]. destruct (Nat.eqb_spec i (len (b_store b))); [lia|reflexivity].
    + constructor.
      * assert (Gn : get (b_store (fold_left (fun b a => add_attribute b e a) atts b1)) (len (b_store b)) = Some m) by (rewrite I7 by lia; exact Gm).
        unfold attr_stands, kind_of, parent_of, data_of. rewrite Gn. cbn [option_map]. rewrite M1, M2, M3.
        split; [unfold within; lia|]. repeat (split; [reflexivity|]). rewrite I9 by lia. cbn [label_of]. now rewrite Nat.eqb_refl.
      * eapply forall2_weaken; [|exact I10]. intros i x Hx. eapply attr_stands_frame; [|exact Hx]. intros j Hj. unfold within in *. repeat split; lia || reflexivity.
Qed.

Lemma element_made_spec b n atts : forest (b_store b) ->
  let b2 := fst (element_made b n atts) in let e := snd (element_made b n atts) in
  exists al m, e = len (b_store b) /\ forest (b_store b2) /\ len (b_store b) < len (b_store b2) /\
    b_open b2 = b_open b /\ b_free b2 = b_free b /\ b_ns b2 = [] /\ b_past b2 = b_past b /\
    (forall i, i < len (b_store b) -> get (b_store b2) i = get (b_store b) i) /\
    (forall i, i < len (b_store b) -> label_of (b_labels b2) i = label_of (b_labels b) i) /\
    label_of (b_labels b2) e = Some (LElem n (b_ns b)) /\
    get (b_store b2) e = Some m /\ n_kind m = KElement /\ n_parent m = None /\ n_count m = 0 /\ n_data m = x_qname n /\ n_attrs m = al /\
    Forall2 (attr_stands (within (S (len (b_store b))) (len (b_store b2))) (b_store b2) (b_labels b2) e) al atts.
Proof.
  intros F. unfold element_made. cbv beta iota zeta delta [new_node]. cbn [kind_eqb fst snd].
  set (s1 := {| s_nodes := s_nodes (b_store b) ++ _; s_counter := _ |}).
  assert (G1 : forall j, get s1 j = get (fst (new_node (b_store b) KElement (x_qname n))) j) by reflexivity.
  assert (F1 : forest s1) by (apply (forest_new (b_store b) KElement (x_qname n) F)).
  assert (L1 : len s1 = S (len (b_store b))) by (unfold s1; cbn [s_nodes]; rewrite app_length; cbn [length]; lia).
  set (b1 := {| b_store := s1; b_open := b_open b; b_free := b_free b; b_ns := []; b_labels := (len (b_store b), LElem n (b_ns b)) :: b_labels b; b_past := b_past b |}).
  assert (Ge : exists m, get s1 (len (b_store b)) = Some m /\ n_kind m = KElement /\ n_parent m = None /\ n_count m = 0 /\ n_data m = x_qname n /\ n_attrs m = []).
  { rewrite G1, get_new, Nat.eqb_refl. eexists. split; [reflexivity|]. repeat split. }
  destruct Ge as (m & Gm & M1 & M2 & M3 & M4 & M5).
  destruct (add_attributes atts b1 (len (b_store b)) m F1 Gm M1) as (al & I1 & I2 & I3 & I4 & I5 & I6 & I7 & I8 & I9 & I10).
  cbn zeta in *. cbn [b_store b_open b_free b_ns b_past b_labels b1] in *. rewrite L1 in *. rewrite M5 in I8. cbn [app] in I8.
  exists al, (set_attrs m al). split; [reflexivity|]. split; [exact I1|]. split; [lia|]. do 4 (split; [assumption|]).
  split; [|split; [|split; [|split; [exact I8|]]]].
  - intros i Hi. rewrite I7 by lia. rewrite G1, get_new. destruct (Nat.eqb_spec i (len (b_store b))); [lia|reflexivity].
  - intros i Hi. rewrite I9 by lia. cbn [label_of]. destruct (Nat.eqb_spec i (len (b_store b))); [lia|reflexivity].
  - rewrite I9 by lia. cbn [label_of]. now rewrite Nat.eqb_refl.
  - cbn [set_attrs n_kind n_parent n_count n_data n_attrs]. repeat (split; [assumption || reflexivity|]). exact I10.
Qed.

Lemma add_context_eq b i : exists cells fr, add_context b i =
  {| b_store := upd (b_store b) i (set_working cells); b_open := i :: b_open b; b_free := fr; b_ns := b_ns b; b_labels := b_labels b; b_past := b_past b |}.
Proof. unfold add_context. destruct (b_free b); eexists; eexists; reflexivity. Qed.

Lemma childless_kids s i m : get s i = Some m -> n_count m = 0 -> kids s i = [].
Proof. intros G C. unfold kids, get_children. rewrite G, C. cbn. destruct (n_cells m) as [|[]]; reflexivity. Qed.

Lemma add_context_inv b i : inv b -> kind_of (b_store b) i = Some KElement -> ~ In i (b_open b) -> parent_of (b_store b) i = None -> kids (b_store b) i = [] -> inv (add_context b i).
Proof.
  intros I K N P C. destruct (add_context_eq b i) as (cells & fr & ->).
  pose proof (set_working_edited (b_store b) i cells (i_forest b I) C) as E.
  split; cbn [b_store b_open].
  - eapply forest_edited_same; [apply (i_forest b I)|exact E].
  - constructor; [exact N|apply (i_nodup b I)].
  - intros j Hj. rewrite (e_par _ _ _ _ E). destruct Hj as [<-|Hj]; [exact P|now apply (i_root b I)].
  - destruct (i_kinds b I) as (es & d & E1 & HE & HD). exists (i :: es), d. split; [cbn; now rewrite E1|]. split.
    + constructor; [rewrite (e_kind _ _ _ _ E); exact K|]. eapply Forall_impl; [|exact HE]. intros a Ha. now rewrite (e_kind _ _ _ _ E).
    + now rewrite (e_kind _ _ _ _ E).
Qed.

Lemma get_ext_inv b b' : inv b -> forest (b_store b') -> b_open b' = b_open b -> (forall i, i < len (b_store b) -> get (b_store b') i = get (b_store b) i) -> inv b'.
Proof.
  intros I F E G. apply (inv_store b); [exact F|exact E| |exact I]. intros i Hi. pose proof (G i (i_ex b i I Hi)) as X.
  split; [rewrite (parent_get _ _ _ X); now apply (i_root b I)|apply (kind_get' _ _ _ X)].
Qed.

Lemma element_made_inv b n atts : inv b ->
  let b2 := fst (element_made b n atts) in let e := snd (element_made b n atts) in
  inv b2 /\ kind_of (b_store b2) e = Some KElement /\ ~ In e (b_open b2) /\ parent_of (b_store b2) e = None /\ kids (b_store b2) e = [].
Proof.
  intros I. destruct (element_made_spec b n atts (i_forest b I)) as (al & m & E & F & L & O & _ & _ & _ & G & _ & _ & Gm & M1 & M2 & M3 & _).
  cbn zeta in *. split; [now apply (get_ext_inv b)|]. split; [now rewrite (kind_get _ _ _ Gm), M1|]. split; [|split].
  - rewrite O, E. intros X. apply (i_ex b _ I) in X. unfold exists_node in X. lia.
  - now rewrite (parent_of_get _ _ _ Gm).
  - eapply childless_kids; eauto.
Qed.

Lemma start_element_inv h b n atts : inv b ->
  (let '(b1, i) := element_made b n atts in gentle (b_store b1) (b_open b1) (h (b_past b1) (b_store b1) i) /\ lets_be i (h (b_past b1) (b_store b1) i)) ->
  inv (start_element h b n atts).
Proof.
  intros I H. destruct (element_made_inv b n atts I) as (I1 & K & N & P & C). unfold start_element. destruct (element_made b n atts) as [b1 e]. cbn [fst snd] in *.
  destruct H as [HG HL]. pose proof (call_back_inv h b1 e I1 HG) as I2. destruct HG as (HG & _).
  destruct (run_kept _ (b_store b1) e (i_forest b1 I1) HG (kind_exists _ _ _ K)) as (_ & K2 & P2 & C2).
  apply add_context_inv; [exact I2| |exact N| |].
  - cbn [call_back b_store set_store]. now rewrite K2.
  - apply P2; [exact P|]. intros o Ho. now apply HL.
  - apply C2; [exact C|]. intros o Ho. now apply HL.
Qed.

(** ** The end of an element *)
Lemma element_done_cases b : inv b ->
  (exists d, b_open b = [d] /\ element_done b = Err SystemErr) \/
  (exists e p op n, b_open b = e :: p :: op /\ get (b_store b) e = Some n /\ element_done b =
     Ok ({| b_store := fast_append (upd (b_store b) e freeze_node) p e; b_open := p :: op; b_free := n_cells n :: b_free b; b_ns := b_ns b; b_labels := b_labels b; b_past := b_past b |}, e)).
Proof.
  intros I. destruct (i_kinds b I) as (es & d & E & HE & HD). unfold element_done, close_context.
  destruct es as [|e es]; cbn [app] in E.
  - left. exists d. split; [exact E|]. rewrite E. destruct (get_ex (b_store b) d (kind_exists _ _ _ HD)) as (n & ->). reflexivity.
  - right. destruct (get_ex (b_store b) e (i_ex b e I ltac:(rewrite E; now left))) as (n & G).
    destruct (es ++ [d]) as [|p op] eqn:E2; [destruct es; discriminate|]. exists e, p, op, n. split; [exact E|]. split; [exact G|]. rewrite E, G. reflexivity.
Qed.

Lemma done_facts b e p op : inv b -> b_open b = e :: p :: op ->
  e <> p /\ kind_of (b_store b) e = Some KElement /\ parent_of (b_store b) e = None /\ parent_of (b_store b) p = None /\
  (exists k, kind_of (b_store b) p = Some k /\ is_container k = true) /\ ~ In e (p :: op).
Proof.
  intros I E. pose proof (i_nodup b I) as ND. rewrite E in ND. inversion_clear ND as [|? ? N _].
  split; [intros ->; apply N; now left|]. split; [|split; [|split; [|split; [|exact N]]]].
  - destruct (i_kinds b I) as (es & d & E1 & HE & _). rewrite E in E1. destruct es as [|x es]; [discriminate|]. injection E1 as <- _. now inversion HE.
  - apply (i_root b I). rewrite E. now left.
  - apply (i_root b I). rewrite E. right. now left.
  - apply (i_cont b p I). rewrite E. right. now left.
Qed.

Lemma element_done_inv b r : inv b -> element_done b = Ok r -> inv (fst r).
Proof.
  intros I H. destruct (element_done_cases b I) as [(d & _ & E)|(e & p & op & n & EO & G & E)]; rewrite E in H; [discriminate|]. injection H as <-. cbn [fst].
  destruct (done_facts b e p op I EO) as (N & KE & PE & PP & KP & NI).
  pose proof (freeze_edited (b_store b) e (i_forest b I)) as EF. pose proof (freeze_forest (b_store b) e (i_forest b I)) as FF.
  set (s1 := upd (b_store b) e freeze_node) in *.
  assert (KP1 : exists k, kind_of s1 p = Some k /\ is_container k = true) by (rewrite (e_kind _ _ _ _ EF); exact KP).
  assert (KE1 : kind_of s1 e = Some KElement) by (rewrite (e_kind _ _ _ _ EF); exact KE).
  assert (PE1 : parent_of s1 e = None) by (rewrite (e_par _ _ _ _ EF); exact PE).
  assert (PP1 : parent_of s1 p = None) by (rewrite (e_par _ _ _ _ EF); exact PP).
  assert (HE : edited s1 (fast_append s1 p e) (fun q => if q =? p then kids s1 p ++ [e] else without e (kids s1 q)) (set_par (parent_of s1) e (Some p))).
  { apply fast_append_edited; [exact FF| | |congruence|exact PE1]; [destruct KP1 as (k & K & _)|]; eapply kind_exists; eauto. }
  split; cbn [b_store b_open].
  - apply fast_append_forest; [exact FF|exact KP1|exists KElement; auto|congruence|exact PE1|exact PP1].
  - pose proof (i_nodup b I) as ND. rewrite EO in ND. now inversion ND.
  - intros i Hi. rewrite (e_par _ _ _ _ HE). unfold set_par. destruct (Nat.eqb_spec i e) as [->|]; [contradiction|].
    rewrite (e_par _ _ _ _ EF). apply (i_root b I). rewrite EO. now right.
  - destruct (i_kinds b I) as (es & d & E1 & HK & HD). rewrite EO in E1. destruct es as [|x es]; [discriminate|]. injection E1 as <- E1. exists es, d. split; [exact E1|].
    inversion_clear HK as [|? ? _ HK2]. split.
    + eapply Forall_impl; [|exact HK2]. intros a Ha. rewrite (e_kind _ _ _ _ HE), (e_kind _ _ _ _ EF). exact Ha.
    + rewrite (e_kind _ _ _ _ HE), (e_kind _ _ _ _ EF). exact HD.
Qed.

(** ** Leaves *)
Lemma new_leaf_spec b k d l : inv b -> child_kind k = true -> exists p op r, b_open b = p :: op /\ new_leaf b k d l = Ok r /\
  snd r = len (b_store b) /\ fst r = {| b_store := fast_append (fst (new_node (b_store b) k d)) p (len (b_store b)); b_open := b_open b; b_free := b_free b; b_ns := b_ns b;
     b_labels := map (fun x => (len (b_store b), x)) l ++ b_labels b; b_past := b_past b |} /\
  inv (fst r) /\ kids (b_store (fst r)) p = kids (b_store b) p ++ [len (b_store b)].
Proof.
  intros I CK. destruct (i_kinds b I) as (es & d0 & E & _ & _).
  destruct (b_open b) as [|p op] eqn:EO; [destruct es; discriminate|]. clear E.
  assert (EN : new_leaf b k d l = Ok ({| b_store := fast_append (fst (new_node (b_store b) k d)) p (len (b_store b)); b_open := b_open b; b_free := b_free b; b_ns := b_ns b;
     b_labels := map (fun x => (len (b_store b), x)) l ++ b_labels b; b_past := b_past b |}, len (b_store b))).
  { unfold new_leaf. cbv beta iota zeta delta [new_node fst snd]. unfold add_node. cbn [b_open]. rewrite EO. reflexivity. }
  exists p, op. eexists. split; [reflexivity|]. split; [exact EN|]. split; [reflexivity|]. cbn [fst]. split; [now rewrite EO|].
  assert (Hp : p < len (b_store b)) by (apply (i_ex b p I); rewrite EO; now left).
  set (s1 := fst (new_node (b_store b) k d)).
  assert (F1 : forest s1) by (apply forest_new, (i_forest b I)).
  assert (KP : exists k, kind_of s1 p = Some k /\ is_container k = true).
  { unfold s1. rewrite new_kind. destruct (Nat.eqb_spec p (len (b_store b))); [lia|]. apply (i_cont b p I). rewrite EO. now left. }
  assert (KC : kind_of s1 (len (b_store b)) = Some k) by (unfold s1; rewrite new_kind, Nat.eqb_refl; reflexivity).
  assert (PC : parent_of s1 (len (b_store b)) = None) by (unfold s1; rewrite new_parent; apply parent_of_none, get_last).
  assert (PP : parent_of s1 p = None) by (unfold s1; rewrite new_parent; apply (i_root b I); rewrite EO; now left).
  assert (HE : edited s1 (fast_append s1 p (len (b_store b))) (fun q => if q =? p then kids s1 p ++ [len (b_store b)] else without (len (b_store b)) (kids s1 q)) (set_par (parent_of s1) (len (b_store b)) (Some p))).
  { apply fast_append_edited; [exact F1|destruct KP as (k' & K & _)| |lia|exact PC]; eapply kind_exists; eauto. }
  split.
  - apply (inv_store b); [|reflexivity| |exact I]; cbn [b_store].
    + apply fast_append_forest; [exact F1|exact KP|exists k; auto|lia|exact PC|exact PP].
    + intros i Hi. pose proof (i_ex b i I Hi) as Li. unfold exists_node in Li. rewrite (e_par _ _ _ _ HE), (e_kind _ _ _ _ HE). unfold set_par, s1.
      rewrite new_kind, new_parent. destruct (Nat.eqb_spec i (len (b_store b))); [lia|]. split; [now apply (i_root b I)|reflexivity].
  - cbn [b_store]. rewrite (edited_kids _ _ _ _ p HE) by (destruct KP as (k' & K & _); eapply kind_exists; eauto). rewrite Nat.eqb_refl. unfold s1. now rewrite new_kids.
Qed.

(** ** One event, and many *)
Lemma inv_received b e : inv b -> inv (received b e).
Proof. apply inv_ext; reflexivity. Qed.
Lemma on_event_inv h b e b' : inv b ->
  (forall b1 i, asks b e = Some (b1, i) -> gentle (b_store b1) (b_open b1) (h (b_past b1) (b_store b1) i) /\ (is_start e -> lets_be i (h (b_past b1) (b_store b1) i))) ->
  on_event h b e = Ok b' -> inv b'.
Proof.
  intros I H E. apply (inv_received b e) in I as IR.
  destruct e as [n atts|n|s|t d|s|p u|p| | |n]; cbn [on_event] in E; try (injection E as <-; exact I).
  - injection E as <-. apply start_element_inv; [exact IR|]. cbn [asks] in H. destruct (element_made (received b (EStart n atts)) n atts) as [b1 i].
    destruct (H b1 i eq_refl) as [H1 H2]. split; [exact H1|now apply H2].
  - cbn [asks] in H. unfold end_element in E. destruct (element_done (received b (EEnd n))) as [[b1 i]|x] eqn:ED; [|discriminate]. cbn [bind fst snd] in E. injection E as <-.
    apply call_back_inv; [exact (element_done_inv _ _ IR ED)|]. now apply H.
  - destruct (new_leaf_spec (received b (EText s)) KText s [] IR eq_refl) as (p & op & r & _ & ER & _ & _ & IV & _). unfold characters in E. rewrite ER in E. cbn [bind] in E. now injection E as <-.
  - destruct (new_leaf_spec (received b (EPI t d)) KPI d [LPI t] IR eq_refl) as (p & op & r & _ & ER & _ & _ & IV & _). unfold processing_instruction in E. rewrite ER in E. cbn [bind] in E. injection E as <-.
    cbn [asks] in H. rewrite ER in H. destruct r as [b1 i]. apply call_back_inv; [exact IV|]. now apply H.
  - destruct (new_leaf_spec (received b (EComment s)) KComment s [] IR eq_refl) as (p & op & r & _ & ER & _ & _ & IV & _). unfold comment in E. rewrite ER in E. cbn [bind] in E. now injection E as <-.
  - injection E as <-. apply (inv_ext (received b (ENsStart p u))); [reflexivity|reflexivity|exact IR].
Qed.

Lemma on_events_inv h : forall l b b', inv b -> well_behaved h b l -> on_events h b l = Ok b' -> inv b'.
Proof.
  induction l as [|e l IH]; intros b b' I W E; cbn [on_events] in E; [now injection E as <-|]. destruct W as [W1 W2].
  destruct (on_event h b e) as [b1|x] eqn:EE; [|discriminate]. cbn [bind] in E.
  apply (IH b1 b'); [exact (on_event_inv h b e b1 I W1 EE)|now apply W2|exact E].
Qed.

Lemma start_document_inv h s : forest s -> well_begun h s -> inv (fst (start_document h (new_builder s))) /\ snd (start_document h (new_builder s)) = len s /\
  b_open (fst (start_document h (new_builder s))) = [len s] /\ b_ns (fst (start_document h (new_builder s))) = [].
Proof.
  intros F W. unfold well_begun in W. unfold start_document. cbn [b_store new_builder].
  assert (K0 : kind_of (fst (new_node s KEntity [])) (len s) = Some KEntity) by (rewrite new_kind, Nat.eqb_refl; reflexivity).
  assert (P0 : parent_of (fst (new_node s KEntity [])) (len s) = None) by (rewrite new_parent; apply parent_of_none, get_last).
  assert (C0 : kids (fst (new_node s KEntity [])) (len s) = []) by (rewrite new_kids; apply kids_none, get_last).
  pose proof (forest_new s KEntity [] F) as F0.
  change (snd (new_node s KEntity [])) with (len s) in *.
  destruct (new_node s KEntity []) as [s1 d] eqn:EN. assert (d = len s) as -> by (unfold new_node in EN; now injection EN as _ <-). cbn [fst snd] in *.
  destruct W as [(W1 & _) W2].
  destruct (run_kept _ s1 (len s) F0 W1 (kind_exists _ _ _ K0)) as (_ & K2 & P2 & C2).
  set (b1 := call_back h (set_store (new_builder s) s1) (len s)).
  assert (FB : forest (b_store b1)) by (apply run_forest; assumption).
  assert (CB : kids (b_store b1) (len s) = []) by (apply C2; [exact C0|]; intros o Ho; now apply W2).
  destruct (add_context_eq b1 (len s)) as (cells & fr & ->).
  pose proof (set_working_edited (b_store b1) (len s) cells FB CB) as HE.
  split; [|split; [reflexivity|split; reflexivity]].
  split; cbn [b_store b_open b1 call_back set_store].
  - eapply forest_edited_same; [exact FB|exact HE].
  - repeat constructor. intros [].
  - intros i [<-|[]]. rewrite (e_par _ _ _ _ HE). apply P2; [exact P0|]. intros o Ho. now apply W2.
  - exists [], (len s). split; [reflexivity|]. split; [constructor|]. rewrite (e_kind _ _ _ _ HE). exact (eq_trans K2 K0).
Qed.

Lemma close_inv b r : inv b -> close_context b = Ok r -> forest (b_store (fst r)).
Proof.
  intros I E. unfold close_context in E. destruct (b_open b) as [|i op]; [discriminate|]. destruct (get (b_store b) i); [|discriminate]. injection E as <-.
  cbn [fst b_store]. apply freeze_forest, (i_forest b I).
Qed.
