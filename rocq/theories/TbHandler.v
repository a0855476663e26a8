(** * Proofs about the tree builder: any rule handler *)
From Coq Require Import NArith ZArith String List Bool Lia Arith.
From Verif Require Import PyStr PyErr RdModel RdSpec RdProofs DomModel DomSpec DomCells DomInv DomOps DomStep TbModel TbSpec TbStore TbProofs TbTree.
Import ListNotations.
Local Open Scope nat_scope.

Definition open_after (b : builder) (e : event) : list nat :=
  match e with EStart _ _ => length (s_nodes (b_store b)) :: b_open b | EEnd _ => tl (b_open b) | _ => b_open b end.
Lemma event_facts h b e b' : inv b -> on_event h b e = Ok b' ->
  b_open b' = open_after b e /\ open_names (b_past b') = open_names (e :: b_past b) /\
  (forall i, exists_node (b_store b) i -> label_of (b_labels b') i = label_of (b_labels b) i) /\
  (forall n atts, e = EStart n atts -> exists ds, label_of (b_labels b') (length (s_nodes (b_store b))) = Some (LElem n ds)).
Proof.
  intros I E. pose proof (inv_received b e I) as IR. destruct e as [n atts|n|s|t d|s|p u|p| | |n]; cbn [on_event] in E;
    try (injection E as <-; split; [reflexivity|]; split; [reflexivity|]; split; [reflexivity|discriminate]).
  - injection E as <-. destruct (element_made_spec (received b (EStart n atts)) n atts (i_forest b I)) as (al & m & E & _ & _ & O & _ & _ & PA & _ & LB & LE & _).
    unfold start_element. destruct (element_made (received b (EStart n atts)) n atts) as [b2 e]. cbn [fst snd] in *. cbn [received b_store b_open b_past b_labels b_ns] in *.
    destruct (add_context_eq (call_back h b2 e) e) as (cells & fr & ->). cbn [b_open b_past b_labels call_back set_store]. rewrite O, PA, E.
    split; [reflexivity|]. split; [reflexivity|]. split; [exact LB|]. intros n' atts' Q. injection Q as <- <-. rewrite <- E. eexists. exact LE.
  - unfold end_element in E. destruct (element_done_cases (received b (EEnd n)) IR) as [(d & _ & ED)|(x & p & op & m & EO & _ & ED)]; rewrite ED in E; [discriminate|].
    cbn [bind fst snd] in E. injection E as <-. cbn [call_back set_store b_open b_past b_labels received open_after] in *. rewrite EO. split; [reflexivity|]. split; [reflexivity|]. split; [reflexivity|discriminate].
  - destruct (new_leaf_spec (received b (EText s)) KText s [] IR eq_refl) as (p & op & r & EO & ER & _ & FR & _). unfold characters in E. rewrite ER in E. cbn [bind] in E. injection E as <-. rewrite FR.
    split; [reflexivity|]. split; [reflexivity|]. split; [reflexivity|discriminate].
  - destruct (new_leaf_spec (received b (EPI t d)) KPI d [LPI t] IR eq_refl) as (p & op & r & EO & ER & SR & FR & _). unfold processing_instruction in E. rewrite ER in E. cbn [bind] in E. injection E as <-.
    rewrite FR. cbn [call_back set_store b_open b_past b_labels received]. split; [reflexivity|]. split; [reflexivity|]. split; [|discriminate].
    intros i Hi. unfold exists_node in Hi. apply (label_skip (b_labels b)). cbn [received b_store]. lia.
  - destruct (new_leaf_spec (received b (EComment s)) KComment s [] IR eq_refl) as (p & op & r & EO & ER & _ & FR & _). unfold comment in E. rewrite ER in E. cbn [bind] in E. injection E as <-. rewrite FR.
    split; [reflexivity|]. split; [reflexivity|]. split; [reflexivity|discriminate].
Qed.

Lemma names_congr : forall l p q, open_names p = open_names q -> open_names (l ++ p) = open_names (l ++ q).
Proof. induction l as [|e l IH]; intros p q E; [exact E|]. cbn [app]. destruct e; cbn [open_names]; try (apply IH, E); rewrite (IH p q E); reflexivity. Qed.

Definition names_kept (b : builder) : Prop := exists es d, b_open b = es ++ [d] /\ Forall2 (fun i n => exists ds, label_of (b_labels b) i = Some (LElem n ds)) es (open_names (b_past b)).
Lemma forall2_in {A B} (P Q : A -> B -> Prop) : forall l m, (forall x y, In x l -> P x y -> Q x y) -> Forall2 P l m -> Forall2 Q l m.
Proof. intros l m H F. induction F as [|x y l m HP F IH]; constructor; [apply H; [now left|exact HP]|apply IH; intros; apply H; [now right|assumption]]. Qed.

Lemma names_event h b e b' : inv b -> names_kept b -> on_event h b e = Ok b' -> names_kept b'.
Proof.
  intros I (es & d & EO & HN) E. destruct (event_facts h b e b' I E) as (O & NM & LB & LS).
  assert (HN' : Forall2 (fun i n => exists ds, label_of (b_labels b') i = Some (LElem n ds)) es (open_names (b_past b))).
  { eapply forall2_in; [|exact HN]. intros x y Hx [ds L]. exists ds. rewrite LB; [exact L|]. apply (i_ex b x I). rewrite EO. apply in_or_app. now left. }
  unfold names_kept. rewrite O, NM. destruct e as [n atts|n|s|t dd|s|p u|p| | |n]; cbn [open_after open_names]; try (exists es, d; split; [exact EO|exact HN']).
  - exists (length (s_nodes (b_store b)) :: es), d. rewrite EO. split; [reflexivity|]. constructor; [exact (LS n atts eq_refl)|exact HN'].
  - destruct (element_done_cases (received b (EEnd n)) (inv_received b _ I)) as [(x & _ & ED)|(x & p & op & m & EO' & _ & ED)].
    { cbn [on_event] in E. unfold end_element in E. rewrite ED in E. discriminate. }
    cbn [received b_open] in EO'. rewrite EO in *. destruct es as [|y es]; [destruct op; discriminate|]. cbn [app tl]. exists es, d. split; [reflexivity|].
    inversion HN' as [|? z ? zs ? HT]; subst. cbn [tl]. exact HT.
Qed.

Lemma names_events h : forall l b b', inv b -> names_kept b -> well_behaved h b l -> on_events h b l = Ok b' -> names_kept b'.
Proof.
  induction l as [|e l IH]; intros b b' I NK W E; cbn [on_events] in E; [now injection E as <-|]. destruct W as [W1 W2].
  destruct (on_event h b e) as [b1|x] eqn:EE; [|discriminate]. cbn [bind] in E.
  apply (IH b1 b'); [exact (on_event_inv h b e b1 I W1 EE)|exact (names_event h b e b1 I NK EE)|now apply W2|exact E].
Qed.
Lemma past_events h : forall l b b', inv b -> well_behaved h b l -> on_events h b l = Ok b' -> open_names (b_past b') = open_names (rev l ++ b_past b).
Proof.
  induction l as [|e l IH]; intros b b' I W E; cbn [on_events] in E; [now injection E as <-|]. destruct W as [W1 W2].
  destruct (on_event h b e) as [b1|x] eqn:EE; [|discriminate]. cbn [bind] in E.
  rewrite (IH b1 b' (on_event_inv h b e b1 I W1 EE) (W2 b1 eq_refl) E). cbn [rev]. rewrite <- app_assoc. apply names_congr. apply (event_facts h b e b1 I EE).
Qed.
Lemma past_begin h s : b_past (fst (start_document h (new_builder s))) = [].
Proof.
  unfold start_document. destruct (new_node (b_store (new_builder s)) KEntity []) as [s1 d]. cbn [fst].
  destruct (add_context_eq (call_back h (set_store (new_builder s) s1) d) d) as (cells & fr & ->). reflexivity.
Qed.

Lemma event_ok h b e : inv b -> (forall n, e = EEnd n -> exists x y op, b_open b = x :: y :: op) -> exists b', on_event h b e = Ok b'.
Proof.
  intros I HE. pose proof (inv_received b e I) as IR. destruct e as [n atts|n|s|t d|s|p u|p| | |n]; cbn [on_event]; try (eexists; reflexivity).
  - destruct (HE n eq_refl) as (x & y & op & EO). unfold end_element. destruct (element_done_cases (received b (EEnd n)) IR) as [(z & EZ & _)|(z & p & op' & m & _ & _ & ->)].
    + cbn [received b_open] in EZ. rewrite EO in EZ. discriminate.
    + eexists. reflexivity.
  - destruct (new_leaf_spec (received b (EText s)) KText s [] IR eq_refl) as (p & op & r & _ & ER & _). unfold characters. rewrite ER. eexists. reflexivity.
  - destruct (new_leaf_spec (received b (EPI t d)) KPI d [LPI t] IR eq_refl) as (p & op & r & _ & ER & _). unfold processing_instruction. rewrite ER. eexists. reflexivity.
  - destruct (new_leaf_spec (received b (EComment s)) KComment s [] IR eq_refl) as (p & op & r & _ & ER & _). unfold comment. rewrite ER. eexists. reflexivity.
Qed.

(** [l] can be consumed and leaves the open nodes as they were; [k] may follow. *)
Definition consumed h (l : list event) : Prop := forall b k, inv b -> well_behaved h b (l ++ k) ->
  exists b', on_events h b l = Ok b' /\ inv b' /\ b_open b' = b_open b /\ well_behaved h b' k.
Lemma consumed_app h l m : consumed h l -> consumed h m -> consumed h (l ++ m).
Proof.
  intros HL HM b k I W. rewrite <- app_assoc in W. destruct (HL b _ I W) as (b1 & E1 & I1 & O1 & W1). destruct (HM b1 k I1 W1) as (b2 & E2 & I2 & O2 & W2).
  exists b2. rewrite on_events_app, E1. cbn [bind]. split; [exact E2|]. split; [exact I2|]. split; [congruence|exact W2].
Qed.
Lemma consumed_nil h : consumed h [].
Proof. intros b k I W. exists b. repeat (split; [reflexivity || assumption|]). exact W. Qed.
Lemma consumed_one h e : (forall b, open_after b e = b_open b) -> (forall n, e <> EEnd n) -> consumed h [e].
Proof.
  intros HO HN b k I W. destruct (event_ok h b e I) as (b' & E); [intros n Q; now apply HN in Q|]. destruct W as [W1 W2].
  exists b'. cbn [on_events]. rewrite E. cbn [bind]. split; [reflexivity|]. split; [exact (on_event_inv h b e b' I W1 E)|]. split; [|now apply W2].
  rewrite <- (HO b). apply (event_facts h b e b' I E).
Qed.
Lemma consumed_map {A} h (f : A -> event) : (forall x, consumed h [f x]) -> forall l, consumed h (map f l).
Proof. intros H. induction l as [|x l IH]; [apply consumed_nil|]. apply (consumed_app h [f x]); [apply H|exact IH]. Qed.
Lemma consumed_elem h n atts l : consumed h l -> consumed h (EStart n atts :: l ++ [EEnd n]).
Proof.
  intros HL b k I W. cbn [app] in W. rewrite <- app_assoc in W. cbn [app] in W. destruct W as [W1 W2].
  destruct (event_ok h b (EStart n atts) I) as (b1 & E1); [discriminate|]. pose proof (on_event_inv h b _ b1 I W1 E1) as I1.
  destruct (event_facts h b _ b1 I E1) as (O1 & _). cbn [open_after] in O1.
  destruct (HL b1 _ I1 (W2 b1 E1)) as (b2 & E2 & I2 & O2 & W3). destruct W3 as [W3 W4].
  assert (NE : exists y op, b_open b = y :: op) by (destruct (i_kinds b I) as (es & d & -> & _); destruct es; eexists; eexists; reflexivity).
  destruct NE as (y & op & EO).
  destruct (event_ok h b2 (EEnd n) I2) as (b3 & E3); [intros m _; rewrite O2, O1, EO; eauto|].
  exists b3. cbn [app on_events]. rewrite E1. cbn [bind]. rewrite on_events_app, E2. cbn [bind on_events]. rewrite E3. cbn [bind].
  split; [reflexivity|]. split; [exact (on_event_inv h b2 _ b3 I2 W3 E3)|]. split; [|now apply W4].
  destruct (event_facts h b2 _ b3 I2 E3) as (O3 & _). rewrite O3. cbn [open_after]. rewrite O2, O1. reflexivity.
Qed.
Lemma consumed_told h : forall t, consumed h (told t).
Proof.
  fix IH 1. intros [n ns atts ct|s|tg d|s|u]; cbn [told]; try (apply consumed_one; [reflexivity|discriminate]).
  apply consumed_app; [apply consumed_map; intros x; apply consumed_one; [reflexivity|discriminate]|].
  change (EStart n atts :: flat_map told ct ++ EEnd n :: map (fun d => ENsEnd (fst d)) (rev ns)) with (EStart n atts :: flat_map told ct ++ [EEnd n] ++ map (fun d => ENsEnd (fst d)) (rev ns)).
  rewrite app_assoc. change (EStart n atts :: (flat_map told ct ++ [EEnd n]) ++ map (fun d => ENsEnd (fst d)) (rev ns)) with ((EStart n atts :: flat_map told ct ++ [EEnd n]) ++ map (fun d => ENsEnd (fst d)) (rev ns)).
  apply consumed_app; [apply consumed_elem|apply consumed_map; intros x; apply consumed_one; [reflexivity|discriminate]].
  induction ct as [|t ct IHc]; [apply consumed_nil|]. cbn [flat_map]. apply consumed_app; [apply IH|exact IHc].
Qed.
Lemma consumed_trees h : forall ts, consumed h (flat_map told ts).
Proof. induction ts as [|t ts IH]; [apply consumed_nil|]. cbn [flat_map]. apply consumed_app; [apply consumed_told|exact IH]. Qed.
Lemma trees_succeed h ts b : inv b -> well_behaved h b (flat_map told ts) -> exists b', on_events h b (flat_map told ts) = Ok b' /\ inv b' /\ b_open b' = b_open b.
Proof.
  intros I W. destruct (consumed_trees h ts b [] I) as (b' & E & I' & O & _); [rewrite app_nil_r; exact W|]. exists b'. auto.
Qed.
