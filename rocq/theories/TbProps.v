(** * C90 to C92: the tree builder *)
From Coq Require Import NArith ZArith String List Bool Lia Arith.
From Verif Require Import PyStr PyErr RdModel RdSpec RdProps DomModel DomSpec DomCells DomInv DomOps DomStep TbModel TbSpec TbStore TbProofs TbTree TbHandler.
Import ListNotations.
Local Open Scope nat_scope.

(** ** C90: The tree of a document is the document

    Parsing a document without stripping makes a new document node whose
    children are exactly the nodes of the document, in document order, with
    their names, namespaces, attributes, text and parents; no node that
    existed before changes, and all links stay consistent. *)
Theorem C90_tree_of_document : forall s l calls, forest s -> reported l calls -> Forall single_space l ->
  exists d b, build no_handler s (snd (parse [] new_reader calls true)) = Ok (d, b)
  /\ forest (b_store b)
  /\ (forall i, exists_node s i -> get (b_store b) i = get s i)
  /\ newer s d /\ kind_of (b_store b) d = Some KEntity /\ parent_of (b_store b) d = None /\ attrs_of (b_store b) d = []
  /\ all_stand (newer s) (b_store b) (b_labels b) d (kids (b_store b) d) (shown (nodes inherited [] l)).
Proof.
  intros s l calls F HR SS.
  assert (HH : forall past s i, no_handler past s i = remove_matching (fun _ => false) past s i) by (intros [|[]]; reflexivity).
  destruct (build_spec no_handler (fun _ => false) HH s _ _ F (C85_text_whole l calls HR SS)) as (d & b & gone & E & F' & G & D & K & P & A & S & _).
  exists d, b. split; [exact E|]. split; [exact F'|]. split; [exact G|]. split; [subst d; unfold newer, exists_node; lia|]. now repeat (split; [assumption|]).
Qed.
Print Assumptions C90_tree_of_document.

Definition a_attr (k v : string) : xattr := {| a_name := plain k; a_value := lit v |}.
Definition doc90 : list item :=
  [Comm (lit "first"); Elem (plain "a") [(None, Some (lit "u")); (Some (lit "p"), Some (lit "v"))] [a_attr "k" "1"; a_attr "m" "2"]
     [Text (lit "x "); Cdata (lit "<y>"); Elem (plain "b") [] [] [Unread (lit "e"); Text (lit "t")]; Instr (lit "pi") (lit "data")]].
(** The store that is there already. *)
Definition old90 : store := run empty [New KEntity []; New KElement (lit "z"); Append 0 1].
Lemma forest_old90 : forest old90.
Proof. apply (run_forest [New KEntity []; New KElement (lit "z"); Append 0 1] empty forest_empty). vm_compute. repeat (split; [try exact Logic.I; discriminate|]). exact Logic.I. Qed.
Example C90_case : forest old90 /\ reported doc90 (flat_map calls_of doc90) /\ Forall single_space doc90
  /\ exists b, build no_handler old90 (snd (parse [] new_reader (flat_map calls_of doc90) true)) = Ok (2, b)
     /\ kids (b_store b) 2 = [3; 4] /\ kids (b_store b) 4 = [7; 8; 10] /\ data_of (b_store b) 7 = lit "x <y>" /\ kids (b_store b) 8 = [9] /\ length (attrs_of (b_store b) 4) = 2.
Proof.
  split; [exact forest_old90|]. split; [apply calls_of_reported|]. split; [repeat constructor|]. eexists. split; [vm_compute; reflexivity|]. vm_compute. auto 10.
Qed.

(** ** C91: A rule handler may change the tree while it is built

    The callbacks of a rule handler may add, remove and move nodes, as long as
    every operation is one of those C18 covers, no node under construction is
    moved, and a new element or document gets no children and no parent at the
    callback that announces it.  Then all links are consistent after every
    event, the parse succeeds, and new content goes to the end of the innermost
    open element. *)
Theorem C91_links_partial : forall h s l b, forest s -> well_begun h s ->
  well_behaved h (fst (start_document h (new_builder s))) l ->
  on_events h (fst (start_document h (new_builder s))) l = Ok b -> forest (b_store b).
Proof.
  intros h s l b F W WB E. destruct (start_document_inv h s F W) as (I0 & _). exact (i_forest b (on_events_inv h l _ b I0 WB E)).
Qed.
Print Assumptions C91_links_partial.

Theorem C91_parse_partial : forall h s ts, forest s -> well_begun h s ->
  well_behaved h (fst (start_document h (new_builder s))) (flat_map told ts) ->
  exists d b, build h s (flat_map told ts) = Ok (d, b) /\ forest (b_store b) /\ newer s d /\ kind_of (b_store b) d = Some KEntity /\ parent_of (b_store b) d = None.
Proof.
  intros h s ts F W WB. destruct (start_document_inv h s F W) as (I0 & D0 & O0 & _). unfold build.
  destruct (start_document h (new_builder s)) as [b0 d]. cbn [fst snd] in *.
  destruct (trees_succeed h ts b0 I0 WB) as (b1 & E1 & I1 & O1). rewrite E1. cbn [bind]. rewrite O0 in O1.
  assert (IN : In d (b_open b1)) by (rewrite O1; left; congruence).
  destruct (close_context b1) as [[b2 d2]|x] eqn:EC.
  2:{ unfold close_context in EC. rewrite O1 in EC. destruct (get_ex (b_store b1) d (i_ex b1 d I1 IN)) as (m & G). rewrite <- D0, G in EC. discriminate. }
  cbn [bind fst]. exists d, b2. split; [reflexivity|]. split; [exact (close_inv b1 (b2, d2) I1 EC)|]. split; [rewrite D0; unfold newer, exists_node; lia|].
  unfold close_context in EC. rewrite O1 in EC. destruct (get (b_store b1) (length (s_nodes s))) eqn:G; [|discriminate]. injection EC as <- <-. cbn [b_store].
  pose proof (freeze_edited (b_store b1) (length (s_nodes s)) (i_forest b1 I1)) as EF. rewrite (e_kind _ _ _ _ EF), (e_par _ _ _ _ EF).
  split; [|now apply (i_root b1 I1)]. destruct (i_kinds b1 I1) as (es & d1 & EO & _ & K). rewrite O1 in EO. destruct es as [|x [|y es]]; try discriminate. injection EO as EO. rewrite D0, EO. exact K.
Qed.
Print Assumptions C91_parse_partial.

Theorem C91_new_content_partial : forall h s l b t, forest s -> well_begun h s ->
  well_behaved h (fst (start_document h (new_builder s))) l ->
  on_events h (fst (start_document h (new_builder s))) l = Ok b ->
  exists b' p i, on_event h b (EText t) = Ok b' /\ newer (b_store b) i
  /\ kids (b_store b') p = kids (b_store b) p ++ [i] /\ kind_of (b_store b') i = Some KText /\ data_of (b_store b') i = t /\ parent_of (b_store b') i = Some p
  /\ match open_names (rev l) with
     | [] => kind_of (b_store b) p = Some KEntity
     | n :: _ => kind_of (b_store b) p = Some KElement /\ exists ds, label_of (b_labels b) p = Some (LElem n ds)
     end.
Proof.
  intros h s l b t F W WB E. destruct (start_document_inv h s F W) as (I0 & D0 & O0 & _).
  assert (NM0 : names_kept (fst (start_document h (new_builder s)))) by (exists [], (length (s_nodes s)); rewrite O0; split; [reflexivity|]; rewrite past_begin; constructor).
  pose proof (on_events_inv h l _ b I0 WB E) as I1.
  destruct (names_events h l _ b I0 NM0 WB E) as (es & d & EO & HN).
  rewrite (past_events h l _ b I0 WB E), past_begin, app_nil_r in HN.
  destruct (i_kinds b I1) as (es' & d' & EO' & KE & KD). rewrite EO in EO'. apply app_inj_tail in EO' as [<- <-].
  destruct (new_leaf_spec (received b (EText t)) KText t [] (inv_received b _ I1) eq_refl) as (p & op & r & EP & ER & _).
  cbn [received b_open] in EP.
  destruct (leaf_facts (received b (EText t)) p op KText t [] r (inv_received b _ I1) EP eq_refl ER) as (_ & _ & _ & _ & _ & _ & A7 & A8 & A9 & A10 & A11 & _). cbn zeta in *. cbn [received b_store] in *.
  exists (fst r), p, (length (s_nodes (b_store b))). split; [cbn [on_event]; unfold characters; rewrite ER; reflexivity|].
  split; [unfold newer, exists_node; lia|]. do 4 (split; [assumption|]).
  rewrite EO in EP. inversion HN as [|i n es1 ns1 HL HN1 Q1 Q2]; subst.
  - cbn [app] in EP. injection EP as -> _. exact KD.
  - cbn [app] in EP. injection EP as -> _. split; [now inversion KE|exact HL].
Qed.
Print Assumptions C91_new_content_partial.

(** Every handler that only removes and creates nodes is such a handler. *)
Definition takes_or_makes (o : op) : Prop := match o with New _ _ | Remove _ _ | AddAttr _ _ => True | _ => False end.
Lemma takers_gentle s op ops : Forall takes_or_makes ops -> gentle s op ops.
Proof.
  intros H. split; [|split].
  - revert s. induction H as [|o ops HO H IH]; intros s; [exact Logic.I|]. split; [destruct o; try destruct HO; exact Logic.I|apply IH].
  - eapply Forall_impl; [|exact H]. intros o HO. destruct o; try destruct HO; exact Logic.I.
  - intros i o _ Ho M. rewrite Forall_forall in H. specialize (H o Ho). destruct o; try destruct H; exact M.
Qed.
Lemma takers_let_be i ops : Forall takes_or_makes ops -> lets_be i ops.
Proof. intros H o Ho. rewrite Forall_forall in H. specialize (H o Ho). split; intros M; destruct o; try destruct H; exact M. Qed.
Theorem C91_takers_partial : forall h s l calls, (forall past s i, Forall takes_or_makes (h past s i)) -> forest s -> reported l calls -> Forall single_space l ->
  exists d b, build h s (snd (parse [] new_reader calls true)) = Ok (d, b) /\ forest (b_store b) /\ newer s d /\ kind_of (b_store b) d = Some KEntity /\ parent_of (b_store b) d = None.
Proof.
  intros h s l calls HT F HR SS.
  assert (WG : well_begun h s) by (unfold well_begun; destruct (new_node s KEntity []) as [s1 d]; split; [apply takers_gentle, HT|apply takers_let_be, HT]).
  assert (WB : forall evs b, well_behaved h b evs) by (induction evs as [|e evs IH]; intros b; [exact Logic.I|]; split; [intros b1 i _; split; [apply takers_gentle, HT|intros _; apply takers_let_be, HT]|intros b' _; apply IH]).
  destruct (C91_parse_partial h s (nodes inherited [] l) F WG (WB _ _)) as (d & b & E & R). exists d, b. split; [|exact R].
  rewrite <- E. unfold build. destruct (start_document h (new_builder s)) as [b0 d0]. rewrite (marks_ignored h (snd (parse [] new_reader calls true)) b0), (C85_text_whole l calls HR SS). reflexivity.
Qed.
Print Assumptions C91_takers_partial.

(** A handler that gives a child to every element that ends, and puts a
    processing instruction into the open element when one starts. *)
Definition adds : handler := fun past s i =>
  match past with
  | EEnd _ :: _ => [New KComment (lit "done"); Append i (length (s_nodes s))]
  | EStart _ _ :: EStart _ _ :: _ => [New KPI (lit "start"); Append 3 (length (s_nodes s))]
  | _ => []
  end.
Definition doc91 : list tree := [TElem (plain "a") [] [] [TElem (plain "b") [] [] [TText (lit "t")]; TText (lit "u")]].
(** A test for handlers that make only some operations. *)
Fixpoint gentleb (s : store) (opn : list nat) (ops : list op) : bool :=
  match ops with
  | [] => true
  | o :: ops' =>
    match o with
    | Append p c => negb (existsb (Nat.eqb c) opn) && negb (match parent_of s c with Some q => Nat.eqb q p | None => false end)
    | New _ _ | Remove _ _ | AddAttr _ _ | Normalize _ => true
    | _ => false
    end && gentleb (fst (step s o)) opn ops'
  end.
Definition lets_beb (i : nat) (ops : list op) : bool :=
  forallb (fun o => match o with Append p c => negb (Nat.eqb c i) && negb (Nat.eqb p i) | New _ _ | Remove _ _ | AddAttr _ _ | Normalize _ => true | _ => false end) ops.
Fixpoint behaves (h : handler) (b : builder) (l : list event) : bool :=
  match l with
  | [] => true
  | e :: l' =>
    match asks b e with
    | Some (b1, i) => gentleb (b_store b1) (b_open b1) (h (b_past b1) (b_store b1) i) && match e with EStart _ _ => lets_beb i (h (b_past b1) (b_store b1) i) | _ => true end
    | None => true
    end && match on_event h b e with Ok b' => behaves h b' l' | Err _ => true end
  end.
Lemma gentleb_ok opn : forall ops s, gentleb s opn ops = true -> gentle s opn ops.
Proof.
  induction ops as [|o ops IH]; intros s H; [split; [exact Logic.I|split; [constructor|intros ? ? _ []]]|].
  cbn [gentleb] in H. apply andb_true_iff in H as [H1 H2]. destruct (IH _ H2) as (I1 & I2 & I3).
  split; [|split].
  - split; [|exact I1]. destruct o; try exact Logic.I; try discriminate. cbn [safe]. intros Q. rewrite Q, Nat.eqb_refl, andb_false_r in H1. discriminate.
  - constructor; [|exact I2]. destruct o; try exact Logic.I; discriminate.
  - intros i x Hi [<-|Hx]; [|now apply I3]. destruct o; try discriminate H1; try (intros X; exact X). cbn [moves]. intros ->. apply andb_true_iff in H1 as [H1 _]. apply negb_true_iff in H1.
    assert (X : existsb (Nat.eqb i) opn = true) by (apply existsb_exists; exists i; split; [exact Hi|apply Nat.eqb_refl]). congruence.
Qed.
Lemma lets_beb_ok i ops : lets_beb i ops = true -> lets_be i ops.
Proof.
  intros H o Ho. unfold lets_beb in H. rewrite forallb_forall in H. specialize (H o Ho). destruct o; try discriminate H; try (split; intros X; exact X).
  apply andb_true_iff in H as [H1 H2]. apply negb_true_iff, Nat.eqb_neq in H1, H2. now split.
Qed.
Lemma behaves_ok h : forall l b, behaves h b l = true -> well_behaved h b l.
Proof.
  induction l as [|e l IH]; intros b H; [exact Logic.I|]. cbn [behaves] in H. apply andb_true_iff in H as [H1 H2]. split.
  - intros b1 i E. rewrite E in H1. apply andb_true_iff in H1 as [H1 H3]. split; [now apply gentleb_ok|]. intros ST. destruct e; try destruct ST. now apply lets_beb_ok.
  - intros b' E. rewrite E in H2. now apply IH.
Qed.
Example C91_case : forest old90 /\ well_begun adds old90 /\ well_behaved adds (fst (start_document adds (new_builder old90))) (flat_map told doc91)
  /\ exists b, build adds old90 (flat_map told doc91) = Ok (2, b) /\ kids (b_store b) 2 = [3] /\ kids (b_store b) 3 = [5; 4; 8; 9] /\ kids (b_store b) 4 = [6; 7].
Proof.
  split; [exact forest_old90|]. split; [|split].
  - unfold well_begun. cbv beta iota zeta delta [new_node]. split; [now apply gentleb_ok|now apply lets_beb_ok].
  - apply behaves_ok. vm_compute. reflexivity.
  - eexists. split; [vm_compute; reflexivity|]. vm_compute. auto.
Qed.

(** A handler that moves the element it is told about, which is still being
    built: the element is afterwards in two lists of children. *)
Definition moves_it : handler := fun past s i => match past with [EStart _ _] => [Append 0 i] | _ => [] end.
Theorem C91_move_new_element_refuted : exists b, build moves_it old90 [EStart (plain "a") []; EEnd (plain "a")] = Ok (2, b)
  /\ safe_run (b_store (fst (element_made (received (fst (start_document moves_it (new_builder old90))) (EStart (plain "a") [])) (plain "a") []))) [Append 0 3]
  /\ In 3 (kids (b_store b) 0) /\ In 3 (kids (b_store b) 2) /\ parent_of (b_store b) 3 = Some 2 /\ ~ forest (b_store b).
Proof.
  eexists. split; [vm_compute; reflexivity|]. split; [vm_compute; split; [discriminate|exact Logic.I]|]. split; [vm_compute; auto|]. split; [vm_compute; auto|]. split; [reflexivity|].
  intros F. destruct (proj1 (f_link _ F 0 3)) as [X _]; [vm_compute; auto|]. vm_compute in X. discriminate X.
Qed.
Print Assumptions C91_move_new_element_refuted.

(** A handler that gives the new document, or a new element, a child: the
    child's slot is lost, and reading the children runs into a slot that was
    never written. *)
Definition fills_it : handler := fun past s i => match past with [] => [New KComment (lit "c"); Append i (length (s_nodes s))] | _ => [] end.
Theorem C91_fill_new_document_refuted : exists b, build fills_it empty [EStart (plain "a") []; EEnd (plain "a")] = Ok (0, b)
  /\ safe_run (fst (new_node empty KEntity [])) [New KComment (lit "c"); Append 0 1]
  /\ parent_of (b_store b) 1 = Some 0 /\ get_children (b_store b) 0 = Err Garbage.
Proof. eexists. split; [vm_compute; reflexivity|]. split; [vm_compute; split; [exact Logic.I|split; [discriminate|exact Logic.I]]|]. split; reflexivity. Qed.
Print Assumptions C91_fill_new_document_refuted.

(** ** C92: Elements can be taken out as they are completed

    With a rule handler that removes every completed element which a test of
    its name and the names of its ancestors accepts, the tree is the document
    without these elements, and each of them is complete, without the elements
    taken out of it, and without a parent. *)
Theorem C92_taken_out : forall sel s l calls, forest s -> reported l calls -> Forall single_space l ->
  exists d b gone, build (remove_matching sel) s (snd (parse [] new_reader calls true)) = Ok (d, b)
  /\ forest (b_store b)
  /\ (forall i, exists_node s i -> get (b_store b) i = get s i)
  /\ newer s d /\ kind_of (b_store b) d = Some KEntity /\ parent_of (b_store b) d = None
  /\ all_stand (newer s) (b_store b) (b_labels b) d (kids (b_store b) d) (flat_map (prune sel []) (nodes inherited [] l))
  /\ Forall2 (fun i t => parent_of (b_store b) i = None /\ stands (newer s) (b_store b) (b_labels b) i t) gone (flat_map (taken sel []) (nodes inherited [] l)).
Proof.
  intros sel s l calls F HR SS.
  destruct (build_spec (remove_matching sel) sel (fun _ _ _ => eq_refl) s _ _ F (C85_text_whole l calls HR SS)) as (d & b & gone & E & F' & G & D & K & P & A & S & GO).
  exists d, b, gone. split; [exact E|]. split; [exact F'|]. split; [exact G|]. split; [subst d; unfold newer, exists_node; lia|]. now repeat (split; [assumption|]).
Qed.
Print Assumptions C92_taken_out.
Definition sel92 (path : list xname) : bool := match path with n :: m :: _ => str_eqb (x_local n) (lit "r") && str_eqb (x_local m) (lit "l") | _ => false end.
Definition doc92 : list item := [Elem (plain "l") [] [] [Elem (plain "r") [] [] [Text (lit "1")]; Text (lit "2"); Elem (plain "q") [] [] [Elem (plain "r") [] [] []; Elem (plain "l") [] [] [Elem (plain "r") [] [] []]]; Elem (plain "r") [] [] [Text (lit "3")]]].
Example C92_case : forest old90 /\ reported doc92 (flat_map calls_of doc92) /\ Forall single_space doc92
  /\ flat_map (prune sel92 []) (nodes inherited [] doc92) = [TElem (plain "l") [] [] [TText (lit "2"); TElem (plain "q") [] [] [TElem (plain "r") [] [] []; TElem (plain "l") [] [] []]]]
  /\ flat_map (taken sel92 []) (nodes inherited [] doc92) = [TElem (plain "r") [] [] [TText (lit "1")]; TElem (plain "r") [] [] []; TElem (plain "r") [] [] [TText (lit "3")]].
Proof. split; [exact forest_old90|]. split; [apply calls_of_reported|]. split; [repeat constructor|]. split; vm_compute; reflexivity. Qed.
