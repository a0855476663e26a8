(** * C75 to C77: the XUpdate commands *)
From Coq Require Import NArith ZArith String List Bool Lia Arith.
From Verif Require XwModel TwModel XuContent.
From Verif Require Import PyStr PyErr DomModel DomSpec DomInv DomStep DomProps XuModel XuProofs XuInsert XuEdit XuRename XuSpec.
Import ListNotations.
Local Open Scope nat_scope.

(** ** A document for the examples

    <doc><a x="1" y="2">t<b/></a><!--c--><?pi d?></doc>, in document order. *)
Definition nme (s : string) : ename := (None, lit s).
Definition blank : doc := {| d_store := empty; d_name := fun _ => (None, []) |}.
Definition sample_tree : dtree :=
  DT KElement (nme "doc") [] []
    [DT KElement (nme "a") [] [(nme "x", lit "1"); (nme "y", lit "2")] [DT KText (None, []) (lit "t") [] []; DT KElement (nme "b") [] [] []];
     DT KComment (None, []) (lit "c") [] []; DT KPI (nme "pi") (lit "d") [] []].
Definition sample : doc := fst (fragment blank (Ok [sample_tree])).
Lemma sample_forest : forest (d_store sample).
Proof.
  destruct (fragment_ok blank [sample_tree]) as [d' [cs [E [F _]]]]; [exact forest_empty|repeat constructor; cbn; intuition discriminate|]. unfold sample. now rewrite E.
Qed.
Definition new_tree (s : string) : dtree := DT KElement (nme s) [] [(nme "k", lit "v")] [DT KText (None, []) (lit "w") [] []].
Lemma new_tree_proper s : Forall proper [new_tree s; DT KComment (None, []) [] [] []].
Proof. repeat constructor; cbn; intuition discriminate. Qed.
Example sample_nodes : dkids sample 0 = [1] /\ dkids sample 1 = [2; 7; 8] /\ dkids sample 2 = [5; 6] /\ dattrs sample 2 = [3; 4] /\ d_name sample 6 = nme "b" /\ dkind sample 8 = Some KPI.
Proof. vm_compute. repeat split; reflexivity. Qed.

(** ** C75

    [insert_before], [insert_after] and [append] are the commands, [content t] is
    what the content of the command makes for the target [t]. *)
Theorem C75_insert_before_partial : forall d content trees ts, forest (d_store d) -> selection d ts ->
  (forall t, In t ts -> content t = Ok (trees t) /\ Forall proper (trees t)) -> (forall t, In t ts -> exists p, In t (dkids d p)) ->
  exists d' put, insert_before content ts d = (d', Ok tt) /\ grown d d' ts trees put (fun p => before_each put (dkids d p)).
Proof. intros d content trees ts F S G C. now apply insert_before_ok. Qed.
Print Assumptions C75_insert_before_partial.

Theorem C75_insert_after_partial : forall d content trees ts, forest (d_store d) -> selection d ts ->
  (forall t, In t ts -> content t = Ok (trees t) /\ Forall proper (trees t)) -> (forall t, In t ts -> exists p, In t (dkids d p)) ->
  exists d' put, insert_after content ts d = (d', Ok tt) /\ grown d d' ts trees put (fun p => after_each put (dkids d p)).
Proof. intros d content trees ts F S G C. now apply insert_after_ok. Qed.
Print Assumptions C75_insert_after_partial.

(** The number of children before the new ones. *)
Definition child_position (child : option (nat -> result Z)) (d : doc) (t pos : nat) : Prop :=
  pos <= length (dkids d t) /\
  match child with
  | None => pos = length (dkids d t)
  | Some f => exists z, f t = Ok z /\ (- Z.of_nat (length (dkids d t)) <= z)%Z /\
      pos = if (z <? 0)%Z then Z.to_nat (z + Z.of_nat (length (dkids d t))) else Nat.min (Z.to_nat z) (length (dkids d t))
  end.
Theorem C75_append_partial : forall d content trees child pos ts, forest (d_store d) -> selection d ts -> ts <> [] ->
  (forall t, In t ts -> content t = Ok (trees t) /\ Forall proper (trees t)) -> (forall t, In t ts -> container (d_store d) t) ->
  (forall t, In t ts -> child_position child d t (pos t)) ->
  exists d' put, append content child ts d = (d', Ok tt) /\ grown d d' ts trees put (fun p => at_position (pos p) (put p) (dkids d p)).
Proof. intros d content trees child pos ts F S NE G C P. now apply append_ok. Qed.
Print Assumptions C75_append_partial.

(** Non-vacuity: two targets, one the parent of the other. *)
Definition new_content (t : nat) : result (list dtree) := Ok [new_tree "n"; DT KComment (None, []) [] [] []].
Lemma sample_selection ts : forallb (fun t => t <? 9) ts = true -> NoDup ts -> selection sample ts.
Proof. intros B N. split; [exact N|]. intros t T. rewrite forallb_forall in B. apply B, Nat.ltb_lt in T. assert (length (s_nodes (d_store sample)) = 9) as E by (vm_compute; reflexivity). unfold node_in, exists_node. lia. Qed.
Ltac distinct_numbers := repeat constructor; cbn; intuition discriminate.
Example C75_case : (exists d' put, insert_before new_content [2; 5; 7] sample = (d', Ok tt) /\ grown sample d' [2; 5; 7] (fun _ => [new_tree "n"; DT KComment (None, []) [] [] []]) put (fun p => before_each put (dkids sample p))) /\
  (exists d' put, insert_after new_content [2; 8; 6] sample = (d', Ok tt) /\ grown sample d' [2; 8; 6] (fun _ => [new_tree "n"; DT KComment (None, []) [] [] []]) put (fun p => after_each put (dkids sample p))) /\
  (exists d' put, append new_content (Some (fun t => Ok (if t =? 1 then 0%Z else (-1)%Z))) [1; 2] sample = (d', Ok tt) /\
     grown sample d' [1; 2] (fun _ => [new_tree "n"; DT KComment (None, []) [] [] []]) put (fun p => at_position (if p =? 1 then 0 else 1) (put p) (dkids sample p))).
Proof.
  split; [|split].
  - apply C75_insert_before_partial; [exact sample_forest|apply sample_selection; [reflexivity|distinct_numbers]|intros t _; split; [reflexivity|apply new_tree_proper]|].
    intros t [<-|[<-|[<-|[]]]]; [exists 1|exists 2|exists 1]; vm_compute; auto.
  - apply C75_insert_after_partial; [exact sample_forest|apply sample_selection; [reflexivity|distinct_numbers]|intros t _; split; [reflexivity|apply new_tree_proper]|].
    intros t [<-|[<-|[<-|[]]]]; [exists 1|exists 1|exists 2]; vm_compute; auto.
  - apply (C75_append_partial sample new_content _ _ (fun p => if p =? 1 then 0 else 1)); [exact sample_forest|apply sample_selection; [reflexivity|distinct_numbers]|discriminate|intros t _; split; [reflexivity|apply new_tree_proper]| |].
    + intros t [<-|[<-|[]]]; exists KElement; vm_compute; auto.
    + intros t [<-|[<-|[]]]; (split; [vm_compute; lia|]); [exists 0%Z|exists (-1)%Z]; (split; [reflexivity|]); (split; [vm_compute; discriminate|reflexivity]).
Qed.
Example C75_case_shape : dkids (fst (insert_before new_content [2; 5; 7] sample)) 1 = [10; 13; 2; 20; 23; 7; 8] /\
  dkids (fst (insert_before new_content [2; 5; 7] sample)) 2 = [15; 18; 5; 6] /\
  dkids (fst (insert_after new_content [2; 8; 6] sample)) 1 = [2; 10; 13; 7; 8; 15; 18] /\
  dkids (fst (append new_content None [2] sample)) 2 = [5; 6; 10; 13].
Proof. vm_compute. repeat split; reflexivity. Qed.

(** False of the code: the table in commands.py (line 23) gives [child="1"] for
    the first place, but [child] counts from zero: the new nodes come after the
    first child. *)
Theorem C75_first_refuted : exists d', append new_content (Some (fun _ => Ok 1%Z)) [1] sample = (d', Ok tt) /\ dkids sample 1 = [2; 7; 8] /\ dkids d' 1 = [2; 10; 13; 7; 8].
Proof. eexists. split; [vm_compute; reflexivity|]. vm_compute. auto. Qed.
Print Assumptions C75_first_refuted.
(** A number below minus the number of children stops the command, after the
    changes for the targets before. *)
Theorem C75_index_refuted : exists d', append new_content (Some (fun t => Ok (if t =? 1 then 0%Z else (-3)%Z))) [1; 2] sample = (d', Err IndexError) /\ dkids d' 1 = [10; 13; 2; 7; 8] /\ dkids d' 2 = dkids sample 2.
Proof. eexists. split; [vm_compute; reflexivity|]. vm_compute. auto. Qed.
Print Assumptions C75_index_refuted.
(** insert-before the root element's document, or an attribute, is an error. *)
Theorem C75_targets_refuted : snd (insert_before new_content [0] sample) = Err AttributeError /\ snd (insert_before new_content [3] sample) = Err ValueError.
Proof. vm_compute. auto. Qed.
Print Assumptions C75_targets_refuted.

(** The content is written by a tree writer: whatever it writes is proper, so that
    the theorems apply. *)
Lemma dtree_proper : forall n, proper (XuContent.dtree_of n).
Proof.
  fix IH 1. intros [ns q decls atts kids|s|s|t s]; cbn [XuContent.dtree_of proper]; [|repeat split; intuition discriminate..].
  split; [reflexivity|]. split; [intros X; contradiction|]. induction kids as [|n l IHl]; [exact I|]. split; [apply IH|exact IHl].
Qed.
Theorem C75_written : forall calls trees, XuContent.written calls = Ok trees -> Forall proper trees.
Proof.
  intros calls trees H. unfold XuContent.written in H. destruct (TwModel.fragment calls) as [f|e]; [|discriminate]. cbn [rmap] in H. injection H as <-. apply Forall_forall. intros t T. apply in_map_iff in T. destruct T as [n [<- _]]. apply dtree_proper.
Qed.
Print Assumptions C75_written.
Example C75_case_written : XuContent.written [XwModel.StartElement (lit "n") None [] []; XwModel.Attribute (lit "k") (lit "v") None; XwModel.Text (lit "w"); XwModel.EndElement (lit "n"); XwModel.Comment []] = new_content 0.
Proof. vm_compute. reflexivity. Qed.
(** False of the code: the table (line 25) has xupdate:attribute in append for new
    attributes, but attributes outside an element are lost: nothing changes. *)
Theorem C75_attributes_refuted : forall atts d t, forest (d_store d) -> container (d_store d) t ->
  exists d', append (fun _ => XuContent.written (map (fun a => XwModel.Attribute (fst a) (snd a) None) atts)) None [t] d = (d', Ok tt) /\
    forall i, node_in d i -> dattrs d' i = dattrs d i /\ dkids d' i = dkids d i.
Proof.
  intros atts d t F C. assert (XuContent.written (map (fun a => XwModel.Attribute (fst a) (snd a) None) atts) = Ok []) as E.
  { unfold XuContent.written, TwModel.fragment. assert (forall l, TwModel.tw_run (map (fun a => XwModel.Attribute (fst a) (snd a) None) l) TwModel.tw_new = Ok TwModel.tw_new) as -> by (induction l as [|a l IH]; [reflexivity|exact IH]). reflexivity. }
  rewrite E. assert (node_in d t) as I by (now apply container_in).
  destruct (C75_append_partial d (fun _ => Ok []) (fun _ => []) None (fun p => length (dkids d p)) [t]) as [d' [put [E' G]]]; auto; try discriminate.
  - split; [repeat constructor; intros []|]. now intros x [<-|[]].
  - intros x [<-|[]]. exact C.
  - intros x _. split; [apply Nat.le_refl|reflexivity].
  - exists d'. split; [exact E'|]. intros i Ii. split; [now apply (g_attrs _ _ _ _ _ _ G)|]. rewrite (g_kids _ _ _ _ _ _ G i Ii). unfold at_position. rewrite firstn_all, skipn_all, app_nil_r.
    destruct (Nat.eq_dec i t) as [->|NE].
    + pose proof (g_shows _ _ _ _ _ _ G t (or_introl eq_refl)) as S. inversion S as [X|]. rewrite app_nil_r. reflexivity.
    + rewrite (g_none _ _ _ _ _ _ G i), app_nil_r; [reflexivity|]. intros [X|[]]. now apply NE.
Qed.
Print Assumptions C75_attributes_refuted.

(** ** C76 *)
Theorem C76_remove : forall d ts, forest (d_store d) -> selection d ts -> exists d', remove ts d = (d', Ok tt) /\ taken_out d d' ts.
Proof.
  intros d ts F S. destruct (remove_ok ts d F (proj1 S)) as [d' [E [F' [L [M [K [D [X [A P]]]]]]]]]. exists d'. split; [exact E|]. split.
  - exact F'.
  - intros i I. rewrite K, M. split; [|auto]. unfold node_in, exists_node. unfold len in L. rewrite L. exact I.
  - intros i I. unfold node_in, exists_node in *. unfold len in L. rewrite L in I. exact I.
  - intros i _. apply D.
  - intros p _. apply X.
  - intros p _. apply A.
  - intros i _. apply P.
Qed.
Print Assumptions C76_remove.
Example C76_case_remove : selection sample [3; 2; 6; 0] /\ dkids (fst (remove [3; 2; 6; 0] sample)) 1 = [7; 8] /\ dkids (fst (remove [3; 2; 6; 0] sample)) 2 = [5] /\ dattrs (fst (remove [3; 2; 6; 0] sample)) 2 = [4].
Proof. split; [apply sample_selection; [reflexivity|distinct_numbers]|]. vm_compute. auto. Qed.

(** [content] is used for element targets and [value] for the others.  Not for
    processing instructions, and text that becomes empty must not be below an
    element that is updated too. *)
Theorem C76_update_partial : forall d content trees value values ts, forest (d_store d) -> selection d ts -> ts <> [] ->
  (forall t, In t ts -> dkind d t = Some KElement -> content t = Ok (trees t) /\ Forall proper (trees t)) ->
  (forall t, In t ts -> dkind d t <> Some KElement -> value t = Ok (values t)) ->
  (forall t, In t ts -> dkind d t <> Some KPI) ->
  (forall t, In t ts -> dkind d t = Some KText -> values t = [] -> exists p, In t (dkids d p) /\ ~ In p ts) ->
  exists d' put, update content value ts d = (d', Ok tt) /\ updated d d' ts trees values put.
Proof.
  intros d content trees value vs ts F S NE G1 G2 G3 G4.
  destruct (update_loop d content trees value vs ts F S G1 G2 G3 G4 ts [] (fun _ => []) d (proj1 S) (incl_refl _)) as [d' [put [E U]]].
  - intros x _ [].
  - intros x [].
  - assert (forall i, dropped d vs [] i = false) as E1 by reflexivity. split.
    + exact F.
    + reflexivity.
    + intros i I. auto.
    + intros i I. reflexivity.
    + intros i I. reflexivity.
    + intros p I. unfold kids_after. cbn. symmetry. induction (dkids d p) as [|x l IH]; [reflexivity|]. cbn. now f_equal.
    + intros i I. unfold parent_after. cbn. now destruct (dparent d i).
    + intros t [].
  - rewrite app_nil_r in U. exists d', put. split; [unfold update; destruct ts; [contradiction|exact E]|].
    assert (forall i, is_member (rev ts) i = is_member ts i) as RM. { intros i. apply eq_true_iff_eq. rewrite !is_member_in, <- in_rev. reflexivity. }
    assert (forall i, dropped d vs (rev ts) i = emptied d ts vs i) as RD by (intros i; unfold dropped, emptied; now rewrite RM).
    assert (forall i, refill d (rev ts) i = refilled d ts i) as RR by (intros i; unfold refill, refilled; now rewrite RM).
    assert (forall i, changed d vs (rev ts) i = revalued d ts vs i) as RC.
    { intros i. unfold changed, revalued, emptied. rewrite RM. destruct (is_member ts i); [|reflexivity]. cbn [andb]. f_equal. destruct (is_kind d KText i); [|reflexivity]. cbn [andb]. now destruct (vs i). }
    assert (forall t, refilled d ts t = true -> In t (rev ts) /\ dkind d t = Some KElement) as RT.
    { intros t H. unfold refilled in H. apply andb_true_iff in H. destruct H as [H1 H2]. rewrite <- RM in H1. apply is_member_in in H1. apply is_kind_true in H2. auto. }
    split.
    + apply (u_forest _ _ _ _ _ _ U).
    + apply (u_kept _ _ _ _ _ _ U).
    + apply (u_attrs _ _ _ _ _ _ U).
    + intros i I. rewrite (u_data _ _ _ _ _ _ U i I). unfold data_after. now rewrite RC.
    + intros p I. rewrite (u_kids _ _ _ _ _ _ U p I). unfold kids_after. rewrite RR. destruct (refilled d ts p); [reflexivity|]. apply filter_same. intros x _. now rewrite RD.
    + intros t H. destruct (RT t H) as [H1 H2]. pose proof (u_shown _ _ _ _ _ _ U t H1 H2) as Q. eapply Forall2_impl_in; [exact Q|]. intros a b _. apply shown_shows.
    + intros t n H I. destruct (RT t H) as [H1 H2]. pose proof (u_shown _ _ _ _ _ _ U t H1 H2) as Q. destruct (Forall2_in_l _ _ _ _ Q I) as [b [_ SH]]. apply shown_ge in SH. intros X. change (n < len d) in X. lia.
    + intros i I. rewrite (u_par _ _ _ _ _ _ U i I). unfold parent_after. rewrite RD. destruct (emptied d ts vs i); [reflexivity|]. destruct (dparent d i) as [p|]; [|reflexivity]. now rewrite RR.
Qed.
Print Assumptions C76_update_partial.
(** Non-vacuity: an element, an attribute, an emptied text node and a comment. *)
Example C76_case_update : exists d' put, update new_content (fun t => Ok (if t =? 5 then [] else lit "z")) [6; 4; 5; 7] sample = (d', Ok tt) /\
  updated sample d' [6; 4; 5; 7] (fun _ => [new_tree "n"; DT KComment (None, []) [] [] []]) (fun t => if t =? 5 then [] else lit "z") put.
Proof.
  apply C76_update_partial; [exact sample_forest|apply sample_selection; [reflexivity|distinct_numbers]|discriminate| | | |].
  - intros t _ _. split; [reflexivity|apply new_tree_proper].
  - reflexivity.
  - intros t [<-|[<-|[<-|[<-|[]]]]]; vm_compute; discriminate.
  - intros t [<-|[<-|[<-|[<-|[]]]]] K _; vm_compute in K; try discriminate. exists 2. split; [vm_compute; auto|]. cbn. intuition discriminate.
Qed.
Example C76_case_shape : let d' := fst (update new_content (fun t => Ok (if t =? 5 then [] else lit "z")) [6; 4; 5; 7] sample) in
  dkids d' 2 = [6] /\ dkids d' 6 = [10; 13] /\ attributes d' 2 = [(nme "x", lit "1"); (nme "y", lit "z")] /\ ddata d' 7 = lit "z" /\ dparent d' 5 = None.
Proof. vm_compute. repeat split; reflexivity. Qed.

(** False of the code: the table (line 28) has update of processing instructions,
    but they have no [xml_value] to set. *)
Theorem C76_pi_refuted : forall v, snd (update new_content (fun _ => Ok v) [8] sample) = Err AttributeError.
Proof. intros v. destruct v; vm_compute; reflexivity. Qed.
Print Assumptions C76_pi_refuted.
(** Text that becomes empty, below an element that has just been given its new
    content, has no parent any more. *)
Theorem C76_empty_text_refuted : exists d', update new_content (fun _ => Ok []) [2; 5] sample = (d', Err AttributeError) /\ dkids d' 2 = [10; 13].
Proof. eexists. split; [vm_compute; reflexivity|]. vm_compute. reflexivity. Qed.
Print Assumptions C76_empty_text_refuted.

(** ** C77 *)
(** Elements with a parent; text, comments and documents are left alone. *)
Theorem C77_rename_partial : forall d nm ts, forest (d_store d) -> selection d ts -> ts <> [] ->
  (forall t, In t ts -> dkind d t <> Some KAttr /\ dkind d t <> Some KPI) ->
  (forall t, In t ts -> dkind d t = Some KElement -> exists p, In t (dkids d p)) ->
  (forall t, In t ts -> dkind d t = Some KElement -> NoDup (map fst (attributes d t))) ->
  exists d' new, rename (Ok nm) ts d = (d', Ok tt) /\ renamed d d' nm ts new.
Proof. intros d nm ts F S NE H1 H2 H3. now apply rename_ok. Qed.
Print Assumptions C77_rename_partial.
(** Non-vacuity: an element and an element inside it, in either order. *)
Example C77_case : (exists d' new, rename (Ok (nme "r")) [1; 2; 6; 5] sample = (d', Ok tt) /\ renamed sample d' (nme "r") [1; 2; 6; 5] new) /\
  (exists d' new, rename (Ok (nme "r")) [6; 2; 1] sample = (d', Ok tt) /\ renamed sample d' (nme "r") [6; 2; 1] new).
Proof.
  split; apply C77_rename_partial; try exact sample_forest; try discriminate; try (apply sample_selection; [reflexivity|distinct_numbers]).
  - intros t [<-|[<-|[<-|[<-|[]]]]]; vm_compute; split; discriminate.
  - intros t [<-|[<-|[<-|[<-|[]]]]] K; vm_compute in K; try discriminate; [exists 0|exists 1|exists 2]; vm_compute; auto.
  - intros t [<-|[<-|[<-|[<-|[]]]]] K; vm_compute; distinct_numbers.
  - intros t [<-|[<-|[<-|[]]]]; vm_compute; split; discriminate.
  - intros t [<-|[<-|[<-|[]]]] K; vm_compute in K; try discriminate; [exists 2|exists 1|exists 0]; vm_compute; auto.
  - intros t [<-|[<-|[<-|[]]]] K; vm_compute; distinct_numbers.
Qed.
Example C77_case_shape : let d' := fst (rename (Ok (nme "r")) [1; 2] sample) in
  dkids d' 0 = [9] /\ dkids d' 9 = [10; 7; 8] /\ dkids d' 10 = [5; 6] /\ attributes d' 10 = [(nme "x", lit "1"); (nme "y", lit "2")] /\ d_name d' 10 = nme "r".
Proof. vm_compute. repeat split; reflexivity. Qed.

(** Of attributes: the element has the value under the new name afterwards, whether it had
    that name before or not, and everything else as it was.  The attribute of the old
    name is among the rest, see below. *)
Theorem C77_attribute_partial : forall d p t nm, forest (d_store d) -> In t (dattrs d p) ->
  NoDup (map fst (attributes d p)) ->
  exists d', rename (Ok nm) [t] d = (d', Ok tt) /\ forest (d_store d') /\
    NoDup (map fst (attributes d' p)) /\ In (nm, ddata d t) (attributes d' p) /\
    (forall a, fst a <> nm -> (In a (attributes d' p) <-> In a (attributes d p))) /\
    (forall q, node_in d q -> q <> p -> attributes d' q = attributes d q) /\
    (forall q, dkids d' q = dkids d q) /\ kept d d' /\
    (forall q, node_in d q -> dkind d q <> Some KAttr -> ddata d' q = ddata d q).
Proof. intros d p t nm F I ND. now apply rename_attribute_ok. Qed.
Print Assumptions C77_attribute_partial.
Example C77_attribute_case : exists d', rename (Ok (nme "y")) [3] sample = (d', Ok tt) /\
  attributes d' 2 = [(nme "x", lit "1"); (nme "y", lit "1")].
Proof. eexists. split; [vm_compute; reflexivity|]. vm_compute. reflexivity. Qed.

(** False of the code: a renamed attribute keeps its old name too, a processing
    instruction cannot be renamed, and xupdate:if is not implemented. *)
Theorem C77_attribute_refuted : exists d', rename (Ok (nme "r")) [3] sample = (d', Ok tt) /\ attributes d' 2 = [(nme "x", lit "1"); (nme "y", lit "2"); (nme "r", lit "1")].
Proof. eexists. split; [vm_compute; reflexivity|]. vm_compute. reflexivity. Qed.
Print Assumptions C77_attribute_refuted.
Theorem C77_pi_refuted : snd (rename (Ok (nme "r")) [8] sample) = Err NameError.
Proof. vm_compute. reflexivity. Qed.
Print Assumptions C77_pi_refuted.
Theorem C77_if_refuted : forall d rest, apply_updates (CIf :: rest) d = (d, Err NotImplementedError).
Proof. reflexivity. Qed.
Print Assumptions C77_if_refuted.
