(** * Sorting nodes into document order *)
From Coq Require Import NArith ZArith String List Bool Lia Arith Sorted Permutation.
From Verif Require Import PyStr PyErr DomModel DomSpec DomCells DomInv DomOps DomStep DomOrder DomProps XpModel XpSpec XpTree XpAxes XpOrder XpSelect XpProps XpPath XpPathSpec XpPathSteps.
Import ListNotations.
Local Open Scope nat_scope.

Definition upto (s : store) (x y : nat) : Prop := x = y \/ document_order s x y.

Lemma attr_parent s p a : forest s -> In a (attrs_of s p) -> parent_of s a = Some p /\ attribute s a.
Proof. intros F I. apply (f_alink s F) in I. exact I. Qed.
(** An ancestor-or-self of one attribute that is not an attribute is one of its fellows. *)
Lemma fellow_aos s p a b k : forest s -> In a (attrs_of s p) -> In b (attrs_of s p) -> ~ attribute s k -> above_or_self (parent_of s) k a -> above_or_self (parent_of s) k b.
Proof.
  intros F A B NA [->|H].
  - exfalso. apply NA. now apply (attr_parent s p).
  - destruct (attr_parent s p a F A) as [PA _]. destruct (attr_parent s p b F B) as [PB _]. apply (aos_parent _ _ _ PA) in H. right. destruct H as [->|H]; [now apply above_parent|eapply above_up; eauto].
Qed.
Lemma fellow_above s p a b k : forest s -> In a (attrs_of s p) -> In b (attrs_of s p) -> above (parent_of s) k a -> above (parent_of s) k b.
Proof.
  intros F A B H. destruct (fellow_aos s p a b k F A B (above_container s k a F H) (or_intror H)) as [->|X]; [|exact X].
  exfalso. exact (above_container s b a F H (proj2 (attr_parent s p b F B))).
Qed.
Lemma fellow_sym s a b : fellow_attributes s a b -> fellow_attributes s b a.
Proof. intros [N [p [A B]]]. split; [auto|]. eauto. Qed.
Lemma attr_home s p q a : forest s -> In a (attrs_of s p) -> In a (attrs_of s q) -> p = q.
Proof. intros F A B. apply (attr_parent s p a F) in A. apply (attr_parent s q a F) in B. destruct A, B. congruence. Qed.

Lemma before_fellow s a b c : forest s -> before s a b -> fellow_attributes s b c -> upto s a c.
Proof.
  intros F H [N [p [B C]]]. destruct (Nat.eq_dec a c) as [->|NA]; [left; reflexivity|]. right. destruct H as [X|q x y l1 l2 l3 K X Y|q y I1 I2 Y|q l1 l2 l3 K].
  - left. apply before_above. exact (fellow_above s p b c a F B C X).
  - left. apply (before_kids s a c q x y l1 l2 l3 K X). eapply (fellow_aos s p b c y F B C); [|exact Y]. apply (kid_nonattr s q y F). rewrite K. apply in_or_app. right. right. apply in_or_app. right. now left.
  - left. apply (before_attr s a c q y I1 I2). eapply (fellow_aos s p b c y F B C); [|exact Y]. exact (kid_nonattr s q y F I2).
  - right. split; [exact NA|]. assert (In b (attrs_of s q)) as BQ by (rewrite K; apply in_or_app; right; right; apply in_or_app; right; now left).
    rewrite (attr_home s p q b F B BQ) in *. exists q. split; [rewrite K; apply in_or_app; right; now left|exact C].
Qed.
Lemma fellow_before_trans s a b c : forest s -> fellow_attributes s a b -> before s b c -> upto s a c.
Proof.
  intros F [N [p [A B]]] H. destruct (Nat.eq_dec a c) as [->|NA]; [left; reflexivity|]. right. destruct H as [X|q x y l1 l2 l3 K X Y|q y I1 I2 Y|q l1 l2 l3 K].
  - exfalso. exact (above_container s b c F X (proj2 (attr_parent s p b F B))).
  - left. apply (before_kids s a c q x y l1 l2 l3 K); [|exact Y]. eapply (fellow_aos s p b a x F B A); [|exact X]. apply (kid_nonattr s q x F). rewrite K. apply in_or_app. right. now left.
  - left. apply (before_attr s a c q y); [|exact I2|exact Y]. now rewrite <- (attr_home s p q b F B I1).
  - right. split; [exact NA|]. assert (In b (attrs_of s q)) as BQ by (rewrite K; apply in_or_app; right; now left).
    rewrite (attr_home s p q b F B BQ) in *. exists q. split; [exact A|]. rewrite K. apply in_or_app. right. right. apply in_or_app. right. now left.
Qed.
Lemma upto_trans s a b c : forest s -> upto s a b -> upto s b c -> upto s a c.
Proof.
  intros F [->|[H1|H1]] H2; [exact H2| |].
  - destruct H2 as [<-|[H2|H2]]; [right; now left| |eapply before_fellow; eauto]. right. left. destruct (C20_order_is_total s F) as [_ [TR _]]. eapply TR; eauto.
  - destruct H2 as [<-|[H2|H2]]; [right; now right|eapply fellow_before_trans; eauto|].
    destruct (Nat.eq_dec a c) as [->|NE]; [left; reflexivity|]. right. right. split; [exact NE|]. destruct H1 as [_ [p [A B]]], H2 as [_ [q [B' C]]].
    rewrite (attr_home s p q b F B B') in *. eauto.
Qed.

Lemma node_lt_upto s x y : forest s -> exists_node s x -> exists_node s y -> same_tree s x y -> if node_lt s x y then upto s x y else upto s y x.
Proof.
  intros F EX EY T. destruct (Nat.eq_dec x y) as [->|N]; [destruct (node_lt s y y); left; reflexivity|].
  unfold node_lt. destruct (compare_spec s x y F EX EY T N) as [u [v [-> [M1 [M2 M3]]]]]. destruct (Z.ltb_spec u v) as [L|L].
  - right. left. auto.
  - destruct (Z.eq_dec u v) as [E|E]; [right; right; apply fellow_sym; auto|right; left; apply M2; lia].
Qed.

Lemma insert_in s x l y : In y (insert_node s x l) <-> y = x \/ In y l.
Proof. induction l as [|z l IH]; cbn; [intuition|]. destruct (node_lt s x z); cbn; [intuition|]. rewrite IH. intuition. Qed.
Lemma insert_perm s x l : Permutation (x :: l) (insert_node s x l).
Proof. induction l as [|z l IH]; cbn; [apply Permutation_refl|]. destruct (node_lt s x z); [apply Permutation_refl|]. eapply perm_trans; [apply perm_swap|]. now constructor. Qed.
Lemma sort_perm s l : Permutation l (py_sort s l).
Proof.
  unfold py_sort. assert (forall acc, Permutation (l ++ acc) (fold_left (fun acc x => insert_node s x acc) l acc)) as H.
  { induction l as [|x l IH]; intros acc; cbn [fold_left]; [apply Permutation_refl|]. eapply perm_trans; [|apply IH]. eapply perm_trans; [|apply Permutation_app_head; apply insert_perm].
    cbn. apply Permutation_middle. }
  specialize (H []). now rewrite app_nil_r in H.
Qed.
Lemma sort_in s l x : In x (py_sort s l) <-> In x l.
Proof. split; apply Permutation_in; [apply Permutation_sym|]; apply sort_perm. Qed.

(** Nodes of one tree. *)
Definition one_tree (s : store) (l : list nat) : Prop := (forall x, In x l -> exists_node s x) /\ (forall x y, In x l -> In y l -> same_tree s x y).
Lemma insert_sorted s x l : forest s -> one_tree s (x :: l) -> StronglySorted (upto s) l -> StronglySorted (upto s) (insert_node s x l).
Proof.
  intros F. induction l as [|y l IH]; intros [E T] SS; cbn [insert_node]; [constructor; [constructor|constructor]|].
  inversion SS as [|? ? SS' FA]; subst. pose proof (node_lt_upto s x y F (E x ltac:(now left)) (E y ltac:(right; now left)) (T x y ltac:(now left) ltac:(right; now left))) as C.
  destruct (node_lt s x y).
  - constructor; [exact SS|]. constructor; [exact C|]. rewrite Forall_forall in *. intros z Z. eapply upto_trans; [exact F|exact C|auto].
  - constructor; [apply IH; [|exact SS']; split; [intros z [<-|Z]; apply E; cbn; auto|intros z w [<-|Z] [<-|W]; apply T; cbn; auto]|].
    rewrite Forall_forall in *. intros z Z. apply insert_in in Z. destruct Z as [->|Z]; [exact C|auto].
Qed.
Lemma sort_sorted s l : forest s -> one_tree s l -> StronglySorted (upto s) (py_sort s l).
Proof.
  intros F O. unfold py_sort. assert (forall l acc, one_tree s (l ++ acc) -> StronglySorted (upto s) acc -> StronglySorted (upto s) (fold_left (fun acc x => insert_node s x acc) l acc)) as H.
  { clear l O. induction l as [|x l IH]; intros acc [E T] SS; cbn [fold_left]; [exact SS|]. apply IH.
    - assert (forall z, In z (l ++ insert_node s x acc) -> In z ((x :: l) ++ acc)) as I.
      { intros z Z. apply in_app_or in Z. cbn. rewrite in_app_iff. destruct Z as [Z|Z]; [auto|]. apply insert_in in Z. destruct Z as [->|Z]; auto. }
      split; auto.
    - apply insert_sorted; [exact F| |exact SS]. split; [intros z Z|intros z w Z W]; [apply E|apply T]; cbn in *; rewrite in_app_iff; intuition. }
  apply H; [now rewrite app_nil_r|constructor].
Qed.
Lemma upto_strict s l : NoDup l -> StronglySorted (upto s) l -> StronglySorted (document_order s) l.
Proof.
  intros ND SS. induction SS as [|x l SS IH FA]; [constructor|]. inversion ND; subst. constructor; [auto|]. rewrite Forall_forall in *. intros y Y. destruct (FA y Y) as [->|D]; [contradiction|exact D].
Qed.
