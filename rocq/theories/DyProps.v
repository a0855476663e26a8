(** * Properties C125 and C126: dyn:closure, dyn:map and dyn:sum *)
From Coq Require Import NArith ZArith List Bool Lia Permutation.
From Verif Require Import DyModel DySpec.
Import ListNotations.

Lemma insert_in : forall x l y, In y (insert x l) <-> y = x \/ In y l.
Proof.
  intros x l. induction l as [|z l IH]; intro y; cbn [insert].
  - cbn. intuition congruence.
  - destruct (N.ltb_spec x z) as [E|E]; [cbn [In]; intuition congruence|]. destruct (N.eqb_spec x z) as [E2|E2].
    + subst z. cbn [In]. intuition congruence.
    + cbn [In]. rewrite IH. intuition congruence.
Qed.
Lemma insert_ordered : forall x l, ordered l -> ordered (insert x l).
Proof.
  intros x l H. induction H as [|z l Hz Hl IH]; cbn [insert].
  - constructor; constructor.
  - destruct (N.ltb_spec x z) as [E|E].
    + constructor; [|constructor; assumption]. constructor; [exact E|]. rewrite Forall_forall in *. intros y Hy. specialize (Hz y Hy). lia.
    + destruct (N.eqb_spec x z) as [E2|E2]; [constructor; assumption|]. constructor; [|exact IH].
      rewrite Forall_forall in *. intros y Hy. apply insert_in in Hy. destruct Hy as [Hy|Hy]; [subst y; lia|apply Hz; exact Hy].
Qed.
Lemma update_in : forall obj set y, In y (update set obj) <-> In y obj \/ In y set.
Proof.
  intros obj set y. unfold update. induction obj as [|x obj IH]; cbn [fold_right].
  - cbn. tauto.
  - rewrite insert_in, IH. cbn [In]. intuition congruence.
Qed.
Lemma update_ordered : forall obj set, ordered set -> ordered (update set obj).
Proof. intros obj set H. unfold update. induction obj as [|x obj IH]; cbn [fold_right]; [exact H|apply insert_ordered; exact IH]. Qed.
Lemma loop_in : forall expr size nodes p r y, In y (map_loop expr size p nodes r) <->
  In y r \/ exists i x, nth_error nodes i = Some x /\ In y (expr (p + N.of_nat i)%N size x).
Proof.
  intros expr size nodes. induction nodes as [|x nodes IH]; intros p r y; cbn [map_loop].
  - split; [intro H; left; exact H|]. intros [H|(i & x & H & _)]; [exact H|]. destruct i; discriminate H.
  - rewrite IH, update_in. split.
    + intros [[H|H]|(i & z & H1 & H2)].
      * right. exists 0%nat, x. split; [reflexivity|]. rewrite N.add_0_r. exact H.
      * left. exact H.
      * right. exists (S i), z. split; [exact H1|]. replace (p + N.of_nat (S i))%N with (p + 1 + N.of_nat i)%N by lia. exact H2.
    + intros [H|(i & z & H1 & H2)]; [left; right; exact H|]. destruct i as [|i]; cbn [nth_error] in H1.
      * injection H1 as H1. subst z. left. left. rewrite N.add_0_r in H2. exact H2.
      * right. exists i, z. split; [exact H1|]. replace (p + 1 + N.of_nat i)%N with (p + N.of_nat (S i))%N by lia. exact H2.
Qed.
Lemma loop_ordered : forall expr size nodes p r, ordered r -> ordered (map_loop expr size p nodes r).
Proof. intros expr size nodes. induction nodes as [|x nodes IH]; intros p r H; cbn [map_loop]; [exact H|]. apply IH. apply update_ordered. exact H. Qed.
(** C126: dyn:map gives what the expression gives for one of the nodes, evaluated with the position of the node and the number of nodes; each once, in document order. *)
Theorem C126_map : forall expr nodes, ordered (map_ expr nodes) /\
  forall y, In y (map_ expr nodes) <-> exists i x, nth_error nodes i = Some x /\ In y (expr (N.of_nat i + 1)%N (N.of_nat (length nodes)) x).
Proof.
  intros expr nodes. split; [apply loop_ordered; constructor|]. intro y. unfold map_. rewrite loop_in. split.
  - intros [[]|(i & x & H1 & H2)]. exists i, x. split; [exact H1|]. rewrite N.add_comm. exact H2.
  - intros (i & x & H1 & H2). right. exists i, x. split; [exact H1|]. rewrite N.add_comm. exact H2.
Qed.
Print Assumptions C126_map.

(** ** Closures, for expressions that do not use position() and last() *)
Definition of (f : N -> list N) (p s x : N) : list N := f x.
Lemma map_of : forall f S y, In y (map_ (of f) S) <-> exists x, In x S /\ In y (f x).
Proof.
  intros f S y. rewrite (proj2 (C126_map (of f) S) y). split.
  - intros (i & x & H1 & H2). exists x. split; [apply nth_error_In in H1; exact H1|exact H2].
  - intros (x & H1 & H2). apply In_nth_error in H1. destruct H1 as [i H1]. exists i, x. split; assumption.
Qed.
Lemma reach_step : forall f S x, reach f S x <-> In x (map_ (of f) S) \/ reach f (map_ (of f) S) x.
Proof.
  intros f S x. split; intro H.
  - induction H as [y x Hy Hx|y x Hy IH Hx].
    + left. apply map_of. exists y. split; assumption.
    + right. destruct IH as [K|K]; [apply reach_one with (y := y); assumption|apply reach_more with (y := y); assumption].
  - assert (M : forall y, In y (map_ (of f) S) -> reach f S y). { intros y Hy. apply map_of in Hy. destruct Hy as (z & H1 & H2). apply reach_one with (y := z); assumption. }
    destruct H as [H|H]; [apply M; exact H|]. induction H as [y x Hy Hx|y x Hy IH Hx]; [apply reach_more with (y := y); [apply M; exact Hy|exact Hx]|apply reach_more with (y := y); assumption].
Qed.
Lemma reach_nil : forall f x, ~ reach f [] x.
Proof. intros f x H. induction H as [y x Hy|y x _ IH _]; [exact Hy|exact IH]. Qed.
Lemma closure_in : forall f n S r0 r, closure_loop (of f) n S r0 = Some r -> forall x, In x r <-> In x r0 \/ reach f S x.
Proof.
  intros f n. induction n as [|n IH]; intros S r0 r H x; destruct S as [|z S]; cbn [closure_loop] in H.
  - injection H as H. subst r. split; [intro K; left; exact K|]. intros [K|K]; [exact K|]. exfalso. exact (reach_nil f x K).
  - discriminate H.
  - injection H as H. subst r. split; [intro K; left; exact K|]. intros [K|K]; [exact K|]. exfalso. exact (reach_nil f x K).
  - rewrite (IH _ _ _ H x), in_app_iff, (reach_step f (z :: S) x). tauto.
Qed.
(** C125: if dyn:closure returns, the nodes in the result are those that are reached in one step or more. *)
Theorem C125_reached_partial : forall f n S r, closure (of f) n S = Some r -> forall x, In x r <-> reach f S x.
Proof. intros f n S r H x. rewrite (closure_in f n S [] r H x). cbn [In]. tauto. Qed.
Print Assumptions C125_reached_partial.
(** C125: it returns if there is a bound on the length of all ways from each node. *)
Lemma closure_ends : forall f rank n S r0, (forall x y, In x S \/ reach f S x -> In y (f x) -> (rank y < rank x)%nat) -> (forall x, In x S -> (rank x < n)%nat) ->
  exists r, closure_loop (of f) n S r0 = Some r.
Proof.
  intros f rank n. induction n as [|n IH]; intros S r0 Hr Hn; destruct S as [|z S]; cbn [closure_loop]; try (exists r0; reflexivity).
  - exfalso. specialize (Hn z (or_introl eq_refl)). lia.
  - apply IH.
    + intros x y Hx Hy. apply Hr; [|exact Hy]. right. apply reach_step. exact Hx.
    + intros x Hx. apply map_of in Hx. destruct Hx as (y & H1 & H2). specialize (Hr y x (or_introl H1) H2). specialize (Hn y H1). lia.
Qed.
Theorem C125_returns_partial : forall f rank n S, (forall x y, In x S \/ reach f S x -> In y (f x) -> (rank y < rank x)%nat) -> (forall x, In x S -> (rank x < n)%nat) ->
  exists r, closure (of f) n S = Some r.
Proof. intros f rank n S H1 H2. exact (closure_ends f rank n S [] H1 H2). Qed.
Print Assumptions C125_returns_partial.
(** C125 is false where a node reaches itself: dyn:closure never returns. *)
Definition leads (f : N -> list N) (y c : N) : Prop := y = c \/ reach f [y] c.
Lemma leads_next : forall f y c, reach f [y] c -> exists z, In z (f y) /\ leads f z c.
Proof.
  intros f y c H. induction H as [w x Hw Hx|w x Hw IH Hx].
  - destruct Hw as [Hw|[]]. subst w. exists x. split; [exact Hx|left; reflexivity].
  - destruct IH as (z & Hz & [E|K]); exists z; (split; [exact Hz|right]).
    + subst z. apply reach_one with (y := w); [left; reflexivity|exact Hx].
    + apply reach_more with (y := w); assumption.
Qed.
Lemma never : forall f c, reach f [c] c -> forall n S r0, (exists y, In y S /\ leads f y c) -> closure_loop (of f) n S r0 = None.
Proof.
  intros f c Hc n. induction n as [|n IH]; intros S r0 (y & Hy & Hl); (destruct S as [|z S]; [destruct Hy|]); cbn [closure_loop]; [reflexivity|].
  apply IH. assert (K : reach f [y] c) by (destruct Hl as [E|K]; [subst y; exact Hc|exact K]).
  apply leads_next in K. destruct K as (w & Hw & L). exists w. split; [|exact L]. apply map_of. exists y. split; [exact Hy|exact Hw].
Qed.
Theorem C125_cycle_refuted : forall f S c, In c S \/ reach f S c -> reach f [c] c -> forall n, closure (of f) n S = None.
Proof.
  intros f S c H Hc n. apply (never f c Hc). destruct H as [H|H]; [exists c; split; [exact H|left; reflexivity]|].
  clear Hc. induction H as [y x Hy Hx|y x Hy IH Hx].
  - exists y. split; [exact Hy|]. right. apply reach_one with (y := y); [left; reflexivity|exact Hx].
  - destruct IH as (z & Hz & [E|K]); exists z; (split; [exact Hz|right]).
    + subst z. apply reach_one with (y := y); [left; reflexivity|exact Hx].
    + apply reach_more with (y := y); assumption.
Qed.
Print Assumptions C125_cycle_refuted.
(** children: 1 has 2 and 3, 2 has 4 and 3 has 5 *)
Definition kids (x : N) : list N := match x with 1 => [2; 3] | 2 => [4] | 3 => [5] | _ => [] end%N.
Example C125_case : closure (of kids) 4 [1%N] = Some [2; 3; 4; 5]%N /\ closure (of kids) 2 [1%N] = None /\
  (exists rank : N -> nat, (forall x y, In y (kids x) -> (rank y < rank x)%nat) /\ (rank 1%N < 4)%nat) /\ reach (of kids 0 0) [1%N] 5%N.
Proof.
  split; [vm_compute; reflexivity|]. split; [vm_compute; reflexivity|]. split.
  - exists (fun x => match x with 1%N => 2 | 2%N | 3%N => 1 | _ => 0 end)%nat. split; [|lia].
    intros x y H. unfold kids in H. destruct x as [|[[p|p|]|[p|p|]|]]; cbn in H; repeat (destruct H as [H|H]; [subst y; lia|]); try (destruct H);
      destruct p; cbn in H; repeat (destruct H as [H|H]; [subst y; lia|]); destruct H.
  - apply reach_more with (y := 3%N); [|cbn; tauto]. apply reach_one with (y := 1%N); cbn; tauto.
Qed.
(** the node itself *)
Example C125_self : forall n, closure (of (fun x => [x])) n [7%N] = None.
Proof. intro n. apply (C125_cycle_refuted _ _ 7%N); [left; left; reflexivity|]. apply reach_one with (y := 7%N); left; reflexivity. Qed.
(** C125 is false: a node that is reached in one step and in two is twice in the result, which is not in document order. *)
Theorem C125_once_refuted : ~ (forall f n S r, closure (of f) n S = Some r -> ordered r).
Proof.
  intro H. specialize (H (fun x => match x with 1 => [2; 3] | 2 => [3] | _ => [] end)%N 4%nat [1%N] [2; 3; 3]%N ltac:(vm_compute; reflexivity)).
  inversion H as [|? ? _ H1]; subst. inversion H1 as [|? ? H2 _]; subst. inversion H2 as [|? ? H3 _]; subst. lia.
Qed.
Print Assumptions C125_once_refuted.

(** ** Sums *)
Lemma fold_total : forall number l a, fold_left Z.add (map number l) a = (a + total number l)%Z.
Proof. intros number l. induction l as [|x l IH]; intro a; cbn [map fold_left total]; [lia|]. rewrite IH. lia. Qed.
Lemma total_perm : forall number l l', Permutation l l' -> total number l = total number l'.
Proof. intros number l l' H. induction H; cbn [total]; lia. Qed.
Lemma ordered_nodup : forall l, ordered l -> NoDup l.
Proof.
  intros l H. induction H as [|x l Hx Hl IH]; constructor; [|exact IH]. intro K. rewrite Forall_forall in Hx. specialize (Hx x K). lia.
Qed.
Lemma total_map : forall number (g : N -> N) l, total number (map g l) = total (fun x => number (g x)) l.
Proof. intros number g l. induction l as [|x l IH]; cbn [map total]; [reflexivity|]. rewrite IH. reflexivity. Qed.
(** C126: dyn:sum is the sum over the nodes, if the expression gives a different node for each. *)
Theorem C126_sum_partial : forall g number nodes, NoDup (map g nodes) ->
  sum_ (of (fun x => [g x])) number nodes = total (fun x => number (g x)) nodes.
Proof.
  intros g number nodes H. unfold sum_. rewrite fold_total, Z.add_0_l, <- (total_map number g nodes). apply total_perm. apply NoDup_Permutation.
  - apply ordered_nodup. apply C126_map.
  - exact H.
  - intro y. rewrite map_of, in_map_iff. split.
    + intros (x & H1 & [E|[]]). exists x. split; assumption.
    + intros (x & E & H1). exists x. split; [exact H1|left; exact E].
Qed.
Print Assumptions C126_sum_partial.
Example C126_case : NoDup (map (fun x => x + 10)%N [1; 2; 3]%N) /\ sum_ (of (fun x => [x + 10]%N)) Z.of_N [1; 2; 3]%N = 36%Z /\
  map_ (fun p s x => [10 * x; p + s]%N) [1; 2; 3]%N = [4; 5; 6; 10; 20; 30]%N.
Proof.
  split; [|split; vm_compute; reflexivity]. repeat constructor; cbn; intuition discriminate.
Qed.
(** C126 is false otherwise: for two nodes for which the expression gives the same node, its number is counted once. *)
Theorem C126_sum_refuted : ~ (forall g number nodes, NoDup nodes -> sum_ (of (fun x => [g x])) number nodes = total (fun x => number (g x)) nodes).
Proof.
  intro H. specialize (H (fun _ => 9%N) (fun _ => 5%Z) [1; 2]%N). assert (N : NoDup [1; 2]%N) by (repeat constructor; cbn; intuition discriminate).
  specialize (H N). vm_compute in H. discriminate H.
Qed.
Print Assumptions C126_sum_refuted.
