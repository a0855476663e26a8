(** * Proofs about the axes: the nodes and their order *)
From Coq Require Import NArith ZArith String List Bool Lia Arith Sorted.
From Verif Require Import PyStr PyErr DomModel DomSpec DomCells DomInv DomOps DomStep DomOrder XpModel XpSpec XpTree XpAxes.
Import ListNotations.
Local Open Scope nat_scope.

(** [x] lies under a sibling after (before) an ancestor-or-self of [n]. *)
Definition right_of (s : store) (n x : nat) : Prop :=
  exists p a y l1 l2 l3, kids s p = l1 ++ a :: l2 ++ y :: l3 /\ above_or_self (parent_of s) a n /\ above_or_self (parent_of s) y x.
Lemma right_before s n x : right_of s n x -> before s n x.
Proof. intros [p [a [y [l1 [l2 [l3 [K [A B]]]]]]]]. eapply before_kids; eauto. Qed.
Lemma right_below s n n' x x' : right_of s n x -> above_or_self (parent_of s) n n' -> above_or_self (parent_of s) x x' -> right_of s n' x'.
Proof.
  intros [p [a [y [l1 [l2 [l3 [K [A B]]]]]]]] H1 H2. exists p, a, y, l1, l2, l3. split; [exact K|]. split; eapply aos_trans; eauto.
Qed.
Lemma right_not_above s n x : forest s -> right_of s n x -> ~ above_or_self (parent_of s) n x /\ ~ above_or_self (parent_of s) x n.
Proof.
  intros F H. split; intros A.
  - apply (before_irrefl s x F). apply right_before. eapply right_below; [exact H|exact A|left; reflexivity].
  - apply (before_irrefl s n F). apply right_before. eapply right_below; [exact H|left; reflexivity|exact A].
Qed.
Lemma following_right s n x : forest s -> ~ attribute s n -> ~ attribute s x -> (before s n x /\ ~ above (parent_of s) n x <-> right_of s n x).
Proof.
  intros F N NX. split.
  - intros [[A|p a y l1 l2 l3 K A B|p y I _ _|p l1 l2 l3 E] NA]; [contradiction| | |].
    + exists p, a, y, l1, l2, l3. auto.
    + exfalso. apply N. now apply (f_alink s F p n).
    + exfalso. apply N. apply (f_alink s F p n). rewrite E. apply in_or_app. right. now left.
  - intros H. split; [now apply right_before|]. destruct (right_not_above s n x F H) as [X _]. intros A. apply X. now right.
Qed.
Lemma preceding_right s n x : forest s -> ~ attribute s x -> (before s x n /\ ~ above (parent_of s) x n <-> right_of s x n).
Proof.
  intros F NX. split.
  - intros [[A|p a y l1 l2 l3 K A B|p y I _ _|p l1 l2 l3 E] NA]; [contradiction| | |].
    + exists p, a, y, l1, l2, l3. auto.
    + exfalso. apply NX. now apply (f_alink s F p x).
    + exfalso. apply NX. apply (f_alink s F p x). rewrite E. apply in_or_app. right. now left.
  - intros H. split; [now apply right_before|]. destruct (right_not_above s x n F H) as [X _]. intros A. apply X. now right.
Qed.

Lemma split_after (l : list nat) i n y : NoDup l -> nth_error l i = Some n -> (In y (skipn (S i) l) <-> exists l1 l2 l3, l = l1 ++ n :: l2 ++ y :: l3).
Proof.
  intros D N. split.
  - intros I. pose proof (nth_error_split l i N) as [l1 [l' [E <-]]]. subst l. rewrite skipn_app in I. replace (S (length l1) - length l1) with 1 in I by lia. rewrite skipn_all2 in I by lia. cbn in I.
    apply in_split in I. destruct I as [l2 [l3 ->]]. eauto.
  - intros [l1 [l2 [l3 E]]]. assert (i = length l1) as ->.
    { eapply nodup_nth; [exact D|exact N|]. rewrite E. rewrite nth_error_app2 by lia. now rewrite Nat.sub_diag. }
    rewrite E, skipn_app. replace (S (length l1) - length l1) with 1 by lia. rewrite skipn_all2 by lia. cbn. apply in_or_app. right. now left.
Qed.
Lemma split_before (l : list nat) i n y : NoDup l -> nth_error l i = Some n -> (In y (firstn i l) <-> exists l1 l2 l3, l = l1 ++ y :: l2 ++ n :: l3).
Proof.
  intros D N. split.
  - intros I. pose proof (nth_error_split l i N) as [l1 [l' [E <-]]]. subst l. rewrite firstn_app, Nat.sub_diag, firstn_all in I. cbn in I. rewrite app_nil_r in I.
    apply in_split in I. destruct I as [u [v ->]]. exists u, v, l'. now rewrite <- app_assoc.
  - intros [l1 [l2 [l3 E]]]. assert (i = length (l1 ++ y :: l2)) as ->.
    { eapply nodup_nth; [exact D|exact N|]. rewrite E. replace (l1 ++ y :: l2 ++ n :: l3) with ((l1 ++ y :: l2) ++ n :: l3) by now rewrite <- app_assoc. rewrite nth_error_app2 by lia. now rewrite Nat.sub_diag. }
    replace l with ((l1 ++ y :: l2) ++ n :: l3) by (rewrite E; now rewrite <- app_assoc). rewrite firstn_app, Nat.sub_diag, firstn_all. cbn. rewrite app_nil_r. apply in_or_app. right. now left.
Qed.

Lemma kid_index s p n : forest s -> parent_of s n = Some p -> ~ attribute s n -> exists i, nth_error (kids s p) i = Some n.
Proof. intros F P N. apply In_nth_error. apply (f_link s F). split; [exact P|exact N]. Qed.
Lemma kids_trees s p : forest s -> exists_node s p -> exists ts, kids s p = map root ts /\ Forall (rep s) ts /\ rep s (T p ts).
Proof. intros F E. destruct (subtree s p F E) as [ts R]. exists ts. inversion R; subst. auto. Qed.
Lemma parent_exists s n p : forest s -> parent_of s n = Some p -> exists_node s p.
Proof. intros F P. destruct (f_parent s F p n P) as [k [K _]]. eapply kind_exists; eauto. Qed.
Lemma parent_nonattr s n p : forest s -> parent_of s n = Some p -> ~ attribute s p.
Proof. intros F P. eapply above_container; [exact F|apply above_parent; exact P]. Qed.

(** The nodes below some of the children of a node. *)
Lemma some_pre s p ts sub : forest s -> kids s p = map root ts -> Forall (rep s) ts -> (forall t, In t sub -> In t ts) ->
  forall x, In x (flat_map pre sub) <-> (exists y, In y (map root sub) /\ above_or_self (parent_of s) y x) /\ ~ attribute s x.
Proof.
  intros F K R S x. rewrite in_flat_map. rewrite Forall_forall in R. split.
  - intros [t [It Ix]]. pose proof (R t (S t It)) as Rt. pose proof (pre_aos s t x F Rt Ix) as A. split; [exists (root t); split; [now apply in_map|exact A]|].
    apply (pre_in s F t Rt) in Ix. destruct Ix as [->|[_ NA]]; [|exact NA]. apply (kid_nonattr s p); [exact F|]. rewrite K. apply in_map. auto.
  - intros [[y [Y A]] NA]. apply in_map_iff in Y. destruct Y as [t [<- It]]. exists t. split; [exact It|]. apply (pre_in s F t (R t (S t It))). destruct A as [->|A]; [now left|right; auto].
Qed.
Lemma flat_sorted s p ts sub l1 l2 : forest s -> kids s p = map root ts -> Forall (rep s) ts -> ts = l1 ++ sub ++ l2 -> StronglySorted (before s) (flat_map pre sub).
Proof.
  intros F K R E. assert (Forall (rep s) sub) as RS by (rewrite E in R; apply Forall_app in R; destruct R as [_ R]; apply Forall_app in R; tauto).
  apply (pres_sorted s F p (map root l1) sub (map root l2)); [rewrite K, E; now rewrite !map_app|exact RS|].
  rewrite Forall_forall in *. intros t It. apply pre_sorted; auto.
Qed.

Lemma following_from_ok s : forest s -> forall fuel n r d, exists_node s n -> ~ attribute s n -> top fuel s n = Some (r, d) ->
  exists l, following_from fuel s (Some n) = Ok l /\ (forall x, In x l <-> right_of s n x /\ ~ attribute s x) /\ StronglySorted (before s) l.
Proof.
  intros F. induction fuel as [|f IH]; intros n r d En Nn H; [discriminate|]. cbn [top] in H. cbn [following_from].
  destruct (parent_of s n) as [p|] eqn:P.
  - destruct (top f s p) as [[r' d']|] eqn:TP; [|discriminate]. destruct (IH p r' d' (parent_exists s n p F P) (parent_nonattr s n p F P) TP) as [l [E [M SS]]].
    destruct (kid_index s p n F P Nn) as [i N]. destruct (kids_trees s p F (parent_exists s n p F P)) as [ts [K [R _]]].
    rewrite (following_ok s p i n F N). cbn [bind].
    assert (i < length ts) as Li by (rewrite <- (map_length root ts), <- K; apply nth_error_Some; congruence).
    rewrite (following_loop_ok s p ts F K R (length ts - S i)); [|lia|].
    2:{ pose proof (kids_short s p F) as X. rewrite K, map_length in X. unfold bound. lia. }
    cbn [bind]. rewrite E. cbn [bind]. eexists. split; [reflexivity|].
    assert (forall x, In x (flat_map pre (skipn (S i) ts)) <-> (exists y, In y (skipn (S i) (kids s p)) /\ above_or_self (parent_of s) y x) /\ ~ attribute s x) as MP.
    { intros x. rewrite (some_pre s p ts); [|exact F|exact K|exact R|intros t It; rewrite <- (firstn_skipn (S i) ts); apply in_or_app; now right].
      rewrite K, skipn_map. reflexivity. }
    split.
    + intros x. rewrite in_app_iff, MP, M. split.
      * intros [[[y [Y A]] NA]|[X NA]]; (split; [|exact NA]).
        -- apply (split_after _ _ _ _ (f_nodup s F p) N) in Y. destruct Y as [l1 [l2 [l3 Y]]]. exists p, n, y, l1, l2, l3. split; [exact Y|]. split; [left; reflexivity|exact A].
        -- eapply right_below; [exact X|right; now apply above_parent|left; reflexivity].
      * intros [[q [a [y [l1 [l2 [l3 [KQ [A B]]]]]]]] NA]. destruct A as [->|A].
        -- left. split; [|exact NA]. exists y. split; [|exact B].
           assert (In n (kids s q)) as I by (rewrite KQ; apply in_or_app; right; now left). apply (kid_parent s q n F) in I. rewrite P in I. injection I as <-.
           apply (split_after _ _ _ _ (f_nodup s F p) N). eauto.
        -- right. split; [|exact NA]. exists q, a, y, l1, l2, l3. split; [exact KQ|]. split; [|exact B]. exact (aos_parent (parent_of s) p n P a A).
    + apply ss_app; [|exact SS|].
      * apply (flat_sorted s p ts _ (firstn (S i) ts) []); [exact F|exact K|exact R|now rewrite app_nil_r, firstn_skipn].
      * intros x z X Z. apply MP in X. destruct X as [[y [Y A]] _]. apply M in Z. destruct Z as [Z _]. apply right_before. eapply right_below; [exact Z| |left; reflexivity].
        assert (In y (kids s p)) as IY by (rewrite <- (firstn_skipn (S i) (kids s p)); apply in_or_app; now right).
        right. eapply above_aos; [apply above_parent; apply (kid_parent s p y F IY)|exact A].
  - unfold get_following_sibling. rewrite P. cbn [bind]. assert (following_loop (bound s) s None = Ok []) as -> by reflexivity. cbn [bind].
    assert (following_from f s None = Ok []) as -> by (destruct f; reflexivity). cbn. exists []. split; [reflexivity|]. split; [|constructor].
    intros x. split; [intros []|]. intros [[q [a [y [l1 [l2 [l3 [KQ [A B]]]]]]]] _]. exfalso.
    assert (parent_of s a = Some q) as PA by (apply (kid_parent s q a F); rewrite KQ; apply in_or_app; right; now left).
    destruct A as [->|A]; [congruence|]. inversion A; congruence.
Qed.

Lemma preceding_from_ok s : forest s -> forall fuel n r d, exists_node s n -> ~ attribute s n -> top fuel s n = Some (r, d) ->
  exists l, preceding_from fuel s (Some n) = Ok l /\ (forall x, In x l <-> right_of s x n /\ ~ attribute s x) /\ StronglySorted (fun x y => before s y x) l.
Proof.
  intros F. induction fuel as [|f IH]; intros n r d En Nn H; [discriminate|]. cbn [top] in H. cbn [preceding_from].
  destruct (parent_of s n) as [p|] eqn:P.
  - destruct (top f s p) as [[r' d']|] eqn:TP; [|discriminate]. destruct (IH p r' d' (parent_exists s n p F P) (parent_nonattr s n p F P) TP) as [l [E [M SS]]].
    destruct (kid_index s p n F P Nn) as [i N]. destruct (kids_trees s p F (parent_exists s n p F P)) as [ts [K [R RP]]].
    rewrite (preceding_ok s p i n F N). cbn [bind].
    assert (i < length ts) as Li by (rewrite <- (map_length root ts), <- K; apply nth_error_Some; congruence).
    rewrite (preceding_gen_ok s F (bound s) p ts i K R); [|lia|].
    2:{ pose proof (pre_length s (T p ts) F RP (parent_exists s n p F P)) as X. cbn in X. rewrite <- (firstn_skipn i ts), flat_map_app, app_length in X. unfold bound. lia. }
    cbn [bind]. rewrite E. cbn [bind]. eexists. split; [reflexivity|].
    assert (forall x, In x (flat_map pre (firstn i ts)) <-> (exists y, In y (firstn i (kids s p)) /\ above_or_self (parent_of s) y x) /\ ~ attribute s x) as MP.
    { intros x. rewrite (some_pre s p ts); [|exact F|exact K|exact R|intros t It; rewrite <- (firstn_skipn i ts); apply in_or_app; now left].
      rewrite K, firstn_map. reflexivity. }
    split.
    + intros x. rewrite in_app_iff, <- in_rev, MP, M. split.
      * intros [[[y [Y A]] NA]|[X NA]]; (split; [|exact NA]).
        -- apply (split_before _ _ _ _ (f_nodup s F p) N) in Y. destruct Y as [l1 [l2 [l3 Y]]]. exists p, y, n, l1, l2, l3. split; [exact Y|]. split; [exact A|left; reflexivity].
        -- eapply right_below; [exact X|left; reflexivity|right; now apply above_parent].
      * intros [[q [a [y [l1 [l2 [l3 [KQ [A B]]]]]]]] NA]. destruct B as [->|B].
        -- left. split; [|exact NA]. exists a. split; [|exact A].
           assert (In n (kids s q)) as I by (rewrite KQ; apply in_or_app; right; right; apply in_or_app; right; now left). apply (kid_parent s q n F) in I. rewrite P in I. injection I as <-.
           apply (split_before _ _ _ _ (f_nodup s F p) N). eauto.
        -- right. split; [|exact NA]. exists q, a, y, l1, l2, l3. split; [exact KQ|]. split; [exact A|]. exact (aos_parent (parent_of s) p n P y B).
    + apply ss_app; [|exact SS|].
      * apply ss_rev. apply (flat_sorted s p ts _ [] (skipn i ts)); [exact F|exact K|exact R|cbn; now rewrite firstn_skipn].
      * intros x z X Z. apply in_rev in X. apply MP in X. destruct X as [[y [Y A]] _]. apply M in Z. destruct Z as [Z _]. apply right_before. eapply right_below; [exact Z|left; reflexivity|].
        assert (In y (kids s p)) as IY by (rewrite <- (firstn_skipn i (kids s p)); apply in_or_app; now left).
        right. eapply above_aos; [apply above_parent; apply (kid_parent s p y F IY)|exact A].
  - unfold get_preceding_sibling. rewrite P. cbn [bind]. assert (preceding_gen (bound s) s None = Ok []) as -> by reflexivity. cbn [bind].
    assert (preceding_from f s None = Ok []) as -> by (destruct f; reflexivity). cbn. exists []. split; [reflexivity|]. split; [|constructor].
    intros x. split; [intros []|]. intros [[q [a [y [l1 [l2 [l3 [KQ [A B]]]]]]]] _]. exfalso.
    assert (parent_of s y = Some q) as PA by (apply (kid_parent s q y F); rewrite KQ; apply in_or_app; right; right; apply in_or_app; right; now left).
    destruct B as [->|B]; [congruence|]. inversion B; congruence.
Qed.

(** ** Ancestors *)
Lemma ancestors_ok s : forest s -> forall fuel n r d, top fuel s n = Some (r, d) ->
  exists l, ancestors fuel s (Some n) = Ok (n :: l) /\ (forall x, In x l <-> above (parent_of s) x n) /\ StronglySorted (fun x y => before s y x) (n :: l).
Proof.
  intros F. induction fuel as [|f IH]; intros n r d H; [discriminate|]. cbn [top] in H. cbn [ancestors].
  destruct (parent_of s n) as [p|] eqn:P.
  - destruct (top f s p) as [[r' d']|] eqn:TP; [|discriminate]. destruct (IH p r' d' TP) as [l [E [M SS]]]. rewrite E. cbn [bind]. eexists. split; [reflexivity|].
    assert (forall x, In x (p :: l) <-> above (parent_of s) x n) as M'.
    { intros x. cbn. rewrite M. split; [intros [<-|A]; [now apply above_parent|eapply above_up; eauto]|]. intros A. apply (aos_parent (parent_of s) p n P) in A. destruct A as [->|A]; auto. }
    split; [exact M'|]. constructor; [exact SS|]. apply Forall_forall. intros x X. apply before_above. now apply M'.
  - assert (ancestors f s None = Ok []) as -> by (destruct f; reflexivity). cbn. exists []. split; [reflexivity|]. split; [|repeat constructor].
    intros x. split; [intros []|]. intros A. inversion A; congruence.
Qed.
