(** * Proofs about the axes: subtrees *)
From Coq Require Import NArith ZArith String List Bool Lia Arith Sorted.
From Verif Require Import PyStr PyErr DomModel DomSpec DomCells DomInv DomOps DomStep DomOrder XpModel XpSpec.
Import ListNotations.
Local Open Scope nat_scope.

(** ** The subtree below a node *)
Inductive tree := T (n : nat) (ts : list tree).
Definition root (t : tree) : nat := match t with T n _ => n end.
Fixpoint pre (t : tree) : list nat := match t with T n ts => n :: flat_map pre ts end.
Inductive rep (s : store) : tree -> Prop :=
| rep_T n ts : kids s n = map root ts -> Forall (rep s) ts -> rep s (T n ts).

Lemma tree_ind2 (P : tree -> Prop) : (forall n ts, Forall P ts -> P (T n ts)) -> forall t, P t.
Proof.
  intros H. fix IH 1. intros [n ts]. apply H. induction ts as [|t ts IHt]; constructor; [apply IH|exact IHt].
Qed.

Lemma kid_exists s p c : forest s -> In c (kids s p) -> exists_node s c.
Proof. intros F I. apply (f_link s F) in I. destruct I as [P _]. destruct (parent_ex s c p P) as [n [G _]]. eapply get_some; eauto. Qed.
Lemma kid_parent s p c : forest s -> In c (kids s p) -> parent_of s c = Some p.
Proof. intros F I. apply (f_link s F) in I. tauto. Qed.
Lemma kid_nonattr s p c : forest s -> In c (kids s p) -> ~ attribute s c.
Proof. intros F I. apply (f_link s F) in I. unfold attribute. tauto. Qed.

Lemma rep_ex s : forest s -> forall k n vis, exists_node s n -> NoDup vis -> (forall v, In v vis -> exists_node s v /\ above_or_self (parent_of s) v n) -> In n vis ->
  length (s_nodes s) < k + length vis -> exists ts, rep s (T n ts).
Proof.
  intros F. induction k as [|k IH]; intros n vis Hn Hd Hv Hin Hk.
  - exfalso. assert (length vis <= length (seq 0 (length (s_nodes s)))) as X.
    { apply NoDup_incl_length; [exact Hd|]. intros v V. apply in_seq. destruct (Hv v V). unfold exists_node in *. lia. }
    rewrite seq_length in X. cbn in Hk. lia.
  - assert (forall l, (forall c, In c l -> In c (kids s n)) -> exists ts, map root ts = l /\ Forall (rep s) ts) as E.
    { induction l as [|c l IHl]; intros Hl; [exists []; split; [reflexivity|constructor]|].
      destruct IHl as [ts [M R]]; [intros; apply Hl; now right|]. assert (In c (kids s n)) as C by (apply Hl; now left). pose proof (kid_parent s n c F C) as P.
      destruct (IH c (c :: vis)) as [tc RC].
      - eapply kid_exists; eauto.
      - constructor; [|exact Hd]. intros V. destruct (Hv c V) as [_ [->|A]]; [exact (f_acyclic s F n (above_parent _ _ _ P))|].
        apply (f_acyclic s F n). eapply above_trans; [apply above_parent; exact P|exact A].
      - intros v [<-|V]; [split; [eapply kid_exists; eauto|left; reflexivity]|]. destruct (Hv v V) as [X1 X2]. split; [exact X1|]. right.
        destruct X2 as [->|A]; [now apply above_parent|]. eapply above_up; eauto.
      - now left.
      - cbn. lia.
      - exists (T c tc :: ts). cbn. split; [now rewrite M|]. constructor; assumption. }
    destruct (E (kids s n)) as [ts [M R]]; [auto|]. exists ts. constructor; [now symmetry|exact R].
Qed.
Lemma subtree s n : forest s -> exists_node s n -> exists ts, rep s (T n ts).
Proof. intros F H. apply (rep_ex s F (length (s_nodes s)) n [n] H); [constructor; [tauto|constructor]|intros v [<-|[]]; split; [exact H|left; reflexivity]|now left|cbn; lia]. Qed.

(** ** Ancestors and children *)
Lemma above_kid s n x : forest s -> above (parent_of s) n x -> exists c, parent_of s c = Some n /\ above_or_self (parent_of s) c x.
Proof.
  intros F H. induction H as [x P|x p P H IH]; [exists x; split; [exact P|left; reflexivity]|].
  destruct IH as [c [C A]]. exists c. split; [exact C|]. right. destruct A as [->|A]; [now apply above_parent|eapply above_up; eauto].
Qed.
Lemma above_container s a x : forest s -> above (parent_of s) a x -> ~ attribute s a.
Proof.
  intros F H K. assert (exists z, parent_of s z = Some a) as [z Z] by (induction H; eauto).
  destruct (f_parent s F a z Z) as [k [K' C]]. unfold attribute in K. rewrite K in K'. injection K' as <-. discriminate.
Qed.
Lemma aos_nonattr s a x : forest s -> above_or_self (parent_of s) a x -> ~ attribute s x -> ~ attribute s a.
Proof. intros F [->|H] N; [exact N|eapply above_container; eauto]. Qed.

Lemma pre_in s : forest s -> forall t, rep s t -> forall x, In x (pre t) <-> x = root t \/ (above (parent_of s) (root t) x /\ ~ attribute s x).
Proof.
  intros F t. induction t as [n ts IH] using tree_ind2. intros R x. inversion R as [n' ts' K RT E]. subst n' ts'. cbn [pre root]. split.
  - intros [<-|I]; [now left|right]. apply in_flat_map in I. destruct I as [t [It Ix]].
    rewrite Forall_forall in IH, RT. apply (IH t It (RT t It)) in Ix.
    assert (In (root t) (kids s n)) as C by (rewrite K; now apply in_map). pose proof (kid_parent s n _ F C) as P.
    destruct Ix as [->|[A NA]]; [split; [now apply above_parent|eapply kid_nonattr; eauto]|]. split; [|exact NA]. eapply above_trans; [apply above_parent; exact P|exact A].
  - intros [->|[A NA]]; [now left|right]. apply in_flat_map. destruct (above_kid s n x F A) as [c [C AC]].
    assert (In c (kids s n)) as I by (apply (f_link s F); split; [exact C|exact (aos_nonattr s c x F AC NA)]).
    rewrite K in I. apply in_map_iff in I. destruct I as [t [E It]]. exists t. split; [exact It|].
    rewrite Forall_forall in IH, RT. apply (IH t It (RT t It)). subst c. destruct AC as [->|AC]; [now left|right; auto].
Qed.

Lemma ss_app {A} (R : A -> A -> Prop) a b : StronglySorted R a -> StronglySorted R b -> (forall x y, In x a -> In y b -> R x y) -> StronglySorted R (a ++ b).
Proof.
  intros Ha Hb H. induction Ha as [|x a Ha IH HF]; [exact Hb|]. cbn. constructor.
  - apply IH. intros; apply H; [now right|assumption].
  - apply Forall_app. split; [exact HF|]. apply Forall_forall. intros y Y. apply H; [now left|exact Y].
Qed.
Lemma ss_app_inv {A} (R : A -> A -> Prop) a b : StronglySorted R (a ++ b) -> StronglySorted R a /\ StronglySorted R b /\ (forall x y, In x a -> In y b -> R x y).
Proof.
  induction a as [|x a IH]; cbn; intros H; [repeat split; [constructor|exact H|intros ? ? []]|].
  inversion H as [|? ? H1 H2]; subst. destruct (IH H1) as [I1 [I2 I3]]. apply Forall_app in H2. destruct H2 as [F1 F2]. rewrite Forall_forall in F2.
  split; [constructor; assumption|]. split; [exact I2|]. intros u v [<-|U] V; auto.
Qed.
Lemma ss_rev {A} (R : A -> A -> Prop) l : StronglySorted R l -> StronglySorted (fun x y => R y x) (rev l).
Proof.
  induction 1 as [|x l H IH HF]; cbn; [constructor|]. apply ss_app; [exact IH|repeat constructor|].
  intros u v U [<-|[]]. rewrite Forall_forall in HF. apply HF. now apply in_rev.
Qed.

(** Children split in two: what lies below the first part comes before what
    lies below the second. *)
Lemma kids_before s p l1 l2 x y a b : forest s -> kids s p = l1 ++ l2 -> In x l1 -> In y l2 -> above_or_self (parent_of s) x a -> above_or_self (parent_of s) y b -> before s a b.
Proof.
  intros F K X Y A B. apply in_split in X. destruct X as [u [v ->]]. apply in_split in Y. destruct Y as [w [z ->]].
  apply (before_kids s a b p x y u (v ++ w) z); [|exact A|exact B]. rewrite K. rewrite <- !app_assoc. reflexivity.
Qed.
Lemma pre_aos s t x : forest s -> rep s t -> In x (pre t) -> above_or_self (parent_of s) (root t) x.
Proof. intros F R I. apply (pre_in s F t R) in I. destruct I as [->|[A _]]; [left; reflexivity|right; exact A]. Qed.
Lemma pres_sorted s : forest s -> forall p l1 ts l2, kids s p = l1 ++ map root ts ++ l2 -> Forall (rep s) ts -> Forall (fun t => StronglySorted (before s) (pre t)) ts -> StronglySorted (before s) (flat_map pre ts).
Proof.
  intros F p l1 ts. revert l1. induction ts as [|t ts IH]; intros l1 l2 K R H; cbn; [constructor|].
  inversion R as [|? ? R1 R2]; subst. inversion H as [|? ? H1 H2]; subst. apply ss_app; [exact H1| |].
  - apply (IH (l1 ++ [root t]) l2); [rewrite K; cbn; now rewrite <- app_assoc|exact R2|exact H2].
  - intros x y X Y. apply in_flat_map in Y. destruct Y as [t' [T' Y]]. rewrite Forall_forall in R2.
    apply (kids_before s p (l1 ++ [root t]) (map root ts ++ l2) (root t) (root t')); [exact F|rewrite K; cbn; now rewrite <- app_assoc|apply in_or_app; right; now left|apply in_or_app; left; now apply in_map|now apply pre_aos|apply pre_aos; auto].
Qed.
Lemma pre_sorted s : forest s -> forall t, rep s t -> StronglySorted (before s) (pre t).
Proof.
  intros F t. induction t as [n ts IH] using tree_ind2. intros R. pose proof R as R0. inversion R as [n' ts' K RT E]. subst n' ts'. cbn [pre]. constructor.
  - apply (pres_sorted s F n [] ts []); [now rewrite app_nil_r|exact RT|]. rewrite Forall_forall in *. auto.
  - apply Forall_forall. intros x X. apply before_above. apply in_flat_map in X. destruct X as [t [It X]]. rewrite Forall_forall in RT. pose proof (pre_aos s t x F (RT t It) X) as A.
    assert (In (root t) (kids s n)) as C by (rewrite K; now apply in_map). eapply above_aos; [apply above_parent; eapply kid_parent; eauto|exact A].
Qed.
Lemma sorted_nodup s l : forest s -> StronglySorted (before s) l -> NoDup l.
Proof.
  intros F H. induction H as [|x l H IH HF]; [constructor|]. constructor; [|exact IH]. intros I. rewrite Forall_forall in HF. exact (before_irrefl s x F (HF x I)).
Qed.
Lemma sorted_short s l : forest s -> (forall x, In x l -> exists_node s x) -> NoDup l -> length l <= length (s_nodes s).
Proof.
  intros F E H. rewrite <- (seq_length (length (s_nodes s)) 0). apply NoDup_incl_length; [exact H|]. intros x X. apply in_seq. specialize (E x X). unfold exists_node in E. lia.
Qed.
Lemma above_exists s a b : above (parent_of s) a b -> exists_node s b.
Proof. intros H. assert (exists p, parent_of s b = Some p) as [p P] by (inversion H; eauto). destruct (parent_ex s b p P) as [n [G _]]. eapply get_some; eauto. Qed.
Lemma pre_exists s t x : forest s -> rep s t -> exists_node s (root t) -> In x (pre t) -> exists_node s x.
Proof. intros F R E I. apply (pre_in s F t R) in I. destruct I as [->|[A _]]; [exact E|eapply above_exists; eauto]. Qed.
Lemma pre_length s t : forest s -> rep s t -> exists_node s (root t) -> length (pre t) <= length (s_nodes s).
Proof. intros F R E. apply (sorted_short s); [exact F|intros x; now apply pre_exists|]. apply (sorted_nodup s); [exact F|now apply pre_sorted]. Qed.
