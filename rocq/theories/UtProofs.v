(** * Utilities: walking and unwrapping *)
From Coq Require Import NArith ZArith String List Bool Lia Arith Sorted Permutation.
From Verif Require Import PyStr PyErr DomModel DomSpec DomCells DomInv DomOps DomStep DomOrder DomProps XpModel XpSpec XpTree XuModel XuProofs UtModel UtSpec.
Import ListNotations.
Local Open Scope nat_scope.

Lemma is_element_kind s i : is_element s i = match kind_of s i with Some KElement => true | _ => false end.
Proof. unfold is_element, kind_of. destruct (get s i) as [n|]; [cbn [option_map]; destruct (n_kind n); reflexivity|reflexivity]. Qed.
Lemma elements_filter s l : filter (is_element s) l = elements s l.
Proof. unfold elements. apply filter_ext. intro. apply is_element_kind. Qed.
Lemma elem_true s i : is_element s i = true <-> element s i.
Proof. rewrite is_element_kind. unfold element. destruct (kind_of s i) as [[]|]; split; congruence. Qed.
Lemma element_children_ok s i k : forest s -> kind_of s i = Some k -> is_container k = true -> element_children s i = Ok (elements s (kids s i)).
Proof.
  intros F K C. unfold element_children, xml_children. pose proof (f_read s F i (kind_exists s i k K)) as R. unfold kind_of in K.
  destruct (get s i) as [n|]; [|discriminate]. cbn in K. injection K as ->. rewrite C, R. cbn [bind]. now rewrite elements_filter.
Qed.
Lemma element_children_none s i k : kind_of s i = Some k -> is_container k = false -> element_children s i = Err AttributeError.
Proof.
  intros K C. unfold element_children, xml_children. unfold kind_of in K.
  destruct (get s i) as [n|]; [|discriminate]. cbn in K. injection K as ->. now rewrite C.
Qed.

(** ** The tree of the elements *)
Section Elements.
  Variable s : store.
  Hypothesis F : forest s.

  Inductive erep : tree -> Prop :=
  | erep_T n ts : (exists k, kind_of s n = Some k /\ is_container k = true) -> elements s (kids s n) = map root ts -> Forall erep ts -> erep (T n ts).
  Definition subs (t : tree) : list tree := match t with T _ ts => ts end.
  Fixpoint prune (t : tree) : tree :=
    match t with T n ts => T n ((fix go l := match l with [] => [] | t :: r => if is_element s (root t) then prune t :: go r else go r end) ts) end.
  Definition prunes (ts : list tree) : list tree := map prune (filter (fun t => is_element s (root t)) ts).
  Lemma prune_eq n ts : prune (T n ts) = T n (prunes ts).
  Proof. unfold prunes. cbn [prune]. f_equal. induction ts as [|t ts IH]; [reflexivity|]. cbn [filter]. destruct (is_element s (root t)); cbn [map]; now rewrite IH. Qed.
  Lemma prune_root t : root (prune t) = root t.
  Proof. destruct t. now rewrite prune_eq. Qed.
  Lemma prunes_roots ts : map root (prunes ts) = elements s (map root ts).
  Proof.
    unfold prunes. rewrite <- elements_filter. induction ts as [|t ts IH]; [reflexivity|]. cbn [filter map]. destruct (is_element s (root t)); cbn [map]; [|exact IH].
    now rewrite prune_root, IH.
  Qed.
  Lemma prune_erep t : rep s t -> (exists k, kind_of s (root t) = Some k /\ is_container k = true) -> erep (prune t).
  Proof.
    induction t as [n ts IH] using tree_ind2. intros R C. inversion R as [n' ts' K RT E]. subst n' ts'. rewrite prune_eq. constructor; [exact C|now rewrite prunes_roots, K|].
    unfold prunes. apply Forall_forall. intros x I. apply in_map_iff in I as (t & <- & I). apply filter_In in I as [I E].
    rewrite Forall_forall in IH, RT. apply IH; [exact I|now apply RT|]. exists KElement. split; [now apply elem_true|reflexivity].
  Qed.
  Lemma leaf_kids n : ~ (exists k, kind_of s n = Some k /\ is_container k = true) -> kids s n = [].
  Proof.
    intros H. destruct (kids s n) as [|c l] eqn:E; [reflexivity|]. exfalso. apply H.
    apply (f_parent s F n c). apply (f_link s F). rewrite E. now left.
  Qed.
  Lemma prunes_pre ts p : (forall t, In t ts -> rep s t /\ In (root t) (kids s p)) ->
    (forall t, In t ts -> is_element s (root t) = true -> pre (prune t) = filter (is_element s) (pre t)) ->
    flat_map pre (prunes ts) = filter (is_element s) (flat_map pre ts).
  Proof.
    unfold prunes. induction ts as [|t ts IH]; intros H1 H2; [reflexivity|]. cbn [flat_map filter]. rewrite filter_app.
    rewrite <- IH; [|intros; apply H1; now right|intros; apply H2; [now right|assumption]]. destruct (is_element s (root t)) eqn:E.
    - cbn [map flat_map]. rewrite H2; auto. now left.
    - destruct (H1 t (or_introl eq_refl)) as [R I]. destruct t as [n us]. cbn [root] in *. inversion R as [n' us' K RT X]. subst n' us'.
      assert (us = []) as ->.
      { destruct (f_kind s F p n I) as (k & Kk & C). rewrite leaf_kids in K; [destruct us; [reflexivity|discriminate]|].
        intros (k' & K' & C'). rewrite Kk in K'. injection K' as <-. rewrite is_element_kind, Kk in E. destruct k; discriminate. }
      cbn [pre flat_map filter]. now rewrite E.
  Qed.
  Lemma prune_pre_elem t : rep s t -> is_element s (root t) = true -> pre (prune t) = filter (is_element s) (pre t).
  Proof.
    induction t as [n ts IH] using tree_ind2. intros R E. inversion R as [n' ts' K RT X]. subst n' ts'. rewrite Forall_forall in IH, RT.
    rewrite prune_eq. cbn [pre filter]. cbn [root] in E. rewrite E. f_equal. apply (prunes_pre ts n).
    - intros t I. split; [now apply RT|]. rewrite K. now apply in_map.
    - intros t I. apply IH; auto.
  Qed.
  Lemma prune_pre t : rep s t -> pre (prune t) = root t :: filter (is_element s) (tl (pre t)).
  Proof.
    destruct t as [n ts]. intros R. inversion R as [n' ts' K RT X]. subst n' ts'. rewrite Forall_forall in RT.
    rewrite prune_eq. cbn [pre filter tl root]. f_equal. apply (prunes_pre ts n).
    - intros t I. split; [now apply RT|]. rewrite K. now apply in_map.
    - intros t I. apply prune_pre_elem. auto.
  Qed.

  (** ** The loop *)
  Lemma push_all_ok its stack : Forall erep its ->
    push_all s (map root its) stack = Ok (map (fun t => map root (subs t)) (rev its) ++ stack).
  Proof.
    intro H. revert stack. induction H as [|t its Ht H IH]; intro stack; [reflexivity|]. cbn [map push_all].
    inversion Ht as [n ts (k & K & C) E R X]. subst t. cbn [root]. rewrite (element_children_ok s n k F K C). cbn [bind]. rewrite IH.
    cbn [rev]. rewrite map_app, <- app_assoc. cbn [map subs app]. now rewrite E.
  Qed.
  Definition weight (sts : list (list tree)) : nat := length sts + length (flat_map pre (concat sts)).
  Definition block (b l : list nat) : Prop := exists l1 l3, l = l1 ++ b ++ l3.

  Lemma in_pre t : In (root t) (pre t).
  Proof. destruct t. now left. Qed.
  Lemma weight_pop it sts : weight ((map subs (rev it)) ++ sts) + 1 = weight (it :: sts).
  Proof.
    unfold weight. cbn [concat length]. rewrite concat_app, !flat_map_app, !app_length, map_length, rev_length.
    assert (length it + length (flat_map pre (concat (map subs (rev it)))) = length (flat_map pre it)); [|lia].
    rewrite <- (rev_length it). replace (length (flat_map pre it)) with (length (flat_map pre (rev it))).
    - induction (rev it) as [|[n ts] l IH]; [reflexivity|]. cbn [map concat subs length flat_map pre]. rewrite flat_map_app, !app_length. cbn [length]. lia.
    - apply Permutation_length. apply Permutation_flat_map. apply Permutation_sym, Permutation_rev.
  Qed.
  Lemma perm_pop it : Permutation (map root it ++ flat_map pre (concat (map subs (rev it)))) (flat_map pre it).
  Proof.
    transitivity (map root it ++ flat_map pre (concat (map subs it))).
    - apply Permutation_app_head. apply Permutation_flat_map. rewrite map_rev. induction (map subs it) as [|x l IH]; [constructor|].
      cbn [rev]. rewrite concat_app. cbn [concat]. rewrite app_nil_r. transitivity (x ++ concat (rev l)); [apply Permutation_app_comm|now apply Permutation_app_head].
    - induction it as [|[n ts] it IH]; [constructor|]. cbn [map concat subs flat_map pre root app]. constructor.
      rewrite flat_map_app. rewrite <- IH. rewrite !app_assoc. apply Permutation_app_tail. apply Permutation_app_comm.
  Qed.

  Lemma drain_ok : forall fuel sts, Forall (Forall erep) sts -> weight sts <= fuel ->
    exists L, drain fuel s (map (map root) sts) = Ok L /\ Permutation L (flat_map pre (concat sts)) /\
      (forall it, In it sts -> block (map root it) L) /\
      (forall e, In e L -> exists l1 l2 l3, L = l1 ++ e :: l2 ++ elements s (kids s e) ++ l3).
  Proof.
    induction fuel as [|fuel IH]; intros sts H W.
    - destruct sts; [|unfold weight in W; cbn in W; lia]. exists []. split; [reflexivity|]. split; [constructor|]. split; intros ? [].
    - destruct sts as [|it sts]; [exists []; split; [reflexivity|]; split; [constructor|]; split; intros ? []|].
      inversion H as [|? ? Hi Hs]; subst. cbn [map drain]. rewrite push_all_ok by exact Hi. cbn [bind].
      replace (map (fun t => map root (subs t)) (rev it) ++ map (map root) sts) with (map (map root) (map subs (rev it) ++ sts)) by (rewrite map_app, map_map; reflexivity).
      destruct (IH (map subs (rev it) ++ sts)) as (L & D & P & B & C).
      + apply Forall_app. split; [|exact Hs]. apply Forall_forall. intros x I. apply in_map_iff in I as (t & <- & I). apply in_rev in I.
        rewrite Forall_forall in Hi. specialize (Hi t I). inversion Hi; subst. assumption.
      + pose proof (weight_pop it sts). lia.
      + rewrite D. cbn [bind]. exists (map root it ++ L). split; [reflexivity|]. split; [|split].
        * rewrite P. cbn [concat]. rewrite concat_app, !flat_map_app, app_assoc. apply Permutation_app_tail. apply perm_pop.
        * intros x [<-|I]; [exists [], L; reflexivity|]. destruct (B x) as (l1 & l3 & ->); [apply in_or_app; now right|].
          exists (map root it ++ l1), l3. now rewrite <- app_assoc.
        * intros e I. apply in_app_or in I as [I|I].
          -- apply in_map_iff in I as (t & <- & I). destruct (B (subs t)) as (l1 & l3 & EL); [apply in_or_app; left; apply in_map; now apply in_rev in I|].
             destruct (in_split t it I) as (i1 & i2 & ->). exists (map root i1), (map root i2 ++ l1), l3. rewrite map_app. cbn [map].
             rewrite Forall_forall in Hi. specialize (Hi t I). inversion Hi as [n ts K E R X]. subst t. cbn [root subs] in *. rewrite E, EL, <- !app_assoc. cbn [app]. rewrite <- ?app_assoc. reflexivity.
          -- destruct (C e I) as (l1 & l2 & l3 & EL). exists (map root it ++ l1), l2, l3. rewrite EL at 1. now rewrite <- app_assoc.
  Qed.

  Lemma elem_nonattr x : element s x -> ~ attribute s x.
  Proof. unfold element, attribute. congruence. Qed.
  Lemma pruned_in t x : rep s t -> In x (pre (prune t)) <-> x = root t \/ (element s x /\ above (parent_of s) (root t) x).
  Proof.
    intros R. rewrite prune_pre by exact R. pose proof (pre_in s F t R x) as H. pose proof (pre_sorted s F t R) as SS. apply (sorted_nodup s _ F) in SS.
    destruct t as [n ts]. cbn [pre tl root] in *. inversion SS as [|? ? NI ND]; subst. split.
    - intros [<-|I]; [now left|]. apply filter_In in I as [I E]. right. split; [now apply elem_true|]. destruct (proj1 H (or_intror I)) as [->|[A _]]; [contradiction|exact A].
    - intros [->|[E A]]; [now left|]. right. apply filter_In. split; [|now apply elem_true].
      destruct (proj2 H (or_intror (conj A (elem_nonattr x E)))) as [<-|I]; [exfalso; exact (f_acyclic s F n A)|exact I].
  Qed.
  Lemma pruned_nodup t : rep s t -> NoDup (pre (prune t)).
  Proof.
    intros R. rewrite prune_pre by exact R. pose proof (pre_sorted s F t R) as SS. apply (sorted_nodup s _ F) in SS.
    destruct t as [n ts]. cbn [pre tl root] in *. inversion SS as [|? ? NI ND]; subst. constructor; [|now apply NoDup_filter]. intro I. apply filter_In in I as [I _]. contradiction.
  Qed.
  Lemma pruned_short t : rep s t -> exists_node s (root t) -> length (pre (prune t)) <= length (s_nodes s).
  Proof.
    intros R E. apply sorted_short; [exact F| |now apply pruned_nodup]. intros x I. apply pruned_in in I; [|exact R].
    destruct I as [->|[_ A]]; [exact E|eapply above_exists; eauto].
  Qed.

  (** The whole iterator. *)
  Lemma iter_ok node root_too k : kind_of s node = Some k -> is_container k = true ->
    exists L, element_subtree_iter s node root_too = Ok L /\ NoDup L /\
      (forall x, In x L <-> (x = node /\ (k = KElement \/ root_too = true)) \/ (element s x /\ above (parent_of s) node x)) /\
      (forall e, In e L -> exists l1 l2 l3, L = l1 ++ e :: l2 ++ elements s (kids s e) ++ l3) /\
      (exists l1 l3, L = l1 ++ elements s (kids s node) ++ l3).
  Proof.
    intros K C. pose proof (kind_exists s node k K) as EX. destruct (subtree s node F EX) as (ts & R). assert (ER : erep (prune (T node ts))) by (apply prune_erep; [exact R|exists k; auto]).
    pose proof (pruned_short _ R EX) as SH. pose proof (pruned_nodup _ R) as ND. pose proof (pruned_in (T node ts)) as PI. cbn [root] in PI.
    unfold element_subtree_iter.
    assert (EE : (match get s node with Some n => kind_eqb (n_kind n) KEntity | None => false end) = kind_eqb k KEntity).
    { unfold kind_of in K. destruct (get s node); [|discriminate]. cbn in K. congruence. }
    rewrite EE. clear EE. destruct (is_element s node || root_too && kind_eqb k KEntity) eqn:E.
    - cbn [bind]. destruct (drain_ok (S (S (length (s_nodes s)))) [[prune (T node ts)]]) as (L & D & P & B & CH).
      + constructor; [|constructor]. constructor; [exact ER|constructor].
      + unfold weight. cbn [length concat flat_map app]. rewrite !app_nil_r. lia.
      + exists L. cbn [map] in D. rewrite prune_root in D. cbn [root] in D. split; [exact D|]. cbn [concat flat_map app] in P. rewrite !app_nil_r in P.
        assert (RT : k = KElement \/ root_too = true).
        { apply orb_true_iff in E as [E|E]; [left; apply elem_true in E; unfold element in E; congruence|right; now apply andb_true_iff in E]. }
        assert (IN : forall x, In x L <-> x = node \/ (element s x /\ above (parent_of s) node x)).
        { intro x. rewrite <- (PI x R). split; apply Permutation_in; [exact P|now apply Permutation_sym]. }
        split; [eapply Permutation_NoDup; [apply Permutation_sym; exact P|exact ND]|]. split; [intro x; rewrite IN; tauto|]. split; [exact CH|].
        destruct (CH node) as (l1 & l2 & l3 & EL); [apply IN; now left|]. exists (l1 ++ node :: l2), l3. rewrite EL. now rewrite <- app_assoc.
    - rewrite (element_children_ok s node k F K C). cbn [bind]. rewrite prune_eq in *. inversion ER as [n' ts' KK EK RK X]. subst n' ts'. rewrite EK.
      destruct (drain_ok (S (S (length (s_nodes s)))) [prunes ts]) as (L & D & P & B & CH).
      + constructor; [exact RK|constructor].
      + unfold weight. cbn [length concat pre] in *. rewrite !app_nil_r. lia.
      + exists L. split; [exact D|]. cbn [concat] in P. rewrite app_nil_r in P. cbn [pre] in ND. inversion ND as [|? ? NI ND']; subst.
        split; [eapply Permutation_NoDup; [apply Permutation_sym; exact P|exact ND']|]. split.
        * intro x. assert (IN : In x L <-> In x (flat_map pre (prunes ts))) by (split; apply Permutation_in; [exact P|now apply Permutation_sym]).
          rewrite IN. specialize (PI x R). cbn [pre] in PI. apply orb_false_iff in E as [E1 E2]. split.
          -- intro I. destruct (proj1 PI (or_intror I)) as [->|H]; [contradiction|now right].
          -- intros [[-> [-> | -> ]]|H].
             ++ rewrite is_element_kind, K in E1. discriminate.
             ++ exfalso. cbn [andb] in E2. rewrite is_element_kind, K in E1. destruct k; discriminate.
             ++ destruct (proj2 PI (or_intror H)) as [<-|I]; [exfalso; destruct H as [_ H]; exact (f_acyclic s F node H)|exact I].
        * split; [exact CH|]. destruct (B (prunes ts)) as (l1 & l3 & EL); [now left|]. exists l1, l3. exact EL.
  Qed.
  Lemma iter_leaf node root_too k : kind_of s node = Some k -> is_container k = false -> element_subtree_iter s node root_too = Err AttributeError.
  Proof.
    intros K C. unfold element_subtree_iter. rewrite is_element_kind, K.
    assert (EE : (match get s node with Some n => kind_eqb (n_kind n) KEntity | None => false end) = kind_eqb k KEntity).
    { unfold kind_of in K. destruct (get s node); [|discriminate]. cbn in K. congruence. }
    rewrite EE. destruct k; try discriminate; cbn [kind_eqb orb]; rewrite andb_false_r; (erewrite element_children_none; [reflexivity|exact K|reflexivity]).
  Qed.
End Elements.

(** ** unwrap *)
Lemma without_absent c l : ~ In c l -> without c l = l.
Proof.
  unfold without. induction l as [|x l IH]; intro H; [reflexivity|]. cbn [filter]. destruct (Nat.eqb_spec x c) as [->|]; [exfalso; apply H; now left|].
  cbn [negb]. rewrite IH; [reflexivity|]. intro; apply H; now right.
Qed.
Lemma without_app c l m : without c (l ++ m) = without c l ++ without c m.
Proof. unfold without. apply filter_app. Qed.
Lemma without_head c l : ~ In c l -> without c (c :: l) = l.
Proof. intro H. unfold without. cbn [filter]. rewrite Nat.eqb_refl. cbn [negb]. now apply without_absent. Qed.

Lemma above_same par par' x y : (forall i, par i = par' i) -> above par x y -> above par' x y.
Proof. intros H A. induction A as [y P|y q P A IH]; [apply above_parent|eapply above_up; [|exact IH]]; now rewrite <- H. Qed.

Section Unwrap.
  Variables (s : store) (p e : nat) (a b : list nat).
  Hypothesis F : forest s.
  Hypothesis HE : kind_of s e = Some KElement.
  Hypothesis HK : kids s p = a ++ e :: b.

  Let HP : parent_of s e = Some p.
  Proof. apply (f_link s F). rewrite HK. apply in_or_app. right. now left. Qed.
  Let HPC : container s p.
  Proof. apply (f_parent s F p e HP). Qed.
  Let EP : exists_node s p.
  Proof. now apply c_exists. Qed.
  Let HND : NoDup (a ++ e :: b).
  Proof. rewrite <- HK. apply (f_nodup s F). Qed.
  Let HPE : p <> e.
  Proof. intro E. apply (f_acyclic s F e). apply above_parent. now rewrite HP, E. Qed.

  Definition ukids (done rest : list nat) (q : nat) : list nat := if q =? p then a ++ done ++ b else if q =? e then rest else kids s q.
  Definition upar (done : list nat) (i : nat) : option nat := if i =? e then None else if existsb (Nat.eqb i) done then Some p else parent_of s i.

  Lemma upar_chain done c x : (forall d, In d done -> In d (kids s e)) -> above (upar done) c x -> above_or_self (parent_of s) x p -> above (parent_of s) c x.
  Proof.
    intros HD H. assert (KEY : forall x, above_or_self (parent_of s) x p -> upar done x = parent_of s x).
    { clear x H. intros x A. unfold upar. destruct (Nat.eqb_spec x e) as [->|Hne].
      - exfalso. destruct A as [A|A]; [now apply HPE|]. apply (f_acyclic s F p). eapply above_trans; [apply above_parent; exact HP|exact A].
      - destruct (existsb (Nat.eqb x) done) eqn:EX; [|reflexivity]. exfalso. apply existsb_exists in EX as (d & ID & ED). apply Nat.eqb_eq in ED. subst d.
        pose proof (XpTree.kid_parent s e x F (HD x ID)) as PX.
        assert (above (parent_of s) p x) as AX by (eapply above_up; [exact PX|now apply above_parent]).
        destruct A as [->|A]; [exact (f_acyclic s F p AX)|]. apply (f_acyclic s F p). eapply above_trans; [exact AX|exact A]. }
    induction H as [x P|x q P H IH]; intro A; rewrite KEY in P by exact A; [now apply above_parent|].
    eapply above_up; [exact P|]. apply IH. right. destruct A as [->|A]; [now apply above_parent|]. eapply above_trans; [apply above_parent; exact P|exact A].
  Qed.

  Lemma edited_trans s1 s2 (k1 k2 : nat -> list nat) p1 p2 : edited s s1 k1 p1 -> edited s1 s2 k2 p2 -> edited s s2 k2 p2.
  Proof.
    intros [A1 A2 A3 A4 A5 A6 A7 A8] [B1 B2 B3 B4 B5 B6 B7 B8]. constructor; try congruence; try (intro; rewrite ?B2, ?B3, ?B4, ?B5; auto).
    intros. apply B7. unfold exists_node in *. congruence.
  Qed.
  Lemma edited_same s1 s2 k1 k2 p1 p2 : edited s1 s2 k1 p1 -> (forall q, exists_node s1 q -> k1 q = k2 q) -> (forall i, p1 i = p2 i) -> edited s1 s2 k2 p2.
  Proof. intros [A1 A2 A3 A4 A5 A6 A7 A8] HKK HPP. constructor; auto; intros; [rewrite <- HKK by assumption; auto|rewrite <- HPP; auto]. Qed.

  Lemma graft_ok : forall rest done si, kids s e = done ++ rest -> forest si -> edited s si (ukids done rest) (upar done) ->
    exists s', graft si p (length a + length done) rest = (s', Ok tt) /\ forest s' /\ edited s s' (ukids (kids s e) []) (upar (kids s e)).
  Proof.
    induction rest as [|c rest IH]; intros done si HD FI ED.
    - rewrite app_nil_r in HD. subst done. exists si. auto.
    - cbn [graft]. assert (IC : In c (kids s e)) by (rewrite HD; apply in_or_app; right; now left).
      pose proof (XpTree.kid_parent s e c F IC) as PC. pose proof (f_nodup s F e) as NDE. rewrite HD in NDE.
      assert (NDONE : ~ In c done) by (intro I; apply NoDup_remove_2 in NDE; apply NDE; apply in_or_app; now left).
      assert (NREST : ~ In c rest) by (intro I; apply NoDup_remove_2 in NDE; apply NDE; apply in_or_app; now right).
      assert (CNE : c <> e) by (intros ->; apply (f_acyclic s F e); now apply above_parent).
      assert (NKP : forall q, q <> e -> ~ In c (kids s q)) by (intros q HQ I; apply (XpTree.kid_parent s q c F) in I; congruence).
      assert (NA : ~ In c (a ++ done ++ b)).
      { intro I. assert (NP : ~ In c (a ++ e :: b)) by (rewrite <- HK; now apply NKP). apply NP. apply in_app_or in I as [I|I]; [apply in_or_app; now left|].
        apply in_app_or in I as [I|I]; [contradiction|]. apply in_or_app. right. now right. }
      assert (KI : forall q, exists_node s q -> kids si q = ukids done (c :: rest) q) by (intros q HQ; unfold kids; now rewrite (e_kids _ _ _ _ ED q HQ)).
      assert (PI : parent_of si c = Some e).
      { rewrite (e_par _ _ _ _ ED). unfold upar. apply Nat.eqb_neq in CNE. rewrite CNE. destruct (existsb (Nat.eqb c) done) eqn:EX; [|exact PC].
        apply existsb_exists in EX as (d & ID & EQ). apply Nat.eqb_eq in EQ. subst d. contradiction. }
      assert (EC : exists_node si c) by (destruct (f_kind s F e c IC) as (k & KC & _); apply (kind_exists si c k); now rewrite (e_kind _ _ _ _ ED)).
      destruct (C19_insert_partial si p (Z.of_nat (length a + length done)) c FI) as [OK _].
      + destruct HPC as (k & KP & CP). exists k. split; [now rewrite (e_kind _ _ _ _ ED)|exact CP].
      + exact EC.
      + cbn [safe]. rewrite PI. intro X. injection X as X. exfalso. now apply HPE.
      + assert (ALW : allowed si p c).
        { split; [destruct (f_kind s F e c IC) as (k & KC & CC); exists k; split; [now rewrite (e_kind _ _ _ _ ED)|exact CC]|].
          assert (AP : above (parent_of s) p c) by (eapply above_up; [exact PC|now apply above_parent]).
          intros [->|A]; [exact (f_acyclic s F p AP)|].
          assert (A' : above (upar done) c p) by (apply (above_same (parent_of si)); [apply (e_par _ _ _ _ ED)|exact A]).
          apply (upar_chain done c p) in A'; [|intros d ID; rewrite HD; apply in_or_app; now left|now left].
          apply (f_acyclic s F p). eapply above_trans; [exact AP|exact A']. }
        destruct (OK ALW) as (s1 & ST & F1 & E1). rewrite ST.
        replace (S (length a + length done)) with (length a + length (done ++ [c])) by (rewrite app_length; cbn; lia).
        apply IH; [now rewrite <- app_assoc|exact F1|]. eapply edited_trans; [exact ED|]. eapply edited_same; [exact E1| |].
        * intros q HQ. assert (HQ' : exists_node s q) by (unfold exists_node in *; now rewrite <- (e_len _ _ _ _ ED)). cbv beta. destruct (Nat.eqb_spec q p) as [->|Hq].
          -- rewrite (KI p EP). unfold ukids. rewrite Nat.eqb_refl. rewrite without_absent by exact NA.
             assert (PX : py_index (Z.of_nat (length a + length done)) (length (a ++ done ++ b)) = length (a ++ done)).
             { unfold py_index. rewrite !app_length. destruct (Z.ltb_spec (Z.of_nat (length a + length done)) 0); lia. }
             rewrite PX. unfold insert_at. rewrite (app_assoc a done b). rewrite firstn_app, firstn_all, Nat.sub_diag, firstn_O, app_nil_r, skipn_app, skipn_all, Nat.sub_diag.
             cbn [skipn app]. rewrite <- !app_assoc. reflexivity.
          -- rewrite (KI q HQ'). unfold ukids. apply Nat.eqb_neq in Hq. rewrite Hq. destruct (Nat.eqb_spec q e) as [->|Hq']; [now apply without_head|]. apply without_absent. now apply NKP.
        * intro i. unfold set_par. rewrite (e_par _ _ _ _ ED). unfold upar. rewrite existsb_app. cbn [existsb]. destruct (Nat.eqb_spec i c) as [->|Hi].
          -- apply Nat.eqb_neq in CNE. rewrite CNE. now rewrite orb_true_r.
          -- now rewrite !orb_false_r.
  Qed.

  Lemma unwrap_ok : exists s', unwrap s e = (s', Ok p) /\ forest s' /\ edited s s' (ukids (kids s e) []) (upar (kids s e)).
  Proof.
    pose proof (kind_exists s e KElement HE) as EE. unfold unwrap.
    assert (XC : xml_children s e = Ok (kids s e)).
    { unfold xml_children. pose proof (f_read s F e EE) as R. unfold kind_of in HE. destruct (get s e) as [n|]; [|discriminate]. cbn in HE. injection HE as ->. cbn [is_container]. exact R. }
    rewrite XC, HP.
    assert (XI : xml_index s p e = Ok (length a)).
    { pose proof (f_read s F p EP) as R. rewrite HK in R. destruct HPC as (k & K & CK). unfold kind_of in K. unfold get_children in R. unfold xml_index.
      destruct (get s p) as [n|]; [|discriminate]. cbn [option_map] in K. injection K as ->. rewrite CK. apply read_cells_holds in R. destruct R as [-> H]. now rewrite lfind_holds. }
    rewrite XI. destruct (C19_remove s p e F HPC EE) as [OK _]. destruct OK as (s1 & ST & F1 & E1); [rewrite HK; apply in_or_app; right; now left|]. rewrite ST.
    destruct (graft_ok (kids s e) [] s1 eq_refl F1) as (s2 & G & F2 & E2).
    - eapply edited_same; [exact E1| |].
      + intros q HQ. cbv beta. unfold ukids. cbn [app]. destruct (Nat.eqb_spec q p) as [->|Hq].
        * rewrite HK, without_app. rewrite without_head by (intro I; apply NoDup_remove_2 in HND; apply HND; apply in_or_app; now right).
          rewrite without_absent; [reflexivity|]. intro I; apply NoDup_remove_2 in HND; apply HND; apply in_or_app; now left.
        * assert (NI : ~ In e (kids s q)) by (intro I; apply (XpTree.kid_parent s q e F) in I; congruence). rewrite without_absent by exact NI.
          destruct (Nat.eqb_spec q e) as [->|]; reflexivity.
      + intro i. reflexivity.
    - cbn [length] in G. rewrite Nat.add_0_r in G. rewrite G. exists s2. auto.
  Qed.
End Unwrap.

Lemma unwrap_top s e k : exists_node s e -> forest s -> kind_of s e = Some k -> is_container k = true -> parent_of s e = None -> unwrap s e = (s, Err AttributeError).
Proof.
  intros EE F K C P. unfold unwrap. assert (XC : xml_children s e = Ok (kids s e)).
  { unfold xml_children. pose proof (f_read s F e EE) as R. unfold kind_of in K. destruct (get s e) as [n|]; [|discriminate]. cbn in K. injection K as ->. rewrite C. exact R. }
  now rewrite XC, P.
Qed.
