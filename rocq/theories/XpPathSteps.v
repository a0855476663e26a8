(** * Node tests, predicates and steps: the model meets the specification *)
From Coq Require Import NArith ZArith QArith String List Bool Lia Arith Sorted Lqa.
From Verif Require Import PyStr PyErr DomModel DomSpec DomCells DomInv DomOps DomStep DomOrder DomProps XpModel XpSpec XpTree XpAxes XpOrder XpSelect XpProps XpPath XpPathSpec.
Import ListNotations.
Local Open Scope nat_scope.

(** ** Node tests *)
Lemma has_kind_iff s k x : has_kind s k x = true <-> kind_of s x = Some k.
Proof.
  unfold has_kind, kind_of. destruct (get s x) as [n|]; cbn; [|split; discriminate]. split; [intros H|intros [= <-]].
  - destruct (n_kind n), k; try discriminate H; reflexivity.
  - now destruct (n_kind n).
Qed.

Lemma accepts_ok namespaces s nm a t f x : get_filter namespaces (principal_type a) t = Ok f ->
  (match f with None => True | Some f => filter_accepts s nm f x = true end <-> passes namespaces s nm a t x).
Proof.
  assert (principal_type a = principal_kind a) as PK by (destruct a; reflexivity). rewrite PK. clear PK.
  unfold get_filter, passes.
  assert (forall k o (P : Prop), (forall u n, o = Some (u, n) -> kind_of s x = Some k -> (nametest nm k u n x = true <-> P)) -> (o = None -> kind_of s x = Some k -> P) ->
    (filter_accepts s nm {| nf_kind := k; nf_name := o |} x = true <-> kind_of s x = Some k /\ P)) as HF.
  { intros k o P H1 H2. unfold filter_accepts. cbn [nf_kind nf_name]. destruct (has_kind s k x) eqn:K.
    - apply has_kind_iff in K. destruct o as [[u n]|]; [rewrite (H1 u n eq_refl K)|]; [|specialize (H2 eq_refl K)]; tauto.
    - split; [discriminate|]. intros [K' _]. apply has_kind_iff in K'. congruence. }
  assert (forall k o, o = None -> (filter_accepts s nm {| nf_kind := k; nf_name := o |} x = true <-> kind_of s x = Some k)) as HF0.
  { intros k o ->. rewrite (HF k None True); [tauto|discriminate|auto]. }
  assert (forall k u n, k <> KPI -> (nametest nm k u n x = true <-> nm_ns nm x = u /\ match n with None => True | Some n => nm_local nm x = n end)) as NT.
  { intros k u n NK. unfold nametest, node_nametest. assert (match k with KPI => None | _ => nm_ns nm x end = nm_ns nm x) as -> by (destruct k; congruence).
    assert (match n with None => true | Some n => str_eqb n (nm_local nm x) end = true <-> match n with None => True | Some n => nm_local nm x = n end) as E2.
    { destruct n as [n|]; [|tauto]. rewrite str_eqb_eq. split; congruence. }
    destruct u as [u|], (nm_ns nm x) as [v|].
    - destruct (str_eqb u v) eqn:E; [apply str_eqb_eq in E; subst; rewrite E2; tauto|]. split; [discriminate|]. intros [[= ->] _]. now rewrite str_eqb_refl in E.
    - split; [discriminate|]. intros [? _]; discriminate.
    - split; [discriminate|]. intros [? _]; discriminate.
    - rewrite E2. tauto. }
  assert (principal_kind a <> KPI) as NP by (destruct a; discriminate).
  destruct t as [| | |target| |name|prefix|prefix name].
  - intros [= <-]. tauto.
  - intros [= <-]. now apply HF0.
  - intros [= <-]. now apply HF0.
  - intros [= <-]. destruct target as [tg|].
    + apply HF; [|discriminate]. intros u n [= <- <-] _. unfold nametest, node_nametest. rewrite str_eqb_eq. split; congruence.
    + rewrite (HF KPI _ True); [tauto| |discriminate]. intros u n [= <- <-] _. unfold nametest, node_nametest. tauto.
  - intros [= <-]. now apply HF0.
  - intros [= <-]. apply HF; [|discriminate]. intros u n [= <- <-] _. rewrite NT by exact NP. tauto.
  - destruct (namespaces prefix) as [ns|]; [|discriminate]. intros [= <-]. apply HF; [|discriminate]. intros u n [= <- <-] _. rewrite NT by exact NP.
    split; [intros [E _]; exists ns; auto|intros [v [[= <-] E]]; auto].
  - destruct (namespaces prefix) as [ns|]; [|discriminate]. intros [= <-]. apply HF; [|discriminate]. intros u n [= <- <-] _. rewrite NT by exact NP.
    split; [intros [E1 E2]; split; [exists ns; auto|auto]|intros [[v [[= <-] E]] E2]; auto].
Qed.

Lemma apply_filter_in namespaces s nm a t f l x : get_filter namespaces (principal_type a) t = Ok f ->
  (In x (apply_filter s nm f l) <-> In x l /\ passes namespaces s nm a t x).
Proof.
  intros H. pose proof (accepts_ok namespaces s nm a t f x H) as A. destruct f as [f|]; cbn [apply_filter].
  - rewrite filter_In, A. tauto.
  - tauto.
Qed.

(** ** Sublists *)
Inductive sub {A} : list A -> list A -> Prop :=
| sub_nil : sub [] []
| sub_keep x a b : sub a b -> sub (x :: a) (x :: b)
| sub_drop x a b : sub a b -> sub a (x :: b).
Lemma sub_in {A} (a b : list A) x : sub a b -> In x a -> In x b.
Proof. induction 1; cbn; intuition. Qed.
Lemma sub_refl {A} (a : list A) : sub a a.
Proof. induction a; constructor; auto. Qed.
Lemma sub_trans {A} (a b c : list A) : sub a b -> sub b c -> sub a c.
Proof. intros H1 H2. revert a H1. induction H2; intros a' H1; [exact H1| |constructor; auto]. inversion H1; subst; constructor; auto. Qed.
Lemma sub_sorted {A} (R : A -> A -> Prop) a b : sub a b -> StronglySorted R b -> StronglySorted R a.
Proof.
  induction 1 as [|x a b H IH|x a b H IH]; intros SS; [exact SS| |]; inversion SS as [|? ? SS' FA]; subst; [|auto].
  constructor; [auto|]. rewrite Forall_forall in *. intros y Y. apply FA. eapply sub_in; eauto.
Qed.
Lemma sub_nodup {A} (a b : list A) : sub a b -> NoDup b -> NoDup a.
Proof. induction 1 as [|x a b H IH|x a b H IH]; intros ND; [exact ND| |]; inversion ND; subst; [|auto]. constructor; [intros I; eapply sub_in in I; eauto|auto]. Qed.
Lemma sub_filter {A} (f : A -> bool) l : sub (filter f l) l.
Proof. induction l; cbn; [constructor|]. destruct (f a); constructor; auto. Qed.
Lemma sub_rev {A} (a b : list A) : sub a b -> sub (rev a) (rev b).
Proof.
  assert (forall (a b c d : list A), sub a b -> sub c d -> sub (a ++ c) (b ++ d)) as AP.
  { intros ? ? ? ? H ?. induction H; cbn; [assumption|constructor; auto|constructor; auto]. }
  induction 1; cbn; [constructor| |].
  - apply AP; [assumption|apply sub_refl].
  - rewrite <- (app_nil_r (rev a)). apply AP; [assumption|constructor; constructor].
Qed.
Lemma kept_sub P p l r : kept P p l r -> sub r l.
Proof. induction 1; constructor; auto. Qed.
Lemma filtered_sub es l r : filtered es l r -> sub r l.
Proof. induction 1; [apply sub_refl|]. eapply sub_trans; [eassumption|]. eapply kept_sub; eauto. Qed.
Lemma kept_fun P p l r : kept P p l r -> forall r', kept P p l r' -> r' = r.
Proof. induction 1; intros r' H'; inversion H'; subst; try contradiction; auto. f_equal. auto. Qed.
Lemma filtered_fun es l r : filtered es l r -> forall r', filtered es l r' -> r' = r.
Proof. induction 1 as [|e es l m r K F IH]; intros r' H'; inversion H' as [|? ? ? m' ? K' F']; subst; auto. apply IH. rewrite <- (kept_fun _ _ _ _ K m' K'). assumption. Qed.
Lemma kept_ext P Q p l r : (forall x q, P x q <-> Q x q) -> kept P p l r -> kept Q p l r.
Proof. intros E H. induction H; constructor; auto; rewrite <- ?E; auto. Qed.

(** ** Predicates *)
Lemma int_eq_iff p k : int_eq p k = true <-> num_eq p k.
Proof. destruct k; cbn; try (split; [discriminate|tauto]). apply Qeq_bool_iff. Qed.
Lemma int_gt_iff p k : int_gt p k = true <-> num_gt p k.
Proof.
  destruct k; cbn; try (split; [discriminate|tauto]); [tauto|]. rewrite negb_true_iff. split.
  - intros H. apply Qnot_le_lt. intros L. apply Qle_bool_iff in L. congruence.
  - intros H. destruct (Qle_bool (inject_Z p) q) eqn:E; [|reflexivity]. apply Qle_bool_iff in E. exfalso. apply Qlt_not_le in H. contradiction.
Qed.
Lemma num_gt_mono p q k : (p <= q)%Z -> num_gt p k -> num_gt q k.
Proof. destruct k as [| | |r]; cbn; auto. intros H L. eapply Qlt_le_trans; [exact L|]. now rewrite <- Zle_Qle. Qed.
Lemma num_eq_int p i q : (inject_Z i == q)%Q -> (num_eq p (Fin q) <-> p = i).
Proof. intros E. cbn. rewrite <- E. split; [apply inject_Z_injective|intros ->; reflexivity]. Qed.

Lemma kept_none (P : nat -> Z -> Prop) : forall l p, (forall x q, (p <= q)%Z -> ~ P x q) -> kept P p l [].
Proof. induction l as [|x l IH]; intros p H; constructor; [apply H; lia|]. apply IH. intros. apply H. lia. Qed.
Lemma kept_all (P : nat -> Z -> Prop) : forall l p, (forall x q, (p <= q)%Z -> P x q) -> kept P p l l.
Proof. induction l as [|x l IH]; intros p H; constructor; [apply H; lia|]. apply IH. intros. apply H. lia. Qed.

Lemma position_ok i : forall n l p, (i - p = Z.of_nat n)%Z ->
  kept (fun _ q => q = i) p l (match skip_nodes n l with [] => [] | x :: _ => [x] end).
Proof.
  induction n as [|n IH]; intros [|x l] p H; cbn [skip_nodes]; try constructor; try lia.
  - apply kept_none. intros. lia.
  - apply IH. lia.
Qed.
Lemma slice_loop_ok k : forall l p, ~ num_gt p k -> kept (fun _ q => num_gt q k) p l (slice_loop (p + 1) k l).
Proof.
  induction l as [|x l IH]; intros p H; cbn [slice_loop]; [constructor|]. apply kept_no; [exact H|].
  destruct (int_gt (p + 1) k) eqn:G.
  - apply int_gt_iff in G. apply kept_all. intros _ q L. eapply num_gt_mono; eauto.
  - apply IH. intros C. apply int_gt_iff in C. congruence.
Qed.
Lemma slice_ok k l : kept (fun _ q => num_gt q k) 1 l (slice 1 k l).
Proof.
  unfold slice. destruct (int_gt 1 k) eqn:G.
  - apply int_gt_iff in G. apply kept_all. intros _ q L. eapply num_gt_mono; eauto.
  - apply (slice_loop_ok k l 1%Z). intros C. apply int_gt_iff in C. congruence.
Qed.
(** 'position() >= k' when no position, or every position, is at least k. *)
Lemma slice_ge_ok k l : k = NaN \/ k = PosInf \/ num_gt 0 k -> kept (fun _ q => num_ge q k) 1 l (slice 0 k l).
Proof.
  assert (forall l p, k = NaN \/ k = PosInf -> slice_loop p k l = []) as SN by (intros l' p [->| ->]; revert p; induction l' as [|x l' IH]; intros p; cbn; auto).
  intros H. unfold slice. destruct (int_gt 0 k) eqn:G.
  - apply int_gt_iff in G. apply kept_all. intros _ q L. assert (num_gt q k) as GQ by (eapply num_gt_mono; [|exact G]; lia).
    destruct k; cbn in *; auto. now apply Qlt_le_weak.
  - destruct H as [H|[H|H]]; [| |apply int_gt_iff in H; congruence]; rewrite SN by auto; apply kept_none; intros _ q _; subst; cbn; auto.
Qed.

Lemma number_loop_ok e size : forall l p r, number_loop e size p l = Ok r ->
  kept (fun x q => exists k, e x q size = Ok k /\ num_eq q k) p l r.
Proof.
  induction l as [|x l IH]; intros p r; cbn [number_loop]; [intros [= <-]; constructor|].
  destruct (e x p size) as [v|] eqn:V; cbn [bind]; [|discriminate]. destruct (number_loop e size (p + 1) l) as [r'|] eqn:R; cbn [bind]; [|discriminate].
  intros [= <-]. destruct (int_eq p v) eqn:E.
  - constructor; [|auto]. apply int_eq_iff in E. eauto.
  - constructor; [|auto]. intros [k [K N]]. rewrite V in K. injection K as <-. apply int_eq_iff in N. congruence.
Qed.
Lemma boolean_loop_ok e size : forall l p r, boolean_loop e size p l = Ok r -> kept (fun x q => e x q size = Ok true) p l r.
Proof.
  induction l as [|x l IH]; intros p r; cbn [boolean_loop]; [intros [= <-]; constructor|].
  destruct (e x p size) as [v|] eqn:V; cbn [bind]; [|discriminate]. destruct (boolean_loop e size (p + 1) l) as [r'|] eqn:R; cbn [bind]; [|discriminate].
  intros [= <-]. destruct v; constructor; auto. rewrite V. discriminate.
Qed.
Lemma select_loop_ok e size : forall l p r, select_loop e size p l = Ok r ->
  kept (fun x q => exists v, e x q size = Ok v /\ match v with VNumber k => num_eq q k | VOther b => b = true end) p l r.
Proof.
  induction l as [|x l IH]; intros p r; cbn [select_loop]; [intros [= <-]; constructor|].
  destruct (e x p size) as [v|] eqn:V; cbn [bind]; [|discriminate]. destruct (select_loop e size (p + 1) l) as [r'|] eqn:R; cbn [bind]; [|discriminate].
  intros [= <-]. destruct (match v with VNumber k => int_eq p k | VOther b => b end) eqn:E.
  - constructor; [|auto]. exists v. split; [exact V|]. destruct v; [now apply int_eq_iff|exact E].
  - constructor; [|auto]. intros [v' [V' N]]. rewrite V in V'. injection V' as <-. destruct v; [apply int_eq_iff in N|]; congruence.
Qed.

Lemma literal_ok k p l size r : literal_select k = Ok p -> apply_selector size p l = Ok r -> kept (fun _ q => num_eq q k) 1 l r.
Proof.
  unfold literal_select. destruct k as [| | |q]; try discriminate. set (i := Z.quot (Qnum q) (Zpos (Qden q))).
  destruct (Qeq_bool (inject_Z i) q && (1 <=? i)%Z) eqn:E; [|intros [= <-]; discriminate]. apply andb_prop in E. destruct E as [E1 E2]. apply Qeq_bool_iff in E1. apply Z.leb_le in E2.
  destruct (i <=? 2147483647)%Z; [|discriminate]. intros [= <-]. cbn [apply_selector]. intros [= <-].
  eapply kept_ext; [intros x p; symmetry; exact (num_eq_int p i q E1)|]. apply (position_ok i). lia.
Qed.

Lemma predicate_ok e p size l r : predicate_init e = Ok p -> handled e -> apply_selector size p l = Ok r ->
  kept (fun x q => holds e x q (length l)) 1 l r.
Proof.
  intros HP HH HA. destruct e as [k|ne k|k|e|k|e|k|k|e|e|e|e]; cbn [predicate_init] in HP; cbn [handled] in HH; cbn [holds].
  - eapply literal_ok; eauto.
  - destruct HH.
  - eapply literal_ok; eauto.
  - injection HP as <-. now apply number_loop_ok.
  - eapply literal_ok; eauto.
  - injection HP as <-. apply number_loop_ok in HA. eapply kept_ext; [|exact HA]. intros x q. cbn beta. rewrite (HH x q size (length l)). tauto.
  - injection HP as <-. injection HA as <-. apply slice_ok.
  - injection HP as <-. injection HA as <-. now apply slice_ge_ok.
  - discriminate.
  - injection HP as <-. apply number_loop_ok in HA. eapply kept_ext; [|exact HA]. intros x q. cbn beta. rewrite (HH x q size (length l)). tauto.
  - injection HP as <-. apply boolean_loop_ok in HA. eapply kept_ext; [|exact HA]. intros x q. cbn beta. rewrite (HH x q size (length l)). tauto.
  - injection HP as <-. apply select_loop_ok in HA. eapply kept_ext; [|exact HA]. intros x q. cbn beta. rewrite (HH x q size (length l)). tauto.
Qed.
Lemma predicates_ok size : forall es ps l r, init_all es = Ok ps -> Forall handled es -> apply_selectors size ps l = Ok r -> filtered es l r.
Proof.
  induction es as [|e es IH]; intros ps l r; cbn [init_all].
  - intros [= <-] _ [= <-]. constructor.
  - destruct (predicate_init e) as [p|] eqn:P; cbn [bind]; [|discriminate]. destruct (init_all es) as [ps'|] eqn:PS; cbn [bind]; [|discriminate].
    intros [= <-] HF. inversion HF; subst. cbn [apply_selectors]. destruct (apply_selector size p l) as [m|] eqn:M; cbn [bind]; [|discriminate]. intros HR.
    econstructor; [eapply predicate_ok; eauto|eauto].
Qed.

(** ** A step *)
Lemma sorted_eq {A} (R : A -> A -> Prop) : (forall x, ~ R x x) -> (forall x y, R x y -> R y x -> False) ->
  forall a b, StronglySorted R a -> StronglySorted R b -> (forall x, In x a <-> In x b) -> a = b.
Proof.
  intros IR AS. induction a as [|x a IH]; intros b SA SB E.
  - destruct b as [|y b]; [reflexivity|]. exfalso. apply (E y). now left.
  - destruct b as [|y b]; [exfalso; apply (E x); now left|]. inversion SA as [|? ? SA' FA]; inversion SB as [|? ? SB' FB]; subst. rewrite Forall_forall in FA, FB.
    assert (x = y) as ->.
    { destruct (proj1 (E x) (or_introl eq_refl)) as [->|I]; [reflexivity|]. destruct (proj2 (E y) (or_introl eq_refl)) as [->|I']; [reflexivity|].
      exfalso. exact (AS x y (FA y I') (FB x I)). }
    f_equal. apply IH; auto. intros z. split; intros I.
    + destruct (proj1 (E z) (or_intror I)) as [<-|I']; [|exact I']. exfalso. exact (IR y (FA y I)).
    + destruct (proj2 (E z) (or_intror I)) as [<-|I']; [|exact I']. exfalso. exact (IR y (FB y I)).
Qed.
Lemma axis_order_eq s a l l' : forest s -> in_axis_order s a l -> in_axis_order s a l' -> (forall x, In x l <-> In x l') -> l = l'.
Proof.
  intros F. destruct (C20_order_is_total s F) as [IR _]. unfold in_axis_order. destruct (is_reverse a); apply sorted_eq; auto; intros x y X Y; eapply before_asym; eauto.
Qed.

Lemma compile_step_inv namespaces st c : compile_step namespaces st = Ok c ->
  si_axis c = ls_axis st /\ get_filter namespaces (principal_type (ls_axis st)) (ls_test st) = Ok (si_filter c) /\ init_all (ls_preds st) = Ok (si_preds c) /\ forallb callable (si_preds c) = true.
Proof.
  unfold compile_step. destruct (init_all (ls_preds st)) as [ps|] eqn:PS; cbn [bind]; [|discriminate].
  destruct (get_filter namespaces (principal_type (ls_axis st)) (ls_test st)) as [f|] eqn:G; cbn [bind]; [|discriminate].
  destruct (forallb callable ps) eqn:C; [|discriminate]. intros [= <-]. cbn. auto.
Qed.

(** An attribute without an element is a tree of its own. *)
Lemma alone s n : forest s -> attribute s n -> parent_of s n = None -> (forall x, ~ before s n x) /\ (forall x, ~ before s x n).
Proof.
  intros F A P.
  assert (forall x, ~ above (parent_of s) x n) as NA by (intros x X; inversion X; congruence).
  assert (forall y p, In y (kids s p) -> ~ above_or_self (parent_of s) y n) as NK.
  { intros y p I [->|X]; [|exact (NA y X)]. apply (f_link s F) in I. destruct I as [_ I]. exact (I A). }
  split; intros x B; inversion B as [X|p a b l1 l2 l3 K X Y|p y I1 I2 Y|p l1 l2 l3 K].
  - exact (above_container s n x F X A).
  - apply (NK a p); [rewrite K; apply in_or_app; right; now left|exact X].
  - apply (f_alink s F) in I1. destruct I1. congruence.
  - assert (In n (attrs_of s p)) as I by (rewrite K; apply in_or_app; right; now left). apply (f_alink s F) in I. destruct I. congruence.
  - exact (NA x X).
  - apply (NK b p); [rewrite K; apply in_or_app; right; right; apply in_or_app; right; now left|exact Y].
  - exact (NK y p I2 Y).
  - assert (In n (attrs_of s p)) as I by (rewrite K; apply in_or_app; right; right; apply in_or_app; right; now left). apply (f_alink s F) in I. destruct I. congruence.
Qed.

(** An axis that gives a result at all gives the right one. *)
Lemma select_sound s a n l : forest s -> exists_node s n -> select a s n = Ok l -> (forall x, In x l <-> on_axis s a n x) /\ in_axis_order s a l.
Proof.
  intros F E H.
  assert (supported s a n \/ exists p, parent_of s n = Some p /\ attribute s n /\ ~ supported s a n \/ (attribute s n /\ parent_of s n = None)) as D.
  { unfold supported, attribute. destruct (kind_of s n) as [k|] eqn:K; [|left; discriminate]. destruct (kind_eqb k KAttr) eqn:KE; [|left; intros [= ->]; discriminate].
    assert (k = KAttr) as -> by (destruct k; try discriminate KE; reflexivity).
    destruct (parent_of s n) as [p|] eqn:P; [|right; exists 0; right; auto].
    destruct a; try (left; intros _; exact I); right; exists p; left; (split; [reflexivity|split; [reflexivity|tauto]]). }
  destruct D as [D|[p [[P [A NS]]|[A P]]]].
  - destruct (select_ok s a n F E D) as [l' [E' [M O]]]. rewrite H in E'. injection E' as <-. auto.
  - rewrite (select_attribute s n a F E A NS (ex_intro _ p P)) in H. discriminate.
  - assert (supported s a n \/ ~ supported s a n) as [D|NS].
    { destruct a; try (left; intros _; exact I); right; intros X; exact (X A). }
    + destruct (select_ok s a n F E D) as [l' [E' [M O]]]. rewrite H in E'. injection E' as <-. auto.
    + assert (get_following_sibling s n = Ok None /\ get_preceding_sibling s n = Ok None) as [G1 G2] by (unfold get_following_sibling, get_preceding_sibling; rewrite P; auto).
      destruct (alone s n F A P) as [NB1 NB2].
      assert (l = []) as ->.
      { destruct a; cbn [select] in H; try (exfalso; apply NS; intros _; exact I); unfold following_axis, preceding_axis, preceding_sibling_axis, bound in H; cbn [following_from preceding_from] in H;
        rewrite ?G1, ?G2 in H; cbn [bind following_loop preceding_gen preceding_siblings] in H; rewrite ?P in H;
        destruct (length (s_nodes s)); cbn [bind following_from preceding_from] in H; injection H as <-; reflexivity. }
      split; [|unfold in_axis_order; destruct (is_reverse a); constructor]. intros x. split; [intros []|]. intros OA. exfalso.
      destruct a; try (apply NS; intros _; exact I); cbn [on_axis] in OA; [apply (NB1 x)|apply (NB2 x)|apply (NB2 x)]; tauto.
Qed.
