(** * C56 and C57: xsl:sort and xsl:for-each *)
From Coq Require Import NArith ZArith QArith String List Bool Lia Arith Sorted Permutation.
From Verif Require Import PyStr PyErr XpNum XpNumSpec XtSort XtSortSpec XtSortProofs.
Import ListNotations.
Local Open Scope nat_scope.

(** ** C56 *)
(** Sorting gives the nodes in the order of the first key that distinguishes them, and
    in document order if none does; no other list is in that order.  Keys with
    case-order are left out where case is not like in ASCII, and with "lower-first"
    (see below). *)
Theorem C56_sorted_partial : forall lower islower isupper sort select keys c nodes r c',
  stable_sort sort -> (forall k, In k keys -> good_key lower isupper k) -> select c = Ok nodes -> NoDup nodes ->
  sorted_nodes lower islower isupper sort select keys c = Ok (r, c') ->
  sorted_result keys c nodes r /\ forall r', sorted_result keys c nodes r' -> r' = r.
Proof.
  intros lower islower isupper sort select keys c nodes r c' ST GK SE ND H. unfold sorted_nodes in H. rewrite SE in H. cbn [bind] in H.
  destruct (decorate _ (rev keys) 0 nodes) as [[ds d]|] eqn:D; cbn [bind fst snd] in H; [|discriminate]. injection H as <- <-.
  destruct (decorate_ok _ _ _ _ _ _ D) as [M [_ [_ V]]]. cbn [set_focus c_size c_template] in V.
  assert (sorted_result keys c nodes (map fst (sort_by lower islower isupper sort 1 (rev keys) ds))) as SR.
  { assert (forall k, In k (rev keys) -> good_key lower isupper k) as GK' by (intros k I; apply GK; now apply in_rev).
    assert (forall x vs, In (x, vs) ds -> exists d, focus_of c nodes x d /\ get_keys d (rev keys) = Ok vs) as VA.
    { intros x vs I. destruct (V x vs I) as [i [N K]]. eexists. split; [|exact K]. exists i. split; [exact N|reflexivity]. }
    destruct (sort_by_ok lower islower isupper sort c nodes (rev keys) ds ST GK' VA (rev keys) [] ds eq_refl (Permutation_refl _)) as [PM PR].
    { intros a b P. cbn [rev precedes]. destruct P as [l1 [l2 [l3 E]]]. exists (map fst l1), (map fst l2), (map fst l3). rewrite <- M, E. now rewrite !map_app; cbn [map]; rewrite map_app. }
    cbn [length] in *. rewrite rev_involutive in PR. split; [rewrite <- M; now apply Permutation_map|]. intros x y P. apply pair_map in P. destruct P as [a [b [<- [<- P]]]]. now apply PR. }
  split; [exact SR|]. intros r' [P1 Q1]. destruct SR as [P2 Q2]. apply (sorted_unique (precedes c nodes keys)); [apply precedes_asym, ND|now transitivity nodes; [|symmetry]|exact Q1|exact Q2].
Qed.
Print Assumptions C56_sorted_partial.
(** It fails only if a key does. *)
Theorem C56_total : forall lower islower isupper sort select keys c nodes, select c = Ok nodes -> (forall k, In k keys -> evaluates c nodes k) ->
  exists r c', sorted_nodes lower islower isupper sort select keys c = Ok (r, c').
Proof.
  intros lower islower isupper sort select keys c nodes SE EV. unfold sorted_nodes. rewrite SE. cbn [bind].
  assert (forall k, In k (rev keys) -> evaluates c nodes k) as EV' by (intros k I; apply EV; now apply in_rev). clear EV. revert EV'. generalize (rev keys) as ks. intros ks EV.
  assert (forall rest done d, nodes = done ++ rest -> c_size d = length nodes -> c_template d = c_template c -> exists z, decorate d ks (length done) rest = Ok z) as H.
  { induction rest as [|x rest IH]; intros done d E Z T; cbn [decorate]; [eauto|].
    set (d' := {| c_node := x; c_position := S (length done); c_size := c_size d; c_current := x; c_template := c_template d |}).
    assert (focus_of c nodes x d') as F by (exists (length done); split; [rewrite E, nth_error_app2, Nat.sub_diag by lia; reflexivity|unfold d'; now rewrite Z, T]).
    assert (exists vs, get_keys d' ks = Ok vs) as [vs ->].
    { clear IH. induction ks as [|k ks IH]; cbn [get_keys]; [eauto|]. destruct IH as [l ->]; [intros; apply EV; now right|]. pose proof (EV k (or_introl eq_refl) x d' F) as EK. unfold get_key. destruct (sk_numeric k); destruct EK as [v ->]; cbn; eauto. }
    cbn [bind]. destruct (IH (done ++ [x]) d') as [z HZ]; [rewrite <- app_assoc; exact E|exact Z|exact T|]. rewrite app_length in HZ. cbn [length] in HZ. rewrite Nat.add_1_r in HZ. rewrite HZ. cbn. eauto. }
  destruct (H nodes [] (set_focus c (c_node c) (c_position c) (length nodes)) eq_refl eq_refl eq_refl) as [z HZ]. cbn [length] in HZ. rewrite HZ. cbn. eauto.
Qed.
Print Assumptions C56_total.

(** ** C57 *)
(** for-each runs its content on the selected nodes, in the order of the sort keys, and
    restores the focus and the template; without sort keys it restores the current
    node as well. *)
Theorem C57_for_each_partial : forall lower islower isupper sort children select keys c nodes out c',
  restores children -> select c = Ok nodes -> for_each lower islower isupper sort children select keys c = Ok (out, c') ->
  exists r, (keys = [] -> r = nodes /\ c' = c) /\ (keys <> [] -> exists d, sorted_nodes lower islower isupper sort select keys c = Ok (r, d)) /\ run_each children r out /\
  c_node c' = c_node c /\ c_position c' = c_position c /\ c_size c' = c_size c /\ c_template c' = c_template c.
Proof.
  intros lower islower isupper sort children select keys c nodes out c' RS SE H. unfold for_each in H.
  assert (exists r saved, match keys with [] => do l <- select c ; Ok (l, c) | _ => sorted_nodes lower islower isupper sort select keys c end = Ok (r, saved) /\
    c_node saved = c_node c /\ c_position saved = c_position c /\ c_size saved = c_size c /\ c_template saved = c_template c /\ (keys = [] -> r = nodes /\ saved = c)) as [r [saved [E [E1 [E2 [E3 [E4 E5]]]]]]].
  { destruct keys as [|k keys]; [rewrite SE; cbn [bind]; exists nodes, c; repeat apply conj; auto|]. destruct (sorted_nodes _ _ _ _ _ _ _) as [[r saved]|] eqn:SN; cbn [bind] in H; [|discriminate]. exists r, saved. split; [reflexivity|].
    unfold sorted_nodes in SN. rewrite SE in SN. cbn [bind] in SN. destruct (decorate _ _ 0 nodes) as [[ds d]|] eqn:D; cbn [bind fst snd] in SN; [|discriminate]. injection SN as <- <-. destruct (decorate_ok _ _ _ _ _ _ D) as [_ [T _]]. cbn in *. repeat apply conj; auto; discriminate. }
  rewrite E in H. cbn [bind] in H. destruct (each _ _ _ r) as [[o d]|] eqn:EA; cbn [bind fst] in H; [|discriminate]. injection H as <- <-.
  exists r. split; [exact E5|]. split; [intros NK; destruct keys; [congruence|eauto]|]. split; [|auto].
  assert (forall l d p o d', each children d p l = Ok (o, d') -> c_template d = None -> c_size d = length r -> exists outs, length outs = length l /\ o = concat outs /\
    forall i x q, nth_error l i = Some x -> nth_error outs i = Some q -> exists d1, children {| c_node := x; c_position := p + i; c_size := length r; c_current := x; c_template := None |} = Ok (q, d1)) as HE.
  { clear -RS. induction l as [|x l IH]; intros d p o d' H T Z; cbn [each] in H; [injection H as <- <-; exists []; repeat split; intros [|i]; discriminate|].
    rewrite T, Z in H. destruct (children _) as [[o1 d1]|] eqn:CH; cbn [bind fst snd] in H; [|discriminate]. destruct (RS _ _ _ CH) as [R1 R2]. cbn [c_size c_template] in R1, R2.
    destruct (each children d1 (S p) l) as [[o2 d2]|] eqn:EA; cbn [bind fst snd] in H; [|discriminate]. injection H as <- <-. destruct (IH _ _ _ _ EA R2 R1) as [outs [L [-> HO]]].
    exists (o1 :: outs). split; [cbn; lia|]. split; [reflexivity|]. intros [|i] y q N M; cbn in N, M.
    - injection N as <-. injection M as <-. rewrite Nat.add_0_r. eauto.
    - rewrite Nat.add_succ_r. apply (HO i y q N M). }
  destruct (HE _ _ _ _ _ EA eq_refl eq_refl) as [outs [L [-> HO]]]. exists outs. split; [exact L|]. split; [reflexivity|]. exact HO.
Qed.
Print Assumptions C57_for_each_partial.
(** A for-each is itself an instruction that restores size and template, so loops can be
    nested. *)
Theorem C57_nested : forall lower islower isupper sort children select keys,
  (forall c, exists nodes, select c = Ok nodes) -> restores children -> restores (for_each lower islower isupper sort children select keys).
Proof.
  intros lower islower isupper sort children select keys SE RS d o d' H. destruct (SE d) as [nodes E]. destruct (C57_for_each_partial _ _ _ _ _ _ _ _ _ _ _ RS E H) as [r [_ [_ [_ [_ [_ HH]]]]]]. exact HH.
Qed.
Print Assumptions C57_nested.

(** ** Examples *)
(** A stable insertion sort. *)
Fixpoint insert_by {A} (lt : A -> A -> bool) (x : A) (l : list A) : list A :=
  match l with [] => [x] | y :: r => if lt y x then y :: insert_by lt x r else x :: l end.
Definition insertion {A} (cmp : A -> A -> comparison) (reverse : bool) (l : list A) : list A :=
  fold_right (insert_by (fun a b => match (if reverse then cmp b a else cmp a b) with Lt => true | _ => false end)) [] l.
Lemma insertion_stable A : stable_sort (@insertion A).
Proof.
  intros cmp reverse l [O T]. set (lt := fun a b => match (if reverse then cmp b a else cmp a b) with Lt => true | _ => false end).
  set (R := fun a b => if reverse then cmp b a <> Gt else cmp a b <> Gt).
  assert (forall x m, Permutation (insert_by lt x m) (x :: m)) as PI.
  { intros x m. induction m as [|y m IH]; cbn [insert_by]; [reflexivity|]. destruct (lt y x); [|reflexivity]. apply Permutation_trans with (y :: x :: m); [now constructor|apply perm_swap]. }
  assert (forall a b, lt a b = true -> R a b) as LR by (unfold lt, R; intros a b; destruct reverse; [destruct (cmp b a)|destruct (cmp a b)]; congruence).
  assert (forall a b, lt a b = false -> R b a) as GR by (unfold lt, R; intros a b; pose proof (O a b); destruct reverse; [destruct (cmp b a) eqn:C|destruct (cmp a b) eqn:C]; destruct (cmp a b), (cmp b a); cbn in *; congruence).
  assert (forall a b d, R a b -> R b d -> R a d) as TR by (unfold R; intros a b d; destruct reverse; eauto).
  split; [|split].
  - induction l as [|x l IH]; [reflexivity|]. change (Permutation (insert_by lt x (insertion cmp reverse l)) (x :: l)). rewrite PI. now constructor.
  - induction l as [|x l IH]; [constructor|]. change (StronglySorted R (insert_by lt x (insertion cmp reverse l))). revert IH. fold R. generalize (insertion cmp reverse l) as m. induction m as [|y m IH]; intros SM; cbn [insert_by]; [repeat constructor|]. inversion SM as [|? ? S1 S2]; subst. destruct (lt y x) eqn:L.
    + constructor; [now apply IH|]. apply Forall_forall. intros z I. apply (Permutation_in _ (PI x m)) in I. destruct I as [<-|I]; [now apply LR|]. rewrite Forall_forall in S2. auto.
    + constructor; [exact SM|]. constructor; [now apply GR|]. apply Forall_forall. intros z I. rewrite Forall_forall in S2. exact (TR _ _ _ (GR _ _ L) (S2 z I)).
  - intros a. induction l as [|x l IH]; [reflexivity|]. change (insertion cmp reverse (x :: l)) with (insert_by lt x (insertion cmp reverse l)). cbn [filter]. rewrite <- IH. generalize (insertion cmp reverse l) as m. clear IH.
    set (f := fun b => match cmp a b with Eq => true | _ => false end). induction m as [|y m IH]; cbn [insert_by]; [reflexivity|]. destruct (lt y x) eqn:L; [|reflexivity]. cbn [filter]. rewrite IH. fold (f x) in *. destruct (f y) eqn:FY; [|reflexivity]. destruct (f x) eqn:FX; [|reflexivity]. exfalso.
    unfold f in FX, FY. destruct (cmp a x) eqn:Cx; try discriminate. destruct (cmp a y) eqn:Cy; try discriminate.
    assert (cmp y a = Eq) as Cy' by (rewrite O, Cy; reflexivity). assert (cmp x a = Eq) as Cx' by (rewrite O, Cx; reflexivity).
    assert (cmp y x <> Gt) as H1 by (apply (T y a x); congruence). assert (cmp x y <> Gt) as H2 by (apply (T x a y); congruence). pose proof (O x y) as O'. unfold lt in L. destruct reverse; destruct (cmp x y), (cmp y x); cbn in *; congruence.
Qed.
Definition ascii_lower (c : N) : N := if ((65 <=? c) && (c <=? 90))%N then (c + 32)%N else c.
Definition ascii_isupper (c : N) : bool := ((65 <=? c) && (c <=? 90))%N.
Definition ascii_islower (c : N) : bool := ((97 <=? c) && (c <=? 122))%N.
Lemma ascii_cased : cased ascii_lower ascii_isupper.
Proof.
  intros c d E L. unfold ascii_lower, ascii_isupper in *.
  destruct (N.leb_spec 65 c), (N.leb_spec c 90), (N.leb_spec 65 d), (N.leb_spec d 90); cbn [andb] in *; try lia; auto.
Qed.
(** Four nodes with the numbers 2, NaN, 2, 1 and the texts b, a, a, B. *)
Definition texts (x : nat) : str := match x with 11 => lit "b" | 12 => lit "a" | 13 => lit "a" | _ => lit "B" end.
Definition nums (x : nat) : num := match x with 11 => NFin 2 | 12 => NNaN | 13 => NFin 2 | _ => NFin 1 end.
Definition key (numeric descending : bool) (o : option case_order) : sort_key :=
  {| sk_string := fun d => Ok (texts (c_current d)); sk_number := fun d => Ok (nums (c_node d)); sk_numeric := numeric; sk_descending := descending; sk_case := o |}.
Definition four (d : context) : result (list nat) := Ok [11; 12; 13; 14].
Definition start : context := {| c_node := 1; c_position := 1; c_size := 1; c_current := 1; c_template := Some 7 |}.
Definition sorted4 (keys : list sort_key) := rmap fst (sorted_nodes ascii_lower ascii_islower ascii_isupper insertion four keys start).
Definition show (d : context) : result (str * context) := Ok ([N.of_nat (c_node d); N.of_nat (c_position d); N.of_nat (c_size d)], d).
Definition each4 (keys : list sort_key) := for_each ascii_lower ascii_islower ascii_isupper insertion show four keys start.
Example C56_case : stable_sort (@insertion decorated) /\ NoDup [11; 12; 13; 14] /\ (forall k, In k [key true true None; key false false (Some UpperFirst)] -> good_key ascii_lower ascii_isupper k /\ evaluates start [11; 12; 13; 14] k) /\
  sorted4 [key true true None; key false false (Some UpperFirst)] = Ok [13; 11; 14; 12] /\ sorted4 [key true false None] = Ok [12; 14; 11; 13] /\ sorted4 [key false true None] = Ok [11; 12; 13; 14].
Proof.
  split; [apply insertion_stable|]. split; [repeat constructor; cbn; lia|]. split; [|repeat apply conj; vm_compute; reflexivity].
  intros k [<-|[<-|[]]]; (split; [cbn; auto using ascii_cased|intros x d _; cbn; eauto]).
Qed.
(** Upper case first: XSLT says the order is A a B b, and lower case first, a A b B. *)
Definition letters (x : nat) : str := match x with 11 => lit "B" | 12 => lit "a" | 13 => lit "A" | _ => lit "b" end.
Definition letter_key (o : option case_order) : sort_key :=
  {| sk_string := fun d => Ok (letters (c_node d)); sk_number := fun d => Ok NNaN; sk_numeric := false; sk_descending := false; sk_case := o |}.
Definition sorted_letters o := rmap (fun z => map letters (fst z)) (sorted_nodes ascii_lower ascii_islower ascii_isupper insertion four [letter_key o] start).
Theorem C56_case_order_refuted : sorted_letters (Some UpperFirst) = Ok [lit "A"; lit "B"; lit "a"; lit "b"] /\ sorted_letters (Some LowerFirst) <> Ok [lit "a"; lit "A"; lit "b"; lit "B"].
Proof. split; [vm_compute; reflexivity|]. vm_compute. discriminate. Qed.
Print Assumptions C56_case_order_refuted.
(** With "lower-first" the comparison goes round in circles, so that list.sort gets no
    order at all. *)
Theorem C56_lower_first_refuted :
  lower_first_compare ascii_lower ascii_islower (lit "a") (lit "A") = Lt /\ lower_first_compare ascii_lower ascii_islower (lit "A") (lit "B") = Lt /\
  lower_first_compare ascii_lower ascii_islower (lit "B") (lit "a") = Lt /\ ~ consistent (lower_first_compare ascii_lower ascii_islower).
Proof.
  repeat apply conj; try (vm_compute; reflexivity). intros [O T]. assert (lower_first_compare ascii_lower ascii_islower (lit "a") (lit "B") <> Gt) as H by (apply (T _ (lit "A")); vm_compute; discriminate). apply H. vm_compute. reflexivity.
Qed.
Print Assumptions C56_lower_first_refuted.
(** The sort keys a for-each is written with are the ones it uses, if its content declares no
    variable at its top level. *)
Theorem C56_keys_partial : forall keys body, Forall (fun c => c = OtherChild) body ->
  for_each_keys (map SortChild keys ++ body) = keys.
Proof.
  intros keys body H. unfold for_each_keys, read_children.
  assert (existsb is_variable (map SortChild keys ++ body) = false) as ->.
  { rewrite existsb_app. apply orb_false_iff. split; [induction keys; auto|]. induction H as [|c l -> H IH]; auto. }
  induction keys as [|k keys IH]; cbn [map app leading_keys]; [|now rewrite IH]. destruct H as [|c l ->]; reflexivity.
Qed.
Print Assumptions C56_keys_partial.
(** If it does, the sort keys are ignored. *)
Theorem C56_ignored_refuted : forall keys body, In VariableChild body ->
  for_each_keys (map SortChild keys ++ body) = [] /\ for_each_keys (map SortChild [key true true None] ++ [VariableChild; OtherChild]) <> [key true true None].
Proof.
  intros keys body H. split; [|vm_compute; discriminate]. unfold for_each_keys, read_children.
  assert (existsb is_variable (map SortChild keys ++ body) = true) as ->; [|reflexivity].
  apply existsb_exists. exists VariableChild. split; [apply in_or_app; now right|reflexivity].
Qed.
Print Assumptions C56_ignored_refuted.
Example C57_case : restores show /\ (forall c, exists nodes, four c = Ok nodes) /\
  each4 [] = Ok ([11; 1; 4; 12; 2; 4; 13; 3; 4; 14; 4; 4]%N, start) /\
  rmap fst (each4 [key true false None]) = Ok [12; 1; 4; 14; 2; 4; 11; 3; 4; 13; 4; 4]%N.
Proof. split; [intros d o d' [= _ <-]; auto|]. split; [intros; unfold four; eauto|]. split; vm_compute; reflexivity. Qed.
(** After a for-each with a sort key current() is the last of the selected nodes, not
    what it was before. *)
Theorem C57_current_refuted : exists out c', each4 [key true false None] = Ok (out, c') /\ c_current start = 1 /\ c_current c' = 14.
Proof. eexists _, _. split; [vm_compute; reflexivity|]. split; reflexivity. Qed.
Print Assumptions C57_current_refuted.
