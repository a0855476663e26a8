(** * The validator's verdicts *)
From Coq Require Import NArith ZArith String List Bool Lia Arith Permutation.
From Verif Require Import PyStr PyErr HashModel DtdModel DtdSpec DtdNfa DtdDfa.
Import ListNotations.
Local Open Scope nat_scope.

Section Order.
Variable order : forall {A}, list A -> list A.
Hypothesis order_perm : forall A (l : list A), Permutation (order l) l.
Arguments order {A}.

(** ** Declarations *)
Lemma find_element_app l1 l2 n : find_element (l1 ++ l2) n = match find_element l1 n with Some t => Some t | None => find_element l2 n end.
Proof. induction l1 as [|[x t] l1 IH]; cbn; [reflexivity|]. destruct (str_eqb x n); auto. Qed.
Lemma empty_spec : exists d, element_model (@order) DEmpty = Ok (Some d) /\ (forall w, accepts d w = true <-> w = [] \/ w = [EEmpty]) /\
  (forall w, ~ In EFinal w -> walk d 0 w <> None <-> w = [] \/ w = [EEmpty]).
Proof.
  unfold element_model. assert (keys_ok new_nfa) as K by (intros [|[|[|s]]]; cbn; split; try constructor; intros e ts []).
  destruct (add_transition_adds new_nfa EEpsilon 0 1 ltac:(cbn; lia)) as [A1 L1]. pose proof (add_transition_keys new_nfa EEpsilon 0 1 K) as K1. fold (add_epsilon new_nfa 0 1) in A1, L1, K1. set (m1 := add_epsilon new_nfa 0 1) in *.
  destruct (add_transition_adds m1 EEmpty 0 1 ltac:(rewrite L1; cbn; lia)) as [A2 L2]. pose proof (add_transition_keys m1 EEmpty 0 1 K1) as K2. set (m2 := add_transition m1 EEmpty 0 1) in *.
  pose proof (adds_trans _ _ _ _ _ A1 A2) as [_ A]. set (E := [(0, EEpsilon, 1)] ++ [(0, EEmpty, 1)]) in *.
  destruct (compile_nfa_spec (@order) order_perm m2 E K2) as [d [R [H1 H2]]].
  - intros s e t. rewrite A. split; [|auto]. intros [C|C]; [|exact C]. unfold edge, targets in C. destruct s as [|[|[|s]]]; destruct C.
  - rewrite L2, L1. cbn. lia.
  - rewrite L2, L1. cbn. intros s e t [[= <- <- <-]|[[= <- <- <-]|[]]]; repeat split; try lia; discriminate.
  - rewrite R. cbn [rmap bind]. exists d. split; [reflexivity|].
    assert (forall s e t, In (s, e, t) E -> s = 0 /\ t = 1 /\ (e = EEpsilon \/ e = EEmpty)) as HE by (cbn; intros s e t [[= <- <- <-]|[[= <- <- <-]|[]]]; auto).
    assert (forall w t, path E 1 w t -> w = [] /\ t = 1) as X1. { intros w t P. inversion P as [|? y ? ? I P'|? e y ? ? N I P']; subst; [auto| |]; apply HE in I; destruct I as [I _]; discriminate. }
    assert (forall w t, path E 0 w t -> w = [] \/ w = [EEmpty] /\ t = 1) as X0.
    { intros w t P. inversion P as [|? y ? ? I P'|? e y ? w' N I P']; subst; [auto| |]; apply HE in I; destruct I as [_ [-> I]]; apply X1 in P'; destruct P' as [-> ->]; [auto|]. destruct I as [->| ->]; [congruence|auto]. }
    assert (path E 0 [] 1) as Y0 by (eapply p_eps; [left; reflexivity|constructor]). assert (path E 0 [EEmpty] 1) as Y1 by (eapply p_ev; [discriminate|right; left; reflexivity|constructor]).
    split; [intros w; rewrite H1|intros w NI; rewrite (H2 w NI)].
    + split; [intros P; apply X0 in P; tauto|intros [->| ->]; assumption].
    + split; [intros [t P]; apply X0 in P; tauto|intros [->| ->]; eauto].
Qed.
(** The automaton that goes with a declaration. *)
Definition model_ok (s : spec) (t : option dfa) : Prop :=
  match s with
  | DAny => t = None
  | DEmpty => exists d, t = Some d /\ (forall w, accepts d w = true <-> w = [] \/ w = [EEmpty]) /\ (forall w, ~ In EFinal w -> walk d 0 w <> None <-> w = [] \/ w = [EEmpty])
  | DContent c => exists d, t = Some d /\ compile (@order) c = Ok d /\ (forall w, accepts d w = true <-> matches c w) /\ (forall w, ~ In EFinal w -> walk d 0 w <> None -> forall e, In e w -> occurs e c) /\
      (inhabited c -> forall w, ~ In EFinal w -> walk d 0 w <> None <-> exists v, matches c (w ++ v))
  end.
Lemma element_model_ok s : proper_spec s -> exists t, element_model (@order) s = Ok t /\ model_ok s t.
Proof.
  destruct s as [| |c]; cbn [proper_spec]; intros P.
  - exists None. cbn. auto.
  - destruct empty_spec as [d [R H]]. exists (Some d). split; [exact R|]. exists d. auto.
  - destruct (compile_spec (@order) order_perm c P) as [d [R H]]. exists (Some d). cbn [element_model]. rewrite R. split; [reflexivity|]. exists d. auto.
Qed.
Definition declared_as (v : validator) (ds : list (str * spec)) : Prop := forall n,
  match declaration ds n with
  | Some s => exists t, find_element (v_elements v) n = Some t /\ model_ok s t
  | None => find_element (v_elements v) n = None
  end.
Lemma declaration_app a b n : declaration (a ++ b) n = match declaration a n with Some s => Some s | None => declaration b n end.
Proof. induction a as [|[x s] a IH]; cbn; [reflexivity|]. destruct (str_eqb x n); auto. Qed.
Lemma declare_element_spec v before n s : proper_spec s -> declared_as v before -> exists v', declare_element (@order) v (n, s) = Ok v' /\ declared_as v' (before ++ [(n, s)]) /\ v_context v' = v_context v /\ v_free v' = v_free v.
Proof.
  intros P D. unfold declare_element. cbn [fst snd]. destruct (element_model_ok s P) as [t [R M]]. rewrite R. cbn [bind]. exists (add_element_type v n t). split; [reflexivity|]. unfold add_element_type.
  split; [|destruct (find_element (v_elements v) n); auto]. intros x. rewrite declaration_app. pose proof (D n) as Dn. pose proof (D x) as Dx. destruct (find_element (v_elements v) n) as [t'|] eqn:F.
  - destruct (declaration before x) as [sx|] eqn:Ex; [exact Dx|]. cbn. destruct (str_eqb n x) eqn:E; [|exact Dx]. apply str_eqb_eq in E. subst x. congruence.
  - cbn [v_elements]. rewrite find_element_app. cbn [find_element declaration]. destruct (declaration before x) as [sx|].
    + destruct Dx as [tx [-> Mx]]. eauto.
    + rewrite Dx. destruct (str_eqb n x); [eauto|reflexivity].
Qed.
Lemma declare_elements_spec ds : Forall (fun d => proper_spec (snd d)) ds -> forall v before, declared_as v before ->
  exists v', declare_elements (@order) v ds = Ok v' /\ declared_as v' (before ++ ds) /\ v_context v' = v_context v /\ v_free v' = v_free v.
Proof.
  induction 1 as [|[n s] ds P F IH]; intros v before D; cbn [declare_elements].
  - exists v. rewrite app_nil_r. auto.
  - destruct (declare_element_spec v before n s P D) as [v1 [R1 [D1 [C1 F1]]]]. rewrite R1. cbn [bind]. destruct (IH v1 _ D1) as [v2 [R2 [D2 [C2 F2]]]]. exists v2. rewrite <- app_assoc in D2. cbn in D2. split; [exact R2|]. split; [exact D2|]. split; congruence.
Qed.

(** ** The context stack *)
Definition step_state (st : pstate) (e : event) : pstate := match st with Some (d, k) => match lookup (nth k d []) e with Some k' => Some (d, k') | None => st end | None => None end.
Definition step_ok (st : pstate) (e : event) : bool := match st with Some (d, k) => match lookup (nth k d []) e with Some _ => true | None => false end | None => true end.
Definition with_top (cs : list context) (f : pstate -> pstate) : list context := match cs with [] => [] | c :: cs' => {| c_element := c_element c; c_state := f (c_state c) |} :: cs' end.
Definition top_state (cs : list context) : pstate := match cs with [] => None | c :: _ => c_state c end.
Lemma validate_event_spec v e : validate_event v e = ({| v_elements := v_elements v; v_context := with_top (v_context v) (fun st => step_state st e); v_free := v_free v |}, step_ok (top_state (v_context v)) e).
Proof.
  unfold validate_event, transit_event. destruct v as [el cs fr]. cbn. destruct cs as [|[t st] cs]; [reflexivity|]. cbn. destruct st as [[d k]|]; cbn; [|reflexivity]. destruct (lookup (nth k d []) e); reflexivity.
Qed.
Lemma check_event_spec v e : check_event v e = (v, step_ok (top_state (v_context v)) e).
Proof. unfold check_event, transit_event. destruct (v_context v) as [|c cs]; [reflexivity|]. cbn. destruct (c_state c) as [[d k]|]; [|reflexivity]. cbn. destruct (lookup (nth k d []) e); reflexivity. Qed.
Lemma text_event_keeps v ws keep : fst (text_event v ws keep) = v.
Proof. unfold text_event. rewrite !check_event_spec. destruct (ws && negb keep); [reflexivity|]. destruct (step_ok (top_state (v_context v)) EPcdata), ws; reflexivity. Qed.
Fixpoint validate_kids (v : validator) (l : list node) : validator * list report :=
  match l with [] => (v, []) | y :: l' => let '(v1, r) := validate_node v y in let '(v2, rs) := validate_kids v1 l' in (v2, r :: rs) end.
Lemma validate_nodes_eq v l : validate_nodes v l = validate_kids v l.
Proof. revert v; induction l as [|y l IH]; intros v; cbn; [reflexivity|]. destruct (validate_node v y). now rewrite IH. Qed.
Lemma validate_node_eq v n kids : validate_node v (Elem n kids) =
  let '(v1, a) := validate_event v (EName n) in
  let '(v2, dcl) := start_element v1 n in
  let '(v3, rs) := validate_kids v2 kids in
  let '(v4, cmp) := end_element v3 in (v4, RElem a dcl rs cmp).
Proof.
  cbn [validate_node]. destruct (validate_event v (EName n)) as [v1 a]. destruct (start_element v1 n) as [v2 dcl].
  match goal with |- context [let '(v, rs) := ?F v2 kids in _] => assert (F v2 kids = validate_kids v2 kids) as -> end; [|reflexivity].
  generalize v2 as v0. induction kids as [|y l IH]; intros v0; cbn; [reflexivity|]. destruct (validate_node v0 y) as [v' r]. now rewrite IH.
Qed.
Fixpoint run_names (st : pstate) (ns : list str) : pstate * list bool :=
  match ns with [] => (st, []) | n :: ns' => let '(st', bs) := run_names (step_state st (EName n)) ns' in (st', step_ok st (EName n) :: bs) end.
Lemma node_rect' (P : node -> Prop) : (forall ws keep, P (Text ws keep)) -> (forall n kids, Forall P kids -> P (Elem n kids)) -> forall x, P x.
Proof. intros H1 H2. fix IH 1. intros [n kids|ws keep]; [apply H2|apply H1]. induction kids as [|x l IHl]; constructor; [apply IH|exact IHl]. Qed.

Definition start_state (v : validator) (n : str) : pstate :=
  match find_element (v_elements v) n with Some (Some d) => Some (d, 0) | Some None => None | None => match v_free v with c :: _ => c_state c | [] => None end end.
Lemma start_element_spec v n : exists fr, start_element v n =
  ({| v_elements := v_elements v; v_context := {| c_element := find_element (v_elements v) n; c_state := start_state v n |} :: v_context v; v_free := fr |}, match find_element (v_elements v) n with Some _ => true | None => false end).
Proof. unfold start_element, start_state. destruct (v_free v) as [|c fr]; eexists; destruct (find_element (v_elements v) n) as [[d|]|]; reflexivity. Qed.
Lemma end_element_spec v c cs : v_context v = c :: cs -> exists fr, end_element v = ({| v_elements := v_elements v; v_context := cs; v_free := fr |}, step_ok (c_state c) EFinal).
Proof. intros E. unfold end_element. rewrite E, validate_event_spec. rewrite E. cbn. eexists. reflexivity. Qed.

Section Ds.
Variable ds : list (str * spec).
Lemma with_top_id cs : with_top cs (fun st => st) = cs.
Proof. destruct cs as [|[t st] cs]; reflexivity. Qed.
Definition kid_accepts (rs : list report) (kids : list node) : list bool := flat_map (fun p => match fst p with Elem _ _ => [accepted (snd p)] | Text _ _ => [] end) (combine kids rs).

Definition accepts_kids (st : pstate) (ns : list str) : bool := forallb (fun b => b) (snd (run_names st ns)).
Lemma accepts_kids_walk d k ns : accepts_kids (Some (d, k)) ns = match walk d k (map EName ns) with Some _ => true | None => false end.
Proof.
  unfold accepts_kids. revert k. induction ns as [|n ns IH]; intros k; cbn [run_names map walk]; [reflexivity|]. cbn [step_state step_ok].
  destruct (lookup (nth k d []) (EName n)) as [k'|]; destruct (run_names _ ns) eqn:R; cbn [snd forallb andb]; [|reflexivity]. rewrite <- IH, R. reflexivity.
Qed.
Lemma final_walk d k ns k' : walk d k (map EName ns) = Some k' -> fst (run_names (Some (d, k)) ns) = Some (d, k').
Proof.
  revert k. induction ns as [|n ns IH]; intros k; cbn [run_names map walk]; [intros [= ->]; reflexivity|]. cbn [step_state]. destruct (lookup (nth k d []) (EName n)) as [k1|]; [|discriminate].
  intros H. specialize (IH k1 H). destruct (run_names (Some (d, k1)) ns). exact IH.
Qed.
Lemma walk_app d k a b : walk d k (a ++ b) = match walk d k a with Some k' => walk d k' b | None => None end.
Proof. revert k. induction a as [|e a IH]; intros k; cbn; [reflexivity|]. destruct (lookup (nth k d []) e); auto. Qed.
Lemma verdict_accepts d ns : accepts_kids (Some (d, 0)) ns && step_ok (fst (run_names (Some (d, 0)) ns)) EFinal = accepts d (map EName ns).
Proof.
  rewrite accepts_kids_walk. unfold accepts. rewrite walk_app. destruct (walk d 0 (map EName ns)) as [k|] eqn:W; [|reflexivity]. rewrite (final_walk _ _ _ _ W). cbn. destruct (lookup (nth k d []) EFinal); reflexivity.
Qed.
Lemma run_names_none ns : run_names None ns = (None, map (fun _ => true) ns).
Proof. induction ns as [|n ns IH]; cbn; [reflexivity|]. now rewrite IH. Qed.
Lemma verdict_spec s t ns : model_ok s t ->
  let st := match t with Some d => Some (d, 0) | None => None end in
  accepts_kids st ns && step_ok (fst (run_names st ns)) EFinal = true <-> allowed s ns.
Proof.
  destruct s as [| |c]; cbn [model_ok allowed].
  - intros ->. unfold accepts_kids. rewrite run_names_none. cbn. split; [auto|]. intros _. rewrite andb_true_r. induction ns; auto.
  - intros [d [-> [H _]]]. cbv zeta. rewrite verdict_accepts, H. destruct ns as [|n ns]; cbn; split; intros; try tauto; try discriminate. destruct H0; discriminate.
  - intros [d [-> [_ [H _]]]]. cbv zeta. rewrite verdict_accepts. apply H.
Qed.

Lemma start_spec s t ns : model_ok s t -> inhabited_spec s -> accepts_kids (match t with Some d => Some (d, 0) | None => None end) ns = true <-> may_start s ns.
Proof.
  assert (forall ns, ~ In EFinal (map EName ns)) as NF by (intros l I; apply in_map_iff in I; destruct I as [x [C _]]; discriminate).
  assert (forall d, accepts_kids (Some (d, 0)) ns = true <-> walk d 0 (map EName ns) <> None) as X by (intros d; rewrite accepts_kids_walk; destruct (walk d 0 (map EName ns)); split; congruence).
  destruct s as [| |c]; cbn [model_ok may_start inhabited_spec]; intros M IH.
  - subst t. unfold accepts_kids. rewrite run_names_none. split; [auto|]. intros _. cbn. clear. induction ns; auto.
  - destruct M as [d [-> [_ H]]]. rewrite X, (H _ (NF ns)). destruct ns as [|n ns]; cbn; [tauto|]. split; [intros [C|C]; discriminate|discriminate].
  - destruct M as [d [-> [_ [_ [_ H]]]]]. rewrite X. apply (H IH _ (NF ns)).
Qed.
Lemma validate_kids_app v a b : snd (validate_kids v (a ++ b)) = snd (validate_kids v a) ++ snd (validate_kids (fst (validate_kids v a)) b) .
Proof. revert v. induction a as [|x a IH]; intros v; cbn; [reflexivity|]. destruct (validate_node v x) as [v1 r]. specialize (IH v1). destruct (validate_kids v1 (a ++ b)), (validate_kids v1 a) as [v2 rs]. cbn in *. now rewrite IH. Qed.
Lemma validate_kids_length v a : length (snd (validate_kids v a)) = length a.
Proof. revert v. induction a as [|x a IH]; intros v; cbn; [reflexivity|]. destruct (validate_node v x) as [v1 r]. specialize (IH v1). destruct (validate_kids v1 a). cbn in *. now rewrite IH. Qed.
Definition node_ok (x : node) : Prop := forall v, declared_as v ds ->
  let r := validate_node v x in
  v_elements (fst r) = v_elements v /\
  v_context (fst r) = with_top (v_context v) (fun st => match x with Elem n _ => step_state st (EName n) | Text _ _ => st end) /\
  accepted (snd r) = (match x with Elem n _ => step_ok (top_state (v_context v)) (EName n) | Text _ _ => true end) /\
  judged ds x (snd r).
Lemma kids_ok kids : Forall node_ok kids -> forall v, declared_as v ds -> let r := validate_kids v kids in
  v_elements (fst r) = v_elements v /\ v_context (fst r) = with_top (v_context v) (fun st => fst (run_names st (names_of kids))) /\
  forallb accepted (snd r) = accepts_kids (top_state (v_context v)) (names_of kids) /\ Forall2 (judged ds) kids (snd r).
Proof.
  induction 1 as [|x kids Hx IH IHk]; intros v D; cbn [validate_kids].
  - cbn. rewrite with_top_id. repeat split. constructor.
  - destruct (Hx v D) as [E1 [C1 [A1 J1]]]. destruct (validate_node v x) as [v1 r]. cbn [fst snd] in *.
    assert (declared_as v1 ds) as D1 by (intros m; rewrite E1; apply D). destruct (IHk v1 D1) as [E2 [C2 [A2 J2]]]. destruct (validate_kids v1 kids) as [v2 rs]. cbn [fst snd] in *.
    split; [congruence|]. split; [|split; [|constructor; assumption]].
    + rewrite C2, C1. destruct (v_context v) as [|[t st] cs]; [reflexivity|]. cbn. destruct x as [m ks|ws keep]; cbn; [|reflexivity]. unfold names_of. destruct (run_names (step_state st (EName m)) _); reflexivity.
    + cbn [forallb]. rewrite A1, A2, C1. unfold accepts_kids. destruct x as [m ks|ws keep]; cbn [names_of flat_map app run_names].
      * fold (names_of kids). destruct (v_context v) as [|[t st] cs]; cbn [with_top top_state c_state].
        -- cbn [step_state step_ok]. rewrite !run_names_none. reflexivity.
        -- destruct (run_names (step_state st (EName m)) (names_of kids)); reflexivity.
      * rewrite with_top_id. reflexivity.
Qed.
Lemma element_ok n kids a v : Forall node_ok kids -> declared_as v ds ->
  let '(v2, dcl) := start_element v n in let '(v3, rs) := validate_kids v2 kids in let '(v4, cmp) := end_element v3 in
  v_elements v4 = v_elements v /\ v_context v4 = v_context v /\ judged ds (Elem n kids) (RElem a dcl rs cmp).
Proof.
  intros HK D. destruct (start_element_spec v n) as [fr R2]. rewrite R2. set (v2 := {| v_elements := v_elements v; v_context := _ :: v_context v; v_free := fr |}).
  assert (declared_as v2 ds) as D2 by (intros m; apply D). destruct (kids_ok kids HK v2 D2) as [E3 [C3 [A3 J3]]].
  assert (forall k1 k2, kids = k1 ++ k2 -> forallb accepted (snd (validate_kids v2 k1)) = accepts_kids (top_state (v_context v2)) (names_of k1)) as KP.
  { intros k1 k2 Ek. rewrite Ek in HK. apply Forall_app in HK. apply (kids_ok k1 (proj1 HK) v2 D2). }
  assert (forall k1 k2, kids = k1 ++ k2 -> snd (validate_kids v2 kids) = snd (validate_kids v2 k1) ++ snd (validate_kids (fst (validate_kids v2 k1)) k2)) as VA' by (intros k1 k2 ->; apply validate_kids_app).
  destruct (validate_kids v2 kids) as [v3 rs]. cbn [fst snd] in *.
  destruct (end_element_spec v3 _ _ C3) as [fr' R4]. rewrite R4. cbn [fst snd v_elements v_context accepted]. split; [rewrite E3; reflexivity|]. split; [reflexivity|].
  constructor; [| | |exact J3].
  - pose proof (D n) as Dn. destruct (declaration ds n) as [s|]; [destruct Dn as [t [-> _]]; split; congruence|rewrite Dn; split; congruence].
  - intros s Es. pose proof (D n) as Dn. rewrite Es in Dn. destruct Dn as [t [F M]]. rewrite A3. cbn [top_state v2 v_context c_state]. unfold start_state. rewrite F. pose proof (verdict_spec s t (names_of kids) M) as V. cbv zeta in V. rewrite <- V.
    destruct t as [d|]; reflexivity.
  - intros s k1 k2 r1 r2 Es IS Ek Er Le. pose proof (D n) as Dn. rewrite Es in Dn. destruct Dn as [t [F M]]. pose proof (VA' k1 k2 Ek) as V. rewrite Er in V. assert (r1 = snd (validate_kids v2 k1)) as ->.
    { apply (f_equal (firstn (length k1))) in V. rewrite Le in V at 1. rewrite firstn_app, Nat.sub_diag, firstn_all in V. cbn [firstn] in V. rewrite app_nil_r in V. rewrite V. rewrite <- (validate_kids_length v2 k1) at 1. rewrite firstn_app, Nat.sub_diag, firstn_all. cbn. apply app_nil_r. }
    rewrite (KP k1 k2 Ek). cbn [top_state v2 v_context c_state]. unfold start_state. rewrite F. rewrite <- (start_spec s t (names_of k1) M IS). destruct t; reflexivity.
Qed.
Lemma validate_node_spec : forall x, node_ok x.
Proof.
  induction x as [ws keep|n kids IH] using node_rect'; intros v D.
  - cbn [validate_node]. pose proof (text_event_keeps v ws keep) as K. destruct (text_event v ws keep) as [v' o]. cbn in K. subst v'. cbn. rewrite with_top_id. repeat split. constructor.
  - rewrite validate_node_eq, validate_event_spec. cbv zeta.
    set (v1 := {| v_elements := v_elements v; v_context := with_top (v_context v) (fun st => step_state st (EName n)); v_free := v_free v |}).
    pose proof (element_ok n kids (step_ok (top_state (v_context v)) (EName n)) v1 IH D) as H. destruct (start_element v1 n) as [v2 dcl]. destruct (validate_kids v2 kids) as [v3 rs]. destruct (end_element v3) as [v4 cmp].
    destruct H as [H1 [H2 H3]]. cbn [fst snd]. split; [exact H1|]. split; [exact H2|]. split; [reflexivity|exact H3].
Qed.
End Ds.
Lemma judged_no_errors ds x r : judged ds x r -> (no_errors r = true <-> accepted r = true /\ valid ds x).
Proof.
  revert r. induction x as [ws keep|n kids IH] using node_rect'; intros r J; inversion J as [? ? o|? ? a dcl rs cmp Hd Hs Hp HF]; subst.
  - cbn. split; [split; [reflexivity|constructor]|reflexivity].
  - cbn [no_errors accepted]. rewrite !andb_true_iff.
    assert (forallb no_errors rs = true <-> forallb accepted rs = true /\ Forall (valid ds) kids) as X.
    { clear J Hs Hp. induction HF as [|x r kids rs Jx HF IHf]; cbn; [repeat split; constructor|]. inversion_clear IH as [|? ? Hx Hk]. rewrite !andb_true_iff, (Hx r Jx), (IHf Hk). split.
      - intros [[A V] [B W]]. auto.
      - intros [[A B] V]. inversion_clear V. auto. }
    rewrite X. split.
    + intros [[[A D] [B V]] C]. split; [exact A|]. destruct (declaration ds n) as [s|] eqn:E; [|exfalso; apply Hd in D; congruence]. apply (v_elem ds n kids s E); [|exact V]. apply (Hs s eq_refl). now rewrite B, C.
    + intros [A V]. inversion V as [|? ? s E Al Vk]; subst. pose proof (proj2 (Hs s E) Al) as H. apply andb_true_iff in H. destruct H as [B C]. repeat split; auto. apply Hd. congruence.
Qed.
Theorem validate_document_spec ds doctype root kids : Forall (fun d => proper_spec (snd d)) ds ->
  exists dcl rs cmp, validate_document (@order) ds doctype root kids = Ok (RElem (str_eqb doctype root) dcl rs cmp) /\ judged ds (Elem root kids) (RElem (str_eqb doctype root) dcl rs cmp).
Proof.
  intros P. unfold validate_document. destruct (declare_elements_spec ds P new_validator []) as [v [R [D [C F]]]]; [intros n; reflexivity|]. rewrite R. cbn [bind app] in *.
  destruct (start_element_spec v doctype) as [fr R1]. rewrite R1. set (v1 := {| v_elements := v_elements v; v_context := _; v_free := fr |}).
  assert (declared_as v1 ds) as D1 by (intros m; apply D).
  assert (Forall (node_ok ds) kids) as HK by (apply Forall_forall; intros x _; apply validate_node_spec).
  pose proof (element_ok ds root kids (str_eqb doctype root) v1 HK D1) as H. destruct (start_element v1 root) as [v2 dcl]. rewrite validate_nodes_eq. destruct (validate_kids v2 kids) as [v3 rs]. destruct (end_element v3) as [v4 cmp].
  exists dcl, rs, cmp. split; [reflexivity|apply H].
Qed.

(** ** Text *)
Lemma run_names_reach d ns : exists ns' k, fst (run_names (Some (d, 0)) ns) = Some (d, k) /\ walk d 0 (map EName ns') = Some k.
Proof.
  enough (forall ns a k, walk d 0 (map EName a) = Some k -> exists ns' k', fst (run_names (Some (d, k)) ns) = Some (d, k') /\ walk d 0 (map EName ns') = Some k') as X by (apply (X ns [] 0); reflexivity).
  clear ns. induction ns as [|n ns IH]; intros a k W; cbn [run_names]; [exists a, k; auto|]. cbn [step_state]. destruct (lookup (nth k d []) (EName n)) as [k1|] eqn:L.
  - destruct (IH (a ++ [n]) k1) as [ns' [k' [H1 H2]]]; [rewrite map_app, walk_app, W; cbn; now rewrite L|]. exists ns', k'. destruct (run_names (Some (d, k1)) ns). auto.
  - destruct (IH a k W) as [ns' [k' [H1 H2]]]. exists ns', k'. destruct (run_names (Some (d, k)) ns). auto.
Qed.
Lemma names_not_final ns e : e <> EFinal -> ~ In EFinal (map EName ns ++ [e]).
Proof. intros N I. apply in_app_iff in I. destruct I as [I|[I|[]]]; [|congruence]. apply in_map_iff in I. destruct I as [x [C _]]. discriminate. Qed.
Lemma state_event d ns k e : walk d 0 (map EName ns) = Some k -> step_ok (Some (d, k)) e = true <-> walk d 0 (map EName ns ++ [e]) <> None.
Proof. intros W. rewrite walk_app, W. cbn. destruct (lookup (nth k d []) e); split; congruence. Qed.
Lemma times_all q l ws : (forall w, In w ws -> once (CMixed q l) w) -> times (CMixed q l) (concat ws).
Proof. induction ws as [|w ws IH]; cbn; intros H; constructor; auto. Qed.
Lemma text_state s t ns : xml_spec s -> model_ok s t ->
  let st := fst (run_names (match t with Some d => Some (d, 0) | None => None end) ns) in
  match s with
  | DAny => step_ok st EEmpty = true /\ step_ok st EPcdata = true
  | DEmpty => step_ok st EEmpty = true /\ step_ok st EPcdata = false
  | DContent (CMixed _ _) => step_ok st EEmpty = false /\ step_ok st EPcdata = true
  | DContent _ => step_ok st EEmpty = false /\ step_ok st EPcdata = false
  end.
Proof.
  intros X. destruct s as [| |c]; cbn [model_ok].
  - intros ->. rewrite run_names_none. auto.
  - intros [d [-> [_ H]]]. destruct (run_names_reach d ns) as [ns' [k [R W]]]. cbv zeta. rewrite R. assert (ns' = []) as ->.
    { assert (walk d 0 (map EName ns') <> None) as W' by congruence. apply H in W'; [|intros I; apply in_map_iff in I; destruct I as [x [C _]]; discriminate]. destruct ns' as [|x ns']; [reflexivity|]. destruct W'; discriminate. }
    split.
    + apply (state_event d [] k EEmpty W). apply H; [apply (names_not_final []); discriminate|auto].
    + destruct (step_ok (Some (d, k)) EPcdata) eqn:E; [|reflexivity]. apply (state_event d [] k EPcdata W) in E. apply H in E; [|apply (names_not_final []); discriminate]. destruct E; discriminate.
  - intros [d [-> [_ [H [O _]]]]]. destruct (run_names_reach d ns) as [ns' [k [R W]]]. cbv zeta. rewrite R.
    assert (step_ok (Some (d, k)) EEmpty = false) as HE.
    { destruct (step_ok (Some (d, k)) EEmpty) eqn:E; [|reflexivity]. apply (state_event d ns' k EEmpty W) in E. apply (O _ (names_not_final ns' EEmpty ltac:(discriminate))) with (e := EEmpty) in E; [|apply in_app_iff; right; now left].
      apply occurs_plain in E. destruct E as [E|[n E]]; discriminate. }
    assert (element_content c -> step_ok (Some (d, k)) EPcdata = false) as HP.
    { intros EC. destruct (step_ok (Some (d, k)) EPcdata) eqn:E; [|reflexivity]. apply (state_event d ns' k EPcdata W) in E. apply (O _ (names_not_final ns' EPcdata ltac:(discriminate))) with (e := EPcdata) in E; [|apply in_app_iff; right; now left].
      now apply element_content_text in E. }
    destruct c as [q n|q l|q l|q l]; try (split; [exact HE|apply HP; exact X]). split; [exact HE|]. destruct X as [-> X]. apply (state_event d ns' k EPcdata W).
    assert (accepts d (map EName ns' ++ [EPcdata]) = true) as A.
    { apply H. apply m_rep; [reflexivity|]. replace (map EName ns' ++ [EPcdata]) with (concat (map (fun x => [x]) (map EName ns' ++ [EPcdata]))) by (generalize (map EName ns' ++ [EPcdata]); intros z; induction z; cbn; congruence).
      apply times_all. intros w I. apply in_map_iff in I. destruct I as [e [<- I]]. apply in_app_iff in I. destruct I as [I|[<-|[]]]; [|apply once_text].
      assert (walk d 0 (map EName ns') <> None) as W' by congruence. assert (occurs e (CMixed Rep l)) as Oe. { eapply O; [|exact W'|exact I]. intros J. apply in_map_iff in J. destruct J as [x [C _]]. discriminate. }
      apply in_map_iff in I. destruct I as [n [<- _]]. inversion Oe as [| | | |? ? x Ix Ox]; subst; [discriminate|]. destruct (X x Ix) as [m ->]. inversion Ox as [? ? C| | | |]; subst. injection C as <-. eapply once_mixed; [exact Ix|]. apply m_one; [reflexivity|constructor]. }
    unfold accepts in A. rewrite walk_app in A. destruct (walk d 0 (map EName ns' ++ [EPcdata])); [discriminate|congruence].
Qed.
Definition spec_start (t : option dfa) : pstate := match t with Some d => Some (d, 0) | None => None end.
Lemma text_event_spec s t ns v c cs ws keep : xml_spec s -> model_ok s t -> v_context v = c :: cs -> c_element c = Some t -> c_state c = fst (run_names (spec_start t) ns) ->
  text_verdict s (Text ws keep) (RText (snd (text_event v ws keep))).
Proof.
  intros X M Ec Et Es. pose proof (text_state s t ns X M) as H. cbv zeta in H. fold (spec_start t) in H. rewrite <- Es in H. cbn [text_verdict]. unfold text_event, report_text. rewrite !check_event_spec, Ec, Et. cbn [top_state].
  destruct s as [| |c0]; [|destruct H as [-> ->]|destruct c0; destruct H as [-> ->]]; cbn [text_spec].
  1: destruct H as [-> ->]. all: destruct ws, keep; cbn; auto.
Qed.
Lemma run_names_app st a b : fst (run_names st (a ++ b)) = fst (run_names (fst (run_names st a)) b).
Proof. revert st. induction a as [|n a IH]; intros st; cbn; [reflexivity|]. specialize (IH (step_state st (EName n))). destruct (run_names (step_state st (EName n)) (a ++ b)), (run_names (step_state st (EName n)) a). exact IH. Qed.
Lemma kids_text ds s t kids : xml_spec s -> model_ok s t -> forall ns v c cs, declared_as v ds -> v_context v = c :: cs -> c_element c = Some t -> c_state c = fst (run_names (spec_start t) ns) ->
  Forall2 (text_verdict s) kids (snd (validate_kids v kids)).
Proof.
  intros X M. induction kids as [|x kids IH]; intros ns v c cs D Ec Et Es; cbn [validate_kids]; [constructor|]. pose proof (validate_node_spec ds x v D) as [E1 [C1 [_ J]]].
  assert (text_verdict s x (snd (validate_node v x))) as TV. { destruct x as [n ks|ws keep]; [exact I|]. cbn [validate_node]. pose proof (text_event_spec s t ns v c cs ws keep X M Ec Et Es) as H. destruct (text_event v ws keep). exact H. }
  destruct (validate_node v x) as [v1 r]. cbn [fst snd] in *. rewrite Ec in C1. cbn [with_top] in C1.
  assert (declared_as v1 ds) as D1 by (intros m; rewrite E1; apply D).
  specialize (IH (ns ++ match x with Elem n _ => [n] | Text _ _ => [] end) v1 _ _ D1 C1 Et).
  destruct (validate_kids v1 kids) as [v2 rs]. cbn [fst snd] in *. constructor; [exact TV|]. apply IH. cbn [c_state]. rewrite run_names_app, <- Es. destruct x; reflexivity.
Qed.
Lemma kids_texts ds kids : Forall (fun x => forall v, declared_as v ds -> texts_judged ds x (snd (validate_node v x))) kids -> forall v, declared_as v ds -> Forall2 (texts_judged ds) kids (snd (validate_kids v kids)).
Proof.
  induction 1 as [|x kids Hx F IH]; intros v D; cbn [validate_kids]; [constructor|]. pose proof (validate_node_spec ds x v D) as [E1 _]. specialize (Hx v D). destruct (validate_node v x) as [v1 r]. cbn [fst snd] in *.
  assert (declared_as v1 ds) as D1 by (intros m; rewrite E1; apply D). specialize (IH v1 D1). destruct (validate_kids v1 kids) as [v2 rs]. constructor; assumption.
Qed.
Lemma element_texts ds n kids a v : Forall (fun x => forall v, declared_as v ds -> texts_judged ds x (snd (validate_node v x))) kids -> declared_as v ds ->
  let '(v2, dcl) := start_element v n in let '(v3, rs) := validate_kids v2 kids in let '(v4, cmp) := end_element v3 in texts_judged ds (Elem n kids) (RElem a dcl rs cmp).
Proof.
  intros F D. destruct (start_element_spec v n) as [fr R2]. rewrite R2. set (v2 := {| v_elements := v_elements v; v_context := _ :: v_context v; v_free := fr |}). assert (declared_as v2 ds) as D2 by (intros m; apply D).
  pose proof (kids_texts ds kids F v2 D2) as T. pose proof (fun s t X M => kids_text ds s t kids X M [] v2 _ _ D2 eq_refl) as K. destruct (validate_kids v2 kids) as [v3 rs]. destruct (end_element v3) as [v4 cmp]. cbn [snd] in *. constructor; [|exact T].
  intros s Es X. pose proof (D n) as Dn. rewrite Es in Dn. destruct Dn as [t [Ft M]]. apply (K s t X M); cbn [c_element c_state]; [exact Ft|]. unfold start_state, spec_start. rewrite Ft. destruct t; reflexivity.
Qed.
Theorem validate_texts ds x : forall v, declared_as v ds -> texts_judged ds x (snd (validate_node v x)).
Proof.
  induction x as [ws keep|n kids IH] using node_rect'; intros v D; [cbn [validate_node]; destruct (text_event v ws keep); constructor|]. rewrite validate_node_eq, validate_event_spec. cbv zeta.
  set (v1 := {| v_elements := v_elements v; v_context := with_top (v_context v) (fun st => step_state st (EName n)); v_free := v_free v |}).
  pose proof (element_texts ds n kids (step_ok (top_state (v_context v)) (EName n)) v1 IH D) as H. destruct (start_element v1 n) as [v2 dcl]. destruct (validate_kids v2 kids) as [v3 rs]. destruct (end_element v3) as [v4 cmp]. exact H.
Qed.
Theorem validate_document_texts ds doctype root kids r : Forall (fun d => proper_spec (snd d)) ds -> validate_document (@order) ds doctype root kids = Ok r -> texts_judged ds (Elem root kids) r.
Proof.
  intros P. unfold validate_document. destruct (declare_elements_spec ds P new_validator []) as [v [R [D [C F]]]]; [intros n; reflexivity|]. rewrite R. cbn [bind app] in *.
  destruct (start_element_spec v doctype) as [fr R1]. rewrite R1. set (v1 := {| v_elements := v_elements v; v_context := _; v_free := fr |}).
  assert (declared_as v1 ds) as D1 by (intros m; apply D).
  pose proof (element_texts ds root kids (str_eqb doctype root) v1 ltac:(apply Forall_forall; intros x _; apply validate_texts) D1) as H. destruct (start_element v1 root) as [v2 dcl]. rewrite validate_nodes_eq. destruct (validate_kids v2 kids) as [v3 rs]. destruct (end_element v3) as [v4 cmp].
  intros [= <-]. exact H.
Qed.
End Order.
