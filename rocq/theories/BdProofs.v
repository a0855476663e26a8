(** * Proofs about the bindery *)
From Coq Require Import NArith ZArith String List Bool Lia Arith FinFun.
From Verif Require Import PyStr PyErr BdModel BdSpec.
Import ListNotations.
Open Scope N_scope.

Lemma ostr_eq_spec : forall a b, reflect (a = b) (ostr_eq a b).
Proof. intros [a|] [b|]; cbn; try (constructor; congruence). destruct (str_eqb_spec a b); constructor; congruence. Qed.
Lemma name_eqb_spec : forall a b, reflect (a = b) (name_eqb a b).
Proof.
  intros [u l] [v m]. unfold name_eqb. cbn [fst snd]. destruct (ostr_eq_spec u v); [|constructor; congruence].
  destruct (str_eqb_spec l m); constructor; congruence.
Qed.
Lemma cls_eqb_spec : forall a b, reflect (a = b) (cls_eqb a b).
Proof.
  intros [f|f n] [g|g m]; cbn; try (constructor; congruence).
  - destruct (Nat.eqb_spec f g); constructor; congruence.
  - destruct (Nat.eqb_spec f g); [|constructor; congruence]. destruct (name_eqb_spec n m); constructor; congruence.
Qed.
Lemma str_mem_In : forall s l, str_mem s l = true <-> In s l.
Proof.
  intros s l. induction l as [|x l IH]; cbn; [split; [discriminate|tauto]|]. rewrite orb_true_iff, IH.
  destruct (str_eqb_spec s x); split; intuition congruence.
Qed.

(** ** Python names *)
Lemma underscores_ok : forall fuel taken p, 
  (exists p', add_underscores fuel taken p = Ok p' /\ ~ In p' taken /\ exists k, p' = p ++ repeat 95 k) \/
  (add_underscores fuel taken p = Err (OtherError 3) /\ forall k, (k <= fuel)%nat -> In (p ++ repeat 95 k) taken).
Proof.
  induction fuel as [|fuel IH]; intros taken p; cbn [add_underscores]; destruct (str_mem p taken) eqn:E.
  - right. split; [reflexivity|]. intros k Hk. assert (k = O) as -> by lia. rewrite app_nil_r. now apply str_mem_In.
  - left. exists p. split; [reflexivity|]. split; [intro H; apply str_mem_In in H; congruence|]. exists O. now rewrite app_nil_r.
  - destruct (IH taken (p ++ [95])) as [(p' & A & B & k & C)|[A B]].
    + left. exists p'. split; [exact A|]. split; [exact B|]. exists (S k). rewrite C, <- app_assoc. reflexivity.
    + right. split; [exact A|]. intros k Hk. destruct k as [|k]; [rewrite app_nil_r; now apply str_mem_In|].
      specialize (B k ltac:(lia)). rewrite <- app_assoc in B. exact B.
  - left. exists p. split; [reflexivity|]. split; [intro H; apply str_mem_In in H; congruence|]. exists O. now rewrite app_nil_r.
Qed.
Lemma pname_ok : forall exclude local, exists k, pname exclude local = Ok (replace_pat local ++ repeat 95 k) /\ ~ In (replace_pat local ++ repeat 95 k) (reserved_names ++ exclude).
Proof.
  intros exclude local. unfold pname. set (taken := reserved_names ++ exclude).
  destruct (underscores_ok (List.length taken) taken (replace_pat local)) as [(p' & A & B & k & C)|[A B]].
  - exists k. rewrite <- C. auto.
  - exfalso. set (l := map (fun k => replace_pat local ++ repeat 95 k) (seq 0 (S (List.length taken)))).
    assert (HN : NoDup l).
    { apply FinFun.Injective_map_NoDup; [|apply seq_NoDup]. intros a b H. apply app_inv_head in H. apply (f_equal (@List.length N)) in H. now rewrite !repeat_length in H. }
    assert (HI : incl l taken).
    { intros x Hx. apply in_map_iff in Hx as (k & <- & Hk). apply in_seq in Hk. apply B. lia. }
    pose proof (NoDup_incl_length HN HI) as HL. unfold l in HL. rewrite map_length, seq_length in HL. lia.
Qed.
Lemma py_spec : forall exclude local, exists k, py exclude local = replace_pat local ++ repeat 95 k /\ pname exclude local = Ok (py exclude local) /\ ~ In (py exclude local) (reserved_names ++ exclude).
Proof. intros exclude local. destruct (pname_ok exclude local) as (k & A & B). exists k. unfold py. rewrite A. auto. Qed.

(** ** The class dictionaries *)
Lemma lookup_app : forall r c p x, lookup (r ++ [x]) c p = match lookup r c p with Some d => Some d | None => lookup [x] c p end.
Proof. induction r as [|[[c' p'] d] r IH]; intros c p x; [reflexivity|]. cbn [app lookup]. destruct (_ && _); [reflexivity|apply IH]. Qed.
Lemma lookup_In : forall r c p d, lookup r c p = Some d -> In (c, p, d) r.
Proof.
  induction r as [|[[c' p'] d'] r IH]; intros c p d H; [discriminate|]. cbn [lookup] in H.
  destruct (cls_eqb_spec c c') as [<-|]; [|right; now apply IH]. destruct (str_eqb_spec p p') as [<-|]; [|right; now apply IH].
  injection H as <-. now left.
Qed.
Section Inv.
  Variable exclude : list str.
  Local Notation py := (py exclude).
  Local Notation bind_name := (bind_name exclude).
  Definition pyd (d : descr) : str := py (snd (descr_name d)).
  (** [r] binds the names of [b], and names of [u] only. *)
  Definition bound (r : registry) (u b : list (cls * descr)) : Prop :=
    (forall c p d, In (c, p, d) r -> p = pyd d /\ In (c, d) u) /\
    (forall c d, In (c, d) b -> ~ In (pyd d) class_keys -> lookup r c (pyd d) <> None).
  Definition ext (r r' : registry) : Prop := forall c p, lookup r c p <> None -> lookup r' c p <> None.
  Lemma ext_refl : forall r, ext r r.
  Proof. intros r c p H. exact H. Qed.
  Lemma ext_trans : forall a b c, ext a b -> ext b c -> ext a c.
  Proof. intros a b c H1 H2 x p H. auto. Qed.
  Lemma bind_ext : forall r c d, ext r (bind_name r c d).
  Proof.
    intros r c d c' p' H. unfold BdModel.bind_name. destruct (str_mem _ class_keys); [exact H|]. destruct (lookup r c _); [exact H|].
    rewrite lookup_app. destruct (lookup r c' p'); [discriminate|congruence].
  Qed.
  Lemma bind_bound : forall r u b c d, bound r u b -> bound (bind_name r c d) ((c, d) :: u) ((c, d) :: b).
  Proof.
    intros r u b c d [B1 B2]. pose proof (bind_ext r c d) as HX. unfold BdModel.bind_name in *. fold (pyd d) in *.
    destruct (str_mem (pyd d) class_keys) eqn:E.
    - split.
      + intros c' p' d' H. destruct (B1 _ _ _ H). split; [assumption|now right].
      + intros c' d' [[= <- <-]|H] Hk; [apply str_mem_In in E; contradiction|now apply B2].
    - destruct (lookup r c (pyd d)) as [d0|] eqn:L.
      + split.
        * intros c' p' d' H. destruct (B1 _ _ _ H). split; [assumption|now right].
        * intros c' d' [[= <- <-]|H] Hk; [congruence|now apply B2].
      + split.
        * intros c' p' d' H. apply in_app_or in H as [H|[[= <- <- <-]|[]]]; [destruct (B1 _ _ _ H); split; [assumption|now right]|]. split; [reflexivity|now left].
        * intros c' d' [[= <- <-]|H] Hk; [|apply HX; now apply B2]. rewrite lookup_app, L. cbn [lookup].
          destruct (cls_eqb_spec c c); [|congruence]. destruct (str_eqb_spec (pyd d) (pyd d)); [discriminate|congruence].
  Qed.
  Lemma bound_incl : forall r u b u' b', bound r u b -> incl u u' -> incl b' b -> bound r u' b'.
  Proof.
    intros r u b u' b' [B1 B2] H1 H2. split.
    - intros c p d Hi. destruct (B1 _ _ _ Hi). split; [assumption|now apply H1].
    - intros c d Hi. apply B2. now apply H2.
  Qed.
  Definition child_use (c : cls) (k : bnode) : list (cls * descr) := match elem_name k with Some m => [(c, DElem m)] | None => [] end.
  Ltac incl_tac := let x := fresh in intro x; rewrite ?in_app_iff; cbn [In]; tauto.
  Lemma child_ext : forall r c k, ext r (child_inserted exclude r c k).
  Proof. intros r c k. destruct k as [f kk|f nm p a kk|s|s]; try apply ext_refl. apply bind_ext. Qed.
  Lemma child_bound : forall r u b c k, bound r u b -> bound (child_inserted exclude r c k) (child_use c k ++ u) (child_use c k ++ b).
  Proof. intros r u b c k B. destruct k as [f kk|f nm p a kk|s|s]; try exact B. now apply bind_bound. Qed.
  Lemma children_bound : forall c l r u b, bound r u b -> ext r (fold_left (fun r k => child_inserted exclude r c k) l r) /\
    bound (fold_left (fun r k => child_inserted exclude r c k) l r) (flat_map (child_use c) l ++ u) (flat_map (child_use c) l ++ b).
  Proof.
    induction l as [|k l IH]; intros r u b B; [split; [apply ext_refl|exact B]|]. cbn [fold_left flat_map].
    destruct (IH _ _ _ (child_bound _ _ _ c k B)) as [A C]. split; [eapply ext_trans; [apply child_ext|exact A]|].
    eapply bound_incl; [exact C|incl_tac|incl_tac].
  Qed.
  Lemma atts_bound : forall c (l : list (name * str)) r u b, bound r u b -> ext r (fold_left (fun r a => bind_name r c (DAttr (fst a))) l r) /\
    bound (fold_left (fun r a => bind_name r c (DAttr (fst a))) l r) (map (fun a => (c, DAttr (fst a))) l ++ u) (map (fun a => (c, DAttr (fst a))) l ++ b).
  Proof.
    induction l as [|a l IH]; intros r u b B; [split; [apply ext_refl|exact B]|]. cbn [fold_left map].
    destruct (IH _ _ _ (bind_bound _ _ _ c (DAttr (fst a)) B)) as [A C]. split; [eapply ext_trans; [apply bind_ext|exact A]|].
    eapply bound_incl; [exact C|incl_tac|incl_tac].
  Qed.
  Fixpoint build_all (r : registry) (l : list bnode) : result registry :=
    match l with [] => Ok r | k :: l' => do r' <- build exclude r k ; build_all r' l' end.
  Lemma build_elem : forall r f nm p a kids, build exclude r (BElem f nm p a kids) =
    bind (new_element r f nm) (fun _ => bind (build_all (fold_left (fun r a => bind_name r (CElem f nm) (DAttr (fst a))) a r) kids)
      (fun r2 => Ok (fold_left (fun r k => child_inserted exclude r (CElem f nm) k) kids r2))).
  Proof.
    reflexivity.
  Qed.
  Lemma build_doc : forall r f kids, build exclude r (BDoc f kids) =
    bind (build_all r kids) (fun r2 => Ok (fold_left (fun r k => child_inserted exclude r (CDoc f) k) kids r2)).
  Proof.
    reflexivity.
  Qed.
  Section BInd.
    Variable P : bnode -> Prop.
    Hypothesis HD : forall f k, Forall P k -> P (BDoc f k).
    Hypothesis HE : forall f nm p a k, Forall P k -> P (BElem f nm p a k).
    Hypothesis HT : forall s, P (BText s).
    Hypothesis HO : forall s, P (BOther s).
    Fixpoint bnode_ind2 (n : bnode) : P n :=
      let go := fix go l : Forall P l := match l with [] => Forall_nil _ | x :: l' => Forall_cons _ (bnode_ind2 x) (go l') end in
      match n with
      | BDoc f k => HD f k (go k)
      | BElem f nm p a k => HE f nm p a k (go k)
      | BText s => HT s
      | BOther s => HO s
      end.
  End BInd.
  Lemma build_bound : forall n r u b r', bound r u b -> build exclude r n = Ok r' -> ext r r' /\ bound r' (used_in n ++ u) (used_in n ++ b).
  Proof.
    assert (HL : forall l, Forall (fun n => forall r u b r', bound r u b -> build exclude r n = Ok r' -> ext r r' /\ bound r' (used_in n ++ u) (used_in n ++ b)) l ->
      forall r u b r', bound r u b -> build_all r l = Ok r' -> ext r r' /\ bound r' (flat_map used_in l ++ u) (flat_map used_in l ++ b)).
    { induction 1 as [|n l Hn _ IH]; intros r u b r' B E; cbn [build_all flat_map] in *; [injection E as <-; split; [apply ext_refl|exact B]|].
      destruct (build exclude r n) as [r1|e] eqn:E1; [|discriminate]. cbn [bind] in E. destruct (Hn _ _ _ _ B E1) as [X1 B1]. destruct (IH _ _ _ _ B1 E) as [X2 B2].
      split; [eapply ext_trans; eassumption|]. eapply bound_incl; [exact B2|incl_tac|incl_tac]. }
    induction n as [f k IH|f nm p a k IH|s|s] using bnode_ind2; intros r u b r' B E.
    - rewrite build_doc in E. destruct (build_all r k) as [r1|e] eqn:E1; [|discriminate]. cbn [bind] in E. injection E as <-.
      destruct (HL _ IH _ _ _ _ B E1) as [X1 B1]. destruct (children_bound (CDoc f) k _ _ _ B1) as [X2 B2]. split; [eapply ext_trans; eassumption|].
      eapply bound_incl; [exact B2| |]; cbn [used_in]; unfold child_use; incl_tac.
    - rewrite build_elem in E. destruct (new_element r f nm); [|discriminate]. cbn [bind] in E.
      destruct (build_all _ k) as [r1|e] eqn:E1; [|discriminate]. cbn [bind] in E. injection E as <-.
      destruct (atts_bound (CElem f nm) a _ _ _ B) as [X0 B0].
      destruct (HL _ IH _ _ _ _ B0 E1) as [X1 B1]. destruct (children_bound (CElem f nm) k _ _ _ B1) as [X2 B2].
      split; [eapply ext_trans; [exact X0|eapply ext_trans; eassumption]|].
      eapply bound_incl; [exact B2| |]; cbn [used_in]; unfold child_use; incl_tac.
    - injection E as <-. split; [apply ext_refl|exact B].
    - injection E as <-. split; [apply ext_refl|exact B].
  Qed.

  (** ** Operations *)
  Definition good (u : list (cls * descr)) (r : registry) (n : bnode) : Prop := bound r u (used_in n) /\ incl (used_in n) u.
  Lemma class_with_kids : forall n k, class_of (with_kids n k) = class_of n.
  Proof. intros [] k; reflexivity. Qed.
  (** The names in a container are those of its attributes and of its children. *)
  Definition own_uses (n : bnode) : list (cls * descr) := match n with BElem f nm _ a _ => map (fun a => (CElem f nm, DAttr (fst a))) a | _ => [] end.
  Lemma used_container : forall n c x, class_of n = Some c -> (In x (used_in n) <-> In x (own_uses n) \/ exists k, In k (kids_of n) /\ (In x (child_use c k) \/ In x (used_in k))).
  Proof.
    intros n c x H. destruct n as [f k|f nm p a k|s|s]; try discriminate; injection H as <-; cbn [used_in own_uses kids_of]; rewrite !in_app_iff, !in_flat_map; cbn [In].
    - unfold child_use. split.
      + intros [(k0 & A & B)|(k0 & A & B)]; right; exists k0; auto.
      + intros [[]|(k0 & A & [B|B])]; [left|right]; exists k0; auto.
    - unfold child_use. split.
      + intros [A|[(k0 & A & B)|(k0 & A & B)]]; [now left|right; exists k0; auto|right; exists k0; auto].
      + intros [A|(k0 & A & [B|B])]; [now left|right; left; exists k0; auto|right; right; exists k0; auto].
  Qed.
  Lemma set_nth_In : forall l i x y, In y (set_nth i x l) -> y = x \/ In y l.
  Proof. induction l as [|z l IH]; intros [|i] x y H; cbn in *; try tauto; destruct H as [H|H]; auto; destruct (IH _ _ _ H); auto. Qed.
  Lemma remove_nth_In : forall l i y, In y (remove_nth i l) -> In y l.
  Proof. induction l as [|z l IH]; intros [|i] y H; cbn in *; try tauto; destruct H as [H|H]; auto; right; eauto. Qed.
  Lemma insert_nth_In : forall i l x y, In y (insert_nth i x l) -> y = x \/ In y l.
  Proof. induction i as [|i IH]; intros [|z l] x y H; cbn in *; try tauto; destruct H as [H|H]; auto; destruct (IH _ _ _ H); auto. Qed.
  (** Children replaced by others whose names are in [u]. *)
  Lemma kids_good : forall n c u k', class_of n = Some c -> incl (used_in n) u ->
    (forall k, In k k' -> incl (child_use c k) u /\ incl (used_in k) u) -> incl (used_in (with_kids n k')) u.
  Proof.
    intros n c u k' Hc Hn Hk x Hx. assert (Hc' : class_of (with_kids n k') = Some c) by now rewrite class_with_kids.
    apply (used_container _ _ _ Hc') in Hx as [Hx|(k & Hi & Hx)].
    - apply Hn. apply (used_container _ _ _ Hc). left. destruct n; exact Hx.
    - assert (Hi' : In k k') by (destruct n; cbn in *; try discriminate; exact Hi). destruct (Hk _ Hi') as [A B]. destruct Hx; auto.
  Qed.
  Lemma old_kid : forall n c u k, class_of n = Some c -> incl (used_in n) u -> In k (kids_of n) -> incl (child_use c k) u /\ incl (used_in k) u.
  Proof.
    intros n c u k Hc Hn Hk. split; intros x Hx; apply Hn; apply (used_container _ _ _ Hc); right; exists k; auto.
  Qed.
  Lemma nth_In : forall {A} (l : list A) i x, nth_error l i = Some x -> In x l.
  Proof. intros A l i x H. now apply nth_error_In in H. Qed.
  Lemma bound_ext : forall r r' u u' b b', bound r u b -> ext r r' -> bound r' u' b' -> bound r' u' (b' ++ b).
  Proof.
    intros r r' u u' b b' [A1 A2] HX [B1 B2]. split; [exact B1|]. intros c d H Hk. apply in_app_or in H as [H|H]; [now apply B2|]. apply HX. now apply A2.
  Qed.
  (** Moving to other children, whose names are bound. *)
  Lemma kids_state : forall n c u u' r r' k', class_of n = Some c -> good u r n -> ext r r' -> incl u u' -> 
    (forall k, In k k' -> In k (kids_of n) \/ (bound r' u' (child_use c k ++ used_in k) /\ incl (child_use c k ++ used_in k) u')) ->
    bound r' u' [] -> good u' r' (with_kids n k').
  Proof.
    intros n c u u' r r' k' Hc [Hb Hi] HX Hu Hk [B1 _].
    assert (HK : forall k, In k k' -> incl (child_use c k) u' /\ incl (used_in k) u').
    { intros k H. destruct (Hk _ H) as [G|[_ G]].
      - destruct (old_kid _ _ _ _ Hc Hi G) as [A B]. split; eapply incl_tran; eassumption.
      - split; intros x Hx; apply G, in_or_app; auto. }
    split; [|eapply kids_good; [exact Hc|eapply incl_tran; eassumption|exact HK]].
    split; [exact B1|]. intros c' d' H Hkk. assert (Hc' : class_of (with_kids n k') = Some c) by now rewrite class_with_kids.
    apply (used_container _ _ _ Hc') in H as [H|(k & G & H)].
    - apply HX. apply Hb; [|exact Hkk]. apply (used_container _ _ _ Hc). left. destruct n; exact H.
    - assert (G' : In k k') by (destruct n; cbn in *; try discriminate; exact G). destruct (Hk _ G') as [Q|[[_ Q] _]].
      + apply HX. apply Hb; [|exact Hkk]. apply (used_container _ _ _ Hc). right. exists k. auto.
      + apply Q; [|exact Hkk]. apply in_or_app. tauto.
  Qed.
  Lemma good_bound0 : forall u r n, good u r n -> bound r u [].
  Proof. intros u r n [H _]. eapply bound_incl; [exact H|apply incl_refl|apply incl_nil_l]. Qed.
  Lemma good_more : forall u u' r n, good u r n -> incl u u' -> good u' r n.
  Proof. intros u u' r n [H1 H2] H. split; [eapply bound_incl; [exact H1|exact H|apply incl_refl]|eapply incl_tran; eassumption]. Qed.
  Lemma find_spec : forall nm kids j i, find_named_child nm kids j = Some i -> exists k, nth_error kids (i - j) = Some k /\ is_named nm k = true /\ (j <= i)%nat.
  Proof.
    induction kids as [|k l IH]; intros j i H; [discriminate|]. cbn [find_named_child] in H. destruct (is_named nm k) eqn:E.
    - injection H as <-. exists k. rewrite Nat.sub_diag. auto.
    - destruct (IH _ _ H) as (k0 & A & B & C). exists k0. replace (i - j)%nat with (S (i - S j))%nat by lia. split; [exact A|]. split; [exact B|lia].
  Qed.
  Lemma elem_name_kids : forall n k, elem_name (with_kids n k) = elem_name n.
  Proof. intros [] k; reflexivity. Qed.
  Lemma refill_good : forall u r n c i v, class_of n = Some c -> good u r n ->
    let '(r', n', _) := refill_child r n i v in good u r' n' /\ class_of n' = Some c /\ elem_name n' = elem_name n /\ ext r r'.
  Proof.
    intros u r n c i v Hc G. unfold refill_child. destruct (nth_error (kids_of n) i) as [t|] eqn:E.
    - assert (HT : forall k0, Forall (fun x => elem_name x = None /\ used_in x = []) k0 -> good u r (with_kids n (set_nth i (with_kids t k0) (kids_of n)))).
      { intros k0 HF. eapply kids_state; [exact Hc|exact G|apply ext_refl|apply incl_refl| |eapply good_bound0; exact G].
        intros k H. apply set_nth_In in H as [->|H]; [right|now left].
        assert (Hold : incl (child_use c t ++ used_in t) (used_in n)).
        { intros x Hx. apply (used_container _ _ _ Hc). right. exists t. split; [now apply nth_In in E|]. now apply in_app_or. }
        assert (Hnew : incl (child_use c (with_kids t k0) ++ used_in (with_kids t k0)) (child_use c t ++ used_in t)).
        { intros x Hx. apply in_app_or in Hx as [Hx|Hx]; [apply in_or_app; left; unfold child_use in *; now rewrite elem_name_kids in Hx|].
          apply in_or_app. right. destruct (class_of t) as [ct|] eqn:Ct.
          - apply (used_container _ _ _ Ct). left. assert (Ct' : class_of (with_kids t k0) = Some ct) by now rewrite class_with_kids.
            pose proof (proj1 (used_container _ _ x Ct') Hx) as HH. destruct HH as [HH|(k1 & K1 & K2)]; [clear - HH; destruct t; exact HH|].
            assert (K1' : In k1 k0) by (clear - K1 Ct; destruct t; cbn in *; try discriminate; exact K1). rewrite Forall_forall in HF. destruct (HF _ K1') as [F1 F2].
            unfold child_use in K2. rewrite F1, F2 in K2. cbn in K2. tauto.
          - clear - Ct Hx. destruct t; try discriminate; exact Hx. }
        destruct G as [Gb Gi]. split; [|eapply incl_tran; [exact Hnew|eapply incl_tran; [exact Hold|exact Gi]]].
        eapply bound_incl; [exact Gb|apply incl_refl|eapply incl_tran; [exact Hnew|exact Hold]]. }
      unfold refill. destruct v as [s|].
      + split; [apply HT; repeat constructor|]. rewrite class_with_kids, elem_name_kids. auto using ext_refl.
      + split; [apply HT; constructor|]. rewrite class_with_kids, elem_name_kids. auto using ext_refl.
    - auto using ext_refl.
  Qed.
  Lemma append_new_good : forall u r n c nm v, class_of n = Some c -> good u r n ->
    let '(r', n', _) := append_new exclude r n nm v in good ((c, DElem nm) :: u) r' n' /\ class_of n' = Some c /\ elem_name n' = elem_name n /\ ext r r'.
  Proof.
    intros u r n c nm v Hc G. assert (GM : good ((c, DElem nm) :: u) r n) by (eapply good_more; [exact G|apply incl_tl, incl_refl]).
    unfold append_new. destruct (new_element r (fac_of n) nm); [|auto using ext_refl]. destruct v as [s|]; [|auto using ext_refl].
    unfold append_child, inserted. rewrite Hc. cbn [child_inserted].
    pose proof (bind_bound r u (used_in n) c (DElem nm) (proj1 G)) as B.
    split; [|rewrite class_with_kids, elem_name_kids; auto using bind_ext].
    eapply kids_state; [exact Hc|exact G|apply bind_ext|apply incl_tl, incl_refl| |eapply bound_incl; [exact B|apply incl_refl|apply incl_nil_l]].
    intros k H. apply in_app_or in H as [H|[<-|[]]]; [now left|right]. cbn [child_use elem_name used_in map flat_map app].
    split; [eapply bound_incl; [exact B|apply incl_refl|]|]; intros x [<-|[]]; now left.
  Qed.
  Lemma remove_good : forall u r n c i, class_of n = Some c -> good u r n ->
    good u r (with_kids n (remove_nth i (kids_of n))) /\ class_of (with_kids n (remove_nth i (kids_of n))) = Some c /\ elem_name (with_kids n (remove_nth i (kids_of n))) = elem_name n /\ ext r r.
  Proof.
    intros u r n c i Hc G. split; [|rewrite class_with_kids, elem_name_kids; auto using ext_refl].
    eapply kids_state; [exact Hc|exact G|apply ext_refl|apply incl_refl| |eapply good_bound0; exact G]. intros k H. left. now apply remove_nth_In in H.
  Qed.
  Lemma attr_set_names : forall a nm v x, In x (map fst (attr_set a nm v)) -> x = nm \/ In x (map fst a).
  Proof.
    induction a as [|[m w] a IH]; intros nm v x H; cbn [attr_set] in H; [cbn in H; destruct H as [<-|[]]; auto|].
    destruct (name_eqb m nm); cbn [map fst] in *; destruct H as [<-|H]; cbn; auto. destruct (IH _ _ _ H); auto.
  Qed.
  Lemma atts_state : forall f m p a a' k u r, incl (map fst a') (map fst a) -> good u r (BElem f m p a k) -> good u r (BElem f m p a' k).
  Proof.
    intros f m p a a' k u r HA [[B1 B2] B3].
    assert (HU : incl (used_in (BElem f m p a' k)) (used_in (BElem f m p a k))).
    { intros x Hx. cbn [used_in] in *. apply in_app_or in Hx as [Hx|Hx]; apply in_or_app; [left|now right].
      apply in_map_iff in Hx as (y & <- & Hy). assert (H : In (fst y) (map fst a)) by (apply HA; now apply in_map).
      apply in_map_iff in H as (z & E & Hz). rewrite <- E. apply in_map_iff. exists z. auto. }
    split; [|eapply incl_tran; eassumption]. split; [exact B1|]. intros c d H. apply B2. now apply HU.
  Qed.
  Lemma set_attr_good : forall u r n c nm v, class_of n = Some c -> good u r n ->
    let '(r', n', _) := set_attr exclude r n nm v in good ((c, DAttr nm) :: u) r' n' /\ class_of n' = Some c /\ elem_name n' = elem_name n /\ ext r r'.
  Proof.
    intros u r n c nm v Hc G. destruct n as [f k|f m p a k|s|s]; try discriminate; injection Hc as <-; cbn [set_attr].
    - split; [eapply good_more; [exact G|apply incl_tl, incl_refl]|]. auto using ext_refl.
    - split; [|auto using bind_ext]. pose proof (bind_bound r u (used_in (BElem f m p a k)) (CElem f m) (DAttr nm) (proj1 G)) as B.
      assert (HU : incl (used_in (BElem f m p (attr_set a nm v) k)) ((CElem f m, DAttr nm) :: used_in (BElem f m p a k))).
      { intros x Hx. cbn [used_in] in *. apply in_app_or in Hx as [Hx|Hx]; [|right; apply in_or_app; now right].
        apply in_map_iff in Hx as (y & <- & Hy). destruct (attr_set_names a nm v (fst y)) as [E|E]; [now apply in_map|left; now rewrite E|right].
        apply in_or_app. left. apply in_map_iff in E as (z & E & Hz). rewrite <- E. apply in_map_iff. exists z. auto. }
      split; [eapply bound_incl; [exact B|apply incl_refl|exact HU]|].
      eapply incl_tran; [exact HU|]. intros x [<-|H]; [now left|right; now apply (proj2 G)].
  Qed.
  Lemma lookup_used : forall u r n c p d, good u r n -> lookup r c p = Some d -> p = pyd d /\ In (c, d) u.
  Proof. intros u r n c p d [[B1 _] _] H. apply B1. now apply lookup_In in H. Qed.

  Lemma do_op_good : forall o u r n c, class_of n = Some c -> good u r n ->
    let '(r', n', _) := do_op exclude o r n in good (op_uses n o ++ u) r' n' /\ class_of n' = Some c /\ elem_name n' = elem_name n /\ ext r r'.
  Proof.
    intros o u r n c Hc G.
    assert (GM : forall w, good (w ++ u) r n) by (intro w; eapply good_more; [exact G|apply incl_appr, incl_refl]).
    assert (HE : forall w, good (w ++ u) r n /\ class_of n = Some c /\ elem_name n = elem_name n /\ ext r r) by (intros; auto using ext_refl).
    assert (HR : forall w i, good (w ++ u) r (with_kids n (remove_nth i (kids_of n))) /\ class_of (with_kids n (remove_nth i (kids_of n))) = Some c /\ elem_name (with_kids n (remove_nth i (kids_of n))) = elem_name n /\ ext r r).
    { intros w i. destruct (remove_good u r n c i Hc G) as (A & B). split; [eapply good_more; [exact A|apply incl_appr, incl_refl]|exact B]. }
    assert (HF : forall w i v, let '(r', n', _) := refill_child r n i v in good (w ++ u) r' n' /\ class_of n' = Some c /\ elem_name n' = elem_name n /\ ext r r').
    { intros w i v. apply refill_good; [exact Hc|apply GM]. }
    destruct o as [i sub|i|nm v|p v|p|f nm v|f nm|j k v|j k]; cbn [do_op].
    - unfold op_uses. rewrite Hc. destruct sub as [f0 k0|f0 m0 p0 a0 k0|s0|s0]; [apply HE| | |].
      + destruct (build exclude r (BElem f0 m0 p0 a0 k0)) as [r1|e] eqn:E; [|apply HE].
        destruct (build_bound _ _ _ _ _ (proj1 G) E) as [X1 B1]. unfold inserted. rewrite Hc.
        pose proof (child_bound _ _ _ c (BElem f0 m0 p0 a0 k0) B1) as B2. pose proof (child_ext r1 c (BElem f0 m0 p0 a0 k0)) as X2.
        split; [|rewrite class_with_kids, elem_name_kids; split; [exact Hc|]; split; [reflexivity|eapply ext_trans; eassumption]].
        eapply kids_state; [exact Hc|exact G|eapply ext_trans; eassumption|apply incl_appr, incl_refl| |].
        * intros k H. apply insert_nth_In in H as [->|H]; [right|now left]. split.
          -- eapply bound_incl; [exact B2|incl_tac|intro x; rewrite !in_app_iff; tauto].
          -- cbn [child_use elem_name]. incl_tac.
        * eapply bound_incl; [exact B2|cbn [child_use elem_name]; incl_tac|apply incl_nil_l].
      + cbn [build inserted used_in elem_name app]. unfold inserted. rewrite Hc. cbn [child_inserted].
        split; [|rewrite class_with_kids, elem_name_kids; auto using ext_refl].
        eapply kids_state; [exact Hc|exact G|apply ext_refl|apply incl_refl| |eapply good_bound0; exact G].
        intros k H. apply insert_nth_In in H as [->|H]; [right|now left]. cbn. split; [eapply good_bound0; exact G|apply incl_nil_l].
      + cbn [build inserted used_in elem_name app]. unfold inserted. rewrite Hc. cbn [child_inserted].
        split; [|rewrite class_with_kids, elem_name_kids; auto using ext_refl].
        eapply kids_state; [exact Hc|exact G|apply ext_refl|apply incl_refl| |eapply good_bound0; exact G].
        intros k H. apply insert_nth_In in H as [->|H]; [right|now left]. cbn. split; [eapply good_bound0; exact G|apply incl_nil_l].
    - apply (HR []).
    - unfold op_uses. rewrite Hc. pose proof (set_attr_good u r n c nm v Hc G) as H. destruct n; try discriminate; injection Hc as <-; [cbn [set_attr]; apply (HE [])|exact H].
    - unfold op_uses. cbn [app]. unfold set_named. rewrite Hc. destruct (lookup r c p) as [[nm|nm]|] eqn:L; [| |apply (HE [])].
      + destruct (find_named_child nm (kids_of n) 0); [apply (HF [])|]. pose proof (append_new_good u r n c nm v Hc G) as H.
        destruct (append_new exclude r n nm v) as [[r' n'] e]. destruct H as (A & B). split; [|exact B]. eapply good_more; [exact A|].
        destruct (lookup_used _ _ _ _ _ _ G L) as [_ Hu]. intros x [<-|Hx]; auto.
      + destruct v as [s|].
        * pose proof (set_attr_good u r n c nm s Hc G) as H. destruct (set_attr exclude r n nm s) as [[r' n'] e]. destruct H as (A & B). split; [|exact B]. eapply good_more; [exact A|].
          destruct (lookup_used _ _ _ _ _ _ G L) as [_ Hu]. intros x [<-|Hx]; auto.
        * destruct (atts_of n) as [a|]; apply (HE []).
    - unfold op_uses. cbn [app]. unfold del_named. rewrite Hc. destruct (lookup r c p) as [[nm|nm]|] eqn:L; [| |apply (HE [])].
      + destruct (find_named_child nm (kids_of n) 0); [apply (HR [])|apply (HE [])].
      + destruct (atts_of n) as [a|] eqn:Ea; [|apply (HE [])]. destruct (attr_get a nm); [|apply (HE [])].
        destruct n as [|f0 m0 p0 a0 k0| |]; try discriminate. injection Ea as ->. cbn [with_atts]. split; [|auto using ext_refl].
        eapply atts_state; [|exact G]. intros x Hx. apply in_map_iff in Hx as (y & <- & Hy). apply in_map. unfold attr_del in Hy. now apply filter_In in Hy.
    - unfold op_uses. rewrite Hc. unfold setitem_name.
      assert (HN : forall w, let '(r', n', _) := match find_named_child nm (kids_of n) 0 with Some i => refill_child r n i v | None => append_new exclude r n nm v end in
        good ((w ++ [(c, DElem nm)]) ++ u) r' n' /\ class_of n' = Some c /\ elem_name n' = elem_name n /\ ext r r').
      { intro w. destruct (find_named_child nm (kids_of n) 0); [apply HF|]. pose proof (append_new_good u r n c nm v Hc G) as H. destruct (append_new exclude r n nm v) as [[r' n'] e]. destruct H as (A & B). split; [|exact B].
        eapply good_more; [exact A|]. intros x [<-|Hx]; rewrite !in_app_iff; cbn; auto. }
      destruct n as [f0 k0|f0 m0 p0 a0 k0|s0|s0]; try discriminate; injection Hc as <-; cbn [atts_of].
      + destruct f; [apply (HN [])|apply (HE [])|apply (HN [])].
      + destruct f; [destruct v; [|apply HE]|destruct v; [|apply HE]|apply (HN [])].
        * apply (set_attr_good u r (BElem f0 m0 p0 a0 k0) (CElem f0 m0) nm s eq_refl G).
        * apply (set_attr_good u r (BElem f0 m0 p0 a0 k0) (CElem f0 m0) nm s eq_refl G).
    - unfold op_uses. cbn [app]. unfold delitem_name. destruct f; try apply (HE []);
        (destruct (find_named_child nm (kids_of n) 0); [apply (HR [])|apply (HE [])]).
    - unfold op_uses. cbn [app]. unfold setitem_int. destruct (target_int n j k); [apply (HF [])|apply (HE [])].
    - unfold op_uses. cbn [app]. unfold delitem_int. destruct (target_int n j k); [apply (HR [])|apply (HE [])].
  Qed.

  (** ** Programs *)
  Lemma step_good : forall p o u r n, good u r n ->
    let '(r', n', _) := step exclude p o r n in
    good (match at_path p n with Some obj => op_uses obj o | None => [] end ++ u) r' n' /\ class_of n' = class_of n /\ elem_name n' = elem_name n /\ ext r r'.
  Proof.
    induction p as [|i p IH]; intros o u r n G; cbn [step at_path].
    - destruct (class_of n) as [c|] eqn:Hc.
      + assert (Hk : is_container n = true) by (destruct n; cbn in *; congruence). rewrite Hk. apply (do_op_good o u r n c Hc G).
      + assert (Hk : is_container n = false) by (destruct n; cbn in *; congruence). rewrite Hk. rewrite Hc. split; [|auto using ext_refl].
        eapply good_more; [exact G|apply incl_appr, incl_refl].
    - destruct (nth_error (kids_of n) i) as [k|] eqn:E; [|split; [exact G|auto using ext_refl]].
      destruct (class_of n) as [c|] eqn:Hc; [|destruct n; try discriminate; destruct i; discriminate].
      assert (Hk : In k (kids_of n)) by now apply nth_In in E.
      assert (Hsub : incl (child_use c k ++ used_in k) (used_in n)).
      { intros x Hx. apply (used_container _ _ _ Hc). right. exists k. split; [exact Hk|]. now apply in_app_or. }
      assert (Gk : good u r k).
      { destruct G as [B I]. split; [eapply bound_incl; [exact B|apply incl_refl|]|]; intros x Hx; [|apply I]; apply Hsub; apply in_or_app; now right. }
      pose proof (IH o u r k Gk) as H. destruct (step exclude p o r k) as [[r' k'] e]. destruct H as (G' & C' & N' & X').
      split; [|rewrite class_with_kids, elem_name_kids; auto].
      eapply kids_state; [exact Hc|exact G|exact X'|apply incl_appr, incl_refl| |eapply good_bound0; exact G'].
      intros k0 H0. apply set_nth_In in H0 as [->|H0]; [right|now left]. destruct G' as [[B1 B2] I']. split.
      + split; [exact B1|]. intros c1 d1 H1 Hn1. apply in_app_or in H1 as [H1|H1]; [|now apply B2]. apply X'. apply (proj1 G); [|exact Hn1].
        apply Hsub. apply in_or_app. left. unfold child_use in *. now rewrite N' in H1.
      + intros x Hx. apply in_app_or in Hx as [Hx|Hx]; [|now apply I']. apply in_or_app. right. apply (proj2 G). apply Hsub. apply in_or_app. left. unfold child_use in *. now rewrite N' in Hx.
  Qed.
  Lemma run_good : forall prog u r doc, good u r doc ->
    let '(r', doc') := run exclude prog r doc in good (uses exclude prog r doc ++ u) r' doc'.
  Proof.
    induction prog as [|[p o] prog IH]; intros u r doc G; cbn [run uses]; [exact G|].
    pose proof (step_good p o u r doc G) as H. destruct (step exclude p o r doc) as [[r1 d1] e]. destruct H as (G1 & _).
    pose proof (IH _ _ _ G1) as H. destruct (run exclude prog r1 d1) as [r2 d2]. eapply good_more; [exact H|incl_tac].
  Qed.
  Lemma session_good : forall doc prog r doc', session exclude doc prog = Ok (r, doc') -> good (session_uses exclude doc prog) r doc'.
  Proof.
    intros doc prog r doc' H. unfold session in H. unfold session_uses. destruct (build exclude [] doc) as [r0|e] eqn:E; [|discriminate]. cbn [bind] in H.
    assert (B0 : bound [] [] []) by (split; intros; contradiction). destruct (build_bound _ _ _ _ _ B0 E) as [_ B]. rewrite app_nil_r in B.
    assert (G : good (used_in doc) r0 doc) by (split; [exact B|apply incl_refl]).
    pose proof (run_good prog _ _ _ G) as HR. destruct (run exclude prog r0 doc) as [r1 d1]. injection H as <- <-. eapply good_more; [exact HR|incl_tac].
  Qed.
  Lemma at_path_good : forall p u r n obj, good u r n -> at_path p n = Some obj -> good u r obj.
  Proof.
    induction p as [|i p IH]; intros u r n obj G H; cbn [at_path] in H; [injection H as <-; exact G|].
    destruct (nth_error (kids_of n) i) as [k|] eqn:E; [|discriminate]. eapply IH; [|exact H].
    destruct (class_of n) as [c|] eqn:Hc; [|destruct n; try discriminate; destruct i; discriminate].
    assert (Hsub : incl (used_in k) (used_in n)).
    { intros x Hx. apply (used_container _ _ _ Hc). right. exists k. split; [now apply nth_In in E|now right]. }
    destruct G as [B I]. split; [eapply bound_incl; [exact B|apply incl_refl|exact Hsub]|eapply incl_tran; eassumption].
  Qed.

  (** ** Reading *)
  Lemma positions_spec : forall nm kids j, positions nm kids j =
    filter (fun i => match nth_error kids (i - j) with Some k => match elem_name k with Some m => name_eqb m nm | None => false end | None => false end) (seq j (List.length kids)).
  Proof.
    induction kids as [|k l IH]; intro j; [reflexivity|]. cbn [positions List.length seq filter]. rewrite Nat.sub_diag. cbn [nth_error].
    assert (E : positions nm l (S j) = filter (fun i => match nth_error (k :: l) (i - j) with Some k0 => match elem_name k0 with Some m => name_eqb m nm | None => false end | None => false end) (seq (S j) (List.length l))).
    { rewrite IH. apply filter_ext_in. intros i Hi. apply in_seq in Hi. replace (i - j)%nat with (S (i - S j))%nat by lia. reflexivity. }
    rewrite E. destruct k; reflexivity.
  Qed.
  Lemma positions_eq : forall nm kids, positions nm kids 0 = positions_of nm kids.
  Proof. intros. rewrite positions_spec. unfold positions_of. apply filter_ext. intro i. now rewrite Nat.sub_0_r. Qed.
  Lemma find_positions : forall nm kids j, find_named_child nm kids j = match positions nm kids j with i :: _ => Some i | [] => None end.
  Proof. induction kids as [|k l IH]; intro j; [reflexivity|]. cbn [find_named_child positions]. destruct (is_named nm k); [reflexivity|apply IH]. Qed.
  Lemma find_eq : forall nm kids, find_named_child nm kids 0 = match positions_of nm kids with i :: _ => Some i | [] => None end.
  Proof. intros. rewrite find_positions, positions_eq. reflexivity. Qed.
  Lemma name_eqb_refl : forall n, name_eqb n n = true.
  Proof. intro n. destruct (name_eqb_spec n n); congruence. Qed.
  Lemma attr_get_In : forall a nm s, attr_get a nm = Some s -> In (nm, s) a.
  Proof.
    induction a as [|[m w] a IH]; intros nm s H; [discriminate|]. cbn [attr_get] in H. destruct (name_eqb_spec m nm) as [->|]; [injection H as ->; now left|right; auto].
  Qed.
  Lemma attr_get_None : forall a nm, attr_get a nm = None -> ~ In nm (map fst a).
  Proof.
    induction a as [|[m w] a IH]; intros nm H; [easy|]. cbn [attr_get] in H. destruct (name_eqb_spec m nm) as [->|]; [discriminate|]. intros [E|E]; [cbn in E; congruence|]. exact (IH _ H E).
  Qed.
  Lemma attr_get_set : forall a nm v, attr_get (attr_set a nm v) nm = Some v.
  Proof.
    induction a as [|[m w] a IH]; intros nm v; cbn [attr_set attr_get]; [now rewrite name_eqb_refl|].
    destruct (name_eqb_spec m nm) as [->|n]; cbn [attr_get]; [now rewrite name_eqb_refl|]. destruct (name_eqb_spec m nm); [contradiction|]. apply IH.
  Qed.
  Lemma attr_get_set_other : forall a nm v x, x <> nm -> attr_get (attr_set a nm v) x = attr_get a x.
  Proof.
    induction a as [|[m w] a IH]; intros nm v x Hx; cbn [attr_set attr_get].
    - destruct (name_eqb_spec nm x); [congruence|reflexivity].
    - destruct (name_eqb_spec m nm) as [->|n]; cbn [attr_get]; [destruct (name_eqb_spec nm x); [congruence|reflexivity]|]. destruct (name_eqb_spec m x); auto.
  Qed.
  Lemma attr_get_del : forall a nm x, attr_get (attr_del a nm) x = if name_eqb x nm then None else attr_get a x.
  Proof.
    induction a as [|[m w] a IH]; intros nm x; cbn [attr_del filter attr_get fst]; [now destruct (name_eqb x nm)|].
    fold (attr_del a nm). destruct (name_eqb_spec m nm) as [->|n]; cbn [negb].
    - rewrite IH. destruct (name_eqb_spec x nm) as [->|]; [reflexivity|]. destruct (name_eqb_spec nm x); [congruence|reflexivity].
    - cbn [attr_get]. rewrite IH. destruct (name_eqb_spec m x) as [->|]; [|reflexivity]. destruct (name_eqb_spec x nm); [congruence|reflexivity].
  Qed.
  Lemma get_sound : forall u r obj c p v, class_of obj = Some c -> good u r obj -> get_named r obj p = Ok v ->
    exists d, lookup r c p = Some d /\ In (c, d) u /\ p = pyd d /\ meaning obj d v.
  Proof.
    intros u r obj c p v Hc G H. unfold get_named in H. rewrite Hc in H. destruct (lookup r c p) as [d|] eqn:L; [|discriminate].
    exists d. split; [reflexivity|]. destruct (lookup_used _ _ _ _ _ _ G L) as [A B]. split; [exact B|]. split; [exact A|]. destruct d as [nm|nm].
    - injection H as <-. cbn [meaning]. rewrite find_eq. now destruct (positions_of nm (kids_of obj)).
    - destruct obj as [|f m q a k| |]; try discriminate. cbn [atts_of] in H. destruct (attr_get a nm) as [s|] eqn:E; injection H as <-; cbn [meaning].
      + now apply attr_get_In.
      + now apply attr_get_None.
  Qed.
  Lemma present_readable : forall u r obj c d, class_of obj = Some c -> good u r obj -> clash_free exclude c u ->
    In (c, d) (own_uses obj ++ flat_map (child_use c) (kids_of obj)) -> ~ In (pyd d) class_keys ->
    lookup r c (pyd d) = Some d.
  Proof.
    intros u r obj c d Hc G HF Hd Hk.
    assert (Hu : In (c, d) (used_in obj)).
    { apply (used_container _ _ _ Hc). apply in_app_or in Hd as [H|H]; [now left|right]. apply in_flat_map in H as (k & A & B). exists k. auto. }
    destruct (lookup r c (pyd d)) as [d'|] eqn:L; [|destruct (proj2 (proj1 G) _ _ Hu Hk L)].
    destruct (lookup_used _ _ _ _ _ _ G L) as [A B]. f_equal. apply HF; [exact B|apply (proj2 G); exact Hu|symmetry; exact A].
  Qed.
  Lemma read_of_lookup : forall r obj c d, class_of obj = Some c -> lookup r c (pyd d) = Some d ->
    match d with DElem _ => True | DAttr _ => atts_of obj <> None end -> exists v, get_named r obj (pyd d) = Ok v /\ meaning obj d v.
  Proof.
    intros r obj c d Hc L Hd. unfold get_named. rewrite Hc, L. destruct d as [nm|nm].
    - eexists. split; [reflexivity|]. cbn [meaning]. rewrite find_eq. now destruct (positions_of nm (kids_of obj)).
    - destruct obj as [|f m q a k| |]; cbn [atts_of] in *; try congruence. eexists. split; [reflexivity|]. cbn [meaning].
      destruct (attr_get a nm) eqn:E; [now apply attr_get_In|now apply attr_get_None].
  Qed.
  Lemma class_keys_library : forall p, In p class_keys -> library_name p.
  Proof. intros p [<-|[<-|[<-|[]]]]; [exists (lit "_child_pnames")|exists (lit "_model_")|exists (lit "_pname_cache")]; reflexivity. Qed.

  Lemma nth_error_Some_lt : forall {A} (l : list A) i x, nth_error l i = Some x -> (i < List.length l)%nat.
  Proof. intros A l i x H. apply nth_error_Some. congruence. Qed.
  (** ** Steps at a path *)
  Lemma step_at : forall p o r n obj r' obj' e, at_path p n = Some obj -> is_container obj = true -> do_op exclude o r obj = (r', obj', e) ->
    step exclude p o r n = (r', replace_at p obj' n, e).
  Proof.
    induction p as [|i p IH]; intros o r n obj r' obj' e H Hc Ho; cbn [at_path step replace_at] in *.
    - injection H as ->. rewrite Hc. exact Ho.
    - destruct (nth_error (kids_of n) i) as [k|]; [|discriminate]. rewrite (IH _ _ _ _ _ _ _ H Hc Ho). reflexivity.
  Qed.
  Lemma kids_with : forall n c k, class_of n = Some c -> kids_of (with_kids n k) = k.
  Proof. intros [] c k H; try discriminate; reflexivity. Qed.
  Lemma nth_set_nth : forall l i x j, nth_error (set_nth i x l) j = if Nat.eqb j i then (match nth_error l i with Some _ => Some x | None => None end) else nth_error l j.
  Proof.
    induction l as [|y l IH]; intros [|i] x [|j]; cbn [set_nth nth_error Nat.eqb]; try reflexivity; try (destruct (Nat.eqb _ _); reflexivity). apply IH.
  Qed.
  Lemma set_nth_length : forall l i x, List.length (set_nth i x l) = List.length l.
  Proof. induction l as [|y l IH]; intros [|i] x; cbn; auto. Qed.
  Lemma positions_set : forall nm kids i x k, nth_error kids i = Some k -> elem_name x = elem_name k -> positions_of nm (set_nth i x kids) = positions_of nm kids.
  Proof.
    intros nm kids i x k E N. unfold positions_of. rewrite set_nth_length. apply filter_ext. intro j. rewrite nth_set_nth.
    destruct (Nat.eqb_spec j i) as [->|]; [|reflexivity]. rewrite E, N. reflexivity.
  Qed.
  Lemma positions_In : forall nm kids i, In i (positions_of nm kids) <-> exists k, nth_error kids i = Some k /\ elem_name k = Some nm.
  Proof.
    intros nm kids i. unfold positions_of. rewrite filter_In, in_seq. split.
    - intros [_ H]. destruct (nth_error kids i) as [k|]; [|discriminate]. exists k. split; [reflexivity|]. destruct (elem_name k) as [m|]; [|discriminate]. destruct (name_eqb_spec m nm); congruence.
    - intros (k & A & B). rewrite A, B, name_eqb_refl. split; [|reflexivity]. apply nth_error_Some_lt in A. lia.
  Qed.
End Inv.
