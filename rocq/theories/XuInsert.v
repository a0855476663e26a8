(** * Proofs about the XUpdate commands: insert-before, insert-after, append *)
From Coq Require Import NArith ZArith String List Bool Lia Arith.
From Verif Require Import PyStr PyErr DomModel DomSpec DomInv DomCells DomOps DomStep DomProps XuModel XuSpec XuProofs.
Import ListNotations.
Local Open Scope nat_scope.

Lemma bounded_length (l : list nat) n : NoDup l -> (forall x, In x l -> x < n) -> length l <= n.
Proof. intros ND B. rewrite <- (seq_length n 0). apply NoDup_incl_length; [exact ND|]. intros x I. apply in_seq. apply B in I. lia. Qed.
Lemma kids_fuel d p : dforest d -> length (dkids d p) < fuel_of d.
Proof. intros F. unfold fuel_of. apply Nat.lt_succ_r. apply bounded_length; [apply (f_nodup _ F)|]. intros x I. now apply (kid_in d p). Qed.
Lemma kids_not_above d n0 r p cs : dforest d -> p < n0 -> dkids d r = cs -> (forall c, In c cs -> n0 <= c) -> (forall i q, i < n0 -> dparent d i = Some q -> q < n0) -> forall c, In c cs -> ~ above_or_self (dparent d) c p.
Proof. intros F L K G O c I [->|A]; [apply G in I; lia|]. pose proof (above_old _ n0 _ _ O A L). apply G in I. lia. Qed.
Lemma Forall2_in_l {A B} (P : A -> B -> Prop) l m a : Forall2 P l m -> In a l -> exists b, In b m /\ P a b.
Proof. induction 1 as [|x y l m X Y IH]; intros I; [destruct I|]. destruct I as [<-|I]; [exists y; split; [now left|exact X]|]. destruct (IH I) as [b [J K]]. exists b. split; [now right|exact K]. Qed.

Lemma hd_skipn {A} n : forall l : list A, hd_error (skipn n l) = nth_error l n.
Proof. induction n as [|n IH]; intros [|x l]; try reflexivity. apply IH. Qed.
Lemma put_fragment d p a b ts : dforest d -> dcontainer d p -> dkids d p = a ++ b -> Forall proper ts ->
  exists d1, fragment d (Ok ts) = (d1, Ok (len d)) /\ dforest d1 /\ ext (fun _ => True) d d1 /\ same_parents d d1 /\
  forall place, places place p b -> exists d' cs, move_all place (fuel_of d1) d1 (len d) = (d', Ok tt) /\ dforest d' /\ ext (fun q => q <> p) d d' /\ same_parents d d' /\
    dkids d' p = a ++ cs ++ b /\ Forall2 (shown (len d) d') cs ts.
Proof.
  intros F C K PR. destruct (fragment_ok d ts F PR) as [d1 [cs [E1 [F1 [X1 [P1 [K1 [R1 [KR S1]]]]]]]]]. exists d1. split; [exact E1|]. split; [exact F1|]. split; [exact X1|]. split; [exact P1|].
  intros place PL. pose proof (container_in _ _ C) as Lp.
  assert (dcontainer d1 (len d)) as CR by (exists KEntity; split; [exact K1|reflexivity]).
  assert (forall c, In c cs -> len d <= c) as GE. { intros c I. destruct (Forall2_in_l _ _ _ _ S1 I) as [t [_ X]]. apply shown_ge in X. lia. }
  destruct (move_all_ok place p (len d) b PL) with (cs := cs) (fuel := fuel_of d1) (d := d1) (a := a) as [d' [E' [F' [X' [Kp' [Kr' [Pa' L']]]]]]].
  - lia.
  - rewrite <- KR. now apply kids_fuel.
  - exact F1.
  - now apply (ext_container _ _ _ _ X1).
  - exact CR.
  - rewrite (x_kids _ _ _ X1 p Lp Logic.I). exact K.
  - exact KR.
  - eapply (kids_not_above d1 (len d)); eauto. intros i q I Q. rewrite (P1 i I) in Q. eapply parent_in; eauto.
  - exists d', cs. split; [exact E'|]. split; [exact F'|]. split; [|split; [|split]].
    + apply (ext_weak (fun q => q <> p /\ q <> len d)). { intros q I Q. split; [exact Q|]. change (q < len d) in I. lia. }
      eapply ext_trans; [apply (ext_weak (fun _ => True)); [auto|exact X1]|exact X'].
    + intros i I. rewrite Pa'. destruct (is_member cs i) eqn:M; [|now apply P1]. exfalso. unfold is_member in M. apply existsb_exists in M. destruct M as [x [J Y]]. apply Nat.eqb_eq in Y as <-. apply GE in J. change (i < len d) in I. lia.
    + exact Kp'.
    + eapply Forall2_impl_in; [exact S1|]. intros x t _ Y. apply (shown_le (S (len d))); [lia|]. eapply shown_ext; [exact F1| |exact Y]. eapply ext_weak; [|exact X']. intros q I Q. cbn beta in *. lia.
Qed.

(** ** One target after the other *)
Definition setf (f : nat -> list nat) (t : nat) (v : list nat) (i : nat) : list nat := if i =? t then v else f i.
Section Each.
  Variables (d0 : doc) (one : doc -> nat -> dcall unit) (frs : nat -> list dtree) (expected : (nat -> list nat) -> nat -> list nat).
  Record inv (d : doc) (put : nat -> list nat) : Prop := {
    i_forest : dforest d;
    i_ext : ext (fun _ => False) d0 d;
    i_parents : same_parents d0 d;
    i_kids : forall p, node_in d0 p -> dkids d p = expected put p
  }.
  Variable ts0 : list nat.
  Hypothesis one_ok : forall d put t, In t ts0 -> inv d put -> put t = [] ->
    exists d' cs, one d t = (d', Ok tt) /\ dforest d' /\ ext (fun q => len d0 <= q) d d' /\ same_parents d d' /\
      (forall p, node_in d0 p -> dkids d' p = expected (setf put t cs) p) /\ Forall2 (shown (len d0) d') cs (frs t).
  Lemma each_ok : forall ts d put, NoDup ts -> incl ts ts0 -> inv d put -> (forall t, In t ts -> put t = []) ->
    exists d' put', for_each one ts d = (d', Ok tt) /\ inv d' put' /\ ext (fun q => len d0 <= q) d d' /\
      (forall t, In t ts -> Forall2 (shown (len d0) d') (put' t) (frs t)) /\ (forall t, ~ In t ts -> put' t = put t).
  Proof.
    induction ts as [|t ts IH]; intros d put ND IN IV PE; cbn [for_each].
    - exists d, put. split; [reflexivity|]. split; [exact IV|]. split; [apply ext_refl|]. split; [intros t []|auto].
    - inversion ND as [|? ? N1 N2]; subst. destruct (one_ok d put t (IN t (or_introl eq_refl)) IV (PE t (or_introl eq_refl))) as [d1 [cs [E1 [F1 [X1 [P1 [K1 S1]]]]]]].
      rewrite E1. cbn [andthen].
      assert (inv d1 (setf put t cs)) as IV1.
      { destruct IV as [f e p k]. split; [exact F1| | |exact K1].
        - eapply ext_trans; [exact e|]. eapply ext_weak; [|exact X1]. intros q _ [].
        - intros i I. rewrite P1, p; auto. now apply (x_kept _ _ _ e). }
      destruct (IH d1 (setf put t cs) N2 (fun x I => IN x (or_intror I)) IV1) as [d' [put' [E' [IV' [X' [S' O']]]]]].
      { intros x I. unfold setf. destruct (Nat.eqb_spec x t) as [->|]; [contradiction|]. apply PE. now right. }
      exists d', put'. split; [exact E'|]. split; [exact IV'|]. split; [eapply ext_trans; eauto|]. split.
      + intros x [<-|I]; [|now apply S']. rewrite O' by exact N1. unfold setf. rewrite Nat.eqb_refl. eapply Forall2_impl_in; [exact S1|]. intros a b _. apply shown_ext; assumption.
      + intros x N. rewrite O'; [|intros I; apply N; now right]. unfold setf. destruct (Nat.eqb_spec x t) as [->|]; [exfalso; apply N; now left|reflexivity].
  Qed.
  Lemma each_grown : dforest d0 -> NoDup ts0 -> (forall p, node_in d0 p -> dkids d0 p = expected (fun _ => []) p) ->
    exists d' put, for_each one ts0 d0 = (d', Ok tt) /\ grown d0 d' ts0 frs put (expected put).
  Proof.
    intros F ND K0. destruct (each_ok ts0 d0 (fun _ => []) ND (incl_refl _)) as [d' [put [E [[f e p k] [X [S O]]]]]].
    - split; [exact F|apply ext_refl|intros i I; reflexivity|exact K0].
    - reflexivity.
    - exists d', put. split; [exact E|]. split.
      + exact f.
      + apply (x_kept _ _ _ e).
      + apply (x_data _ _ _ e).
      + apply (x_attrs _ _ _ e).
      + exact p.
      + intros t I. eapply Forall2_impl_in; [exact (S t I)|]. intros a b _. apply shown_shows.
      + intros t n I J. change (n < len d0) in J. destruct (in_dec Nat.eq_dec t ts0) as [T|T].
        * destruct (Forall2_in_l _ _ _ _ (S t T) I) as [b [_ Y]]. apply shown_ge in Y. lia.
        * rewrite (O t T) in I. destruct I.
      + intros t T. exact (O t T).
      + exact k.
  Qed.
End Each.

(** ** The three commands *)
Lemma flat_map_setf_not (g : (nat -> list nat) -> nat -> list nat) put t v l : (forall f f' c, f c = f' c -> g f c = g f' c) -> ~ In t l -> flat_map (g (setf put t v)) l = flat_map (g put) l.
Proof. intros G N. induction l as [|c l IH]; [reflexivity|]. cbn [flat_map]. rewrite IH by (intros I; apply N; now right). f_equal. apply G. unfold setf. destruct (Nat.eqb_spec c t) as [->|]; [exfalso; apply N; now left|reflexivity]. Qed.
Definition beforeg (f : nat -> list nat) (c : nat) : list nat := f c ++ [c].
Definition afterg (f : nat -> list nat) (c : nat) : list nat := c :: f c.
Lemma beforeg_ext f f' c : f c = f' c -> beforeg f c = beforeg f' c. Proof. unfold beforeg. now intros ->. Qed.
Lemma afterg_ext f f' c : f c = f' c -> afterg f c = afterg f' c. Proof. unfold afterg. now intros ->. Qed.
Lemma before_each_nil l : before_each (fun _ => []) l = l.
Proof. induction l as [|c l IH]; [reflexivity|]. cbn. f_equal. exact IH. Qed.
Lemma after_each_nil l : after_each (fun _ => []) l = l.
Proof. induction l as [|c l IH]; [reflexivity|]. cbn. f_equal. exact IH. Qed.

Lemma old_closed d0 d put expected p t : dforest d0 -> inv d0 expected d put -> In t (dkids d0 p) -> node_in d0 p /\ node_in d0 t /\ dparent d t = Some p /\ dcontainer d p /\ dparent d0 t = Some p.
Proof.
  intros F [f e P k] I. pose proof (kids_of_kid d0 p t F I) as Ip. pose proof (kid_in d0 p t F I) as It. pose proof (kid_parent d0 p t F I) as Pt. split; [exact Ip|]. split; [exact It|]. rewrite (P t It). split; [exact Pt|]. split; [|exact Pt].
  eapply ext_container; [exact e|]. exact (f_parent _ F p t Pt).
Qed.
Lemma ext_old d0 d p (K : nat -> Prop) d' : ext (fun q => q <> p) d d' -> node_in d0 p -> (forall q, K q -> len d0 <= q) -> ext K d d'.
Proof. intros X I G. eapply ext_weak; [|exact X]. intros q _ Q. apply G in Q. change (p < len d0) in I. cbn beta. lia. Qed.
Lemma kids_other d0 p q t : dforest d0 -> In t (dkids d0 p) -> q <> p -> ~ In t (dkids d0 q).
Proof. intros F I N J. pose proof (kid_parent d0 p t F I). pose proof (kid_parent d0 q t F J). congruence. Qed.

Section Commands.
  Variables (d0 : doc) (content : nat -> result (list dtree)) (frs : nat -> list dtree) (ts : list nat).
  Hypothesis F : dforest d0.
  Hypothesis sel : selection d0 ts.
  Hypothesis good : forall t, In t ts -> content t = Ok (frs t) /\ Forall proper (frs t).

  Lemma insert_before_ok : (forall t, In t ts -> exists p, In t (dkids d0 p)) ->
    exists d' put, insert_before content ts d0 = (d', Ok tt) /\ grown d0 d' ts frs put (fun p => before_each put (dkids d0 p)).
  Proof.
    intros child. unfold insert_before.
    apply (each_grown d0 (insert_before_one content) frs (fun put p => before_each put (dkids d0 p)) ts); [|exact F|apply sel|intros; now rewrite before_each_nil].
    intros d put t T IV PE. destruct (child t T) as [p I]. destruct (good t T) as [CT PR]. destruct (old_closed d0 d put _ p t F IV I) as [Ip [It [Pt [C Pt0]]]]. destruct IV as [f e P k].
    destruct (in_split _ _ I) as [l1 [l2 EK]]. pose proof (f_nodup _ F p) as ND. change (NoDup (dkids d0 p)) in ND. rewrite EK in ND. destruct (nodup_app_cons _ _ _ ND) as [N1 N2].
    assert (dkids d p = before_each put l1 ++ t :: before_each put l2) as KD.
    { rewrite (k p Ip), EK. unfold before_each. rewrite flat_map_app. cbn [flat_map]. now rewrite PE. }
    destruct (put_fragment d p (before_each put l1) (t :: before_each put l2) (frs t) f C KD PR) as [d1 [E1 [F1 [X1 [P1 MV]]]]].
    unfold insert_before_one. rewrite CT, E1. cbn [andthen].
    assert (parent_of (d_store d1) t = Some p) as ->. { pose proof (P1 t (parent_of_in _ _ _ Pt)) as Q. unfold dparent in Q, Pt. congruence. }
    destruct (MV (insert_before_node (Some p) t) (places_before p t _)) as [d' [cs [E' [F' [X' [P' [K' S']]]]]]].
    exists d', cs. split; [exact E'|]. split; [exact F'|]. split; [eapply (ext_old d0 d p); eauto|]. split; [exact P'|]. split.
    - intros q Iq. destruct (Nat.eq_dec q p) as [->|NE].
      + rewrite K', EK. unfold before_each. rewrite flat_map_app. cbn [flat_map]. 
        change (fun c => setf put t cs c ++ [c]) with (beforeg (setf put t cs)). rewrite !(flat_map_setf_not beforeg) by (assumption || apply beforeg_ext). unfold setf at 1. rewrite Nat.eqb_refl, <- app_assoc. reflexivity.
      + rewrite (x_kids _ _ _ X' q); [|now apply (x_kept _ _ _ e)|exact NE]. rewrite (k q Iq). unfold before_each.
        change (fun c => setf put t cs c ++ [c]) with (beforeg (setf put t cs)). rewrite (flat_map_setf_not beforeg); [reflexivity|apply beforeg_ext|]. eapply kids_other; eauto.
    - eapply Forall2_impl_in; [exact S'|]. intros a b _. apply shown_le. apply e.
  Qed.

  Lemma insert_after_ok : (forall t, In t ts -> exists p, In t (dkids d0 p)) ->
    exists d' put, insert_after content ts d0 = (d', Ok tt) /\ grown d0 d' ts frs put (fun p => after_each put (dkids d0 p)).
  Proof.
    intros child. unfold insert_after.
    apply (each_grown d0 (insert_after_one content) frs (fun put p => after_each put (dkids d0 p)) ts); [|exact F|apply sel|intros; now rewrite after_each_nil].
    intros d put t T IV PE. destruct (child t T) as [p I]. destruct (good t T) as [CT PR]. destruct (old_closed d0 d put _ p t F IV I) as [Ip [It [Pt [C Pt0]]]]. destruct IV as [f e P k].
    destruct (in_split _ _ I) as [l1 [l2 EK]]. pose proof (f_nodup _ F p) as ND. change (NoDup (dkids d0 p)) in ND. rewrite EK in ND. destruct (nodup_app_cons _ _ _ ND) as [N1 N2].
    assert (dkids d p = after_each put l1 ++ t :: after_each put l2) as KD0.
    { rewrite (k p Ip), EK. unfold after_each. rewrite flat_map_app. cbn [flat_map]. now rewrite PE. }
    assert (dkids d p = (after_each put l1 ++ [t]) ++ after_each put l2) as KD by (now rewrite <- app_assoc).
    destruct (put_fragment d p (after_each put l1 ++ [t]) (after_each put l2) (frs t) f C KD PR) as [d1 [E1 [F1 [X1 [P1 MV]]]]].
    unfold insert_after_one. rewrite CT, E1. cbn [andthen].
    assert (parent_of (d_store d1) t = Some p) as ->. { pose proof (P1 t (parent_of_in _ _ _ Pt)) as Q. unfold dparent in Q, Pt. congruence. }
    assert (get_following_sibling (d_store d1) t = Ok (hd_error (after_each put l2))) as ->.
    { assert (kids (d_store d1) p = after_each put l1 ++ t :: after_each put l2) as KD1. { rewrite <- KD0. exact (x_kids _ _ _ X1 p (container_in _ _ C) Logic.I). }
      destruct (C21_siblings_partial (d_store d1) p (length (after_each put l1)) t F1) as [Q _]. { rewrite KD1, nth_error_app2, Nat.sub_diag by lia. reflexivity. }
      rewrite Q, KD1. f_equal. rewrite nth_error_app2 by lia. replace (S (length (after_each put l1)) - length (after_each put l1)) with 1 by lia. cbn. now destruct (after_each put l2). }
    assert (places (place_at (Some p) (hd_error (after_each put l2))) p (after_each put l2)) as PL.
    { destruct (after_each put l2) as [|u b]; cbn [hd_error place_at]; [apply places_append|apply places_before]. }
    destruct (MV _ PL) as [d' [cs [E' [F' [X' [P' [K' S']]]]]]].
    exists d', cs. split; [exact E'|]. split; [exact F'|]. split; [eapply (ext_old d0 d p); eauto|]. split; [exact P'|]. split.
    - intros q Iq. destruct (Nat.eq_dec q p) as [->|NE].
      + rewrite K', EK. unfold after_each. rewrite flat_map_app. cbn [flat_map]. 
        change (fun c => c :: setf put t cs c) with (afterg (setf put t cs)). rewrite !(flat_map_setf_not afterg) by (assumption || apply afterg_ext). unfold setf at 1. rewrite Nat.eqb_refl, <- app_assoc. reflexivity.
      + rewrite (x_kids _ _ _ X' q); [|now apply (x_kept _ _ _ e)|exact NE]. rewrite (k q Iq). unfold after_each.
        change (fun c => c :: setf put t cs c) with (afterg (setf put t cs)). rewrite (flat_map_setf_not afterg); [reflexivity|apply afterg_ext|]. eapply kids_other; eauto.
    - eapply Forall2_impl_in; [exact S'|]. intros a b _. apply shown_le. apply e.
  Qed.

  (** The place of the new children: at the end, or where [child] says, counted as
      Python counts. *)
  Lemma append_ok child pos : (forall t, In t ts -> dcontainer d0 t) -> ts <> [] ->
    (forall t, In t ts -> pos t <= length (dkids d0 t) /\
       match child with
       | None => pos t = length (dkids d0 t)
       | Some f => exists z, f t = Ok z /\ (- Z.of_nat (length (dkids d0 t)) <= z)%Z /\ pos t = if (z <? 0)%Z then Z.to_nat (z + Z.of_nat (length (dkids d0 t))) else Nat.min (Z.to_nat z) (length (dkids d0 t))
       end) ->
    exists d' put, append content child ts d0 = (d', Ok tt) /\ grown d0 d' ts frs put (fun p => at_position (pos p) (put p) (dkids d0 p)).
  Proof.
    intros CO NE HP. unfold append. destruct ts as [|t0 ts'] eqn:ET; [contradiction|]. rewrite <- ET in *. clear ET NE.
    apply (each_grown d0 (append_one content child) frs (fun put p => at_position (pos p) (put p) (dkids d0 p)) ts); [|exact F|apply sel|].
    2: { intros p _. unfold at_position. cbn [app]. now rewrite firstn_skipn. }
    intros d put t T IV PE. destruct (good t T) as [CT PR]. pose proof (proj2 sel t T) as It. destruct IV as [f e P k]. destruct (HP t T) as [HL HC].
    assert (dcontainer d t) as C by (eapply ext_container; [exact e|now apply CO]).
    assert (dkids d t = dkids d0 t) as KD0. { rewrite (k t It), PE. unfold at_position. cbn [app]. now rewrite firstn_skipn. }
    assert (dkids d t = firstn (pos t) (dkids d0 t) ++ skipn (pos t) (dkids d0 t)) as KD by (now rewrite firstn_skipn).
    destruct (put_fragment d t (firstn (pos t) (dkids d0 t)) (skipn (pos t) (dkids d0 t)) (frs t) f C KD PR) as [d1 [E1 [F1 [X1 [P1 MV]]]]].
    unfold append_one. rewrite CT, E1. cbn [andthen].
    assert (kids (d_store d1) t = dkids d0 t) as KD1. { rewrite <- KD0. exact (x_kids _ _ _ X1 t (container_in _ _ C) Logic.I). }
    assert (append_ref child (d_store d1) t = Ok (hd_error (skipn (pos t) (dkids d0 t)))) as ->.
    { unfold append_ref. destruct child as [g|]; [|rewrite HC, skipn_all; reflexivity]. destruct HC as [z [Ez [Lz Pz]]].
      assert (xml_children (d_store d1) t = Ok (dkids d0 t)) as ->.
      { rewrite <- KD1. destruct (ext_container _ _ _ _ X1 C) as [kk [KK CK]]. pose proof (f_read _ F1 t (kind_exists _ _ _ KK)) as R. unfold xml_children. unfold kind_of in KK. destruct (get (d_store d1) t); [|discriminate]. cbn [option_map] in KK. injection KK as ->. rewrite CK. exact R. }
      cbn [bind]. rewrite Ez. cbn [bind]. set (l := dkids d0 t) in *.
      assert (forall n, n < length l -> hd_error (skipn n l) = nth_error l n) as HN. { intros n _. apply hd_skipn. }
      destruct (Z.ltb_spec z (Z.of_nat (length l))) as [LT|GE].
      - unfold py_item. destruct (Z.ltb_spec z 0) as [NG|PS].
        + rewrite Pz. destruct (Z.ltb_spec (z + Z.of_nat (length l)) 0); [lia|]. rewrite HN by lia. destruct (nth_error l (Z.to_nat (z + Z.of_nat (length l)))) eqn:Q; [reflexivity|]. apply nth_error_None in Q. lia.
        + rewrite Pz. destruct (Z.ltb_spec z 0); [lia|]. rewrite Nat.min_l by lia. rewrite HN by lia. destruct (nth_error l (Z.to_nat z)) eqn:Q; [reflexivity|]. apply nth_error_None in Q. lia.
      - rewrite Pz. destruct (Z.ltb_spec z 0); [lia|]. rewrite Nat.min_r, skipn_all by lia. reflexivity. }
    assert (places (place_at (Some t) (hd_error (skipn (pos t) (dkids d0 t)))) t (skipn (pos t) (dkids d0 t))) as PL.
    { destruct (skipn (pos t) (dkids d0 t)) as [|u b]; cbn [hd_error place_at]; [apply places_append|apply places_before]. }
    destruct (MV _ PL) as [d' [cs [E' [F' [X' [P' [K' S']]]]]]].
    exists d', cs. split; [exact E'|]. split; [exact F'|]. split; [eapply (ext_old d0 d t); eauto|]. split; [exact P'|]. split.
    - intros q Iq. destruct (Nat.eq_dec q t) as [->|NE].
      + rewrite K'. unfold at_position, setf. now rewrite Nat.eqb_refl.
      + rewrite (x_kids _ _ _ X' q); [|now apply (x_kept _ _ _ e)|exact NE]. rewrite (k q Iq). unfold setf. apply Nat.eqb_neq in NE as ->. reflexivity.
    - eapply Forall2_impl_in; [exact S'|]. intros a b _. apply shown_le. apply e.
  Qed.
End Commands.
