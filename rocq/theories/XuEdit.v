(** * Proofs about the XUpdate commands: remove, update *)
From Coq Require Import NArith ZArith String List Bool Lia Arith.
From Verif Require Import PyStr PyErr DomModel DomSpec DomInv DomCells DomOps DomStep DomProps XuModel XuSpec XuProofs XuInsert.
Import ListNotations.
Local Open Scope nat_scope.

Lemma is_member_in ts x : is_member ts x = true <-> In x ts.
Proof. unfold is_member. rewrite existsb_exists. split; [intros [y [I E]]; apply Nat.eqb_eq in E; now subst|intros I; exists x; split; [exact I|apply Nat.eqb_refl]]. Qed.
Lemma is_member_not ts x : is_member ts x = false <-> ~ In x ts.
Proof. rewrite <- is_member_in. destruct (is_member ts x); split; congruence. Qed.
Lemma type_kind s i : type_of s i = kind_of s i. Proof. reflexivity. Qed.

(** ** Attributes *)
Lemma del_get d p i n m j : get (d_store d) p = Some n -> get (d_store d) i = Some m -> p <> i ->
  get (d_store (del_attribute d p i)) j = if j =? p then Some (set_attrs n (without i (n_attrs n))) else if j =? i then Some (set_parent m None) else get (d_store d) j.
Proof.
  intros G1 G2 N. unfold del_attribute. cbn [d_store]. rewrite !get_upd. destruct (Nat.eqb_spec j p) as [->|].
  - apply Nat.eqb_neq in N as ->. rewrite G1. reflexivity.
  - destruct (Nat.eqb_spec j i) as [->|]; [now rewrite G2|reflexivity].
Qed.
Lemma upd_len' s i f : length (s_nodes (upd s i f)) = length (s_nodes s).
Proof. unfold upd. destruct (get s i); [|reflexivity]. unfold put. cbn [s_nodes]. apply length_set_nth. Qed.
Lemma upd_counter' s i f : s_counter (upd s i f) = s_counter s.
Proof. unfold upd. now destruct (get s i). Qed.
Lemma del_attribute_ok d p i : dforest d -> In i (dattrs d p) -> exists d', del_attribute d p i = d' /\ dforest d' /\ len d' = len d /\ d_name d' = d_name d /\
  (forall j, dkind d' j = dkind d j) /\ (forall j, ddata d' j = ddata d j) /\ (forall j, dkids d' j = dkids d j) /\
  (forall j, dattrs d' j = without i (dattrs d j)) /\ (forall j, dparent d' j = set_par (dparent d) i None j).
Proof.
  intros F I. destruct (proj1 (f_alink _ F p i) I) as [P K]. pose proof (f_aparent _ F p i I) as KP. set (s := d_store d) in *.
  assert (p <> i) as N by congruence.
  destruct (get s p) as [n|] eqn:Gp; [|unfold kind_of in KP; rewrite Gp in KP; discriminate]. destruct (get s i) as [m|] eqn:Gi; [|unfold kind_of in K; rewrite Gi in K; discriminate].
  pose proof (fun j => del_get d p i n m j Gp Gi N) as GS. set (s' := d_store (del_attribute d p i)) in *.
  assert (n_kind n = KElement) as Kn by (unfold kind_of in KP; rewrite Gp in KP; now injection KP).
  assert (n_kind m = KAttr) as Km by (unfold kind_of in K; rewrite Gi in K; now injection K).
  assert (length (s_nodes s') = length (s_nodes s)) as L by (unfold s', del_attribute; cbn [d_store]; now rewrite !upd_len').
  assert (s_counter s' = s_counter s) as CT by (unfold s', del_attribute; cbn [d_store]; now rewrite !upd_counter').
  assert (forall j, get_children s' j = get_children s j) as GC.
  { intros j. unfold get_children. rewrite GS. destruct (Nat.eqb_spec j p) as [->|]; [now rewrite Gp|]. destruct (Nat.eqb_spec j i) as [->|]; [now rewrite Gi|reflexivity]. }
  assert (forall j, kids s' j = kids s j) as KK by (intros j; unfold kids; now rewrite GC).
  assert (forall j, kind_of s' j = kind_of s j) as KD.
  { intros j. unfold kind_of. rewrite GS. destruct (Nat.eqb_spec j p) as [->|]; [now rewrite Gp|]. destruct (Nat.eqb_spec j i) as [->|]; [now rewrite Gi|reflexivity]. }
  assert (forall j, data_of s' j = data_of s j) as DD.
  { intros j. unfold data_of. rewrite GS. destruct (Nat.eqb_spec j p) as [->|]; [now rewrite Gp|]. destruct (Nat.eqb_spec j i) as [->|]; [now rewrite Gi|reflexivity]. }
  assert (forall j, index_of_entity s' j = index_of_entity s j) as IX.
  { intros j. unfold index_of_entity, doc_index. rewrite GS. destruct (Nat.eqb_spec j p) as [->|]; [rewrite Gp; cbn; reflexivity|]. destruct (Nat.eqb_spec j i) as [->|]; [rewrite Gi; reflexivity|reflexivity]. }
  assert (forall j, parent_of s' j = set_par (parent_of s) i None j) as PP.
  { intros j. unfold set_par, parent_of. rewrite GS. destruct (Nat.eqb_spec j p) as [->|]; [apply Nat.eqb_neq in N as ->; now rewrite Gp|]. destruct (Nat.eqb_spec j i) as [->|]; reflexivity. }
  assert (forall j, attrs_of s' j = without i (attrs_of s j)) as AA.
  { intros j. destruct (Nat.eq_dec j p) as [->|NE].
    - unfold attrs_of. rewrite GS, Nat.eqb_refl, Gp. reflexivity.
    - rewrite without_notin.
      + unfold attrs_of. rewrite GS. apply Nat.eqb_neq in NE as ->. destruct (Nat.eqb_spec j i) as [->|]; [now rewrite Gi|reflexivity].
      + intros J. apply (f_alink s F) in J. destruct J as [J _]. congruence. }
  eexists. split; [reflexivity|]. split; [|split; [exact L|split; [reflexivity|split; [exact KD|split; [exact DD|split; [exact KK|split; [exact AA|exact PP]]]]]]].
  fold s'. split.
  - intros q Hq. rewrite GC, KK. apply (f_read s F). unfold exists_node in *. now rewrite <- L.
  - intros q. rewrite KK. apply (f_nodup s F).
  - intros q c. rewrite KK, PP, KD, (f_link s F). unfold set_par. destruct (Nat.eqb_spec c i) as [->|]; [|reflexivity]. rewrite K. split; intros [_ X]; now contradiction X.
  - intros q. rewrite AA. apply nodup_without, (f_anodup s F).
  - intros q a. rewrite AA, PP, KD, in_without, (f_alink s F). unfold set_par. destruct (Nat.eqb_spec a i) as [->|NE]; [split; [intros [_ X]; now contradiction X|intros [X _]; discriminate]|tauto].
  - intros q c. rewrite PP, KD. unfold set_par. destruct (Nat.eqb_spec c i) as [->|]; [discriminate|apply (f_parent s F)].
  - intros q a. rewrite AA, KD, in_without. intros [X _]. now apply (f_aparent s F q a).
  - intros q c. rewrite KK, KD. apply (f_kind s F).
  - intros x X. apply (f_acyclic s F x). clear - X PP.
    assert (forall a b, above (parent_of s') a b -> above (parent_of s) a b) as W; [|now apply W].
    intros a b. induction 1 as [b Q|b q Q A IH]; rewrite PP in Q; unfold set_par in Q; (destruct (b =? i); [discriminate|]); [now apply above_parent|eapply above_up; eauto].
  - intros a b x. rewrite !IX. apply (f_index s F).
  - intros a x. rewrite IX, CT. apply (f_counter s F).
Qed.

(** ** remove *)
Definition out (ts : list nat) (l : list nat) : list nat := filter (fun c => negb (is_member ts c)) l.
Lemma out_nil l : out [] l = l.
Proof. unfold out. induction l as [|c l IH]; [reflexivity|]. cbn. f_equal. exact IH. Qed.
Lemma out_cons t ts l : out (t :: ts) l = out ts (without t l).
Proof.
  unfold out, without. induction l as [|c l IH]; [reflexivity|]. cbn [filter is_member existsb]. fold (is_member ts c). destruct (Nat.eqb_spec c t) as [->|N]; cbn [negb orb filter].
  - exact IH.
  - destruct (is_member ts c); cbn [negb]; [exact IH|f_equal; exact IH].
Qed.
Lemma remove_ok : forall ts d, dforest d -> NoDup ts -> exists d', remove ts d = (d', Ok tt) /\ dforest d' /\ len d' = len d /\ d_name d' = d_name d /\
  (forall i, dkind d' i = dkind d i) /\ (forall i, ddata d' i = ddata d i) /\ (forall p, dkids d' p = out ts (dkids d p)) /\ (forall p, dattrs d' p = out ts (dattrs d p)) /\
  (forall i, dparent d' i = if is_member ts i then None else dparent d i).
Proof.
  induction ts as [|t ts IH]; intros d F ND; unfold remove; cbn [for_each].
  - exists d. split; [reflexivity|]. split; [exact F|]. repeat (split; [reflexivity|]). split; [intros p; now rewrite out_nil|]. split; [intros p; now rewrite out_nil|reflexivity].
  - inversion ND as [|? ? N1 N2]; subst.
    assert (exists d1, remove_one d t = (d1, Ok tt) /\ dforest d1 /\ len d1 = len d /\ d_name d1 = d_name d /\
      (forall i, dkind d1 i = dkind d i) /\ (forall i, ddata d1 i = ddata d i) /\ (forall p, dkids d1 p = without t (dkids d p)) /\ (forall p, dattrs d1 p = without t (dattrs d p)) /\
      (forall i, dparent d1 i = if i =? t then None else dparent d i)) as [d1 [E1 [F1 [L1 [M1 [K1 [D1 [X1 [A1 P1]]]]]]]]].
    { unfold remove_one. destruct (parent_of (d_store d) t) as [p|] eqn:P.
      - rewrite type_kind. assert (t < len d) as It by (eapply parent_of_in; exact P). destruct (kind_of (d_store d) t) as [k|] eqn:K.
        2: { unfold kind_of in K. destruct (get (d_store d) t) eqn:G; [discriminate|]. apply nth_error_None in G. unfold len in It. lia. }
        assert (k = KAttr \/ k <> KAttr) as [->|NK] by (destruct k; (left; reflexivity) || (right; discriminate)).
        + assert (In t (dattrs d p)) as I by (apply (f_alink _ F); auto). destruct (del_attribute_ok d p t F I) as [d1 [-> [F1 [L1 [M1 [K1 [D1 [X1 [A1 P1]]]]]]]]].
          exists d1. repeat (split; [first [reflexivity|assumption]|]). split; [|split; [exact A1|exact P1]]. intros q. rewrite X1, without_notin; [reflexivity|]. intros J. apply (f_link _ F) in J. destruct J as [_ J]. now apply J.
        + assert (In t (dkids d p)) as I by (apply (f_link _ F); split; [exact P|congruence]).
          destruct (C19_remove (d_store d) p t F (f_parent _ F p t P) It) as [R _]. destruct (R I) as [s' [E' [F' ED]]].
          exists {| d_store := s'; d_name := d_name d |}. split; [pose proof (on_edited d (Remove p t) s' E') as Q; destruct k; exact Q || contradiction|].
          split; [exact F'|]. split; [apply (e_len _ _ _ _ ED)|]. split; [reflexivity|]. split; [intros i; apply (e_kind _ _ _ _ ED)|]. split; [intros i; apply (e_data _ _ _ _ ED)|]. split; [|split].
          * intros q. destruct (lt_dec q (len d)) as [Lq|Lq]; [exact (edited_kids _ _ _ _ q ED Lq)|]. rewrite !out_kids; [reflexivity| |]; unfold node_in, exists_node; cbn [d_store]; rewrite ?(e_len _ _ _ _ ED); exact Lq.
          * intros q. unfold dattrs. cbn [d_store]. rewrite (e_attrs _ _ _ _ ED), without_notin; [reflexivity|]. intros J. apply (f_alink _ F) in J. destruct J as [_ J]. congruence.
          * intros i. apply (e_par _ _ _ _ ED).
      - exists d. repeat (split; [first [reflexivity|assumption]|]). split; [|split].
        + intros q. rewrite without_notin; [reflexivity|]. intros J. apply (kid_parent d q t F) in J. unfold dparent in J. congruence.
        + intros q. rewrite without_notin; [reflexivity|]. intros J. apply (f_alink _ F) in J. destruct J as [J _]. congruence.
        + intros i. destruct (Nat.eqb_spec i t) as [->|]; [exact P|reflexivity]. }
    rewrite E1. cbn [andthen]. destruct (IH d1 F1 N2) as [d' [E' [F' [L' [M' [K' [D' [X' [A' P']]]]]]]]]. exists d'. split; [exact E'|]. split; [exact F'|]. split; [congruence|]. split; [congruence|].
    split; [intros i; now rewrite K'|]. split; [intros i; now rewrite D'|]. split; [intros p; now rewrite X', X1, out_cons|]. split; [intros p; now rewrite A', A1, out_cons|].
    intros i. rewrite P', P1. cbn [is_member existsb]. fold (is_member ts i). destruct (Nat.eqb_spec i t); cbn [orb]; [now destruct (is_member ts i)|reflexivity].
Qed.

(** ** update *)
Lemma set_data_ok d i x : dforest d -> exists d', set_data_of d i x = d' /\ dforest d' /\ len d' = len d /\ d_name d' = d_name d /\
  (forall j, dkind d' j = dkind d j) /\ (forall j, ddata d' j = if (j =? i) && (i <? len d) then x else ddata d j) /\ (forall j, dkids d' j = dkids d j) /\
  (forall j, dattrs d' j = dattrs d j) /\ (forall j, dparent d' j = dparent d j).
Proof.
  intros F. eexists. split; [reflexivity|]. set (s := d_store d) in *.
  assert (forall j, get (d_store (set_data_of d i x)) j = if j =? i then option_map (fun n => set_data n x) (get s j) else get s j) as GS by (intros j; unfold set_data_of; cbn [d_store]; apply get_upd).
  set (s' := d_store (set_data_of d i x)) in *.
  assert (length (s_nodes s') = length (s_nodes s)) as L by (unfold s', set_data_of; cbn [d_store]; apply upd_len').
  assert (s_counter s' = s_counter s) as CT by (unfold s', set_data_of; cbn [d_store]; apply upd_counter').
  assert (forall j, get_children s' j = get_children s j) as GC by (intros j; unfold get_children; rewrite GS; destruct (Nat.eqb_spec j i) as [->|]; [now destruct (get s i)|reflexivity]).
  assert (forall j, kind_of s' j = kind_of s j) as KD by (intros j; unfold kind_of; rewrite GS; destruct (Nat.eqb_spec j i) as [->|]; [now destruct (get s i)|reflexivity]).
  assert (forall j, attrs_of s' j = attrs_of s j) as AA by (intros j; unfold attrs_of; rewrite GS; destruct (Nat.eqb_spec j i) as [->|]; [now destruct (get s i)|reflexivity]).
  assert (forall j, parent_of s' j = parent_of s j) as PP by (intros j; unfold parent_of; rewrite GS; destruct (Nat.eqb_spec j i) as [->|]; [now destruct (get s i)|reflexivity]).
  assert (forall j, index_of_entity s' j = index_of_entity s j) as IX by (intros j; unfold index_of_entity, doc_index; rewrite GS; destruct (Nat.eqb_spec j i) as [->|]; [now destruct (get s i)|reflexivity]).
  split; [apply (forest_congr s s'); assumption|]. split; [exact L|]. split; [reflexivity|]. split; [exact KD|]. split; [|split; [intros j; unfold dkids; fold s'; unfold kids; now rewrite GC|split; [exact AA|exact PP]]].
  intros j. unfold ddata. fold s'. unfold data_of. rewrite GS. destruct (Nat.eqb_spec j i) as [->|]; [|reflexivity]. cbn [andb]. destruct (Nat.ltb_spec i (len d)) as [Li|Li].
  - destruct (get s i) eqn:G; [reflexivity|]. apply nth_error_None in G. unfold len in Li. fold s in Li. lia.
  - destruct (get s i) eqn:G; [|fold s; now rewrite G]. apply get_some in G. unfold len in Li. fold s in Li. lia.
Qed.

Lemma clear_ok t : forall cs fuel d, length cs < fuel -> dforest d -> dcontainer d t -> dkids d t = cs ->
  exists d', move_all (remove_node (Some t)) fuel d t = (d', Ok tt) /\ dforest d' /\ ext (fun q => q <> t) d d' /\ dkids d' t = [] /\ (forall i, dparent d' i = if is_member cs i then None else dparent d i) /\ len d' = len d.
Proof.
  induction cs as [|c cs IH]; intros [|fuel] d LF F C K; try (cbn [length] in LF; lia); cbn [move_all]; rewrite (first_child_ok d t F C), K; cbn [hd_error].
  - exists d. split; [reflexivity|]. split; [exact F|]. split; [apply ext_refl|]. auto.
  - assert (In c (dkids d t)) as I by (rewrite K; now left). pose proof (kid_parent d t c F I) as Pc.
    destruct (C19_remove (d_store d) t c F C (kid_in d t c F I)) as [R _]. destruct (R I) as [s' [E' [F' ED]]]. unfold remove_node. rewrite (on_edited d (Remove t c) s' E'). cbn [andthen].
    set (d1 := {| d_store := s'; d_name := d_name d |}) in *.
    assert (ext (fun q => q <> t) d d1) as X1. { unfold d1. eapply edited_ext; [exact ED|]. intros q _ Q. cbn beta in *. apply without_other; [exact F|]. unfold dparent in Pc. congruence. }
    assert (dkids d1 t = cs) as K1. { unfold dkids at 1, d1. cbn [d_store]. rewrite (edited_kids _ _ _ _ t ED (container_in _ _ C)). change (without c (dkids d t) = cs). rewrite K. pose proof (f_nodup _ F t) as ND. change (NoDup (dkids d t)) in ND. rewrite K in ND. exact (without_mid c [] cs ND). }
    assert (length cs < fuel) as LF1 by (cbn [length] in LF; lia).
    destruct (IH fuel d1 LF1 F' (ext_container _ _ _ _ X1 C) K1) as [d' [E2 [F2 [X2 [K2 [P2 L2]]]]]]. exists d'. split; [exact E2|]. split; [exact F2|]. split; [eapply ext_trans; eauto|]. split; [exact K2|]. split.
    + intros i. rewrite P2. cbn [is_member existsb]. fold (is_member cs i). unfold dparent at 1, d1. cbn [d_store]. rewrite (e_par _ _ _ _ ED). unfold set_par, dparent. destruct (is_member cs i); [now rewrite orb_true_r|]. now rewrite orb_false_r.
    + rewrite L2. unfold len, d1. cbn [d_store]. apply (e_len _ _ _ _ ED).
Qed.

Lemma shown_ext2 n0 d d' t : (forall i, n0 <= i -> node_in d i -> dkind d' i = dkind d i /\ d_name d' i = d_name d i /\ ddata d' i = ddata d i /\ dattrs d' i = dattrs d i /\ dkids d' i = dkids d i) ->
  (forall n a, n0 <= n -> In a (dattrs d n) -> n0 <= a /\ node_in d a) -> forall n, shown n0 d n t -> shown n0 d' n t.
Proof.
  intros X AT. induction t as [k nm x atts ts IH] using dtree_rect'. intros n S. pose proof (shown_ge _ _ _ _ S) as [G1 G2]. apply shown_eq in S. destruct S as [Z [A [B [C [D E]]]]].
  destruct (X n G1 G2) as [X1 [X2 [X3 [X4 X5]]]]. apply shown_eq. split; [exact Z|]. split; [congruence|]. split; [congruence|]. split; [congruence|]. split.
  - rewrite <- D. unfold attributes. rewrite X4. apply map_ext_in. intros a I. destruct (AT n a G1 I) as [I1 I2]. destruct (X a I1 I2) as [_ [Y1 [Y2 _]]]. congruence.
  - rewrite X5. eapply Forall2_impl_in; [exact E|]. intros a b I Y. rewrite Forall_forall in IH. now apply IH.
Qed.

Lemma is_kind_true d k i : is_kind d k i = true <-> dkind d i = Some k.
Proof. unfold is_kind. destruct (dkind d i) as [k'|]; [|split; discriminate]. destruct k, k'; cbn; split; (reflexivity || discriminate). Qed.
Section Update.
  Variables (d0 : doc) (content : nat -> result (list dtree)) (frs : nat -> list dtree) (value : nat -> result str) (vs : nat -> str) (ts : list nat).
  Hypothesis F : dforest d0.
  Hypothesis sel : selection d0 ts.
  (** Nothing is asked of entities; processing instructions are excluded. *)
  Hypothesis good_element : forall t, In t ts -> dkind d0 t = Some KElement -> content t = Ok (frs t) /\ Forall proper (frs t).
  Hypothesis good_value : forall t, In t ts -> dkind d0 t <> Some KElement -> value t = Ok (vs t).
  Hypothesis no_pi : forall t, In t ts -> dkind d0 t <> Some KPI.
  Hypothesis good_empty : forall t, In t ts -> dkind d0 t = Some KText -> vs t = [] -> exists p, In t (dkids d0 p) /\ ~ In p ts.

  Definition dropped (done : list nat) (t : nat) : bool := is_member done t && is_kind d0 KText t && match vs t with [] => true | _ => false end.
  Definition refill (done : list nat) (t : nat) : bool := is_member done t && is_kind d0 KElement t.
  Definition changed (done : list nat) (t : nat) : bool :=
    is_member done t && (is_kind d0 KAttr t || is_kind d0 KComment t || (is_kind d0 KText t && match vs t with [] => false | _ => true end)).
  Definition kids_after (done : list nat) (put : nat -> list nat) (p : nat) : list nat := if refill done p then put p else filter (fun c => negb (dropped done c)) (dkids d0 p).
  Definition data_after (done : list nat) (i : nat) : str := if changed done i then vs i else ddata d0 i.
  Definition parent_after (done : list nat) (i : nat) : option nat :=
    if dropped done i then None
    else match dparent d0 i with
         | Some p => if refill done p && negb (is_kind d0 KAttr i) then None else Some p
         | None => None
         end.
  Record uinv (done : list nat) (put : nat -> list nat) (d : doc) : Prop := {
    u_forest : dforest d;
    u_len : len d0 <= len d;
    u_kept : kept d0 d;
    u_attrs : same_attrs d0 d;
    u_data : forall i, node_in d0 i -> ddata d i = data_after done i;
    u_kids : forall p, node_in d0 p -> dkids d p = kids_after done put p;
    u_par : forall i, node_in d0 i -> dparent d i = parent_after done i;
    u_shown : forall t, In t done -> dkind d0 t = Some KElement -> Forall2 (shown (len d0) d) (put t) (frs t)
  }.
  Lemma parent_after_old done i p : node_in d0 i -> parent_after done i = Some p -> p < len d0 /\ dparent d0 i = Some p.
  Proof. intros I. unfold parent_after. destruct (dropped done i); [discriminate|]. destruct (dparent d0 i) as [q|] eqn:P; [|discriminate]. destruct (refill done q && _); [discriminate|]. intros [= <-]. split; [eapply parent_in; eauto|reflexivity]. Qed.
  Lemma attrs_new done put d n a : uinv done put d -> len d0 <= n -> In a (dattrs d n) -> len d0 <= a /\ node_in d a.
  Proof.
    intros U L I. pose proof (u_forest _ _ _ U) as Fd. split; [|exact (attr_in d n a Fd I)]. destruct (le_lt_dec (len d0) a) as [G|G]; [exact G|]. apply (f_alink _ Fd) in I. destruct I as [I _].
    pose proof (u_par _ _ _ U a G) as P. unfold dparent in P. rewrite I in P. symmetry in P. destruct (parent_after_old done a n G P). lia.
  Qed.
  Lemma cons_flags t done i : i <> t -> dropped (t :: done) i = dropped done i /\ refill (t :: done) i = refill done i /\ changed (t :: done) i = changed done i.
  Proof. intros N. unfold dropped, refill, changed. cbn [is_member existsb]. apply Nat.eqb_neq in N as ->. cbn [orb]. auto. Qed.
  Lemma self_flags t done : is_member (t :: done) t = true. Proof. cbn [is_member existsb]. now rewrite Nat.eqb_refl. Qed.
  Lemma not_done t done : ~ In t done -> is_member done t = false. Proof. apply is_member_not. Qed.
  Lemma filter_same (f g : nat -> bool) l : (forall x, In x l -> f x = g x) -> filter f l = filter g l.
  Proof. intros E. induction l as [|x l IH]; [reflexivity|]. cbn [filter]. rewrite (E x) by now left. rewrite IH by (intros y I; apply E; now right). reflexivity. Qed.

  (** A target whose value is replaced. *)
  Lemma step_value done put d t : uinv done put d -> ~ In t done -> node_in d0 t ->
    dropped (t :: done) t = false -> refill (t :: done) t = false -> changed (t :: done) t = true ->
    uinv (t :: done) put (set_data_of d t (vs t)).
  Proof.
    intros U N It FD FR FC. pose proof (u_kept _ _ _ U t It) as [It' _]. change (t < len d) in It'. destruct (set_data_ok d t (vs t) (u_forest _ _ _ U)) as [d1 [-> [F1 [L1 [M1 [K1 [D1 [X1 [A1 P1]]]]]]]]].
    assert (forall i, dropped (t :: done) i = dropped done i) as E1. { intros i. destruct (Nat.eq_dec i t) as [->|NE]; [|now apply cons_flags]. rewrite FD. unfold dropped. now rewrite not_done. }
    assert (forall i, refill (t :: done) i = refill done i) as E2. { intros i. destruct (Nat.eq_dec i t) as [->|NE]; [|now apply cons_flags]. rewrite FR. unfold refill. now rewrite not_done. }
    split.
    - exact F1.
    - rewrite L1. apply (u_len _ _ _ U).
    - intros i I. destruct (u_kept _ _ _ U i I) as [Q1 [Q2 Q3]]. split; [change (i < len d1); now rewrite L1|]. rewrite K1, M1. auto.
    - intros i I. rewrite A1. now apply (u_attrs _ _ _ U).
    - intros i I. rewrite D1. assert (t <? len d = true) as -> by (now apply Nat.ltb_lt). rewrite andb_true_r. destruct (Nat.eqb_spec i t) as [->|NE]; [unfold data_after; now rewrite FC|].
      rewrite (u_data _ _ _ U i I). unfold data_after. now destruct (cons_flags t done i NE) as [_ [_ ->]].
    - intros p I. rewrite X1, (u_kids _ _ _ U p I). unfold kids_after. rewrite E2. destruct (refill done p); [reflexivity|]. apply filter_same. intros x _. now rewrite E1.
    - intros i I. rewrite P1, (u_par _ _ _ U i I). unfold parent_after. rewrite E1. destruct (dropped done i); [reflexivity|]. destruct (dparent d0 i); [|reflexivity]. now rewrite E2.
    - intros x [<-|I] K.
      + exfalso. assert (refill (t :: done) t = true) as Q; [|congruence]. unfold refill. rewrite self_flags. now apply is_kind_true.
      + eapply Forall2_impl_in; [exact (u_shown _ _ _ U x I K)|]. intros a b _. apply shown_ext2.
        * intros i Li Ii. rewrite K1, M1, D1, A1, X1. assert (i =? t = false) as -> by (apply Nat.eqb_neq; change (t < len d0) in It; lia). cbn [andb]. auto.
        * intros n y Ln Iy. eapply attrs_new; eauto.
  Qed.

  (** An empty text node. *)
  Lemma step_drop done put d t p : uinv done put d -> ~ In t done -> In t (dkids d0 p) -> ~ In p done -> dropped (t :: done) t = true ->
    exists d', remove_node (parent_of (d_store d) t) d t = (d', Ok tt) /\ uinv (t :: done) put d'.
  Proof.
    intros U N Ip Np FD. pose proof (kid_in d0 p t F Ip) as It. pose proof (kids_of_kid d0 p t F Ip) as Lp. pose proof (kid_parent d0 p t F Ip) as Pt.
    assert (dkind d0 t = Some KText) as KT. { unfold dropped in FD. apply andb_true_iff in FD. destruct FD as [FD _]. apply andb_true_iff in FD. now apply is_kind_true. }
    assert (refill done p = false) as RP by (unfold refill; now rewrite not_done).
    assert (dparent d t = Some p) as PD. { rewrite (u_par _ _ _ U t It). unfold parent_after, dropped. rewrite not_done by exact N. cbn [andb]. now rewrite Pt, RP. }
    pose proof (u_forest _ _ _ U) as Fd. destruct (u_kept _ _ _ U t It) as [It' [Kt' _]].
    assert (In t (dkids d p)) as Id. { apply (f_link _ Fd). split; [exact PD|]. unfold dkind in Kt', KT. congruence. }
    unfold remove_node. unfold dparent in PD. rewrite PD. destruct (C19_remove (d_store d) p t Fd (f_parent _ Fd p t PD) It') as [R _]. destruct (R Id) as [s' [E' [F' ED]]].
    exists {| d_store := s'; d_name := d_name d |}. split; [now apply on_edited|]. set (d1 := {| d_store := s'; d_name := d_name d |}).
    assert (forall i, i <> t -> dropped (t :: done) i = dropped done i) as E1 by (intros i NE; now apply cons_flags).
    assert (forall i, refill (t :: done) i = refill done i) as E2. { intros i. destruct (Nat.eq_dec i t) as [->|NE]; [|now apply cons_flags]. unfold refill, is_kind. rewrite KT. now rewrite !andb_false_r. }
    assert (forall q, q < len d -> dkids d1 q = without t (dkids d q)) as X1 by (intros q Lq; exact (edited_kids _ _ _ _ q ED Lq)).
    assert (forall i, dkind d1 i = dkind d i) as K1 by (intros i; apply (e_kind _ _ _ _ ED)).
    assert (forall i, ddata d1 i = ddata d i) as D1 by (intros i; apply (e_data _ _ _ _ ED)).
    assert (forall i, dattrs d1 i = dattrs d i) as A1 by (intros i; apply (e_attrs _ _ _ _ ED)).
    assert (len d1 = len d) as L1 by apply (e_len _ _ _ _ ED).
    assert (forall i, dparent d1 i = set_par (dparent d) t None i) as P1 by (intros i; apply (e_par _ _ _ _ ED)).
    split.
    - exact F'.
    - rewrite L1. apply (u_len _ _ _ U).
    - intros i I. destruct (u_kept _ _ _ U i I) as [Q1 [Q2 Q3]]. split; [change (i < len d1); now rewrite L1|]. rewrite K1. auto.
    - intros i I. rewrite A1. now apply (u_attrs _ _ _ U).
    - intros i I. rewrite D1, (u_data _ _ _ U i I). unfold data_after. destruct (Nat.eq_dec i t) as [->|NE].
      + unfold changed. rewrite not_done by exact N. rewrite self_flags. unfold is_kind. rewrite KT. cbn [kind_eqb andb orb]. unfold dropped in FD. apply andb_true_iff in FD. destruct FD as [_ FD]. destruct (vs t); [reflexivity|discriminate].
      + now destruct (cons_flags t done i NE) as [_ [_ ->]].
    - intros q I. destruct (u_kept _ _ _ U q I) as [Iq _]. rewrite (X1 q Iq), (u_kids _ _ _ U q I). unfold kids_after. rewrite E2. destruct (refill done q) eqn:RQ.
      + apply without_notin. intros J. pose proof (u_kids _ _ _ U q I) as KQ. unfold kids_after in KQ. rewrite RQ in KQ. rewrite <- KQ in J. pose proof (kid_parent d q t Fd J) as PQ. unfold dparent in PQ. assert (q = p) by congruence. congruence.
      + unfold without. clear - E1 FD. induction (dkids d0 q) as [|x l IH]; [reflexivity|]. cbn [filter]. destruct (Nat.eq_dec x t) as [->|NE].
        * rewrite FD. cbn [negb]. destruct (negb (dropped done t)); cbn [filter]; [rewrite Nat.eqb_refl; cbn [negb]|]; exact IH.
        * rewrite (E1 x NE). destruct (negb (dropped done x)); cbn [filter]; [|exact IH]. apply Nat.eqb_neq in NE as ->. cbn [negb]. f_equal. exact IH.
    - intros i I. rewrite P1. unfold set_par. destruct (Nat.eqb_spec i t) as [->|NE]; [unfold parent_after; now rewrite FD|]. rewrite (u_par _ _ _ U i I). unfold parent_after. rewrite (E1 i NE). destruct (dropped done i); [reflexivity|]. destruct (dparent d0 i); [|reflexivity]. now rewrite E2.
    - intros x [<-|I] K; [congruence|]. eapply Forall2_impl_in; [exact (u_shown _ _ _ U x I K)|]. intros a b _. apply shown_ext2.
      + intros i Li Ii. rewrite K1, D1, A1, (X1 i Ii). cbn [d_name d1]. repeat split; try reflexivity. apply without_notin. intros J. pose proof (kid_parent d i t Fd J) as PQ. unfold dparent in PQ. assert (i = p) by congruence. change (p < len d0) in Lp. lia.
      + intros n y Ln Iy. eapply attrs_new; eauto.
  Qed.

  (** An element. *)
  Lemma step_element done put d t : uinv done put d -> ~ In t done -> In t ts -> dkind d0 t = Some KElement ->
    exists d' cs, update_one content value d t = (d', Ok tt) /\ uinv (t :: done) (setf put t cs) d'.
  Proof.
    intros U N T KE. pose proof (proj2 sel t T) as It. destruct (good_element t T KE) as [CT PR]. pose proof (u_forest _ _ _ U) as Fd. destruct (u_kept _ _ _ U t It) as [It' [Kt' _]].
    assert (dkind d t = Some KElement) as KD by congruence. unfold update_one. rewrite type_kind. unfold dkind in KD. rewrite KD. fold (dkind d t) in KD. rewrite CT.
    destruct (fragment_ok d (frs t) Fd PR) as [d1 [cs [E1 [F1 [X1 [P1 [K1 [R1 [KR S1]]]]]]]]]. rewrite E1. cbn [andthen].
    assert (dcontainer d t) as C by (exists KElement; split; [exact KD|reflexivity]). assert (dcontainer d1 t) as C1 by (eapply ext_container; eauto).
    pose proof (x_kids _ _ _ X1 t It' Logic.I) as KT1.
    destruct (clear_ok t (dkids d t) (fuel_of d1) d1) as [d2 [E2 [F2 [X2 [K2 [P2 L2]]]]]]; [rewrite <- KT1; now apply kids_fuel|exact F1|exact C1|exact KT1|].
    rewrite E2. cbn [andthen].
    assert (t < len d) as Lt by exact It'. assert (t < len d0) as Lt0 by exact It.
    assert (len d < len d1) as Lr by (eapply kind_in; exact K1).
    assert (t <> len d) as NR by lia.
    assert (dkids d2 (len d) = cs) as KR2. { rewrite (x_kids _ _ _ X2 (len d) Lr); [exact KR|congruence]. }
    assert (forall c, In c cs -> len d <= c) as GE. { intros c I. destruct (Forall2_in_l _ _ _ _ S1 I) as [b [_ Y]]. apply shown_ge in Y. lia. }
    assert (forall i q, i < len d -> dparent d2 i = Some q -> q < len d) as OC. { intros i q I Q. rewrite P2 in Q. destruct (is_member _ i); [discriminate|]. rewrite (P1 i I) in Q. eapply parent_in; eauto. }
    assert (dcontainer d2 t) as C2 by (eapply ext_container; eauto).
    assert (dcontainer d2 (len d)) as CR2. { eapply ext_container; [exact X2|]. exists KEntity. split; [exact K1|reflexivity]. }
    destruct (move_all_ok (append_node (Some t)) t (len d) [] (places_append t)) with (cs := cs) (fuel := fuel_of d2) (d := d2) (a := @nil nat) as [d' [E' [F' [X' [Kp' [Kr' [Pa' L']]]]]]].
    { congruence. } { rewrite <- KR2. now apply kids_fuel. } { exact F2. } { exact C2. } { exact CR2. } { exact K2. } { exact KR2. } { eapply (kids_not_above d2 (len d)); eauto. }
    exists d', cs. split; [exact E'|]. cbn [app] in Kp'. rewrite app_nil_r in Kp'.
    assert (ext (fun q => q <> t) d d') as XX.
    { apply (ext_weak (fun q => q <> t /\ q <> len d)). { intros q I Q. cbn beta in *. change (q < len d) in I. split; [exact Q|lia]. }
      eapply ext_trans; [apply (ext_weak (fun _ => True)); [auto|exact X1]|]. eapply ext_trans; [|exact X']. eapply ext_weak; [|exact X2]. intros q _ [Q _]. exact Q. }
    assert (forall i, i < len d -> dparent d' i = if is_member (dkids d t) i then None else dparent d i) as PD.
    { intros i I. rewrite Pa'. destruct (is_member cs i) eqn:M; [apply is_member_in in M; apply GE in M; lia|]. rewrite P2. destruct (is_member (dkids d t) i); [reflexivity|]. now apply P1. }
    assert (forall i, dropped (t :: done) i = dropped done i) as FD. { intros i. destruct (Nat.eq_dec i t) as [->|NE]; [|now apply cons_flags]. unfold dropped, is_kind. rewrite KE. cbn [kind_eqb]. now rewrite !andb_false_r. }
    assert (forall i, changed (t :: done) i = changed done i) as FC. { intros i. destruct (Nat.eq_dec i t) as [->|NE]; [|now apply cons_flags]. unfold changed, is_kind. rewrite KE. cbn [kind_eqb andb orb]. now rewrite !andb_false_r. }
    assert (refill (t :: done) t = true) as FR. { unfold refill. rewrite self_flags. now apply is_kind_true. }
    assert (dkids d t = filter (fun c => negb (dropped done c)) (dkids d0 t)) as KT. { rewrite (u_kids _ _ _ U t It). unfold kids_after, refill. rewrite not_done by exact N. reflexivity. }
    split.
    - exact F'.
    - pose proof (x_len _ _ _ XX). pose proof (u_len _ _ _ U). lia.
    - intros i I. destruct (u_kept _ _ _ U i I) as [Q1 [Q2 Q3]]. destruct (x_kept _ _ _ XX i Q1) as [Q4 [Q5 Q6]]. split; [exact Q4|]. split; congruence.
    - intros i I. destruct (u_kept _ _ _ U i I) as [Q1 _]. rewrite (x_attrs _ _ _ XX i Q1). now apply (u_attrs _ _ _ U).
    - intros i I. destruct (u_kept _ _ _ U i I) as [Q1 _]. rewrite (x_data _ _ _ XX i Q1), (u_data _ _ _ U i I). unfold data_after. now rewrite FC.
    - intros p I. destruct (u_kept _ _ _ U p I) as [Q1 _]. unfold kids_after, setf. destruct (Nat.eq_dec p t) as [->|NE]; [rewrite FR, Nat.eqb_refl; exact Kp'|].
      rewrite (x_kids _ _ _ XX p Q1 NE), (u_kids _ _ _ U p I). unfold kids_after. destruct (cons_flags t done p NE) as [_ [-> _]]. apply Nat.eqb_neq in NE as ->. destruct (refill done p); [reflexivity|]. apply filter_same. intros x _. now rewrite FD.
    - intros i I. destruct (u_kept _ _ _ U i I) as [Q1 _]. rewrite (PD i Q1), (u_par _ _ _ U i I). unfold parent_after. rewrite FD. destruct (dropped done i) eqn:DI; [now destruct (is_member _ i)|].
      destruct (dparent d0 i) as [q|] eqn:PI; [|now destruct (is_member _ i)].
      destruct (is_member (dkids d t) i) eqn:M.
      + apply is_member_in in M. rewrite KT in M. apply filter_In in M. destruct M as [M _]. pose proof (kid_parent d0 t i F M) as Q. assert (q = t) as -> by congruence. rewrite FR.
        assert (is_kind d0 KAttr i = false) as ->; [|reflexivity]. destruct (is_kind d0 KAttr i) eqn:KA; [|reflexivity]. apply is_kind_true in KA. apply (f_link _ F) in M. destruct M as [_ M]. unfold dkind in KA. congruence.
      + destruct (Nat.eq_dec q t) as [->|NE].
        * assert (is_kind d0 KAttr i = true) as KA.
          { destruct (is_kind d0 KAttr i) eqn:KA; [reflexivity|]. apply is_member_not in M. exfalso. apply M. rewrite KT. apply filter_In. split; [|now rewrite DI]. apply (f_link _ F). split; [exact PI|]. intros Z. assert (is_kind d0 KAttr i = true) by (now apply is_kind_true). congruence. }
          rewrite KA. cbn [negb]. now rewrite !andb_false_r.
        * now destruct (cons_flags t done q NE) as [_ [-> _]].
    - intros x I K. unfold setf. destruct (Nat.eqb_spec x t) as [->|NE].
      + eapply Forall2_impl_in; [exact S1|]. intros a b _ Y. apply (shown_le (len d)); [apply (u_len _ _ _ U)|]. apply (shown_le (S (len d))); [lia|]. 
        eapply shown_ext; [exact F1| |exact Y]. eapply ext_trans; [eapply ext_weak; [|exact X2]|eapply ext_weak; [|exact X']]; intros q _ Q; cbn beta in *; lia.
      + destruct I as [->|I]; [contradiction|]. eapply Forall2_impl_in; [exact (u_shown _ _ _ U x I K)|]. intros a b _. apply shown_ext; [exact Fd|]. eapply ext_weak; [|exact XX]. intros q _ Q. cbn beta in *. lia.
  Qed.

  Lemma update_loop : forall l done put d, NoDup l -> incl l ts -> (forall x, In x l -> ~ In x done) -> incl done ts -> uinv done put d ->
    exists d' put', for_each (update_one content value) l d = (d', Ok tt) /\ uinv (rev l ++ done) put' d'.
  Proof.
    induction l as [|t l IH]; intros done put d ND IN DJ ID U; cbn [for_each rev app].
    - exists d, put. auto.
    - inversion ND as [|? ? N1 N2]; subst. assert (In t ts) as T by (apply IN; now left). assert (~ In t done) as N by (apply DJ; now left). pose proof (proj2 sel t T) as It.
      assert (exists d1 put1, update_one content value d t = (d1, Ok tt) /\ uinv (t :: done) put1 d1) as [d1 [put1 [E1 U1]]].
      { destruct (u_kept _ _ _ U t It) as [It' [Kt' _]]. destruct (dkind d0 t) as [k|] eqn:K.
        2: { unfold dkind, kind_of in K. destruct (get (d_store d0) t) eqn:G; [discriminate|]. apply nth_error_None in G. change (t < length (s_nodes (d_store d0))) in It. lia. }
        assert (k = KElement \/ k <> KElement) as [->|NK] by (destruct k; (left; reflexivity) || (right; discriminate)).
        - destruct (step_element done put d t U N T K) as [d1 [cs [E1 U1]]]. eauto.
        - assert (value t = Ok (vs t)) as VT by (apply good_value; [exact T|congruence]). pose proof (no_pi t T) as NP.
          unfold update_one. rewrite type_kind. unfold dkind in Kt'. rewrite Kt'. 
          destruct k; try contradiction; try (now contradiction NP).
          + (* entity *) exists d, put. split; [reflexivity|].
            assert (forall i, dropped (t :: done) i = dropped done i /\ refill (t :: done) i = refill done i /\ changed (t :: done) i = changed done i) as FL.
            { intros i. destruct (Nat.eq_dec i t) as [->|NE]; [|now apply cons_flags]. unfold dropped, refill, changed, is_kind. rewrite K. cbn [kind_eqb orb andb]. rewrite !andb_false_r. auto. }
            destruct U as [u1 u2 u3 u4 u5 u6 u7 u8]. split; auto.
            * intros i I. rewrite (u5 i I). unfold data_after. now destruct (FL i) as [_ [_ ->]].
            * intros p I. rewrite (u6 p I). unfold kids_after. destruct (FL p) as [_ [-> _]]. destruct (refill done p); [reflexivity|]. apply filter_same. intros x _. now destruct (FL x) as [-> _].
            * intros i I. rewrite (u7 i I). unfold parent_after. destruct (FL i) as [-> _]. destruct (dropped done i); [reflexivity|]. destruct (dparent d0 i) as [q|]; [|reflexivity]. now destruct (FL q) as [_ [-> _]].
            * intros x [<-|I] KX; [congruence|now apply u8].
          + (* text *) rewrite VT. destruct (vs t) as [|v0 v] eqn:EV.
            * destruct (good_empty t T K EV) as [p [Ip Np]]. destruct (step_drop done put d t p U N Ip) as [d1 [E1 U1]].
              { intros J. apply Np. now apply ID. } { unfold dropped. rewrite self_flags, EV. unfold is_kind. now rewrite K. } eauto.
            * exists (set_data_of d t (vs t)), put. rewrite EV. split; [reflexivity|]. rewrite <- EV. apply step_value; auto; unfold dropped, refill, changed; rewrite self_flags, ?EV; unfold is_kind; rewrite K; reflexivity.
          + (* comment *) rewrite VT. exists (set_data_of d t (vs t)), put. split; [destruct (vs t); reflexivity|]. apply step_value; auto; unfold dropped, refill, changed; rewrite self_flags; unfold is_kind; rewrite K; cbn [kind_eqb]; rewrite ?andb_false_r; reflexivity.
          + (* attribute *) rewrite VT. exists (set_data_of d t (vs t)), put. split; [destruct (vs t); reflexivity|]. apply step_value; auto; unfold dropped, refill, changed; rewrite self_flags; unfold is_kind; rewrite K; cbn [kind_eqb]; rewrite ?andb_false_r; reflexivity. }
      rewrite E1. cbn [andthen]. destruct (IH (t :: done) put1 d1 N2 (fun x I => IN x (or_intror I))) as [d' [put' [E' U']]].
      + intros x I [<-|J]; [contradiction|]. apply (DJ x); [now right|exact J].
      + intros x [<-|J]; [exact T|now apply ID].
      + exact U1.
      + exists d', put'. split; [exact E'|]. now rewrite <- app_assoc.
  Qed.
End Update.
