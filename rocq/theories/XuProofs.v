(** * Proofs about the XUpdate commands: building and moving trees *)
From Coq Require Import NArith ZArith String List Bool Lia Arith.
From Verif Require Import PyStr PyErr DomModel DomSpec DomInv DomCells DomOps DomStep DomProps XuModel XuSpec.
Import ListNotations.
Local Open Scope nat_scope.

Definition len (d : doc) : nat := length (s_nodes (d_store d)).
Notation dforest d := (forest (d_store d)).
Lemma node_in_len d i : node_in d i <-> i < len d. Proof. reflexivity. Qed.
Lemma kind_in d i k : dkind d i = Some k -> i < len d. Proof. apply kind_lt. Qed.
Lemma parent_in d i p : dforest d -> dparent d i = Some p -> p < len d.
Proof. intros F P. destruct (f_parent _ F p i P) as [k [K _]]. eapply kind_in. exact K. Qed.
Lemma parent_of_in d i p : dparent d i = Some p -> i < len d. Proof. apply parent_lt. Qed.
Lemma kid_in d p c : dforest d -> In c (dkids d p) -> c < len d.
Proof. intros F I. destruct (f_kind _ F p c I) as [k [K _]]. eapply kind_in. exact K. Qed.
Lemma attr_in d p a : dforest d -> In a (dattrs d p) -> a < len d.
Proof. intros F I. apply (proj1 (f_alink _ F p a)) in I. destruct I as [_ K]. eapply kind_in. exact K. Qed.
Lemma kid_parent d p c : dforest d -> In c (dkids d p) -> dparent d c = Some p.
Proof. intros F I. exact (kids_parent (d_store d) p c F I). Qed.
Lemma kids_of_kid d p c : dforest d -> In c (dkids d p) -> p < len d.
Proof. intros F I. eapply parent_in; [exact F|]. eapply kid_parent; [exact F|exact I]. Qed.
Lemma out_kids d p : ~ node_in d p -> dkids d p = [].
Proof. intros N. unfold dkids, kids, get_children, node_in, exists_node in *. assert (get (d_store d) p = None) as ->; [|reflexivity]. apply nth_error_None. lia. Qed.

Lemma above_old par n0 a b : (forall i q, i < n0 -> par i = Some q -> q < n0) -> above par a b -> b < n0 -> a < n0.
Proof. intros C. induction 1 as [b P|b p P A IH]; intros L; [eapply C; eauto|]. apply IH. eapply C; eauto. Qed.

(** ** Trees *)
Section DtreeInd.
  Variable P : dtree -> Prop.
  Hypothesis H : forall k nm x atts ts, Forall P ts -> P (DT k nm x atts ts).
  Fixpoint dtree_rect' (t : dtree) : P t :=
    match t with
    | DT k nm x atts ts => H k nm x atts ts ((fix all (l : list dtree) : Forall P l := match l with [] => Forall_nil P | t :: l' => Forall_cons t (dtree_rect' t) (all l') end) ts)
    end.
End DtreeInd.

Definition shown (n0 : nat) : doc -> nat -> dtree -> Prop :=
  fix shown (d : doc) (n : nat) (t : dtree) : Prop :=
  match t with
  | DT k nm x atts ts =>
    n0 <= n /\ dkind d n = Some k /\ d_name d n = nm /\ ddata d n = x /\ attributes d n = atts /\
    (fix all (l : list nat) (ts : list dtree) {struct ts} : Prop :=
       match l, ts with
       | [], [] => True
       | c :: l', t :: ts' => shown d c t /\ all l' ts'
       | _, _ => False
       end) (dkids d n) ts
  end.
Lemma shown_eq n0 d n k nm x atts ts : shown n0 d n (DT k nm x atts ts) <->
  n0 <= n /\ dkind d n = Some k /\ d_name d n = nm /\ ddata d n = x /\ attributes d n = atts /\ Forall2 (shown n0 d) (dkids d n) ts.
Proof.
  cbn [shown]. generalize (dkids d n). intros l.
  assert ((fix all (l : list nat) (ts : list dtree) {struct ts} : Prop :=
       match l, ts with
       | [], [] => True
       | c :: l', t :: ts' => shown n0 d c t /\ all l' ts'
       | _, _ => False
       end) l ts <-> Forall2 (shown n0 d) l ts) as ->; [|reflexivity].
  revert l. induction ts as [|t ts IH]; intros [|c l]; split; intros X; try (now inversion X); try contradiction; try constructor; try (now apply X); try (apply IH; apply X); inversion X; subst; auto. now apply IH.
Qed.
Lemma shows_eq d n k nm x atts ts : shows d n (DT k nm x atts ts) <->
  dkind d n = Some k /\ d_name d n = nm /\ ddata d n = x /\ attributes d n = atts /\ Forall2 (shows d) (dkids d n) ts.
Proof.
  cbn [shows]. generalize (dkids d n). intros l.
  assert ((fix all (l : list nat) (ts : list dtree) {struct ts} : Prop :=
       match l, ts with
       | [], [] => True
       | c :: l', t :: ts' => shows d c t /\ all l' ts'
       | _, _ => False
       end) l ts <-> Forall2 (shows d) l ts) as ->; [|reflexivity].
  revert l. induction ts as [|t ts IH]; intros [|c l]; split; intros X; try (now inversion X); try contradiction; try constructor; try (now apply X); try (apply IH; apply X); inversion X; subst; auto. now apply IH.
Qed.
Lemma proper_eq k nm x atts ts : proper (DT k nm x atts ts) <-> child_kind k = true /\ (k <> KElement -> atts = [] /\ ts = []) /\ Forall proper ts.
Proof.
  cbn [proper].
  assert ((fix all (ts : list dtree) : Prop := match ts with [] => True | t :: ts' => proper t /\ all ts' end) ts <-> Forall proper ts) as ->; [|reflexivity].
  induction ts as [|t ts IH]; split; intros X; auto; [constructor; [apply X|apply IH, X]|inversion X; subst; split; [assumption|now apply IH]].
Qed.
Lemma Forall2_impl_in {A B} (P Q : A -> B -> Prop) l m : Forall2 P l m -> (forall a b, In b m -> P a b -> Q a b) -> Forall2 Q l m.
Proof. induction 1; intros I; constructor; [apply I; [now left|assumption]|apply IHForall2; intros; apply I; [now right|assumption]]. Qed.
Lemma shown_shows n0 d t : forall n, shown n0 d n t -> shows d n t.
Proof.
  induction t as [k nm x atts ts IH] using dtree_rect'. intros n X. apply shown_eq in X. destruct X as [_ [A [B [C [D E]]]]]. apply shows_eq. repeat split; try assumption.
  eapply Forall2_impl_in; [exact E|]. intros a b I Y. rewrite Forall_forall in IH. now apply IH.
Qed.
Lemma shown_ge n0 d n t : shown n0 d n t -> n0 <= n /\ n < len d.
Proof. destruct t. intros X. apply shown_eq in X. destruct X as [A [B _]]. split; [exact A|]. eapply kind_in. exact B. Qed.
Lemma shown_le n0 n1 d t : n1 <= n0 -> forall n, shown n0 d n t -> shown n1 d n t.
Proof.
  intros L. induction t as [k nm x atts ts IH] using dtree_rect'. intros n X. apply shown_eq in X. destruct X as [Z [A [B [C [D E]]]]]. apply shown_eq. repeat split; try assumption; [lia|].
  eapply Forall2_impl_in; [exact E|]. intros a b I Y. rewrite Forall_forall in IH. now apply IH.
Qed.

(** [d'] keeps [d], and the child lists of the nodes from [n0] on. *)
Record ext (K : nat -> Prop) (d d' : doc) : Prop := {
  x_len : len d <= len d';
  x_kept : kept d d';
  x_data : same_data d d';
  x_attrs : same_attrs d d';
  x_kids : forall q, node_in d q -> K q -> dkids d' q = dkids d q
}.
Lemma ext_refl K d : ext K d d.
Proof. split; [apply Nat.le_refl|intros i I; auto|intros i I; reflexivity|intros i I; reflexivity|intros q I Q; reflexivity]. Qed.
Lemma ext_trans K d1 d2 d3 : ext K d1 d2 -> ext K d2 d3 -> ext K d1 d3.
Proof.
  intros [L1 K1 D1 A1 X1] [L2 K2 D2 A2 X2]. split.
  - lia.
  - intros i I. destruct (K1 i I) as [I2 [P Q]]. destruct (K2 i I2) as [I3 [R S]]. repeat split; [assumption|congruence|congruence].
  - intros i I. rewrite (D2 i), (D1 i); auto. now apply K1.
  - intros i I. rewrite (A2 i), (A1 i); auto. now apply K1.
  - intros q I Q. rewrite (X2 q), (X1 q); auto. now apply K1.
Qed.
Lemma ext_weak (K K' : nat -> Prop) d d' : (forall q, node_in d q -> K' q -> K q) -> ext K d d' -> ext K' d d'.
Proof. intros I [L K1 D A X]. split; auto. Qed.
Lemma ext_attributes K d d' i : dforest d -> ext K d d' -> node_in d i -> attributes d' i = attributes d i.
Proof.
  intros F [L K1 D A X] I. unfold attributes. rewrite (A i I). apply map_ext_in. intros a J. pose proof (attr_in d i a F J) as J'. destruct (K1 a J') as [_ [_ N]]. now rewrite N, (D a J').
Qed.
Lemma shown_ext n0 d d' t : dforest d -> ext (fun q => n0 <= q) d d' -> forall n, shown n0 d n t -> shown n0 d' n t.
Proof.
  intros F X. induction t as [k nm x atts ts IH] using dtree_rect'. intros n S. pose proof (shown_ge _ _ _ _ S) as [G1 G2]. apply shown_eq in S. destruct S as [Z [A [B [C [D E]]]]].
  destruct (x_kept _ _ _ X n G2) as [_ [KK NN]]. apply shown_eq. split; [exact Z|]. split; [congruence|]. split; [congruence|]. split; [|split].
  - now rewrite (x_data _ _ _ X n G2).
  - now rewrite (ext_attributes _ _ _ _ F X G2).
  - rewrite (x_kids _ _ _ X n G2 Z). eapply Forall2_impl_in; [exact E|]. intros a b I Y. rewrite Forall_forall in IH. now apply IH.
Qed.

(** ** Single calls *)
Lemma on_edited d o s' : step (d_store d) o = (s', Ok tt) -> on d o = ({| d_store := s'; d_name := d_name d |}, Ok tt).
Proof. intros E. unfold on. now rewrite E. Qed.
Lemma edited_kids s s' kid par p : edited s s' kid par -> exists_node s p -> kids s' p = kid p.
Proof. intros E I. unfold kids. now rewrite (e_kids _ _ _ _ E p I). Qed.
Lemma edited_ext (K : nat -> Prop) d s' kid par : edited (d_store d) s' kid par -> (forall q, node_in d q -> K q -> kid q = dkids d q) -> ext K d {| d_store := s'; d_name := d_name d |}.
Proof.
  intros E X. split.
  - unfold len. cbn [d_store]. rewrite (e_len _ _ _ _ E). lia.
  - intros i I. unfold node_in, exists_node, dkind. cbn [d_store d_name]. rewrite (e_len _ _ _ _ E), (e_kind _ _ _ _ E). auto.
  - intros i I. apply (e_data _ _ _ _ E).
  - intros i I. apply (e_attrs _ _ _ _ E).
  - intros q I Q. unfold dkids. cbn [d_store]. rewrite (edited_kids _ _ _ _ _ E I). now apply X.
Qed.
Lemma create_ok d k nm x d1 c : dforest d -> create d k nm x = (d1, c) ->
  c = len d /\ dforest d1 /\ len d1 = S (len d) /\ ext (fun _ => True) d d1 /\ (forall i, dparent d1 i = dparent d i) /\ (forall i, dkids d1 i = dkids d i) /\
  dkind d1 c = Some k /\ d_name d1 c = nm /\ ddata d1 c = x /\ dkids d1 c = [] /\ dattrs d1 c = [].
Proof.
  intros F E. unfold create in E. pose proof (f_equal fst E) as E1. pose proof (f_equal snd E) as E2. cbn [fst snd] in E1, E2. subst d1 c. clear E. unfold len, dparent, dkids, dkind, ddata, dattrs. cbn [d_store d_name].
  assert (forall i, i < length (s_nodes (d_store d)) -> data_of (fst (new_node (d_store d) k x)) i = data_of (d_store d) i) as DO.
  { intros i I. unfold data_of. rewrite get_new, ltb_ne by exact I. reflexivity. }
  split; [reflexivity|]. split; [now apply forest_new|]. split; [apply new_len|]. split; [|split; [intros; apply new_parent|split; [intros; apply new_kids|]]].
  - split; unfold len; cbn [d_store d_name].
    + rewrite new_len. lia.
    + intros i I. unfold node_in, exists_node, dkind in *. cbn [d_store d_name]. rewrite new_len, new_kind, ltb_ne by exact I. auto.
    + intros i I. unfold ddata. cbn [d_store]. now apply DO.
    + intros i I. unfold dattrs. cbn [d_store]. apply new_attrs.
    + intros q I _. unfold dkids. cbn [d_store]. apply new_kids.
  - rewrite new_kind, new_kids, new_attrs, Nat.eqb_refl. unfold data_of. rewrite get_new, Nat.eqb_refl. unfold kids, attrs_of, get_children. rewrite get_last. repeat split; reflexivity.
Qed.
Lemma new_attr_ok d p a : dforest d -> dkind d p = Some KElement -> exists d', new_attr d p a = d' /\ dforest d' /\ len d' = S (len d) /\ kept d d' /\ same_data d d' /\
  (forall j, dkids d' j = dkids d j) /\ (forall j, node_in d j -> dparent d' j = dparent d j) /\ (forall j, node_in d j -> j <> p -> dattrs d' j = dattrs d j) /\
  attributes d' p = attributes d p ++ [a] /\ (forall j, In j (dattrs d' p) -> In j (dattrs d p) \/ j = len d).
Proof.
  intros F K. unfold dkind, kind_of in K. destruct (get (d_store d) p) as [n|] eqn:G; [|discriminate]. cbn [option_map] in K. injection K as K.
  destruct (add_attr_ok (d_store d) p (snd a) n G K) as [s' [E [L [C [KI [KD [PA [AT [IX [GC DA]]]]]]]]]].
  pose proof (forest_attr _ _ _ _ _ F E) as F'. pose proof (get_some _ _ _ G) as Lp. unfold new_attr. rewrite E. eexists. split; [reflexivity|]. cbn [d_store].
  split; [exact F'|]. split; [exact L|]. split; [|split; [|split; [|split; [|split; [|split]]]]].
  - intros i I. unfold node_in, exists_node, dkind in *. cbn [d_store d_name]. rewrite L, KD, ltb_ne by exact I. auto.
  - intros i I. unfold ddata. cbn [d_store]. rewrite DA, ltb_ne by exact I. reflexivity.
  - intros j. apply KI.
  - intros j I. unfold dparent. cbn [d_store]. rewrite PA, ltb_ne by exact I. reflexivity.
  - intros j I N. unfold dattrs. cbn [d_store]. rewrite AT. now apply Nat.eqb_neq in N as ->.
  - unfold attributes, dattrs. cbn [d_store d_name]. rewrite AT, Nat.eqb_refl, map_app. cbn [map]. rewrite Nat.eqb_refl. f_equal.
    + apply map_ext_in. intros x I. pose proof (attr_in d p x F I) as I'. unfold ddata. cbn [d_store]. rewrite DA, ltb_ne by exact I'. reflexivity.
    + unfold ddata. cbn [d_store]. rewrite DA, Nat.eqb_refl. now destruct a.
  - intros j I. unfold dattrs in I. cbn [d_store] in I. rewrite AT, Nat.eqb_refl in I. apply in_app_iff in I. destruct I as [I|[I|[]]]; auto.
Qed.

(** ** Building *)
Lemma new_attrs_ok c atts : forall d, dforest d -> dkind d c = Some KElement ->
  exists d', fold_left (fun d a => new_attr d c a) atts d = d' /\ dforest d' /\ len d <= len d' /\ kept d d' /\ same_data d d' /\
  (forall j, dkids d' j = dkids d j) /\ (forall j, node_in d j -> dparent d' j = dparent d j) /\ (forall j, node_in d j -> j <> c -> dattrs d' j = dattrs d j) /\
  attributes d' c = attributes d c ++ atts.
Proof.
  induction atts as [|a atts IH]; intros d F K; cbn [fold_left].
  - exists d. rewrite app_nil_r. repeat (split; [first [reflexivity|assumption|apply Nat.le_refl|intros i I; auto; fail|intros i; reflexivity|intros i I; reflexivity|intros i I J; reflexivity]|]). reflexivity.
  - destruct (new_attr_ok d c a F K) as [d1 [-> [F1 [L1 [K1 [D1 [X1 [P1 [A1 [B1 _]]]]]]]]]].
    assert (dkind d1 c = Some KElement) as K2 by (destruct (K1 c) as [_ [E _]]; [eapply kind_in; exact K|congruence]).
    assert (forall i, node_in d i -> node_in d1 i) as IN by (intros i I; now apply K1).
    destruct (IH d1 F1 K2) as [d' [E [F' [L' [K' [D' [X' [P' [A' B']]]]]]]]]. exists d'. split; [exact E|]. split; [exact F'|]. split; [lia|].
    split; [|split; [|split; [|split; [|split]]]].
    + intros i I. destruct (K1 i I) as [I2 [P Q]]. destruct (K' i I2) as [I3 [R S]]. repeat split; [assumption|congruence|congruence].
    + intros i I. rewrite (D' i), (D1 i); auto.
    + intros j. now rewrite X', X1.
    + intros j I. rewrite P', P1; auto.
    + intros j I N. rewrite A', A1; auto.
    + now rewrite B', B1, <- app_assoc.
Qed.

Definition go_all (c : nat) : list dtree -> doc -> dcall unit :=
  fix go (ts : list dtree) (d : doc) : dcall unit :=
    match ts with
    | [] => (d, Ok tt)
    | t :: ts' => andthen (build t c d) (fun d' _ => go ts' d')
    end.
Lemma go_all_eq c ts : forall d, go_all c ts d = build_all ts c d.
Proof. induction ts as [|t ts IH]; intros d; [reflexivity|]. cbn [go_all build_all]. destruct (build t c d) as [d1 [[]|e]]; cbn [andthen]; [apply IH|reflexivity]. Qed.
Lemma build_eq k nm x atts ts p d : build (DT k nm x atts ts) p d =
  (let '(d1, c) := create d k nm x in
   andthen (on (fold_left (fun d a => new_attr d c a) atts d1) (Append p c)) (fun d3 _ => build_all ts c d3)).
Proof.
  cbn [build]. destruct (create d k nm x) as [d1 c]. destruct (on _ (Append p c)) as [d3 [[]|e]]; cbn [andthen]; [|reflexivity]. apply (go_all_eq c ts d3).
Qed.

(** [d'] is [d] with the nodes [cs] added to the children of [p]. *)
Record added (d d' : doc) (p : nat) (cs : list nat) (ts : list dtree) : Prop := {
  a_forest : dforest d';
  a_ext : ext (fun q => q <> p) d d';
  a_parents : same_parents d d';
  a_kids : dkids d' p = dkids d p ++ cs;
  a_shown : Forall2 (shown (len d) d') cs ts
}.
Definition dcontainer (d : doc) (p : nat) : Prop := container (d_store d) p.
Lemma ext_container K d d' p : ext K d d' -> dcontainer d p -> dcontainer d' p.
Proof. intros X [k [E C]]. exists k. split; [|exact C]. destruct (x_kept _ _ _ X p) as [_ [Y _]]; [eapply kind_in; exact E|]. unfold dkind in Y. congruence. Qed.
Lemma container_in d p : dcontainer d p -> p < len d.
Proof. apply c_exists. Qed.

(** Appending a node that is in no tree and has no nodes of [d] below it. *)
Lemma append_new d p c n0 : dforest d -> dcontainer d p -> p < n0 -> n0 <= c -> c < len d -> (exists k, dkind d c = Some k /\ child_kind k = true) -> dparent d c <> Some p ->
  (forall i q, i < n0 -> dparent d i = Some q -> q < n0) ->
  exists d', on d (Append p c) = (d', Ok tt) /\ dforest d' /\ d_name d' = d_name d /\
    edited (d_store d) (d_store d') (fun q => if q =? p then dkids d p ++ [c] else without c (dkids d q)) (set_par (dparent d) c (Some p)).
Proof.
  intros F C Lp Lc Ic K P O. destruct (C19_append_partial (d_store d) p c F C Ic P) as [Y _].
  assert (allowed (d_store d) p c) as A.
  { split; [exact K|]. intros [E|A]; [subst c; lia|]. pose proof (above_old _ n0 _ _ O A Lp). lia. }
  destruct (Y A) as [s' [E [F' ED]]]. exists {| d_store := s'; d_name := d_name d |}. split; [now apply on_edited|]. auto.
Qed.
Lemma insert_new d p c n0 a b : dforest d -> dcontainer d p -> p < n0 -> n0 <= c -> c < len d -> (exists k, dkind d c = Some k /\ child_kind k = true) -> dparent d c <> Some p ->
  (forall i q, i < n0 -> dparent d i = Some q -> q < n0) -> dkids d p = a ++ b ->
  exists d', on d (Insert p (Z.of_nat (length a)) c) = (d', Ok tt) /\ dforest d' /\ d_name d' = d_name d /\
    edited (d_store d) (d_store d') (fun q => if q =? p then a ++ c :: b else without c (dkids d q)) (set_par (dparent d) c (Some p)).
Proof.
  intros F C Lp Lc Ic K P O E. assert (safe (d_store d) (Insert p (Z.of_nat (length a)) c)) as SF by (intros X; contradiction).
  destruct (C19_insert_partial (d_store d) p (Z.of_nat (length a)) c F C Ic SF) as [Y _].
  assert (allowed (d_store d) p c) as A.
  { split; [exact K|]. intros [E'|A]; [subst c; lia|]. pose proof (above_old _ n0 _ _ O A Lp). lia. }
  destruct (Y A) as [s' [E' [F' ED]]]. exists {| d_store := s'; d_name := d_name d |}. split; [now apply on_edited|]. split; [exact F'|]. split; [reflexivity|].
  assert (insert_at (py_index (Z.of_nat (length a)) (length (kids (d_store d) p))) c (without c (kids (d_store d) p)) = a ++ c :: b) as EQ.
  { rewrite without_other by assumption. unfold dkids in E. rewrite E. assert (py_index (Z.of_nat (length a)) (length (a ++ b)) = length a) as ->.
    { unfold py_index. rewrite app_length. destruct (Z.ltb_spec (Z.of_nat (length a)) 0); lia. }
    unfold insert_at. rewrite firstn_app, skipn_app, Nat.sub_diag, firstn_all, skipn_all. cbn. now rewrite app_nil_r. }
  cbn [d_store]. destruct ED as [e1 e2 e3 e4 e5 e6 e7 e8]. split; auto. intros q I. rewrite (e7 q I). destruct (q =? p); [now rewrite EQ|reflexivity].
Qed.

Lemma build_ok t : forall p d, dforest d -> dcontainer d p -> proper t -> exists d' c, build t p d = (d', Ok tt) /\ added d d' p [c] [t].
Proof.
  induction t as [k nm x atts ts IH] using dtree_rect'. intros p d F C PR. apply proper_eq in PR. destruct PR as [CK [LF PRS]]. rewrite build_eq.
  pose proof (container_in d p C) as Ip.
  destruct (create d k nm x) as [d1 c] eqn:EC. destruct (create_ok d k nm x d1 c F EC) as [Ec [F1 [L1 [X1 [P1 [KD1 [K1 [N1 [D1 [KC1 A1]]]]]]]]]]. clear EC.
  assert (exists d2, fold_left (fun d a => new_attr d c a) atts d1 = d2 /\ dforest d2 /\ len d1 <= len d2 /\ kept d1 d2 /\ same_data d1 d2 /\
    (forall j, dkids d2 j = dkids d1 j) /\ (forall j, node_in d1 j -> dparent d2 j = dparent d1 j) /\ (forall j, node_in d1 j -> j <> c -> dattrs d2 j = dattrs d1 j) /\
    attributes d2 c = attributes d1 c ++ atts) as [d2 [E2 [F2 [L2 [K2 [D2 [X2 [P2 [A2 B2]]]]]]]]].
  { destruct k; try (destruct LF as [-> _]; [discriminate|]; cbn [fold_left]; exists d1; rewrite app_nil_r; repeat (split; [first [reflexivity|assumption|apply Nat.le_refl|intros i I; auto; fail|intros i; reflexivity|intros i I; reflexivity|intros i I J; reflexivity]|]); reflexivity). now apply new_attrs_ok. }
  rewrite E2. clear E2.
  assert (c < len d1) as Ic by lia. destruct (K2 c Ic) as [Ic2 [Kc2 Nc2]].
  assert (dcontainer d1 p) as C1 by (now apply (ext_container _ _ _ _ X1)).
  assert (ext (fun _ => True) d d2) as X12.
  { split.
    - lia.
    - intros i I. destruct (x_kept _ _ _ X1 i I) as [I2 [P Q]]. destruct (K2 i I2) as [I3 [R S]]. repeat split; [assumption|congruence|congruence].
    - intros i I. rewrite (D2 i), (x_data _ _ _ X1 i I); [reflexivity|]. now apply (x_kept _ _ _ X1).
    - intros i I. rewrite (A2 i), (x_attrs _ _ _ X1 i I); [reflexivity|now apply (x_kept _ _ _ X1)|]. change (i < len d) in I. lia.
    - intros q I _. now rewrite X2, KD1. }
  assert (forall i, node_in d i -> dparent d2 i = dparent d i) as PP by (intros i I; rewrite P2, P1; [reflexivity|now apply (x_kept _ _ _ X1)]).
  assert (dcontainer d2 p) as C2 by (now apply (ext_container _ _ _ _ X12)).
  assert (dparent d2 c = None) as PC.
  { rewrite P2, P1 by exact Ic. destruct (dparent d c) as [z|] eqn:Z; [|reflexivity]. apply parent_of_in in Z. lia. }
  destruct (append_new d2 p c (len d) F2 C2 Ip) as [d3 [E3 [F3 [N3 ED]]]].
  { lia. } { exact Ic2. } { exists k. split; [congruence|exact CK]. } { congruence. }
  { intros i q I Q. rewrite PP in Q by exact I. eapply parent_in; eauto. }
  rewrite E3. cbn [andthen].
  assert (ext (fun q => q <> p) d2 d3) as X23.
  { replace d3 with {| d_store := d_store d3; d_name := d_name d2 |} by (destruct d3; cbn in *; congruence). eapply edited_ext; [exact ED|]. intros q I Q. cbn beta. apply Nat.eqb_neq in Q as ->. apply without_other; [exact F2|]. unfold dparent in PC. congruence. }
  assert (dkids d3 p = dkids d p ++ [c]) as KP.
  { unfold dkids. rewrite (edited_kids _ _ _ _ p ED); [|now apply container_in]. cbn beta. rewrite Nat.eqb_refl, X2, KD1. reflexivity. }
  assert (c < len d3) as Ic3 by (now apply (x_kept _ _ _ X23)).
  assert (p <> c) as NE by lia.
  assert (dkids d3 c = []) as KC3 by (rewrite (x_kids _ _ _ X23 c Ic2); [now rewrite X2|congruence]).
  assert (exists d' cs, build_all ts c d3 = (d', Ok tt) /\ added d3 d' c cs ts) as [d' [cs [EB AD]]].
  { destruct (list_eq_dec (fun a b : unit => left (match a, b with tt, tt => eq_refl end)) (map (fun _ => tt) ts) []) as [Z|Z].
    - destruct ts; [|discriminate]. exists d3, []. split; [reflexivity|]. split; [exact F3|apply ext_refl|intros i I; reflexivity|now rewrite app_nil_r|constructor].
    - assert (k = KElement) as -> by (destruct k; try reflexivity; (destruct LF as [_ LF']; [discriminate|]); subst ts; exfalso; now apply Z).
      assert (dcontainer d3 c) as C3. { exists KElement. split; [|reflexivity]. destruct (x_kept _ _ _ X23 c Ic2) as [_ [Y _]]. unfold dkind in *. congruence. }
      clear - IH PRS F3 C3. revert d3 F3 C3. induction ts as [|t ts IHt]; intros d3 F3 C3.
      + exists d3, []. split; [reflexivity|]. split; [exact F3|apply ext_refl|intros i I; reflexivity|now rewrite app_nil_r|constructor].
      + inversion IH as [|? ? I1 I2]; subst. inversion PRS as [|? ? Q1 Q2]; subst. destruct (I1 c d3 F3 C3 Q1) as [d4 [n [E4 [F4 X4 P4 K4 S4]]]].
        destruct (IHt I2 Q2 d4 F4 (ext_container _ _ _ _ X4 C3)) as [d5 [cs [E5 [F5 X5 P5 K5 S5]]]].
        exists d5, (n :: cs). cbn [build_all]. rewrite E4. cbn [andthen]. split; [exact E5|]. split.
        * exact F5.
        * eapply ext_trans; eauto.
        * intros i I. rewrite P5, P4; auto. now apply (x_kept _ _ _ X4).
        * now rewrite K5, K4, <- app_assoc.
        * constructor.
          -- inversion S4; subst. eapply shown_ext; [exact F4| |eassumption]. eapply ext_weak; [|exact X5]. intros q I J Z. pose proof (container_in _ _ C3) as Z'. cbn beta in J. rewrite Z in J. lia.
          -- eapply Forall2_impl_in; [exact S5|]. intros a b _. apply shown_le. apply X4. }
  exists d', c. split; [exact EB|]. destruct AD as [F' X' P' K' S'].
  assert (ext (fun q => q <> p) d d') as XX.
  { split.
    - pose proof (x_len _ _ _ X12). pose proof (x_len _ _ _ X23). pose proof (x_len _ _ _ X'). lia.
    - intros i I. destruct (x_kept _ _ _ X12 i I) as [I1 [P0 Q0]]. destruct (x_kept _ _ _ X23 i I1) as [I2 [P Q]]. destruct (x_kept _ _ _ X' i I2) as [I3 [R S]]. repeat split; [assumption|congruence|congruence].
    - intros i I. pose proof (proj1 (x_kept _ _ _ X12 i I)) as I1. rewrite (x_data _ _ _ X' i), (x_data _ _ _ X23 i I1), (x_data _ _ _ X12 i I); [reflexivity|]. now apply (x_kept _ _ _ X23).
    - intros i I. pose proof (proj1 (x_kept _ _ _ X12 i I)) as I1. rewrite (x_attrs _ _ _ X' i), (x_attrs _ _ _ X23 i I1), (x_attrs _ _ _ X12 i I); [reflexivity|]. now apply (x_kept _ _ _ X23).
    - intros q I Q. pose proof (proj1 (x_kept _ _ _ X12 q I)) as I1. change (q < len d) in I. rewrite (x_kids _ _ _ X' q), (x_kids _ _ _ X23 q I1 Q), (x_kids _ _ _ X12 q I Logic.I); [reflexivity|now apply (x_kept _ _ _ X23)|lia]. }
  split.
  - exact F'.
  - exact XX.
  - intros i I. pose proof (proj1 (x_kept _ _ _ X12 i I)) as I1. rewrite P'; [|now apply (x_kept _ _ _ X23)]. unfold dparent at 1. rewrite (e_par _ _ _ _ ED). unfold set_par. rewrite <- (PP i I).
    change (i < len d) in I. assert (i =? c = false) as -> by (apply Nat.eqb_neq; lia). reflexivity.
  - rewrite (x_kids _ _ _ X' p); [exact KP| |exact NE]. apply node_in_len. pose proof (x_len _ _ _ X12). pose proof (x_len _ _ _ X23). lia.
  - constructor; [|constructor]. apply shown_eq. destruct (x_kept _ _ _ X23 c Ic2) as [_ [Q1 Q2]]. destruct (x_kept _ _ _ X' c Ic3) as [_ [Q3 Q4]].
    split; [lia|]. split; [congruence|]. split; [congruence|]. split; [rewrite (x_data _ _ _ X' c Ic3), (x_data _ _ _ X23 c Ic2), (D2 c Ic); exact D1|].
    split; [rewrite (ext_attributes _ _ _ _ F3 X' Ic3), (ext_attributes _ _ _ _ F2 X23 Ic2), B2; unfold attributes; now rewrite A1|].
    rewrite K', KC3. cbn [app]. eapply Forall2_impl_in; [exact S'|]. intros a b _. apply shown_le. pose proof (x_len _ _ _ X12). pose proof (x_len _ _ _ X23). lia.
Qed.
Lemma build_all_ok ts : forall p d, dforest d -> dcontainer d p -> Forall proper ts -> exists d' cs, build_all ts p d = (d', Ok tt) /\ added d d' p cs ts.
Proof.
  induction ts as [|t ts IHt]; intros p d F C PR.
  - exists d, []. split; [reflexivity|]. split; [exact F|apply ext_refl|intros i I; reflexivity|now rewrite app_nil_r|constructor].
  - inversion PR as [|? ? Q1 Q2]; subst. destruct (build_ok t p d F C Q1) as [d4 [n [E4 [F4 X4 P4 K4 S4]]]].
    destruct (IHt p d4 F4 (ext_container _ _ _ _ X4 C) Q2) as [d5 [cs [E5 [F5 X5 P5 K5 S5]]]].
    exists d5, (n :: cs). cbn [build_all]. rewrite E4. cbn [andthen]. split; [exact E5|]. split.
    + exact F5.
    + eapply ext_trans; eauto.
    + intros i I. rewrite P5, P4; auto. now apply (x_kept _ _ _ X4).
    + now rewrite K5, K4, <- app_assoc.
    + constructor.
      * inversion S4; subst. eapply shown_ext; [exact F4| |eassumption]. eapply ext_weak; [|exact X5]. intros q I J Z. pose proof (container_in _ _ C) as Z'. cbn beta in J. rewrite Z in J. lia.
      * eapply Forall2_impl_in; [exact S5|]. intros a b _. apply shown_le. apply X4.
Qed.
Lemma fragment_ok d ts : dforest d -> Forall proper ts -> exists d' cs, fragment d (Ok ts) = (d', Ok (len d)) /\ dforest d' /\ ext (fun _ => True) d d' /\ same_parents d d' /\
  dkind d' (len d) = Some KEntity /\ dparent d' (len d) = None /\ dkids d' (len d) = cs /\ Forall2 (shown (S (len d)) d') cs ts.
Proof.
  intros F PR. unfold fragment. destruct (create d KEntity (None, []) []) as [d1 r] eqn:EC. destruct (create_ok _ _ _ _ _ _ F EC) as [Er [F1 [L1 [X1 [P1 [KD1 [K1 [N1 [D1 [KC1 A1]]]]]]]]]]. subst r.
  assert (dcontainer d1 (len d)) as C1 by (exists KEntity; split; [exact K1|reflexivity]).
  destruct (build_all_ok ts (len d) d1 F1 C1 PR) as [d2 [cs [E2 [F2 X2 P2 K2 S2]]]]. exists d2, cs. rewrite E2. cbn [andthen]. split; [reflexivity|]. split; [exact F2|].
  assert (len d < len d1) as I1 by lia.
  split; [|split; [|split; [|split; [|split]]]].
  - apply (ext_weak (fun q => q <> len d)); [intros q I _ ->; change (len d < len d) in I; lia|]. eapply ext_trans; [|exact X2]. apply (ext_weak (fun _ => True)); [auto|exact X1].
  - intros i I. rewrite P2, P1; [reflexivity|]. now apply (x_kept _ _ _ X1).
  - destruct (x_kept _ _ _ X2 (len d) I1) as [_ [E _]]. congruence.
  - rewrite P2, P1 by exact I1. destruct (dparent d (len d)) as [z|] eqn:Z; [|reflexivity]. apply parent_of_in in Z. lia.
  - now rewrite K2, KC1.
  - now rewrite <- L1.
Qed.

(** ** Moving the children of one node to another *)
Lemma above_other par c v a b : above (set_par par c v) a b -> ~ above_or_self par c b -> above par a b.
Proof.
  induction 1 as [b P|b q P A IH]; intros N.
  - apply above_parent. unfold set_par in P. destruct (Nat.eqb_spec b c) as [Eb|]; [exfalso; apply N; left; congruence|exact P].
  - unfold set_par in P. destruct (Nat.eqb_spec b c) as [Eb|]; [exfalso; apply N; left; congruence|]. eapply above_up; [exact P|]. apply IH. intros [Y|Y]; apply N; right; [apply above_parent; congruence|eapply above_up; eauto].
Qed.
Lemma above_ext par par' a b : (forall i, par' i = par i) -> above par a b -> above par' a b.
Proof. intros E. induction 1; [apply above_parent|eapply above_up]; rewrite ?E; eauto. Qed.

(** [place] puts a node into the child list of [p], before the nodes [b]. *)
Definition places (place : doc -> nat -> dcall unit) (p : nat) (b : list nat) : Prop :=
  forall d a c, dforest d -> dcontainer d p -> dkids d p = a ++ b -> c < len d -> allowed (d_store d) p c -> dparent d c <> Some p ->
  exists d', place d c = (d', Ok tt) /\ dforest d' /\ d_name d' = d_name d /\
    edited (d_store d) (d_store d') (fun q => if q =? p then a ++ c :: b else without c (dkids d q)) (set_par (dparent d) c (Some p)).
Lemma places_append p : places (append_node (Some p)) p [].
Proof.
  intros d a c F C E Ic A P. rewrite app_nil_r in E. destruct (C19_append_partial (d_store d) p c F C Ic P) as [Y _]. destruct (Y A) as [s' [E' [F' ED]]].
  exists {| d_store := s'; d_name := d_name d |}. split; [now apply on_edited|]. split; [exact F'|]. split; [reflexivity|]. unfold dkids in E. rewrite E in ED. exact ED.
Qed.
Lemma xml_index_ok d p a t b : dforest d -> dcontainer d p -> dkids d p = a ++ t :: b -> xml_index (d_store d) p t = Ok (length a).
Proof.
  intros F C E. pose proof (f_read _ F p (container_in _ _ C)) as R. pose proof (f_nodup _ F p) as ND. unfold dkids in E. rewrite E in R, ND. destruct C as [k [K CK]]. unfold kind_of in K. unfold get_children in R. unfold xml_index.
  destruct (get (d_store d) p) as [n|]; [|discriminate]. cbn [option_map] in K. injection K as ->. rewrite CK. apply read_cells_holds in R. destruct R as [-> H]. now rewrite lfind_holds.
Qed.
Lemma places_before p t b : places (insert_before_node (Some p) t) p (t :: b).
Proof.
  intros d a c F C E Ic A P. unfold insert_before_node. rewrite (xml_index_ok d p a t b F C E).
  assert (safe (d_store d) (Insert p (Z.of_nat (length a)) c)) as SF by (intros X; contradiction).
  destruct (C19_insert_partial (d_store d) p (Z.of_nat (length a)) c F C Ic SF) as [Y _].
  destruct (Y A) as [s' [E' [F' ED]]]. exists {| d_store := s'; d_name := d_name d |}. split; [now apply on_edited|]. split; [exact F'|]. split; [reflexivity|].
  assert (insert_at (py_index (Z.of_nat (length a)) (length (kids (d_store d) p))) c (without c (kids (d_store d) p)) = a ++ c :: t :: b) as EQ.
  { rewrite without_other by assumption. unfold dkids in E. rewrite E. assert (py_index (Z.of_nat (length a)) (length (a ++ t :: b)) = length a) as ->.
    { unfold py_index. rewrite app_length. cbn [length]. destruct (Z.ltb_spec (Z.of_nat (length a)) 0); lia. }
    unfold insert_at. rewrite firstn_app, skipn_app, Nat.sub_diag, firstn_all, skipn_all. cbn. now rewrite app_nil_r. }
  cbn [d_store]. destruct ED as [e1 e2 e3 e4 e5 e6 e7 e8]. split; auto. intros q I. rewrite (e7 q I). destruct (q =? p); [now rewrite EQ|reflexivity].
Qed.
Lemma first_child_ok d r : dforest d -> dcontainer d r -> first_child (d_store d) r = Ok (hd_error (dkids d r)).
Proof.
  intros F C. pose proof (f_read _ F r (container_in _ _ C)) as R. unfold dkids. destruct C as [k [K CK]]. unfold kind_of in K. unfold get_children in R. unfold first_child.
  destruct (get (d_store d) r) as [n|] eqn:G; [|discriminate]. cbn [option_map] in K. injection K as ->. rewrite CK. unfold child_at. rewrite G. destruct (n_count n) as [|m]; cbn [read_cells Nat.eqb] in *.
  - injection R as <-. reflexivity.
  - destruct (n_cells n) as [|[c|] l]; try discriminate. cbn [nth_error rmap bind]. destruct (read_cells m l) as [x|]; cbn [bind] in R; [|discriminate]. injection R as <-. reflexivity.
Qed.
Lemma edited_doc d d' : d_name d' = d_name d -> d' = {| d_store := d_store d'; d_name := d_name d |}.
Proof. destruct d'. cbn. now intros ->. Qed.

Lemma move_all_ok place p r b : places place p b -> r <> p -> forall cs fuel d a, length cs < fuel -> dforest d -> dcontainer d p -> dcontainer d r ->
  dkids d p = a ++ b -> dkids d r = cs -> (forall c, In c cs -> ~ above_or_self (dparent d) c p) ->
  exists d', move_all place fuel d r = (d', Ok tt) /\ dforest d' /\ ext (fun q => q <> p /\ q <> r) d d' /\ dkids d' p = a ++ cs ++ b /\ dkids d' r = [] /\
    (forall i, dparent d' i = if is_member cs i then Some p else dparent d i) /\ len d' = len d.
Proof.
  intros PL NE. induction cs as [|c cs IH]; intros [|fuel] d a LF F Cp Cr Kp Kr NA; try (cbn [length] in LF; lia); cbn [move_all]; rewrite (first_child_ok d r F Cr), Kr; cbn [hd_error].
  - exists d. split; [reflexivity|]. split; [exact F|]. split; [apply ext_refl|]. cbn [app is_member existsb]. auto.
  - assert (In c (dkids d r)) as Ic by (rewrite Kr; now left).
    pose proof (kid_parent d r c F Ic) as Pc. assert (dparent d c <> Some p) as Pn by congruence.
    assert (allowed (d_store d) p c) as AL by (split; [exact (f_kind _ F r c Ic)|apply NA; now left]).
    destruct (PL d a c F Cp Kp (kid_in d r c F Ic) AL Pn) as [d1 [E1 [F1 [N1 ED]]]]. rewrite E1. cbn [andthen].
    assert (ext (fun q => q <> p /\ q <> r) d d1) as X1.
    { rewrite (edited_doc d d1 N1). eapply edited_ext; [exact ED|]. intros q I [Q1 Q2]. cbn beta. apply Nat.eqb_neq in Q1 as ->. apply without_other; [exact F|]. unfold dparent in Pc. congruence. }
    assert (dkids d1 p = (a ++ [c]) ++ b) as Kp1.
    { unfold dkids. rewrite (edited_kids _ _ _ _ p ED (container_in _ _ Cp)). cbn beta. rewrite Nat.eqb_refl, <- app_assoc. reflexivity. }
    assert (dkids d1 r = cs) as Kr1.
    { unfold dkids. rewrite (edited_kids _ _ _ _ r ED (container_in _ _ Cr)). cbn beta. apply Nat.eqb_neq in NE as ->. rewrite Kr. pose proof (f_nodup _ F r) as ND. change (NoDup (dkids d r)) in ND. rewrite Kr in ND. apply (without_mid c [] cs). exact ND. }
    assert (forall c0, In c0 cs -> ~ above_or_self (dparent d1) c0 p) as NA1.
    { intros c0 I [->|A].
      - apply (NA p); [now right|now left].
      - apply (NA c0); [now right|]. right. eapply above_other; [|apply (NA c); now left]. eapply above_ext; [|exact A]. intros i. symmetry. apply (e_par _ _ _ _ ED). }
    assert (length cs < fuel) as LF1 by (cbn [length] in LF; lia).
    destruct (IH fuel d1 (a ++ [c]) LF1 F1 (ext_container _ _ _ _ X1 Cp) (ext_container _ _ _ _ X1 Cr) Kp1 Kr1 NA1) as [d' [E' [F' [X' [Kp' [Kr' [Pa' L']]]]]]].
    exists d'. split; [exact E'|]. split; [exact F'|]. split; [eapply ext_trans; eauto|]. split; [now rewrite Kp', <- app_assoc|]. split; [exact Kr'|]. split.
    + intros i. rewrite Pa'. cbn [is_member existsb]. fold (is_member cs i). unfold dparent at 1. rewrite (e_par _ _ _ _ ED). unfold set_par, dparent. destruct (is_member cs i); [now rewrite orb_true_r|]. now rewrite orb_false_r.
    + rewrite L'. unfold len. apply (e_len _ _ _ _ ED).
Qed.
