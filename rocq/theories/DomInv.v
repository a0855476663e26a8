(** * The effect of each mutation call, and why it keeps the forest consistent *)
From Coq Require Import NArith ZArith String List Bool Lia Arith.
From Verif Require Import PyStr PyErr DomModel DomSpec DomCells.
Import ListNotations.
Local Open Scope nat_scope.

(** ** Stores *)
Lemma get_put s i n j : get (put s i n) j = if (j =? i) && (i <? length (s_nodes s)) then Some n else get s j.
Proof.
  unfold get, put. cbn [s_nodes]. generalize (s_nodes s) as l. intros l. revert i j.
  induction l as [|x l IH]; intros i j; cbn [set_nth].
  - destruct j; cbn [nth_error length]; replace (i <? 0) with false by (symmetry; apply Nat.ltb_ge; lia); now rewrite andb_false_r.
  - destruct i, j; cbn [nth_error length]; try reflexivity. rewrite IH. reflexivity.
Qed.
Lemma get_some s i n : get s i = Some n -> i < length (s_nodes s).
Proof. intros H. apply nth_error_Some. unfold get in H. congruence. Qed.
Lemma get_ex s i : i < length (s_nodes s) -> exists n, get s i = Some n.
Proof. intros H. apply nth_error_Some in H. unfold get. destruct (nth_error _ _); [eauto|congruence]. Qed.
Lemma get_upd s i f j : get (upd s i f) j = if j =? i then option_map f (get s j) else get s j.
Proof.
  unfold upd. destruct (get s i) as [n|] eqn:E.
  - rewrite get_put. apply get_some in E as L. apply Nat.ltb_lt in L. rewrite L, andb_true_r.
    destruct (Nat.eqb_spec j i) as [->|]; [now rewrite E|reflexivity].
  - destruct (Nat.eqb_spec j i) as [->|]; [now rewrite E|reflexivity].
Qed.
Lemma upd_len s i f : length (s_nodes (upd s i f)) = length (s_nodes s).
Proof. unfold upd. destruct (get s i); [|reflexivity]. cbn. apply length_set_nth. Qed.
Lemma upd_counter s i f : s_counter (upd s i f) = s_counter s.
Proof. unfold upd. destruct (get s i); reflexivity. Qed.

Lemma kids_none s p : get s p = None -> kids s p = [].
Proof. intros H. unfold kids, get_children. now rewrite H. Qed.
Lemma forest_holds s p n : forest s -> get s p = Some n -> n_count n = length (kids s p) /\ holds (n_cells n) (kids s p).
Proof.
  intros F H. pose proof (f_read s F p (get_some _ _ _ H)) as R. unfold get_children in R. rewrite H in R. now apply read_cells_holds in R.
Qed.
Lemma parent_ex s c p : parent_of s c = Some p -> exists n, get s c = Some n /\ n_parent n = Some p.
Proof. unfold parent_of. destruct (get s c); [eauto|discriminate]. Qed.
Lemma kind_get s i n : get s i = Some n -> kind_of s i = Some (n_kind n).
Proof. unfold kind_of. now intros ->. Qed.

Lemma edited_intro s s' kid par :
  length (s_nodes s') = length (s_nodes s) -> s_counter s' = s_counter s ->
  (forall j n, get s j = Some n -> exists n', get s' j = Some n' /\ n_kind n' = n_kind n /\ n_data n' = n_data n /\ n_attrs n' = n_attrs n /\ n_index n' = n_index n /\
     n_parent n' = par j /\ n_count n' = length (kid j) /\ holds (n_cells n') (kid j)) ->
  (forall j, get s j = None -> par j = None) -> edited s s' kid par.
Proof.
  intros Hl Hc H Hn.
  assert (forall j, get s j = None -> get s' j = None) as HN.
  { intros j Hj. unfold get in *. apply nth_error_None. apply nth_error_None in Hj. lia. }
  split; try assumption.
  - intros i. unfold kind_of. destruct (get s i) as [n|] eqn:E.
    + destruct (H i n E) as [n' [E' [K _]]]. rewrite E'. cbn. now rewrite K.
    + now rewrite (HN i E).
  - intros i. unfold data_of. destruct (get s i) as [n|] eqn:E.
    + destruct (H i n E) as [n' [E' [_ [K _]]]]. now rewrite E'.
    + now rewrite (HN i E).
  - intros i. unfold attrs_of. destruct (get s i) as [n|] eqn:E.
    + destruct (H i n E) as [n' [E' [_ [_ [K _]]]]]. now rewrite E'.
    + now rewrite (HN i E).
  - intros i. unfold index_of_entity, doc_index. destruct (get s i) as [n|] eqn:E.
    + destruct (H i n E) as [n' [E' [K1 [_ [_ [K _]]]]]]. now rewrite E', K, K1.
    + now rewrite (HN i E).
  - intros p Hp. destruct (get_ex s p Hp) as [n E]. destruct (H p n E) as [n' [E' [_ [_ [_ [_ [_ [K1 K2]]]]]]]].
    unfold get_children. rewrite E'. apply read_cells_holds. split; assumption.
  - intros i. unfold parent_of. destruct (get s i) as [n|] eqn:E.
    + destruct (H i n E) as [n' [E' [_ [_ [_ [_ [K _]]]]]]]. now rewrite E'.
    + now rewrite (HN i E), (Hn i E).
Qed.

(** ** Ancestors *)
Lemma above_trans par a b c : above par a b -> above par b c -> above par a c.
Proof. intros H1 H2. induction H2 as [x Hx|x q Hx H IH]; [exact (above_up _ _ _ _ Hx H1)|exact (above_up _ _ _ _ Hx IH)]. Qed.
Lemma aos_above par a b c : above_or_self par a b -> above par b c -> above par a c.
Proof. intros [->|H] H2; [assumption|eapply above_trans; eauto]. Qed.
Lemma above_aos par a b c : above par a b -> above_or_self par b c -> above par a c.
Proof. intros H [<-|H2]; [assumption|eapply above_trans; eauto]. Qed.
Lemma aos_trans par a b c : above_or_self par a b -> above_or_self par b c -> above_or_self par a c.
Proof. intros [->|H] H2; [assumption|]. right. eapply above_aos; eauto. Qed.
Lemma above_ext par par' a b : (forall i p, par i = Some p -> par' i = Some p) -> above par a b -> above par' a b.
Proof. intros E H. induction H; [apply above_parent; auto|eapply above_up; eauto]. Qed.
Lemma above_clear par c a b : above (set_par par c None) a b -> above par a b.
Proof. apply above_ext. intros i p. unfold set_par. destruct (i =? c); [discriminate|auto]. Qed.
Lemma aos_parent par p c : par c = Some p -> forall a, above par a c -> above_or_self par a p.
Proof.
  intros H a Ha. inversion Ha as [x Hx E|x q Hx Ha' E]; subst; rewrite H in Hx; injection Hx as ->; [left; reflexivity|right; exact Ha'].
Qed.

(** Hanging the parentless [c] under [p]. *)
Lemma above_attach par c p a b : par c = None -> above (set_par par c (Some p)) a b ->
  above par a b \/ (above_or_self par a p /\ above_or_self par c b) \/ (above_or_self par c p).
Proof.
  intros Hc H. induction H as [x Hx|x q Hx H IH].
  - unfold set_par in Hx. destruct (Nat.eqb_spec x c) as [Ex|Ex].
    + injection Hx as <-. right. left. split; [left; reflexivity|left; now symmetry].
    + left. now apply above_parent.
  - unfold set_par in Hx. destruct (Nat.eqb_spec x c) as [Ex|Ex].
    + injection Hx as ->. destruct IH as [IH|[[IH1 IH2]|IH]].
      * right. left. split; [right; exact IH|left; now symmetry].
      * right. left. split; [exact IH1|left; now symmetry].
      * right. right. exact IH.
    + destruct IH as [IH|[[IH1 IH2]|IH]].
      * left. eapply above_up; eauto.
      * right. left. split; [exact IH1|]. right. destruct IH2 as [->|IH2]; [now apply above_parent|eapply above_up; eauto].
      * right. right. exact IH.
Qed.
Lemma acyclic_clear par c : (forall n, ~ above par n n) -> forall n, ~ above (set_par par c None) n n.
Proof. intros H n Hn. apply above_clear in Hn. exact (H n Hn). Qed.
Lemma acyclic_attach par c p : par c = None -> (forall n, ~ above par n n) -> ~ above_or_self par c p -> forall n, ~ above (set_par par c (Some p)) n n.
Proof.
  intros Hc H Hp n Hn. apply above_attach in Hn; [|exact Hc]. destruct Hn as [Hn|[[H1 H2]|Hn]].
  - exact (H n Hn).
  - apply Hp. eapply aos_trans; eauto.
  - exact (Hp Hn).
Qed.
Lemma set_par_same par c v : set_par par c v c = v.
Proof. unfold set_par. now rewrite Nat.eqb_refl. Qed.
Lemma set_par_other par c v i : i <> c -> set_par par c v i = par i.
Proof. unfold set_par. intros. destruct (Nat.eqb_spec i c); [congruence|reflexivity]. Qed.
Lemma above_set_ext par par' a b : (forall i, par i = par' i) -> above par a b -> above par' a b.
Proof. intros E. apply above_ext. intros i p H. now rewrite <- E. Qed.
Lemma set_par_twice par c v w i : set_par (set_par par c v) c w i = set_par par c w i.
Proof. unfold set_par. destruct (i =? c); reflexivity. Qed.
(** Moving [c] under [p]. *)
Lemma acyclic_move par c p : (forall n, ~ above par n n) -> ~ above_or_self par c p -> forall n, ~ above (set_par par c (Some p)) n n.
Proof.
  intros H Hp n Hn.
  apply (acyclic_attach (set_par par c None) c p) with (n := n).
  - apply set_par_same.
  - now apply acyclic_clear.
  - intros [->|X]; apply Hp; [left; reflexivity|right; eapply above_clear; exact X].
  - eapply above_set_ext; [|exact Hn]. intros i. symmetry. apply set_par_twice.
Qed.

(** The ancestor loop decides ancestry, and its fuel suffices. *)
Lemma is_ancestor_true s c : forall fuel p, is_ancestor fuel s c p = Some true -> above_or_self (parent_of s) c p.
Proof.
  induction fuel as [|f IH]; intros p; cbn [is_ancestor]; [discriminate|].
  destruct (Nat.eqb_spec c p) as [->|Hne]; [left; reflexivity|].
  destruct (get s p) as [n|] eqn:E; [|discriminate]. destruct (n_parent n) as [q|] eqn:Q; [|discriminate].
  intros H. right. assert (parent_of s p = Some q) as P by (unfold parent_of; now rewrite E).
  destruct (IH q H) as [->|X]; [now apply above_parent|eapply above_up; eauto].
Qed.
Lemma is_ancestor_false s c : forall fuel p, is_ancestor fuel s c p = Some false -> ~ above_or_self (parent_of s) c p.
Proof.
  induction fuel as [|f IH]; intros p; cbn [is_ancestor]; [discriminate|].
  destruct (Nat.eqb_spec c p) as [->|Hne]; [discriminate|].
  destruct (get s p) as [n|] eqn:E.
  - assert (parent_of s p = n_parent n) as P by (unfold parent_of; now rewrite E).
    destruct (n_parent n) as [q|] eqn:Q.
    + intros H [X|X]; [congruence|]. apply (IH q H). eapply aos_parent; eauto.
    + intros _ [X|X]; [congruence|]. inversion X; congruence.
  - intros _ [X|X]; [congruence|]. assert (parent_of s p = None) as P by (unfold parent_of; now rewrite E). inversion X; congruence.
Qed.
Lemma is_ancestor_fuel s c : forest s -> forall fuel p visited, exists_node s p -> NoDup visited -> (forall v, In v visited -> exists_node s v /\ above (parent_of s) p v) ->
  length (s_nodes s) < fuel + length visited -> is_ancestor fuel s c p <> None.
Proof.
  intros F. induction fuel as [|f IH]; intros p vis Hp Hd Hv Hf.
  - exfalso. assert (length vis <= length (seq 0 (length (s_nodes s)))) as X.
    { apply NoDup_incl_length; [exact Hd|]. intros v V. apply in_seq. destruct (Hv v V). unfold exists_node in *. lia. }
    rewrite seq_length in X. cbn in Hf. lia.
  - cbn [is_ancestor]. destruct (Nat.eqb c p); [discriminate|].
    destruct (get s p) as [n|] eqn:E; [|discriminate]. destruct (n_parent n) as [q|] eqn:Q; [|discriminate].
    assert (parent_of s p = Some q) as P by (unfold parent_of; now rewrite E).
    apply (IH q (p :: vis)).
    + destruct (f_parent s F q p P) as [k [K _]]. unfold kind_of in K. destruct (get s q) eqn:G; [|discriminate]. eapply get_some; eauto.
    + constructor; [|exact Hd]. intro V. destruct (Hv p V) as [_ A]. exact (f_acyclic s F p A).
    + intros v [<-|V]; [split; [exact Hp|now apply above_parent]|]. destruct (Hv v V) as [A B]. split; [exact A|].
      eapply above_trans; [apply above_parent; exact P|exact B].
    + cbn. lia.
Qed.
Lemma ensure_hierarchy_ok s p c : forest s -> exists_node s p -> exists_node s c ->
  ensure_hierarchy s p c = Ok tt /\ (exists k, kind_of s c = Some k /\ child_kind k = true) /\ ~ above_or_self (parent_of s) c p \/
  ensure_hierarchy s p c = Err ValueError /\ ((exists k, kind_of s c = Some k /\ child_kind k = false) \/ above_or_self (parent_of s) c p).
Proof.
  intros F Hp Hc. destruct (get_ex s c Hc) as [n E]. unfold ensure_hierarchy. rewrite E.
  destruct (child_kind (n_kind n)) eqn:K.
  - pose proof (is_ancestor_fuel s c F (S (length (s_nodes s))) p [] Hp (NoDup_nil _) ltac:(intros v []) ltac:(cbn; lia)) as HF.
    destruct (is_ancestor _ s c p) as [[|]|] eqn:A; [| |congruence].
    + right. split; [reflexivity|]. right. eapply is_ancestor_true; eauto.
    + left. split; [reflexivity|]. split; [exists (n_kind n); split; [now apply kind_get|exact K]|eapply is_ancestor_false; eauto].
  - right. split; [reflexivity|]. left. exists (n_kind n). split; [now apply kind_get|exact K].
Qed.

(** ** Consistency of an edited forest *)
Lemma edited_forest s s' kid par : forest s -> edited s s' kid par ->
  (forall p, exists_node s p -> NoDup (kid p)) ->
  (forall p c, exists_node s p -> (In c (kid p) <-> par c = Some p /\ kind_of s c <> Some KAttr)) ->
  (forall a, kind_of s a = Some KAttr -> par a = parent_of s a) ->
  (forall p c, par c = Some p -> exists k, kind_of s p = Some k /\ is_container k = true) ->
  (forall p c, exists_node s p -> In c (kid p) -> exists k, kind_of s c = Some k /\ child_kind k = true) ->
  (forall n, ~ above par n n) -> forest s'.
Proof.
  intros F E H1 H2 H3 H4 H5 H6.
  assert (forall p, exists_node s p \/ get_children s' p = Err TypeError /\ kind_of s p = None) as EX.
  { intros p. destruct (Nat.lt_ge_cases p (length (s_nodes s))) as [H|H]; [left; exact H|right].
    assert (get s' p = None) as G by (apply nth_error_None; rewrite (e_len _ _ _ _ E); exact H).
    assert (get s p = None) as G2 by (apply nth_error_None; exact H).
    unfold get_children, kind_of. rewrite G, G2. split; reflexivity. }
  assert (forall p, exists_node s p -> kids s' p = kid p) as K.
  { intros p Hp. unfold kids. now rewrite (e_kids _ _ _ _ E p Hp). }
  assert (forall p, ~ exists_node s p -> kids s' p = []) as K0.
  { intros p Hp. destruct (EX p) as [|[X _]]; [contradiction|]. unfold kids. now rewrite X. }
  split.
  - intros p Hp. assert (exists_node s p) as Hp' by (unfold exists_node in *; rewrite <- (e_len _ _ _ _ E); exact Hp).
    rewrite (K p Hp'). exact (e_kids _ _ _ _ E p Hp').
  - intros p. destruct (EX p) as [H|[X _]]; [rewrite K by exact H; now apply H1|]. unfold kids. rewrite X. constructor.
  - intros p c. rewrite (e_par _ _ _ _ E), (e_kind _ _ _ _ E). destruct (EX p) as [H|[X Y]].
    + rewrite K by exact H. now apply H2.
    + unfold kids. rewrite X. split; [intros []|]. intros [P _]. destruct (H4 p c P) as [k [Q _]]. congruence.
  - intros p. rewrite (e_attrs _ _ _ _ E). apply (f_anodup s F).
  - intros p a. rewrite (e_attrs _ _ _ _ E), (e_par _ _ _ _ E), (e_kind _ _ _ _ E). rewrite (f_alink s F).
    split; intros [A B]; (split; [|exact B]); [rewrite H3 by exact B; exact A|rewrite <- H3 by exact B; exact A].
  - intros p c. rewrite (e_par _ _ _ _ E). setoid_rewrite (e_kind _ _ _ _ E). apply H4.
  - intros p a. rewrite (e_attrs _ _ _ _ E), (e_kind _ _ _ _ E). apply (f_aparent s F).
  - intros p c. setoid_rewrite (e_kind _ _ _ _ E). destruct (EX p) as [H|[X _]].
    + rewrite K by exact H. now apply H5.
    + unfold kids. rewrite X. intros [].
  - intros n Hn. apply (H6 n). eapply above_set_ext; [|exact Hn]. apply (e_par _ _ _ _ E).
  - intros a b i. rewrite !(e_index _ _ _ _ E). apply (f_index s F).
  - intros a i. rewrite (e_index _ _ _ _ E), (e_counter _ _ _ _ E). apply (f_counter s F).
Qed.

Lemma not_attr s c k : kind_of s c = Some k -> child_kind k = true -> kind_of s c <> Some KAttr.
Proof. intros -> H [= ->]. discriminate. Qed.

(** Removal. *)
Lemma forest_detach s s' c : forest s -> kind_of s c <> Some KAttr ->
  edited s s' (fun q => without c (kids s q)) (set_par (parent_of s) c None) -> forest s'.
Proof.
  intros F Hc E. eapply edited_forest; [exact F|exact E| | | | | |].
  - intros p _. apply nodup_without, (f_nodup s F).
  - intros p x _. rewrite in_without, (f_link s F). unfold set_par. destruct (Nat.eqb_spec x c) as [->|].
    + split; [intros [_ []]; reflexivity|intros [[=] _]].
    + tauto.
  - intros a Ha. apply set_par_other. congruence.
  - intros p x. unfold set_par. destruct (x =? c); [discriminate|]. apply (f_parent s F).
  - intros p x _ Hx. apply in_without in Hx. eapply (f_kind s F). apply Hx.
  - apply acyclic_clear, (f_acyclic s F).
Qed.

(** Moving [c] into the child list of [p]. *)
Lemma forest_move s s' p c L : forest s ->
  (exists k, kind_of s p = Some k /\ is_container k = true) -> (exists k, kind_of s c = Some k /\ child_kind k = true) -> ~ above_or_self (parent_of s) c p ->
  NoDup L -> (forall x, In x L <-> x = c \/ In x (without c (kids s p))) ->
  edited s s' (fun q => if q =? p then L else without c (kids s q)) (set_par (parent_of s) c (Some p)) -> forest s'.
Proof.
  intros F Hp [k [Hk1 Hk2]] Ha HL Hin E. pose proof (not_attr s c k Hk1 Hk2) as Hc.
  eapply edited_forest; [exact F|exact E| | | | | |].
  - intros q _. cbn beta. destruct (q =? p); [exact HL|]. apply nodup_without, (f_nodup s F).
  - intros q x _. cbn beta. unfold set_par. destruct (Nat.eqb_spec q p) as [->|Hq].
    + rewrite Hin, in_without, (f_link s F). destruct (Nat.eqb_spec x c) as [->|]; [split; [intros _; split; [reflexivity|exact Hc]|tauto]|tauto].
    + rewrite in_without, (f_link s F). destruct (Nat.eqb_spec x c) as [->|]; [|tauto].
      split; [intros [_ []]; reflexivity|]. intros [[= ->] _]. congruence.
  - intros a Hx. apply set_par_other. congruence.
  - intros q x. unfold set_par. destruct (x =? c); [intros [= <-]; exact Hp|]. apply (f_parent s F).
  - intros q x _ Hx. cbn beta in Hx. destruct (q =? p).
    + apply Hin in Hx. destruct Hx as [->|Hx]; [exists k; auto|]. apply in_without in Hx. eapply (f_kind s F). apply Hx.
    + apply in_without in Hx. eapply (f_kind s F). apply Hx.
  - apply acyclic_move; [apply (f_acyclic s F)|exact Ha].
Qed.
