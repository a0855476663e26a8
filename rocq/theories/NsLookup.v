(** * Proofs about namespace lookup *)
From Coq Require Import NArith ZArith String List Bool Lia Arith Permutation.
From Verif Require Import PyStr PyErr HashModel HashSpec HashProbe HashMap HashProps NsModel NsSpec.
Import ListNotations.
Local Open Scope nat_scope.

Notation decls := (list (option str * str)).
Definition frame (d : decls) : declarations := latest d.

(** ** One map *)
Lemma opt_eqb_refl p : opt_eqb p p = true.
Proof. now apply opt_eqb_eq. Qed.
Lemma latest_snoc ds q u p : latest (ds ++ [(q, u)]) p = if prefix_dec p q then Some u else latest ds p.
Proof.
  induction ds as [|[q' u'] ds IH]; cbn.
  - destruct (opt_eqb q p) eqn:E; destruct (prefix_dec p q) as [->|N]; try reflexivity.
    + apply opt_eqb_eq in E. congruence.
    + rewrite opt_eqb_refl in E. discriminate.
  - rewrite IH. destruct (prefix_dec p q); [reflexivity|]. reflexivity.
Qed.
Lemma expected_latest ds : forall p, expected prefix_dec (map (fun d => SetNode (fst d) (snd d)) ds) p = latest ds p.
Proof.
  induction ds as [|[q u] ds IH] using rev_ind; intros p; [reflexivity|]. unfold expected in *. rewrite map_app, fold_left_app. cbn [map fold_left expect fst snd].
  unfold put. rewrite latest_snoc, IH. reflexivity.
Qed.
Lemma declare_lists hash ds : lists (iterate (declare hash ds)) (latest ds).
Proof.
  destruct (C23_namespace_map hash (map (fun d => SetNode (fst d) (snd d)) ds)) as [_ [_ [[L1 L2] _]]].
  - intros k I. apply in_map_iff in I. destruct I as [x [E _]]. discriminate.
  - split; [exact L1|]. intros k v. rewrite (L2 k v), expected_latest. reflexivity.
Qed.
Lemma latest_in ds p u : latest ds p = Some u -> In (p, u) ds.
Proof.
  induction ds as [|[q w] ds IH]; cbn; [discriminate|]. destruct (latest ds p) as [x|].
  - intros [= ->]. auto.
  - destruct (opt_eqb q p) eqn:E; [|discriminate]. apply opt_eqb_eq in E. intros [= ->]. subst. auto.
Qed.
Lemma iterate_legal hash ds : (forall d, In d ds -> legal d) -> forall d, In d (iterate (declare hash ds)) -> legal d.
Proof. intros L [p u] I. apply L, latest_in, (declare_lists hash ds), I. Qed.

(** ** lookup_namespace *)
Lemma lists_cons (q : option str) (u : str) l (f : option str -> option str) : lists ((q, u) :: l) f -> f q = Some u /\ lists l (without prefix_dec f q).
Proof.
  intros [D H]. cbn in D. inversion_clear D. split; [apply H; left; reflexivity|]. split; [assumption|]. intros k v. unfold without. destruct (prefix_dec k q) as [->|N].
  - split; [|discriminate]. intros I. exfalso. apply H0. now apply (in_map fst) in I.
  - rewrite <- H. cbn. split; [auto|]. intros [[= -> ->]|I]; [congruence|exact I].
Qed.
Lemma lists_nil_none (f : option str -> option str) p : lists [] f -> f p = None.
Proof. intros [_ H]. destruct (f p) as [v|] eqn:E; [|reflexivity]. now apply H in E. Qed.
Lemma str_eqb_sym a b : str_eqb a b = str_eqb b a.
Proof. destruct (str_eqb b a) eqn:E; [apply str_eqb_eq in E; subst; apply str_eqb_refl|]. destruct (str_eqb a b) eqn:E2; [|reflexivity]. apply str_eqb_eq in E2. subst. rewrite str_eqb_refl in E. discriminate. Qed.
Definition undeclare (o : str) : option str := match o with [] => None | _ => Some o end.
Lemma find_prefix_spec p : forall l f, lists l f -> (forall d, In d l -> legal d) -> find_prefix l p = option_map undeclare (f p).
Proof.
  induction l as [|[q u] l IH]; intros f L Lg; cbn [find_prefix]; [now rewrite (lists_nil_none f p L)|].
  destruct (lists_cons q u l f L) as [E L']. pose proof (IH _ L' (fun d I => Lg d (or_intror I))) as R. unfold without in R.
  destruct (Lg (q, u) (or_introl eq_refl)) as [X _]. cbn in X. destruct u as [|c u].
  - rewrite (X eq_refl) in *. cbn [is_empty]. destruct p as [p|]; [|now rewrite E]. rewrite R. destruct (prefix_dec (Some p) None); [congruence|reflexivity].
  - cbn [is_empty]. destruct (opt_eqb p q) eqn:EQ.
    + apply opt_eqb_eq in EQ. subst p. now rewrite E.
    + rewrite R. destruct (prefix_dec p q) as [->|]; [rewrite opt_eqb_refl in EQ; discriminate|reflexivity].
Qed.
Definition legal_chain (chain : list decls) : Prop := forall ds d, In ds chain -> In d ds -> legal d.
Lemma lookup_namespace_spec hash p : forall chain, legal_chain chain ->
  lookup_namespace (map (declare hash) chain) p = match in_scope (map latest chain) p with Some u => Ok (Some u) | None => match p with None => Ok None | Some _ => match nearest (map latest chain) p with Some _ => Ok None | None => Err ValueError end end end.
Proof.
  induction chain as [|ds chain IH]; intros L.
  - unfold in_scope. cbn [map lookup_namespace nearest]. destruct p as [q|]; [|reflexivity]. rewrite (str_eqb_sym q). unfold xml_string, xml_namespace. destruct (str_eqb (lit "xml") q); reflexivity.
  - cbn [map lookup_namespace]. rewrite (find_prefix_spec p _ _ (declare_lists hash ds) (iterate_legal hash ds (fun d => L ds d (or_introl eq_refl)))).
    unfold in_scope in *. cbn [nearest]. destruct (latest ds p) as [u|] eqn:E; cbn [option_map].
    + destruct u as [|c u]; cbn [undeclare]; [|reflexivity]. destruct p; reflexivity.
    + apply IH. intros ds' d I. apply L. now right.
Qed.
Lemma nearest_in chain p u : nearest (map latest chain) p = Some u -> exists ds, In ds chain /\ In (p, u) ds.
Proof.
  induction chain as [|ds chain IH]; cbn; [discriminate|]. destruct (latest ds p) as [w|] eqn:E.
  - intros [= ->]. apply latest_in in E. eauto.
  - intros H. destruct (IH H) as [ds' [I1 I2]]. eauto.
Qed.
Lemma nearest_legal chain q u : legal_chain chain -> nearest (map latest chain) (Some q) = Some u -> in_scope (map latest chain) (Some q) = Some u.
Proof.
  intros L H. unfold in_scope. rewrite H. destruct u as [|c u]; [|reflexivity]. exfalso. destruct (nearest_in _ _ _ H) as [ds [I1 I2]]. destruct (L _ _ I1 I2) as [X _]. cbn in X. specialize (X eq_refl). discriminate.
Qed.

(** ** lookup_prefix *)
Lemma find_namespace_spec u : forall l, u <> [] -> match find_namespace l (Some u) with
  | Some p => In (p, u) l
  | None => forall p, ~ In (p, u) l
  end.
Proof.
  intros l NE. induction l as [|[q w] l IH]; cbn [find_namespace]; [intros p []|].
  destruct (is_empty w && match q with None => true | Some _ => false end) eqn:X.
  - destruct w; [|discriminate]. destruct (find_namespace l (Some u)) as [p|]; [right; exact IH|]. intros p [[= _ <-]|I]; [congruence|now apply (IH p)].
  - cbn [opt_eqb]. destruct (str_eqb u w) eqn:Q.
    + apply str_eqb_eq in Q. subst w. left; reflexivity.
    + destruct (find_namespace l (Some u)) as [p|]; [right; exact IH|]. intros p [[= _ <-]|I]; [rewrite str_eqb_refl in Q; discriminate|now apply (IH p)].
Qed.
Lemma find_namespace_none : forall l, find_namespace l None = None.
Proof. induction l as [|[q w] l IH]; cbn; [reflexivity|]. destruct (is_empty w && _); exact IH. Qed.
Lemma lookup_prefix_none hash chain : lookup_prefix (map (declare hash) chain) None = Ok None.
Proof. induction chain as [|ds chain IH]; cbn; [reflexivity|]. now rewrite find_namespace_none. Qed.
Lemma lookup_prefix_spec hash u : u <> [] -> forall chain,
  match lookup_prefix (map (declare hash) chain) (Some u) with
  | Ok p => (exists ds, In ds chain /\ latest ds p = Some u) \/ (p = Some (lit "xml") /\ u = xml_namespace /\ forall ds q, In ds chain -> latest ds q <> Some u)
  | Err e => e = ValueError /\ u <> xml_namespace /\ forall ds p, In ds chain -> latest ds p <> Some u
  end.
Proof.
  intros NE. induction chain as [|ds chain IH]; cbn [map lookup_prefix].
  - destruct (str_eqb xml_namespace u) eqn:E.
    + apply str_eqb_eq in E. right. split; [reflexivity|]. split; [congruence|]. intros ds q [].
    + split; [reflexivity|]. split; [intros ->; rewrite str_eqb_refl in E; discriminate|]. intros ds p [].
  - pose proof (find_namespace_spec u (iterate (declare hash ds)) NE) as F. destruct (find_namespace _ _) as [p|].
    + left. exists ds. split; [left; reflexivity|]. now apply (declare_lists hash ds).
    + assert (forall q, latest ds q <> Some u) as F' by (intros q H; apply (F q), (declare_lists hash ds), H).
      destruct (lookup_prefix _ _) as [p|e].
      * destruct IH as [[ds' [I E]]|[E1 [E2 E3]]]; [left; exists ds'; split; [right; exact I|exact E]|].
        right. split; [exact E1|]. split; [exact E2|]. intros ds' q [<-|I]; [apply F'|now apply E3].
      * destruct IH as [E1 [E2 E3]]. split; [exact E1|]. split; [exact E2|]. intros ds' q [<-|I]; [apply F'|now apply E3].
Qed.
Lemma in_scope_in chain p u : in_scope (map latest chain) p = Some u -> (exists ds, In ds chain /\ latest ds p = Some u) \/ (p = Some (lit "xml") /\ u = xml_namespace).
Proof.
  unfold in_scope. destruct (nearest (map latest chain) p) as [w|] eqn:E.
  - intros H. assert (w = u) as -> by (destruct w; congruence). left. clear H. induction chain as [|ds chain IH]; [discriminate|]. cbn in E. destruct (latest ds p) eqn:X; [exists ds; split; [left; reflexivity|congruence]|].
    destruct (IH E) as [ds' [I1 I2]]. exists ds'. split; [right; exact I1|exact I2].
  - destruct p as [q|]; [|discriminate]. destruct (str_eqb q (lit "xml")) eqn:Q; [|discriminate]. intros [= <-]. apply str_eqb_eq in Q. subst. right; auto.
Qed.
Lemma xml_in_scope chain : legal_chain chain -> in_scope (map latest chain) (Some (lit "xml")) = Some xml_namespace.
Proof.
  intros L. destruct (nearest (map latest chain) (Some (lit "xml"))) as [w|] eqn:E.
  - rewrite (nearest_legal chain _ w L E). destruct (nearest_in _ _ _ E) as [ds [I1 I2]]. destruct (L _ _ I1 I2) as [_ [X _]]. f_equal. now apply X.
  - unfold in_scope. rewrite E, str_eqb_refl. reflexivity.
Qed.

(** ** xml_namespaces *)
(** [nodes] in order, without undeclarations, added to [g] where it has nothing. *)
Definition or_else (g f : option str -> option str) : option str -> option str := fun p => match g p with Some u => Some u | None => match f p with Some [] => None | o => o end end.
Definition shows (hash : option str -> N) (m : nsmap) (g : option str -> option str) : Prop :=
  good_map m /\ findable prefix_eqb hash (m_table m) /\ forall p u, In (p, u) (entries (m_table m)) <-> g p = Some u.
Lemma shows_get hash m g p : shows hash m g -> get_node prefix_eqb hash m p = Ok (g p).
Proof.
  intros [G [F E]]. destruct (get_ok prefix_eqb hash opt_eqb_eq m p G) as [o [O1 [O2 O3]]]. rewrite O1. f_equal. destruct o as [v|].
  - symmetry. apply E, O2. reflexivity.
  - destruct (g p) as [v|] eqn:X; [|reflexivity]. apply E in X. now apply (O3 F) in X.
Qed.
Lemma shows_set hash m g p u : shows hash m g -> exists m', set_node prefix_eqb hash m p u = Ok m' /\ shows hash m' (put prefix_dec g p u).
Proof.
  intros [G [F E]]. destruct (set_node_ok prefix_eqb hash opt_eqb_eq m p u G) as [m' [S1 [S2 S3]]]. destruct (S3 F) as [F' S]. exists m'. split; [exact S1|]. split; [exact S2|]. split; [exact F'|].
  intros q v. rewrite (S q v), E. unfold put. destruct (prefix_dec q p) as [->|N]; split.
  - intros [[_ ->]|[N _]]; [reflexivity|congruence].
  - intros [= ->]. auto.
  - intros [[C _]|[_ H]]; [congruence|exact H].
  - auto.
Qed.
Lemma shows_ext hash m g g' : (forall p, g p = g' p) -> shows hash m g -> shows hash m g'.
Proof. intros H [G [F E]]. split; [exact G|]. split; [exact F|]. intros p u. rewrite <- H. apply E. Qed.
Lemma add_inscope_ok hash : forall nodes f, lists nodes f -> (forall d, In d nodes -> legal d) -> forall m g, shows hash m g -> exists m', add_inscope hash nodes m = Ok m' /\ shows hash m' (or_else g f).
Proof.
  induction nodes as [|[q u] nodes IH]; intros f L Lg m g S; cbn [add_inscope].
  - exists m. split; [reflexivity|]. revert S. apply shows_ext. intros p. unfold or_else. rewrite (lists_nil_none f p L). now destruct (g p).
  - destruct (lists_cons q u nodes f L) as [E L']. destruct (Lg (q, u) (or_introl eq_refl)) as [X _]. cbn in X. pose proof (fun d I => Lg d (or_intror I)) as Lg'.
    destruct (is_empty u && match q with None => true | Some _ => false end) eqn:Z.
    + destruct u; [|discriminate]. destruct (IH _ L' Lg' m g S) as [m' [A B]]. exists m'. split; [exact A|]. revert B. apply shows_ext. intros p. unfold or_else, without. destruct (g p); [reflexivity|]. destruct (prefix_dec p q) as [->|]; [now rewrite E|reflexivity].
    + assert (u <> []) as NE by (intros ->; rewrite (X eq_refl) in Z; discriminate). rewrite (shows_get hash m g q S). cbn [bind]. destruct (g q) as [w|] eqn:GQ.
      * destruct (IH _ L' Lg' m g S) as [m' [A B]]. exists m'. split; [exact A|]. revert B. apply shows_ext. intros p. unfold or_else, without. destruct (g p) eqn:GP; [reflexivity|]. destruct (prefix_dec p q) as [->|]; [congruence|reflexivity].
      * destruct (shows_set hash m g q u S) as [m1 [S1 S2]]. rewrite S1. cbn [bind]. destruct (IH _ L' Lg' m1 _ S2) as [m' [A B]]. exists m'. split; [exact A|]. revert B. apply shows_ext.
        intros p. unfold or_else, put, without. destruct (prefix_dec p q) as [->|]; [|reflexivity]. rewrite GQ, E. destruct u; [congruence|reflexivity].
Qed.
(** What the code computes: declarations that undeclare are skipped. *)
Fixpoint skipping (chain : list declarations) (g : option str -> option str) : option str -> option str := match chain with [] => g | d :: chain' => skipping chain' (or_else g d) end.
Lemma add_chain_ok hash : forall chain, legal_chain chain -> forall m g, shows hash m g -> exists m', add_chain hash (map (declare hash) chain) m = Ok m' /\ shows hash m' (skipping (map latest chain) g).
Proof.
  induction chain as [|ds chain IH]; intros L m g S; cbn [map add_chain skipping]; [eauto|].
  destruct (add_inscope_ok hash _ _ (declare_lists hash ds) (iterate_legal hash ds (fun d => L ds d (or_introl eq_refl))) m g S) as [m1 [A B]]. rewrite A. cbn [bind].
  apply IH; [intros ds' d I; apply L; now right|exact B].
Qed.
Definition only_xml : option str -> option str := put prefix_dec no_keys (Some xml_string) xml_namespace.
Lemma inscope_ok hash chain : legal_chain chain -> exists m, inscope_namespaces hash (map (declare hash) chain) = Ok m /\ shows hash m (skipping (map latest chain) only_xml).
Proof.
  intros L. unfold inscope_namespaces. destruct (shows_set hash new_map no_keys (Some xml_string) xml_namespace) as [m [S1 S2]].
  - destruct (new_good (K := option str) (V := str) prefix_eqb hash) as [G F]. split; [exact G|]. split; [exact F|]. intros p u. unfold new_map. cbn [m_table]. rewrite entries_repeat. split; [intros []|discriminate].
  - rewrite S1. cbn [bind]. now apply add_chain_ok.
Qed.
Definition nonempty (d : declarations) : declarations := fun q => match d q with Some [] => None | o => o end.
Lemma skipping_spec p : forall chain g, skipping chain g p = match g p with Some u => Some u | None => nearest (map nonempty chain) p end.
Proof.
  induction chain as [|d chain IH]; intros g; cbn [skipping map nearest]; [now destruct (g p)|]. rewrite IH. unfold or_else, nonempty. destruct (g p) as [u|]; [reflexivity|].
  destruct (d p) as [[|c u]|]; reflexivity.
Qed.
(** An undeclaration hides nothing. *)
Fixpoint no_hidden_default (chain : list declarations) : Prop :=
  match chain with [] => True | d :: chain' => (d None = Some [] -> in_scope chain' None = None) /\ no_hidden_default chain' end.
Lemma nearest_nonempty chain p : (forall d, In d chain -> p <> None -> d p <> Some []) -> no_hidden_default chain ->
  nearest (map nonempty chain) p = match nearest chain p with Some [] => None | o => o end.
Proof.
  induction chain as [|d chain IH]; intros NE NH; cbn; [reflexivity|]. destruct NH as [N1 N2].
  assert (forall d0, In d0 chain -> p <> None -> d0 p <> Some []) as NE' by (intros; apply NE; [now right|assumption]).
  specialize (IH NE' N2). unfold nonempty at 1. destruct (d p) as [[|c u]|] eqn:E; [|reflexivity|exact IH].
  destruct p as [q|]; [exfalso; apply (NE d (or_introl eq_refl)) in E; [exact E|discriminate]|]. specialize (N1 E). unfold in_scope in N1. rewrite IH. destruct (nearest chain None) as [[|c u]|]; [reflexivity|discriminate|reflexivity].
Qed.
Lemma skipping_in_scope chain p : legal_chain chain -> no_hidden_default (map latest chain) -> skipping (map latest chain) only_xml p = in_scope (map latest chain) p.
Proof.
  intros L NH. rewrite skipping_spec. unfold only_xml, put, no_keys. destruct (prefix_dec p (Some xml_string)) as [->|N]; [symmetry; now apply xml_in_scope|].
  rewrite nearest_nonempty; [|intros d I NP H; apply in_map_iff in I; destruct I as [ds [<- I]]; apply latest_in in H; destruct (L _ _ I H) as [X _]; cbn in X; now rewrite (X eq_refl) in NP|exact NH].
  unfold in_scope. destruct (nearest (map latest chain) p) as [[|c u]|]; try reflexivity. destruct p as [q|]; [|reflexivity]. destruct (str_eqb q (lit "xml")) eqn:Q; [|reflexivity]. apply str_eqb_eq in Q. subst. now elim N.
Qed.
Lemma find_namespace_empty : forall l, (forall d, In d l -> legal d) -> find_namespace l (Some []) = None.
Proof.
  induction l as [|[q w] l IH]; intros L; cbn [find_namespace]; [reflexivity|]. pose proof (IH (fun d I => L d (or_intror I))) as R.
  destruct (L (q, w) (or_introl eq_refl)) as [X _]. cbn in X. destruct w as [|c w]; [rewrite (X eq_refl); exact R|exact R].
Qed.
Lemma lookup_prefix_empty hash : forall chain, legal_chain chain -> lookup_prefix (map (declare hash) chain) (Some []) = Err ValueError.
Proof.
  induction chain as [|ds chain IH]; intros L; [reflexivity|]. cbn [map lookup_prefix]. rewrite find_namespace_empty; [apply IH; intros ds' d I; apply L; now right|].
  apply iterate_legal. intros d. apply L. now left.
Qed.
Lemma in_scope_nonempty chain p : in_scope chain p <> Some [].
Proof. unfold in_scope. destruct (nearest chain p) as [[|c u]|]; try discriminate. destruct p as [q|]; [|discriminate]. destruct (str_eqb q _); discriminate. Qed.
