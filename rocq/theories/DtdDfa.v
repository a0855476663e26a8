(** * The subset construction gives a deterministic automaton for the same language *)
From Coq Require Import NArith ZArith String List Bool Lia Arith Permutation Sorted.
From Verif Require Import PyStr PyErr HashModel HashMap DtdModel DtdSpec DtdNfa.
Import ListNotations.
Local Open Scope nat_scope.

Lemma mem_iff n l : mem n l = true <-> In n l.
Proof. unfold mem. rewrite existsb_exists. split; [intros [x [I E]]; apply Nat.eqb_eq in E; now subst|intros I; exists n; split; [exact I|apply Nat.eqb_refl]]. Qed.
Lemma mem_false n l : mem n l = false <-> ~ In n l.
Proof. rewrite <- mem_iff. destruct (mem n l); split; congruence. Qed.
Definition bounded (n : nat) (l : list nat) : Prop := forall x, In x l -> x < n.
Lemma bounded_length n l : NoDup l -> bounded n l -> length l <= n.
Proof. intros D B. rewrite <- (seq_length n 0). apply NoDup_incl_length; [exact D|]. intros x I. apply in_seq. specialize (B x I). lia. Qed.

(** ** Closures *)
Definition states_ok (m : nfa) : Prop := forall s e t, edge m s e t -> t < length m.
Inductive ereach (m : nfa) : nat -> nat -> Prop :=
  | er_refl : forall s, ereach m s s
  | er_step : forall s t u, edge m s EEpsilon t -> ereach m t u -> ereach m s u.
Lemma ereach_trans m a b c : ereach m a b -> ereach m b c -> ereach m a c.
Proof. induction 1; auto. intros. econstructor; eauto. Qed.
Fixpoint closure_list (fu : nat) (m : nfa) (ts set : list nat) : result (list nat) :=
  match ts with [] => Ok set | t :: ts' => do set' <- add_closure fu m t set ; closure_list fu m ts' set' end.
Lemma add_closure_eq fu m n set : add_closure (S fu) m n set = if mem n set then Ok set else closure_list fu m (targets m n EEpsilon) (set ++ [n]).
Proof.
  cbn [add_closure]. destruct (mem n set); [reflexivity|]. generalize (set ++ [n]) as s. induction (targets m n EEpsilon) as [|t ts IH]; intros s; cbn [closure_list]; [reflexivity|].
  destruct (add_closure fu m t s); cbn [bind]; [apply IH|reflexivity].
Qed.
Definition grown (m : nfa) (from set set' : list nat) : Prop :=
  NoDup set' /\ bounded (length m) set' /\ incl set set' /\ incl from set' /\
  (forall x, In x set' -> ~ In x set -> (exists s, In s from /\ ereach m s x) /\ forall y, edge m x EEpsilon y -> In y set').
Lemma NoDup_snoc {A} (l : list A) x : NoDup l -> ~ In x l -> NoDup (l ++ [x]).
Proof. intros D N. apply (Permutation_NoDup (l := x :: l)); [apply Permutation_cons_append|constructor; assumption]. Qed.
Lemma add_closure_ok m : states_ok m -> forall fuel n set, n < length m -> NoDup set -> bounded (length m) set -> length m < fuel + length set ->
  exists set', add_closure fuel m n set = Ok set' /\ grown m [n] set set'.
Proof.
  intros SO. induction fuel as [|fu IH]; intros n set Ln D B F; [pose proof (bounded_length _ _ D B); lia|]. rewrite add_closure_eq. destruct (mem n set) eqn:M.
  - exists set. split; [reflexivity|]. apply mem_iff in M. split; [exact D|]. split; [exact B|]. split; [apply incl_refl|]. split; [intros x [<-|[]]; exact M|]. intros x I N. contradiction.
  - apply mem_false in M.
    assert (forall ts set0, bounded (length m) ts -> NoDup set0 -> bounded (length m) set0 -> length m < fu + length set0 -> exists set', closure_list fu m ts set0 = Ok set' /\ grown m ts set0 set') as G.
    { induction ts as [|t ts IHt]; intros set0 Bt D0 B0 F0; cbn [closure_list].
      - exists set0. split; [reflexivity|]. split; [exact D0|]. split; [exact B0|]. split; [apply incl_refl|]. split; [intros x []|]. intros x I N. contradiction.
      - destruct (IH t set0 ltac:(apply Bt; now left) D0 B0 F0) as [s1 [R1 [D1 [B1 [I1 [T1 C1]]]]]]. rewrite R1. cbn [bind].
        assert (length set0 <= length s1) as L1 by (apply NoDup_incl_length; assumption).
        destruct (IHt s1 ltac:(intros x I; apply Bt; now right) D1 B1 ltac:(lia)) as [s2 [R2 [D2 [B2 [I2 [T2 C2]]]]]]. exists s2. split; [exact R2|].
        split; [exact D2|]. split; [exact B2|]. split; [eapply incl_tran; eauto|]. split.
        + intros x [<-|I]; [apply I2, T1; now left|now apply T2].
        + intros x I N. destruct (in_dec Nat.eq_dec x s1) as [J|J].
          * destruct (C1 x J N) as [[s [[<-|[]] E]] Cl]. split; [exists t; split; [now left|exact E]|]. intros y Ey. apply I2. now apply Cl.
          * destruct (C2 x I J) as [[s [Is E]] Cl]. split; [exists s; split; [now right|exact E]|exact Cl]. }
    assert (bounded (length m) (targets m n EEpsilon)) as Bt by (intros t I; eapply SO; exact I).
    destruct (G (targets m n EEpsilon) (set ++ [n]) Bt) as [s' [R [D' [B' [I' [T' C']]]]]].
    + now apply NoDup_snoc.
    + intros x I. apply in_app_iff in I. destruct I as [I|[<-|[]]]; [now apply B|exact Ln].
    + rewrite app_length. cbn. lia.
    + exists s'. split; [exact R|]. split; [exact D'|]. split; [exact B'|]. split; [intros x I; apply I', in_app_iff; auto|]. split; [intros x [<-|[]]; apply I', in_app_iff; cbn; auto|].
      intros x I N. destruct (Nat.eq_dec x n) as [->|Nx].
      * split; [exists n; split; [now left|constructor]|]. intros y Ey. apply T'. exact Ey.
      * destruct (C' x I) as [[s [Is E]] Cl]; [rewrite in_app_iff; cbn; intros [J|[J|[]]]; congruence|]. split; [|exact Cl]. exists n. split; [now left|]. econstructor; [exact Is|exact E].
Qed.
Lemma closure_spec m n : states_ok m -> n < length m -> exists l, closure m n = Ok l /\ NoDup l /\ bounded (length m) l /\ forall t, In t l <-> ereach m n t.
Proof.
  intros SO Ln. destruct (add_closure_ok m SO (S (length m)) n [] Ln (NoDup_nil _) ltac:(intros ? []) ltac:(cbn; lia)) as [l [R [D [B [_ [T C]]]]]]. exists l. split; [exact R|]. split; [exact D|]. split; [exact B|].
  intros t. split.
  - intros I. destruct (C t I (fun x => x)) as [[s [[<-|[]] E]] _]. exact E.
  - intros E. assert (In n l) as In_ by (apply T; now left). assert (forall x y, In x l -> edge m x EEpsilon y -> In y l) as C' by (intros x y I; now apply (C x I (fun x => x))). clear R T C Ln. induction E as [|s t u Ed E IH]; [exact In_|]. apply IH. eapply C'; eauto.
Qed.
Lemma merge_iff a b x : In x (merge a b) <-> In x a \/ In x b.
Proof.
  unfold merge. rewrite in_app_iff, filter_In, negb_true_iff, mem_false. split; [tauto|]. intros [H|H]; [auto|]. destruct (in_dec Nat.eq_dec x a); auto.
Qed.
Lemma NoDup_app_disj {A} (a b : list A) : NoDup a -> NoDup b -> (forall x, In x a -> ~ In x b) -> NoDup (a ++ b).
Proof.
  induction a as [|x a IH]; intros Da Db N; [exact Db|]. inversion_clear Da. cbn. constructor; [|apply IH; auto; intros; apply N; now right]. rewrite in_app_iff. intros [I|I]; [contradiction|]. apply (N x); [now left|exact I].
Qed.
Lemma merge_NoDup a b : NoDup a -> NoDup b -> NoDup (merge a b).
Proof. intros Da Db. apply NoDup_app_disj; [exact Da|now apply NoDup_filter|]. intros x I J. apply filter_In in J. destruct J as [_ J]. apply negb_true_iff, mem_false in J. contradiction. Qed.
Lemma set_closure_spec m : states_ok m -> forall ts set, bounded (length m) ts -> NoDup set -> bounded (length m) set ->
  exists l, set_closure m set ts = Ok l /\ NoDup l /\ bounded (length m) l /\ forall t, In t l <-> In t set \/ exists s, In s ts /\ ereach m s t.
Proof.
  intros SO. induction ts as [|t ts IH]; intros set Bt D B; cbn [set_closure].
  - exists set. split; [reflexivity|]. split; [exact D|]. split; [exact B|]. intros t. split; [auto|intros [H|[s [[] _]]]; exact H].
  - destruct (closure_spec m t SO ltac:(apply Bt; now left)) as [c [R [Dc [Bc Hc]]]]. rewrite R. cbn [bind]. destruct (IH (merge set c)) as [l [R' [D' [B' H']]]].
    + intros x I. apply Bt. now right.
    + now apply merge_NoDup.
    + intros x I. apply merge_iff in I. destruct I; auto.
    + exists l. split; [exact R'|]. split; [exact D'|]. split; [exact B'|]. intros x. rewrite H', merge_iff, Hc. split.
      * intros [[H|H]|[s [I H]]]; [auto|right; exists t; cbn; auto|right; exists s; cbn; auto].
      * intros [H|[s [[<-|I] H]]]; [auto|auto|right; eauto].
Qed.

(** ** The transitions of a set of states *)
Definition step (m : nfa) (S : list nat) (e : event) (t : nat) : Prop := exists s u, In s S /\ edge m s e u /\ ereach m u t.
Definition sets_ok (m : nfa) (tr : list (event * list nat)) : Prop := NoDup (map fst tr) /\ (forall e l, In (e, l) tr -> NoDup l /\ bounded (length m) l /\ l <> []) /\ lookup tr EEpsilon = None.
Definition get (tr : list (event * list nat)) (e : event) : list nat := match lookup tr e with Some l => l | None => [] end.
Lemma sets_get m tr e : sets_ok m tr -> NoDup (get tr e) /\ bounded (length m) (get tr e).
Proof. intros [_ [H _]]. unfold get. destruct (lookup tr e) eqn:E; [apply lookup_in in E; apply H in E; tauto|]. split; [constructor|intros x []]. Qed.
Lemma collect_state_spec m : states_ok m -> forall items tr, sets_ok m tr -> (forall e ts, In (e, ts) items -> bounded (length m) ts /\ ts <> []) ->
  exists tr', collect_state m items tr = Ok tr' /\ sets_ok m tr' /\
    (forall e t, e <> EEpsilon -> In t (get tr' e) <-> In t (get tr e) \/ exists ts s, In (e, ts) items /\ In s ts /\ ereach m s t) /\
    (forall e, e <> EEpsilon -> lookup tr' e = None <-> lookup tr e = None /\ forall ts, ~ In (e, ts) items).
Proof.
  intros SO. induction items as [|[e ts] items IH]; intros tr OK B; cbn [collect_state].
  - exists tr. split; [reflexivity|]. split; [exact OK|]. split.
    + intros e t _. split; [auto|intros [H|[ts [s [[] _]]]]; exact H].
    + intros e _. split; [intros H; split; [exact H|intros ts []]|tauto].
  - destruct (event_spec e EEpsilon) as [->|Ne].
    + destruct (IH tr OK) as [tr' [R [OK' [G L]]]]; [intros x y I; eapply B; right; exact I|]. exists tr'. split; [exact R|]. split; [exact OK'|]. split.
      * intros e t N. rewrite G by exact N. split; [intros [H|[a [s [I H]]]]; [auto|right; exists a, s; cbn; tauto]|intros [H|[a [s [[C|I] H]]]]; [auto|congruence|right; eauto]].
      * intros e N. rewrite L by exact N. split; intros [H1 H2]; (split; [exact H1|]); intros a I.
        -- destruct I as [C|I]; [congruence|now apply (H2 a)].
        -- apply (H2 a). now right.
    + fold (get tr e). destruct (sets_get m tr e OK) as [Dg Bg]. destruct (B e ts (or_introl eq_refl)) as [Bts Nts]. destruct (set_closure_spec m SO ts (get tr e) Bts Dg Bg) as [l [R [Dl [Bl Hl]]]].
      assert (l <> []) as Nl. { destruct ts as [|t ts]; [congruence|]. intros ->. apply (proj2 (Hl t)). right. exists t. split; [now left|constructor]. } rewrite R. cbn [bind].
      destruct (IH (update tr e l)) as [tr' [R' [OK' [G L]]]].
      * destruct OK as [O1 [O2 O3]]. split; [now apply update_keys|]. split; [|rewrite lookup_update, event_eqb_neq by exact Ne; exact O3]. intros x y I. apply update_in in I. destruct I as [[-> ->]|I]; [auto|eauto].
      * intros x y I. eapply B. right. exact I.
      * exists tr'. split; [exact R'|]. split; [exact OK'|]. split.
        -- intros x t N. rewrite G by exact N. unfold get at 1. rewrite lookup_update. destruct (event_spec e x) as [->|Nx].
           ++ rewrite Hl. split.
              ** intros [[H|[s [I H]]]|[a [s [I H]]]]; [auto|right; exists ts, s; cbn; auto|right; exists a, s; cbn; tauto].
              ** intros [H|[a [s [[C|I] [Is H]]]]]; [auto| |right; eauto]. injection C as <-. left. right. eauto.
           ++ fold (get tr x). split.
              ** intros [H|[a [s [I H]]]]; [auto|right; exists a, s; cbn; tauto].
              ** intros [H|[a [s [[C|I] H]]]]; [auto|congruence|right; eauto].
        -- intros x N. rewrite L by exact N. rewrite lookup_update. destruct (event_spec e x) as [->|Nx]; split.
           ++ intros [C _]. discriminate.
           ++ intros [_ C]. exfalso. apply (C ts). now left.
           ++ intros [H1 H2]. split; [exact H1|]. intros a [C|I]; [congruence|now apply (H2 a)].
           ++ intros [H1 H2]. split; [exact H1|]. intros a I. apply (H2 a). now right.
Qed.

Section Order.
Variable order : forall {A}, list A -> list A.
Hypothesis order_perm : forall A (l : list A), Permutation (order l) l.
Arguments order {A}.
Lemma order_in A (l : list A) x : In x (order l) <-> In x l.
Proof. split; apply Permutation_in; [apply order_perm|apply Permutation_sym, order_perm]. Qed.

Lemma row_edge m s e t : keys_ok m -> edge m s e t <-> exists ts, In (e, ts) (nth s m []) /\ In t ts.
Proof.
  intros K. unfold edge, targets. split.
  - destruct (lookup (nth s m []) e) as [ts|] eqn:E; [|intros []]. intros I. exists ts. split; [now apply lookup_in|exact I].
  - intros [ts [I J]]. rewrite (in_lookup _ e ts); [exact J|apply K|exact I].
Qed.
Lemma collect_set_spec m : states_ok m -> keys_ok m -> forall S tr, bounded (length m) S -> sets_ok m tr ->
  exists tr', collect_set (@order) m S tr = Ok tr' /\ sets_ok m tr' /\
    (forall e t, e <> EEpsilon -> In t (get tr' e) <-> In t (get tr e) \/ step m S e t) /\
    (forall e, e <> EEpsilon -> lookup tr' e = None <-> lookup tr e = None /\ forall s u, In s S -> ~ edge m s e u).
Proof.
  intros SO K. induction S as [|s S IH]; intros tr BS OK; cbn [collect_set].
  - exists tr. split; [reflexivity|]. split; [exact OK|]. split.
    + intros e t _. split; [auto|intros [H|[s [u [[] _]]]]; exact H].
    + intros e _. split; [intros H; split; [exact H|intros s u []]|tauto].
  - assert (s < length m) as Ls by (apply BS; now left). destruct (Nat.leb_spec (length m) s); [lia|].
    destruct (collect_state_spec m SO (order (nth s m [])) tr OK) as [tr1 [R1 [OK1 [G1 L1]]]].
    { intros e ts I. apply -> order_in in I. split; [|eapply K; exact I]. intros t It. apply (SO s e). apply row_edge; [exact K|]. exists ts. auto. }
    rewrite R1. cbn [bind]. destruct (IH tr1) as [tr2 [R2 [OK2 [G2 L2]]]]; [intros x I; apply BS; now right|exact OK1|]. exists tr2. split; [exact R2|]. split; [exact OK2|]. split.
    + intros e t N. rewrite G2, G1 by exact N. split.
      * intros [[H1|[ts [u [I [J E]]]]]|[s' [u [I H1]]]]; [auto| |].
        -- right. exists s, u. split; [now left|]. split; [|exact E]. apply row_edge; [exact K|]. exists ts. split; [now apply -> order_in in I|exact J].
        -- right. exists s', u. split; [now right|exact H1].
      * intros [H1|[s' [u [[<-|I] [E1 E2]]]]]; [auto| |].
        -- left. right. apply row_edge in E1; [|exact K]. destruct E1 as [ts [I J]]. exists ts, u. split; [now apply <- order_in|auto].
        -- right. exists s', u. auto.
    + intros e N. rewrite L2, L1 by exact N. split.
      * intros [[H1 H2] H3]. split; [exact H1|]. intros s' u [<-|I] E; [|now apply (H3 s' u I)]. apply row_edge in E; [|exact K]. destruct E as [ts [I J]]. apply (H2 ts). now apply <- order_in.
      * intros [H1 H2]. split; [split; [exact H1|]|intros s' u I; apply H2; now right]. intros ts I. apply -> order_in in I. destruct (K s) as [_ NE]. specialize (NE _ _ I). destruct ts as [|t ts]; [congruence|].
        apply (H2 s t); [now left|]. apply row_edge; [exact K|]. exists (t :: ts). split; [exact I|now left].
Qed.

(** ** Keys *)
Lemma insert_perm n l : Permutation (insert n l) (n :: l).
Proof. induction l as [|x l IH]; cbn; [reflexivity|]. destruct (n <=? x); [reflexivity|]. rewrite IH. apply perm_swap. Qed.
Lemma insert_sorted n l : Sorted le l -> Sorted le (insert n l).
Proof.
  induction 1 as [|x l S IH H]; cbn; [repeat constructor|]. destruct (Nat.leb_spec n x); [constructor; [constructor; assumption|constructor; assumption]|]. constructor; [exact IH|].
  destruct l as [|y l]; cbn; [constructor; lia|]. destruct (n <=? y); constructor; [lia|]. now inversion H.
Qed.
Lemma make_key_perm set : Permutation (make_key (@order) set) set.
Proof.
  unfold make_key. transitivity (order set); [|apply order_perm]. generalize (order set) as l. induction l as [|x l IH]; cbn; [reflexivity|]. rewrite insert_perm. now constructor.
Qed.
Lemma make_key_sorted set : Sorted le (make_key (@order) set).
Proof. unfold make_key. generalize (order set) as l. induction l as [|x l IH]; cbn; [constructor|]. now apply insert_sorted. Qed.
Lemma make_key_in set x : In x (make_key (@order) set) <-> In x set.
Proof. split; apply Permutation_in; [apply make_key_perm|apply Permutation_sym, make_key_perm]. Qed.
(** all sublists of 0 .. n-1 *)
Fixpoint subs (l : list nat) : list (list nat) := match l with [] => [[]] | x :: l' => map (cons x) (subs l') ++ subs l' end.
Lemma subs_length l : length (subs l) = 2 ^ length l.
Proof. induction l; cbn; [reflexivity|]. rewrite app_length, map_length. lia. Qed.
Lemma subs_in a n l : StronglySorted lt l -> (forall x, In x l -> a <= x < a + n) -> In l (subs (seq a n)).
Proof.
  revert a l. induction n as [|n IH]; intros a l S B; cbn.
  - left. destruct l as [|x l]; [reflexivity|]. specialize (B x (or_introl eq_refl)). lia.
  - apply in_app_iff. destruct l as [|x l]; [right; apply IH; [constructor|intros x []]|]. destruct (Nat.eq_dec x a) as [->|N].
    + left. apply in_map. inversion_clear S. apply IH; [assumption|]. intros y I. rewrite Forall_forall in H0. specialize (H0 y I). specialize (B y (or_intror I)). lia.
    + right. apply IH; [exact S|]. intros y I. pose proof (B x (or_introl eq_refl)). inversion_clear S. rewrite Forall_forall in H1. specialize (B y I). destruct I as [<-|I]; [lia|]. specialize (H1 y I). lia.
Qed.
Lemma make_key_subs n set : NoDup set -> bounded n set -> In (make_key (@order) set) (subs (seq 0 n)).
Proof.
  intros D B. apply subs_in.
  - assert (NoDup (make_key (@order) set)) as D' by (eapply Permutation_NoDup; [apply Permutation_sym, make_key_perm|exact D]). pose proof (make_key_sorted set) as S. apply Sorted_StronglySorted in S; [|intros x y z; lia].
    induction S as [|x l S IH F]; constructor; inversion_clear D'; auto. rewrite Forall_forall in *. intros y I. specialize (F y I). assert (x <> y) by (intros ->; contradiction). lia.
  - intros x I. apply -> make_key_in in I. specialize (B x I). lia.
Qed.

(** ** The automaton built so far *)
Lemma find_key_some l k n : find_key l k = Some n -> In (k, n) l.
Proof. induction l as [|[k' n'] l IH]; cbn; [discriminate|]. destruct (list_eq_dec Nat.eq_dec k' k) as [->|]; [intros [= ->]; auto|auto]. Qed.
Lemma find_key_none l k : find_key l k = None -> ~ In k (map fst l).
Proof. induction l as [|[k' n'] l IH]; cbn; [auto|]. destruct (list_eq_dec Nat.eq_dec k' k) as [->|]; [discriminate|]. intros H [C|C]; [congruence|now apply IH]. Qed.
Definition closed (m : nfa) (S : list nat) : Prop := forall s t, In s S -> edge m s EEpsilon t -> In t S.
Definition shape (m : nfa) (b : build) : Prop :=
  length (b_sets b) = length (b_dfa b) /\ b_keys b = combine (map (make_key (@order)) (b_sets b)) (seq 0 (length (b_dfa b))) /\ NoDup (map fst (b_keys b)) /\
  Forall (fun S => NoDup S /\ bounded (length m) S /\ closed m S /\ S <> []) (b_sets b).
Lemma map_fst_combine {A B} (a : list A) (b : list B) : length a = length b -> map fst (combine a b) = a.
Proof. revert b; induction a as [|x a IH]; intros [|y b]; cbn; intros; try congruence. f_equal. apply IH. lia. Qed.
Lemma shape_size m b : shape m b -> length (b_dfa b) <= 2 ^ length m.
Proof.
  intros [L [K [D F]]]. rewrite <- (seq_length (length m) 0), <- subs_length. rewrite K, map_fst_combine in D by (rewrite map_length, seq_length; lia). rewrite <- L, <- (map_length (make_key (@order))).
  apply NoDup_incl_length; [exact D|]. intros k I. apply in_map_iff in I. destruct I as [S [<- I]]. rewrite Forall_forall in F. destruct (F S I) as [D' [B' _]]. now apply make_key_subs.
Qed.
Lemma combine_app {A B} (a1 a2 : list A) (b1 b2 : list B) : length a1 = length b1 -> combine (a1 ++ a2) (b1 ++ b2) = combine a1 b1 ++ combine a2 b2.
Proof. revert b1; induction a1 as [|x a1 IH]; intros [|y b1]; cbn; intros; try congruence. f_equal. apply IH. lia. Qed.
Lemma in_combine_seq (l : list (list nat)) k n a c : In (k, n) (combine l (seq a c)) -> a <= n /\ n < a + c /\ nth_error l (n - a) = Some k.
Proof.
  revert a c. induction l as [|x l IH]; intros a [|c]; cbn; try tauto. intros [[= -> ->]|I].
  - rewrite Nat.sub_diag. repeat split; try lia. 
  - apply IH in I. destruct I as [I1 [I2 I3]]. repeat split; try lia. replace (n - a) with (S (n - S a)) by lia. exact I3.
Qed.
Definition same (S T : list nat) : Prop := forall t, In t S <-> In t T.
Lemma map_old_to_new_spec m b S : shape m b -> NoDup S -> bounded (length m) S -> closed m S -> S <> [] ->
  exists b' n, map_old_to_new (@order) b S = (b', n) /\ shape m b' /\ n < length (b_dfa b') /\ same (nth n (b_sets b') []) S /\
    length (b_dfa b) <= length (b_dfa b') /\ (forall j, j < length (b_dfa b) -> nth j (b_sets b') [] = nth j (b_sets b) []) /\ (forall j, nth j (b_dfa b') [] = nth j (b_dfa b) []).
Proof.
  intros (L & K & D & F) DS BS CS NS. unfold map_old_to_new. destruct (find_key (b_keys b) (make_key (@order) S)) as [n|] eqn:E.
  - exists b, n. split; [reflexivity|]. apply find_key_some in E. rewrite K in E. apply in_combine_seq in E. destruct E as [_ [E1 E2]]. rewrite Nat.sub_0_r in E2. repeat split; try assumption; try lia; try reflexivity.
    all: intros I; apply make_key_in; apply make_key_in in I.
    all: rewrite nth_error_map in E2; destruct (nth_error (b_sets b) n) as [S'|] eqn:E3; cbn in E2; [|discriminate]; injection E2 as E2.
    + apply nth_error_nth with (d := []) in E3. rewrite E3 in I. rewrite E2 in I. exact I.
    + apply nth_error_nth with (d := []) in E3. rewrite E3. rewrite E2. exact I.
  - eexists _, _. split; [reflexivity|]. cbn [b_dfa b_keys b_sets]. rewrite app_length. cbn [length]. apply find_key_none in E. split; [|split; [lia|split; [|split; [lia|split]]]].
    + unfold shape. cbn [b_dfa b_keys b_sets]. rewrite !app_length. cbn [length]. split; [lia|]. split; [|split].
      * rewrite map_app, Nat.add_1_r, seq_S, combine_app by (rewrite map_length, seq_length; exact L). rewrite K. reflexivity.
      * rewrite map_app. cbn. now apply NoDup_snoc.
      * apply Forall_app. split; [exact F|]. constructor; [auto|constructor].
    + rewrite app_nth2 by lia. replace (length (b_dfa b) - length (b_sets b)) with 0 by lia. intros t. reflexivity.
    + intros j Lj. rewrite app_nth1 by lia. reflexivity.
    + intros j. destruct (Nat.lt_ge_cases j (length (b_dfa b))) as [Lj|Lj]; [now rewrite app_nth1 by assumption|]. rewrite app_nth2, (nth_overflow (b_dfa b)) by assumption. destruct (j - length (b_dfa b)) as [|[|]]; reflexivity.
Qed.
Lemma add_transitions_spec m k : forall tr b, shape m b -> k < length (b_dfa b) -> NoDup (map fst tr) ->
  (forall e S, In (e, S) tr -> NoDup S /\ bounded (length m) S /\ closed m S /\ S <> [] /\ lookup (nth k (b_dfa b) []) e = None) ->
  let b' := add_transitions (@order) b k tr in
  shape m b' /\ length (b_dfa b) <= length (b_dfa b') /\ (forall j, j < length (b_dfa b) -> nth j (b_sets b') [] = nth j (b_sets b) []) /\
  (forall j, j <> k -> nth j (b_dfa b') [] = nth j (b_dfa b) []) /\
  forall e, match lookup tr e with
    | Some T => exists n, lookup (nth k (b_dfa b') []) e = Some n /\ n < length (b_dfa b') /\ same (nth n (b_sets b') []) T
    | None => lookup (nth k (b_dfa b') []) e = lookup (nth k (b_dfa b) []) e
    end.
Proof.
  induction tr as [|[e S] tr IH]; intros b SH Lk D H; cbn [add_transitions].
  - cbn. repeat split; try apply SH; auto.
  - inversion_clear D as [|? ? Ni D']. destruct (H e S (or_introl eq_refl)) as [DS [BS [CS [NS LN]]]]. destruct (map_old_to_new_spec m b S SH DS BS CS NS) as [b1 [n [R [SH1 [Ln [Sm [L1 [P1 P2]]]]]]]]. rewrite R.
    set (b2 := {| b_dfa := set_slot (b_dfa b1) k (update (nth k (b_dfa b1) []) e n); b_keys := b_keys b1; b_sets := b_sets b1 |}).
    assert (length (b_dfa b2) = length (b_dfa b1)) as L2 by apply length_set_slot.
    assert (shape m b2) as SH2 by (unfold shape; rewrite L2; exact SH1).
    assert (forall j, nth j (b_dfa b2) [] = if j =? k then update (nth k (b_dfa b) []) e n else nth j (b_dfa b) []) as N2.
    { intros j. unfold b2. cbn [b_dfa]. rewrite nth_set_slot, !P2. destruct (Nat.eqb_spec j k) as [->|]; cbn [andb]; [|reflexivity]. destruct (Nat.ltb_spec k (length (b_dfa b1))); [reflexivity|lia]. }
    destruct (IH b2 SH2 ltac:(lia) D') as [H1 [H2 [H3 [H4 H5]]]].
    { intros x T I. destruct (H x T (or_intror I)) as [A [B [C [C' E]]]]. repeat split; try assumption. rewrite N2, Nat.eqb_refl, lookup_update, E. destruct (event_spec e x) as [->|]; [|reflexivity]. exfalso. apply Ni. now apply (in_map fst) in I. }
    split; [exact H1|]. split; [lia|]. split; [|split].
    + intros j Lj. rewrite H3 by lia. unfold b2. cbn. now apply P1.
    + intros j Nj. rewrite H4 by exact Nj. rewrite N2. destruct (Nat.eqb_spec j k); [contradiction|reflexivity].
    + intros x. cbn [lookup]. specialize (H5 x). destruct (event_spec e x) as [->|Nx].
      * destruct (lookup tr x) as [T|] eqn:E; [apply lookup_in in E; exfalso; apply Ni; now apply (in_map fst) in E|]. exists n. rewrite H5, N2, Nat.eqb_refl, lookup_update, event_eqb_refl. split; [reflexivity|]. split; [lia|]. rewrite H3 by lia. unfold b2. cbn [b_sets]. exact Sm.
      * destruct (lookup tr x) as [T|]; [exact H5|]. rewrite H5, N2, Nat.eqb_refl, lookup_update. now rewrite event_eqb_neq.
Qed.

Definition row_ok (m : nfa) (b : build) (j : nat) : Prop := forall e,
  match lookup (nth j (b_dfa b) []) e with
  | Some n => e <> EEpsilon /\ n < length (b_dfa b) /\ (forall t, In t (nth n (b_sets b) []) <-> step m (nth j (b_sets b) []) e t)
  | None => e = EEpsilon \/ forall s u, In s (nth j (b_sets b) []) -> ~ edge m s e u
  end.
Lemma step_closed m S e T : (forall t, In t T <-> step m S e t) -> closed m T.
Proof.
  intros H s t I E. apply H in I. apply H. destruct I as [x [u [I [Ed R]]]]. exists x, u. repeat split; auto. eapply ereach_trans; [exact R|]. econstructor; [exact E|constructor].
Qed.
Lemma order_keys {A} (l : list (event * A)) : NoDup (map fst l) -> NoDup (map fst (order l)).
Proof. intros D. eapply Permutation_NoDup; [|exact D]. apply Permutation_map, Permutation_sym, order_perm. Qed.
Lemma order_lookup {A} (l : list (event * A)) e : NoDup (map fst l) -> lookup (order l) e = lookup l e.
Proof.
  intros D. destruct (lookup l e) as [a|] eqn:E.
  - apply in_lookup; [now apply order_keys|]. apply <- order_in. now apply lookup_in.
  - destruct (lookup (order l) e) as [a|] eqn:E'; [|reflexivity]. apply lookup_in in E'. rewrite order_in in E'. rewrite (in_lookup _ _ _ D E') in E. discriminate.
Qed.
Lemma determinize_spec m : states_ok m -> keys_ok m -> forall fuel b k, shape m b -> k <= length (b_dfa b) -> 2 ^ length m < fuel + k ->
  (forall j, j < k -> row_ok m b j) -> (forall j, k <= j -> nth j (b_dfa b) [] = []) ->
  exists b', determinize (@order) fuel m b k = Ok b' /\ shape m b' /\ length (b_dfa b) <= length (b_dfa b') /\ (forall j, j < length (b_dfa b) -> nth j (b_sets b') [] = nth j (b_sets b) []) /\
    forall j, j < length (b_dfa b') -> row_ok m b' j.
Proof.
  intros SO K. induction fuel as [|fu IH]; intros b k SH Lk F Rk R0; [pose proof (shape_size m b SH); lia|]. cbn [determinize]. destruct (Nat.ltb_spec k (length (b_dfa b))) as [Lt|Ge].
  2:{ exists b. split; [reflexivity|]. split; [exact SH|]. split; [lia|]. split; [reflexivity|]. intros j Lj. apply Rk. lia. }
  destruct SH as (SL & SK & SD & SF). assert (In (nth k (b_sets b) []) (b_sets b)) as Ik by (apply nth_In; lia). pose proof SF as SF'. rewrite Forall_forall in SF'. destruct (SF' _ Ik) as [DS [BS [CS _]]].
  destruct (collect_set_spec m SO K (order (nth k (b_sets b) [])) []) as [tr [R [OK [G L]]]].
  { intros x I. apply -> order_in in I. now apply BS. }
  { split; [constructor|]. split; [intros e l []|reflexivity]. }
  rewrite R. cbn [bind]. destruct OK as [O1 [O2 O3]].
  assert (forall e S, lookup tr e = Some S -> e <> EEpsilon /\ forall t, In t S <-> step m (nth k (b_sets b) []) e t) as GS.
  { intros e S E. assert (e <> EEpsilon) as Ne by (intros ->; congruence). split; [exact Ne|]. intros t. specialize (G e t Ne). unfold get in G. rewrite E in G. rewrite G. cbn. split.
    - intros [[]|[s [u [I H]]]]. exists s, u. split; [now apply -> order_in in I|exact H].
    - intros [s [u [I H]]]. right. exists s, u. split; [now apply <- order_in|exact H]. }
  destruct (add_transitions_spec m k (order tr) b (conj SL (conj SK (conj SD SF))) Lt) as [H1 [H2 [H3 [H4 H5]]]].
  { now apply order_keys. }
  { intros e S I. apply -> order_in in I. destruct (O2 e S I) as [D [B N]]. split; [exact D|]. split; [exact B|]. split; [|split; [exact N|rewrite R0 by lia; reflexivity]]. apply in_lookup in I; [|exact O1]. eapply step_closed. exact (proj2 (GS e S I)). }
  set (b1 := add_transitions (@order) b k (order tr)) in *.
  destruct (IH b1 (S k) H1) as [b2 [R2 [SH2 [L2 [P2 RK2]]]]].
  - lia.
  - lia.
  - intros j Lj. destruct (Nat.eq_dec j k) as [->|Nj].
    + intros e. specialize (H5 e). rewrite order_lookup in H5 by exact O1. rewrite (H3 k Lt). destruct (lookup tr e) as [S|] eqn:E.
      * destruct H5 as [n [E5 [Ln Sm]]]. rewrite E5. destruct (GS e S E) as [Ne St]. split; [exact Ne|]. split; [exact Ln|]. intros t. rewrite (Sm t). apply St.
      * rewrite H5, (R0 k (le_n k)). cbn. destruct (event_spec e EEpsilon) as [->|Ne]; [auto|]. right. intros s u I. apply (L e Ne) in E. destruct E as [_ E]. apply E. now apply <- order_in.
    + intros e. specialize (Rk j ltac:(lia) e). rewrite (H4 j Nj). rewrite (H3 j ltac:(lia)). destruct (lookup (nth j (b_dfa b) []) e) as [n|]; [|exact Rk]. destruct Rk as [A [B C]]. split; [exact A|]. split; [lia|]. intros t. rewrite (H3 n B). apply C.
  - intros j Lj. rewrite H4 by lia. apply R0. lia.
  - exists b2. split; [exact R2|]. split; [exact SH2|]. split; [lia|]. split; [|exact RK2]. intros j Lj. rewrite P2 by lia. now apply H3.
Qed.

(** ** The language *)
Definition edges_are (m : nfa) (E : edges) : Prop := forall s e t, edge m s e t <-> In (s, e, t) E.
Lemma ereach_path m E s t : edges_are m E -> ereach m s t <-> path E s [] t.
Proof.
  intros H. split.
  - induction 1 as [|s t u Ed R IH]; [constructor|]. eapply p_eps; [apply H; exact Ed|exact IH].
  - intros P. remember [] as w eqn:Ew. induction P as [|s t u w I P IH|]; [constructor| |discriminate]. econstructor; [apply H; exact I|auto].
Qed.
Lemma path_cons E s e w t : path E s (e :: w) t <-> e <> EEpsilon /\ exists u v, path E s [] u /\ In (u, e, v) E /\ path E v w t.
Proof.
  split.
  - intros P. remember (e :: w) as x eqn:Ex. induction P as [|s t u y I P IH|s e' t u y N I P IH]; [discriminate| |].
    + destruct (IH Ex) as [Ne [a [b [P1 [I1 P2]]]]]. split; [exact Ne|]. exists a, b. split; [eapply p_eps; eauto|auto].
    + injection Ex as -> ->. split; [exact N|]. exists s, t. split; [constructor|auto].
  - intros [N [u [v [P1 [I P2]]]]]. change (e :: w) with ([] ++ e :: w). eapply path_app; [exact P1|]. eapply p_ev; eauto.
Qed.
Lemma closed_path m E S s t : edges_are m E -> closed m S -> In s S -> path E s [] t -> In t S.
Proof. intros H C I P. remember [] as w eqn:Ew. induction P as [|s t u w J P IH|]; [exact I| |discriminate]. apply IH; [|exact Ew]. eapply C; [exact I|]. now apply H. Qed.
(** Following [w] from state [j] of the result. *)
Lemma walk_spec m E b : edges_are m E -> shape m b -> (forall j, j < length (b_dfa b) -> row_ok m b j) -> forall w j, j < length (b_dfa b) ->
  match walk (b_dfa b) j w with
  | Some k => k < length (b_dfa b) /\ (forall t, In t (nth k (b_sets b) []) <-> exists s, In s (nth j (b_sets b) []) /\ path E s w t)
  | None => forall s t, In s (nth j (b_sets b) []) -> ~ path E s w t
  end.
Proof.
  intros H (SL & _ & _ & SF) RK. rewrite Forall_forall in SF. induction w as [|e w IH]; intros j Lj; cbn [walk].
  - split; [exact Lj|]. intros t. split; [intros I; exists t; split; [exact I|constructor]|]. intros [s [I P]]. destruct (SF (nth j (b_sets b) [])) as [_ [_ [C _]]]; [apply nth_In; lia|]. eapply closed_path; eauto.
  - pose proof (RK j Lj e) as R. destruct (SF (nth j (b_sets b) [])) as [_ [_ [C _]]]; [apply nth_In; lia|]. destruct (lookup (nth j (b_dfa b) []) e) as [n|].
    + destruct R as [Ne [Ln St]]. specialize (IH n Ln).
      assert (forall t, (exists s, In s (nth n (b_sets b) []) /\ path E s w t) <-> exists s, In s (nth j (b_sets b) []) /\ path E s (e :: w) t) as X.
      { intros t. split.
        - intros [s [I P]]. apply St in I. destruct I as [x [u [Ix [Ed R]]]]. exists x. split; [exact Ix|]. apply path_cons. split; [exact Ne|]. exists x, u. split; [constructor|]. split; [now apply H|]. change w with ([] ++ w). eapply path_app; [|exact P]. eapply ereach_path; eauto.
        - intros [s [I P]]. apply path_cons in P. destruct P as [_ [u [v [P1 [J P2]]]]]. exists v. split; [|exact P2]. apply St. exists u, v. split; [eapply closed_path; eauto|]. split; [now apply H|constructor]. }
      destruct (walk (b_dfa b) n w) as [k|].
      * destruct IH as [Lk IH]. split; [exact Lk|]. intros t. rewrite IH. apply X.
      * intros s t I P. destruct (proj2 (X t) (ex_intro _ s (conj I P))) as [s' [I' P']]. exact (IH s' t I' P').
    + intros s t I P. apply path_cons in P. destruct P as [Ne [u [v [P1 [J P2]]]]]. destruct R as [R|R]; [contradiction|]. apply (R u v); [eapply closed_path; eauto|now apply H].
Qed.
Lemma final_path E f s w t : f <> 1 -> (forall s e t, In (s, e, t) E -> e <> EFinal /\ s <> f) -> path (E ++ [(1, EFinal, f)]) s (w ++ [EFinal]) t <-> path E s w 1 /\ t = f.
Proof.
  intros Nf H. split.
  - assert (forall s w t, path (E ++ [(1, EFinal, f)]) s w t -> s = f -> w = [] /\ t = f) as A.
    { intros s0 w' t' P Es. destruct P as [|s0 t0 u w' I P|s0 e t0 u w' N I P]; [auto| |]; subst; exfalso; apply in_app_iff in I; destruct I as [I|[C|[]]]; try congruence; now apply H in I. }
    intros P. remember (w ++ [EFinal]) as w0 eqn:Ew. revert w Ew. induction P as [s|s t u w0 I P IH|s e t u w0 N I P IH]; intros v Ev.
    + destruct v; discriminate.
    + destruct (IH v Ev) as [P1 ->]. split; [|reflexivity]. apply in_app_iff in I. destruct I as [I|[C|[]]]; [|congruence]. eapply p_eps; eauto.
    + destruct v as [|x v]; injection Ev as -> Ev.
      * subst w0. apply in_app_iff in I. destruct I as [I|[[= <- <-]|[]]]; [now apply H in I|]. split; [constructor|]. now apply (A f [] u).
      * destruct (IH v Ev) as [P1 ->]. split; [|reflexivity]. apply in_app_iff in I. destruct I as [I|[[= <- <- <-]|[]]]; [eapply p_ev; eauto|]. exfalso. destruct (A _ _ _ P eq_refl) as [C _]. subst w0. destruct v; discriminate.
  - intros [P ->]. eapply path_app; [eapply path_mono; [|exact P]; intros x I; apply in_app_iff; auto|]. eapply p_ev; [discriminate|apply in_app_iff; right; now left|constructor].
Qed.
(** A prefix. *)
Lemma proper_path E f s w t : f <> 1 -> (forall s e t, In (s, e, t) E -> e <> EFinal /\ s <> f) -> ~ In EFinal w -> path (E ++ [(1, EFinal, f)]) s w t <-> path E s w t.
Proof.
  intros Nf H NI. split.
  - intros P. induction P as [s|s t u w I P IH|s e t u w N I P IH]; [constructor| |]; apply in_app_iff in I; destruct I as [I|[C|[]]].
    + eapply p_eps; eauto.
    + congruence.
    + eapply p_ev; eauto. apply IH. intros J. apply NI. now right.
    + exfalso. apply NI. left. congruence.
  - apply path_mono. intros x I. apply in_app_iff. auto.
Qed.
Theorem compile_nfa_spec m E : keys_ok m -> edges_are m E -> 1 < length m -> (forall s e t, In (s, e, t) E -> s < length m /\ t < length m /\ e <> EFinal) ->
  exists d, compile_nfa (@order) m = Ok d /\ (forall w, accepts d w = true <-> path E 0 w 1) /\ (forall w, ~ In EFinal w -> walk d 0 w <> None <-> exists t, path E 0 w t).
Proof.
  intros K HE L1 HB. unfold compile_nfa, new_state. destruct (new_state_adds m) as [A1 Ln]. pose proof (new_state_keys m K) as K1. set (m1 := m ++ [[]]) in *.
  destruct (add_transition_adds m1 EFinal 1 (length m) ltac:(lia)) as [A2 Ln2]. pose proof (add_transition_keys m1 EFinal 1 (length m) K1) as K2. set (m2 := add_transition m1 EFinal 1 (length m)) in *.
  pose proof (adds_trans _ _ _ _ _ A1 A2) as [_ A]. cbn [app] in A. set (E' := E ++ [(1, EFinal, length m)]).
  assert (edges_are m2 E') as HE' by (intros s e t; unfold E'; rewrite in_app_iff; unfold edges_are in HE; rewrite A, HE; tauto).
  assert (states_ok m2) as SO. { intros s e t I. apply HE' in I. apply in_app_iff in I. destruct I as [I|[[= <- <- <-]|[]]]; [apply HB in I; lia|lia]. }
  destruct (closure_spec m2 0 SO ltac:(lia)) as [S [R [DS [BS HS]]]]. rewrite R. cbn [bind].
  set (b0 := {| b_dfa := []; b_keys := []; b_sets := [] |}). assert (shape m2 b0) as SH0 by (unfold shape; cbn; repeat split; constructor).
  assert (closed m2 S) as CS. { intros s t I Ed. apply HS in I. apply HS. eapply ereach_trans; [exact I|]. econstructor; [exact Ed|constructor]. }
  assert (S <> []) as NS. { intros ->. apply (proj2 (HS 0)). constructor. }
  destruct (map_old_to_new_spec m2 b0 S SH0 DS BS CS NS) as [b1 [n [R1 [SH1 [Lb [Sm [_ [_ P2]]]]]]]].
  assert (n = 0 /\ length (b_dfa b1) = 1) as [-> Lb1]. { cbn in R1. injection R1 as <- <-. auto. }
  rewrite R1. destruct (determinize_spec m2 SO K2 (1 + 2 ^ length m2) b1 0 SH1 ltac:(lia) ltac:(lia)) as [b2 [R2 [SH2 [L2 [P3 RK]]]]].
  { intros j Lj. lia. }
  { intros j _. rewrite P2. cbn. now destruct j. }
  cbn [Nat.add] in R2. rewrite R2. cbn [bind]. exists (b_dfa b2). split; [reflexivity|].
  assert (forall s, In s (nth 0 (b_sets b2) []) <-> path E' 0 [] s) as H0. { intros s. rewrite P3 by lia. rewrite (Sm s), HS. now apply ereach_path. }
  assert (forall w t, (exists s, In s (nth 0 (b_sets b2) []) /\ path E' s w t) <-> path E' 0 w t) as H1.
  { intros w t. split; [intros [s [I P]]; change w with ([] ++ w); eapply path_app; [apply H0; exact I|exact P]|]. intros P. exists 0. split; [apply H0; constructor|exact P]. }
  assert (forall w, walk (b_dfa b2) 0 w <> None <-> exists t, path E' 0 w t) as HW.
  { intros w. pose proof (walk_spec m2 E' b2 HE' SH2 RK w 0 ltac:(lia)) as W. destruct (walk (b_dfa b2) 0 w) as [k|].
    - split; [|discriminate]. intros _. destruct W as [Lk W]. assert (exists t, In t (nth k (b_sets b2) [])) as [t It].
      { destruct SH2 as (SL & _ & _ & SF). rewrite Forall_forall in SF. destruct (SF (nth k (b_sets b2) [])) as [_ [_ [_ NE]]]; [apply nth_In; lia|]. destruct (nth k (b_sets b2) []) as [|t l]; [congruence|]. exists t. now left. }
      exists t. apply H1. now apply W.
    - split; [congruence|]. intros [t P]. apply H1 in P. destruct P as [s [I P]]. exfalso. exact (W s t I P). }
  assert (length m <> 1) as Nf by lia. assert (forall s e t, In (s, e, t) E -> e <> EFinal /\ s <> length m) as HF by (intros s e t I; apply HB in I; split; [tauto|lia]).
  split.
  - intros w. unfold accepts. specialize (HW (w ++ [EFinal])). assert ((exists t, path E' 0 (w ++ [EFinal]) t) <-> path E 0 w 1) as X.
    { split; [intros [t P]; now apply final_path in P|]. intros P. exists (length m). now apply final_path. }
    rewrite <- X, <- HW. destruct (walk (b_dfa b2) 0 (w ++ [EFinal])); split; congruence.
  - intros w NI. rewrite HW. split; intros [t P]; exists t; [apply proper_path in P|apply proper_path]; assumption.
Qed.
(** Content models. *)
Theorem compile_spec c : proper c -> exists d, compile (@order) c = Ok d /\ (forall w, accepts d w = true <-> matches c w) /\ (forall w, ~ In EFinal w -> walk d 0 w <> None -> forall e, In e w -> occurs e c) /\
  (inhabited c -> forall w, ~ In EFinal w -> walk d 0 w <> None <-> exists v, matches c (w ++ v)).
Proof.
  intros Pr. unfold compile. assert (keys_ok new_nfa) as K by (intros [|[|[|s]]]; cbn; split; try constructor; intros e ts []).
  destruct (compile_builds c Pr 0 1 new_nfa K ltac:(cbn; lia) ltac:(cbn; lia) ltac:(discriminate)) as [m [E [R [[L A] [K' [W [V P]]]]]]]. rewrite R. cbn [bind]. cbn in L.
  destruct (compile_nfa_spec m E K') as [d [Rd [H HW]]].
  - intros s e t. rewrite A. split; [|auto]. intros [C|C]; [|exact C]. unfold edge, targets in C. destruct s as [|[|[|s]]]; destruct C.
  - lia.
  - intros s e t I. destruct (W s e t I) as [S [T Pl]]. cbn in S, T. repeat split; try lia. intros ->. exact Pl.
  - exists d. split; [exact Rd|]. split; [intros w; rewrite H; apply P|]. split.
    2:{ intros IL w NI. rewrite (HW w NI). split.
      - intros [t Pt]. assert (t = 1 \/ t = 0 \/ 2 <= t < length m) as Ht by (clear - Pt W; cbn [length new_nfa] in W; assert (forall s w t, path E s w t -> s = t \/ t = 1 \/ 2 <= t < length m) as X by (intros s w' t' Q; induction Q as [|s t0 u w' J Q IH|s e t0 u w' Nq J Q IH]; [auto| |]; destruct (W _ _ _ J) as [_ [T _]]; cbn in T; lia); specialize (X _ _ _ Pt); lia).
        assert (exists v, path E t v 1) as [v Pv] by (destruct Ht as [->|Ht]; [exists []; constructor|apply (V IL); cbn; lia]). exists v. apply P. eapply path_app; eauto.
      - intros [v M]. apply P in M. clear - M. revert M. generalize 1 as r. generalize 0 as s. intros s r. revert s. induction w as [|e w IH]; intros s M; [exists s; constructor|]. cbn [app] in M. apply path_cons in M. destruct M as [Ne [a [b [P1 [I P2]]]]]. destruct (IH b P2) as [t Pt]. exists t. apply path_cons. split; [exact Ne|]. eauto. }
    intros w NI Hw e I. apply (HW w NI) in Hw. destruct Hw as [t Pt]. pose proof (path_labels _ _ _ _ Pt e I) as [a [b Ie]].
    destruct (compile_labels c 0 1 new_nfa m ltac:(cbn; lia) R) as [_ O]. assert (edge m a e b) as Ed by (apply A; auto). destruct (O _ _ _ Ed) as [C|[C|C]]; [|subst|exact C].
    + unfold edge, targets in C. destruct a as [|[|[|a]]]; destruct C.
    + exfalso. clear - Pt I. induction Pt as [|s t u w J P IH|s e t u w N J P IH]; [destruct I|auto|]. destruct I as [I|I]; [congruence|auto].
Qed.
End Order.
