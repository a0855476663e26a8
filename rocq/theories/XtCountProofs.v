(** * Proofs for C61 *)
From Coq Require Import NArith ZArith String List Bool Lia Arith Sorted.
From Verif Require Import PyStr PyErr DomModel DomSpec DomInv DomOrder DomProps XpModel XpSpec XpTree XpAxes XpOrder XpProps XpPath XpPathEval XtCount XtCountSpec.
Import ListNotations.
Local Open Scope nat_scope.

Section Proofs.
Variables (s : store) (nm : names).
Hypothesis F : forest s.
Notation aos := (above_or_self (parent_of s)).
Notation abv := (above (parent_of s)).
Definition holds_of (p : pat) (x : nat) : Prop := p x = true.

Lemma aos_axis : forall n x, on_axis s AncestorOrSelf n x <-> aos x n.
Proof. intros n x. cbn. unfold above_or_self. tauto. Qed.
Lemma aos_cases : forall p x w, parent_of s x = Some p -> aos w x -> w = x \/ aos w p.
Proof. intros p x w P [->|A]; [now left|]. right. exact (aos_parent (parent_of s) p x P w A). Qed.
Lemma aos_up : forall p x w, parent_of s x = Some p -> aos w p -> aos w x.
Proof. intros p x w P A. right. destruct A as [->|A]; [now apply above_parent|eapply above_up; eauto]. Qed.
Lemma no_cycle : forall a b, abv a b -> aos b a -> False.
Proof. intros a b A [->|B]; [exact (f_acyclic s F _ A)|exact (f_acyclic s F _ (above_trans _ _ _ _ A B))]. Qed.
Lemma top_of : forall n, exists_node s n -> exists r d, top (bound s) s n = Some (r, d).
Proof. intros n E. exact (top_ex s n F E). Qed.

(** ** Climbing *)
Lemma find_start_ok : forall (from : pat) fuel x r d, top fuel s x = Some (r, d) ->
  exists o, find_start s fuel from (Some x) = Ok o /\
    match o with
    | Some y => aos y x /\ from y = true /\ (forall z, aos z x -> from z = true -> aos z y)
    | None => forall z, aos z x -> from z = false
    end.
Proof.
  intros from. induction fuel as [|f IH]; intros x r d T0; [discriminate|]. cbn [top] in T0. cbn [find_start]. destruct (from x) eqn:FX.
  - exists (Some x). split; [reflexivity|]. split; [now left|]. split; [exact FX|]. intros z A _. exact A.
  - destruct (parent_of s x) as [p|] eqn:P.
    + destruct (top f s p) as [[r' d']|] eqn:TP; [|discriminate]. destruct (IH p r' d' TP) as (o & E & H). exists o. split; [exact E|]. destruct o as [y|].
      * destruct H as (H1 & H2 & H3). split; [now apply (aos_up p)|]. split; [exact H2|]. intros z A Z. destruct (aos_cases p x z P A) as [->|A']; [congruence|now apply H3].
      * intros z A. destruct (aos_cases p x z P A) as [->|A']; [exact FX|now apply H].
    + exists None. split; [destruct f; reflexivity|]. intros z [->|A]; [exact FX|]. exfalso. inversion A; congruence.
Qed.
Definition under (start : option nat) (w : nat) : Prop := forall z, start = Some z -> abv z w.
Lemma find_node_ok : forall (count : pat) start fuel x r d, top fuel s x = Some (r, d) -> under start x ->
  exists o, find_node s fuel count start x = Ok o /\
    match o with
    | Some y => aos y x /\ count y = true /\ under start y /\ (forall w, aos w x -> under start w -> count w = true -> aos w y)
    | None => forall w, aos w x -> under start w -> count w = false
    end.
Proof.
  intros count start. induction fuel as [|f IH]; intros x r d T0 U; [discriminate|]. cbn [top] in T0. cbn [find_node]. destruct (count x) eqn:CX.
  - exists (Some x). split; [reflexivity|]. split; [now left|]. split; [exact CX|]. split; [exact U|]. intros w A _ _. exact A.
  - destruct (parent_of s x) as [p|] eqn:P.
    + destruct (match start with Some z => p =? z | None => false end) eqn:ST.
      * exists None. split; [reflexivity|]. destruct start as [z|]; [|discriminate]. apply Nat.eqb_eq in ST. subst z.
        intros w A W. destruct (aos_cases p x w P A) as [->|A']; [exact CX|]. exfalso. exact (no_cycle _ _ (W p eq_refl) A').
      * destruct (top f s p) as [[r' d']|] eqn:TP; [|discriminate].
        assert (under start p) as U'. { intros z ->. specialize (U z eq_refl). destruct (aos_parent (parent_of s) p x P z U) as [->|A]; [rewrite Nat.eqb_refl in ST; discriminate|exact A]. }
        destruct (IH p r' d' TP U') as (o & E & H). exists o. split; [exact E|]. destruct o as [y|].
        -- destruct H as (H1 & H2 & H3 & H4). split; [now apply (aos_up p)|]. split; [exact H2|]. split; [exact H3|]. intros w A W C. destruct (aos_cases p x w P A) as [->|A']; [congruence|now apply H4].
        -- intros w A W. destruct (aos_cases p x w P A) as [->|A']; [exact CX|now apply H].
    + exists None. split; [reflexivity|]. intros w [->|A] _; [exact CX|]. exfalso. inversion A; congruence.
Qed.

(** ** Siblings *)
Definition prev_at (p i : nat) : option nat := match i with O => None | S j => nth_error (kids s p) j end.
Lemma skip_ok : forall (count : pat) p i fuel, i <= fuel -> i <= List.length (kids s p) ->
  exists k, k <= i /\ skip_siblings s fuel count (prev_at p i) = Ok (prev_at p k) /\
    List.length (filter count (firstn k (kids s p))) = List.length (filter count (firstn i (kids s p))) /\
    (forall j x, k = S j -> nth_error (kids s p) j = Some x -> count x = true).
Proof.
  intros count p. induction i as [|i IH]; intros fuel L H.
  - exists 0. split; [lia|]. split; [destruct fuel; reflexivity|]. split; [reflexivity|discriminate].
  - destruct fuel as [|f]; [lia|]. destruct (nth_error (kids s p) i) as [x|] eqn:N; [|apply nth_error_None in N; lia].
    cbn [prev_at]. rewrite N. cbn [skip_siblings]. destruct (count x) eqn:C.
    + exists (S i). split; [lia|]. split; [cbn [prev_at]; now rewrite N|]. split; [reflexivity|]. intros j y [= <-] Hy. congruence.
    + rewrite (preceding_ok s p i x F N). cbn [bind]. destruct (IH f ltac:(lia) ltac:(lia)) as (k & K1 & K2 & K3 & K4). exists k. split; [lia|]. split; [exact K2|]. split; [|exact K4].
      rewrite K3, (firstn_snoc _ _ _ N), filter_app. cbn [filter]. rewrite C, app_nil_r. reflexivity.
Qed.
Lemma count_siblings_ok : forall (count : pat) p fuel i x, nth_error (kids s p) i = Some x -> i < fuel ->
  count_siblings s fuel count (Some x) = Ok (1 + N.of_nat (List.length (filter count (firstn i (kids s p)))))%N.
Proof.
  intros count p. induction fuel as [|f IH]; intros i x N L; [lia|]. cbn [count_siblings]. rewrite (preceding_ok s p i x F N). cbn [bind].
  assert (i < List.length (kids s p)) as LI by (apply nth_error_Some; congruence). pose proof (kids_short s p F) as KS.
  destruct (skip_ok count p i (bound s)) as (k & K1 & K2 & K3 & K4); [unfold bound; lia|lia|]. fold (prev_at p i). rewrite K2. cbn [bind]. rewrite <- K3.
  destruct k as [|j].
  - cbn [prev_at]. destruct f; reflexivity.
  - cbn [prev_at]. destruct (nth_error (kids s p) j) as [y|] eqn:NJ; [|apply nth_error_None in NJ; lia].
    rewrite (IH j y NJ) by lia. cbn [bind]. rewrite (firstn_snoc _ _ _ NJ), filter_app, app_length. cbn [filter]. rewrite (K4 j y eq_refl NJ). cbn [List.length]. f_equal. lia.
Qed.
Lemma sibling_number_ok : forall (count : pat) x, exists_node s x -> ~ attribute s x ->
  exists v, count_siblings s (bound s) count (Some x) = Ok v /\ sibling_number s (holds_of count) x v /\ v <> 0%N.
Proof.
  intros count x E A. destruct (C27_axes_partial s PrecedingSibling x F E) as (l & EL & ML & _ & NL); [tauto|]. cbn [select] in EL. unfold preceding_sibling_axis in EL.
  destruct (parent_of s x) as [p|] eqn:P.
  - destruct (kid_index s p x F P A) as [i N]. assert (i < List.length (kids s p)) as LI by (apply nth_error_Some; congruence). pose proof (kids_short s p F) as KS.
    exists (1 + N.of_nat (List.length (filter count (firstn i (kids s p)))))%N. split; [apply count_siblings_ok; [exact N|unfold bound; lia]|]. split; [|lia].
    rewrite (preceding_ok s p i x F N) in EL. cbn [bind] in EL. rewrite (preceding_siblings_ok s p F i (bound s)) in EL; [|unfold bound; lia|lia]. injection EL as <-.
    exists (filter count (firstn i (kids s p))). split; [apply NoDup_filter; apply NoDup_rev in NL; now rewrite rev_involutive in NL|]. split; [|reflexivity].
    intros y. rewrite filter_In, <- ML, <- in_rev. reflexivity.
  - exists 1%N. unfold bound. cbn [count_siblings]. unfold get_preceding_sibling in *. rewrite P in *. cbn [bind] in *. split; [|split; [|discriminate]].
    + cbn [skip_siblings]. cbn [bind]. destruct (List.length (s_nodes s)); reflexivity.
    + injection EL as <-. exists []. split; [constructor|]. split; [|reflexivity]. intros y. rewrite <- ML. cbn. tauto.
Qed.

(** ** Single *)
Definition from_of (from : option pat) (x : nat) : Prop := match from with Some f => f x = true | None => False end.
Lemma nonattr_up : forall n x, ~ attribute s n -> aos x n -> ~ attribute s x.
Proof. intros n x A [->|H]; [exact A|]. exact (above_container s x n F H). Qed.
Lemma single_with : forall n (count : pat) start, exists_node s n -> ~ attribute s n -> under start n ->
  exists v, (do o <- find_node s (bound s) count start n ; match o with None => Ok 0%N | Some x => count_siblings s (bound s) count (Some x) end) = Ok v /\
    ((v <> 0%N /\ exists x, aos x n /\ under start x /\ count x = true /\ (forall w, aos w n -> under start w -> count w = true -> aos w x) /\ sibling_number s (holds_of count) x v) \/
     (v = 0%N /\ forall w, aos w n -> under start w -> count w = false)).
Proof.
  intros n count start E A U. destruct (top_of n E) as (r & d & TN). destruct (find_node_ok count start (bound s) n r d TN U) as (o & -> & H). cbn [bind]. destruct o as [x|].
  - destruct H as (H1 & H2 & H3 & H4). destruct (sibling_number_ok count x (aos_node s F x n E H1) (nonattr_up n x A H1)) as (v & V1 & V2 & V3).
    exists v. split; [exact V1|]. left. split; [exact V3|]. exists x. auto.
  - exists 0%N. split; [reflexivity|]. right. auto.
Qed.
Lemma single_ok : forall n (count : pat) (from : option pat), exists_node s n -> ~ attribute s n ->
  (from = None -> forall r, kind_of s r = Some KEntity -> abv r n -> count r = false) ->
  exists v, single_value s n (Some count) from = Ok v /\ single_list s (holds_of count) (from_of from) n (if (v =? 0)%N then [] else [v]).
Proof.
  intros n count from E A HR.
  assert (forall start, under start n -> (forall w, aos w n -> count w = true -> (under start w <-> (forall y, abv y n -> from_of from y -> abv y w))) ->
    (do start <- Ok start ; do o <- find_node s (bound s) count start n ; match o with None => Ok 0%N | Some x => count_siblings s (bound s) count (Some x) end) = single_value s n (Some count) from ->
    exists v, single_value s n (Some count) from = Ok v /\ single_list s (holds_of count) (from_of from) n (if (v =? 0)%N then [] else [v])) as K.
  { intros start U HU EQ. cbn [bind] in EQ. destruct (single_with n count start E A U) as (v & V1 & V2). exists v. rewrite <- EQ. split; [exact V1|].
    destruct V2 as [(NZ & x & X1 & X2 & X3 & X4 & X5)|(-> & H)].
    - destruct (N.eqb_spec v 0); [congruence|]. left. exists x, v. split; [|auto]. split; [|split; [exact X3|]].
      + split; [now apply aos_axis|]. cbn. now apply HU.
      + intros y [Y1 Y2] Y3. apply aos_axis in Y1. apply aos_axis. apply X4; auto. now apply HU.
    - rewrite N.eqb_refl. right. split; [|reflexivity]. intros x [X1 X2] X3. apply aos_axis in X1. unfold holds_of in X3. rewrite (H x X1) in X3; [discriminate|]. now apply HU. }
  destruct from as [f|].
  - destruct (parent_of s n) as [p|] eqn:P.
    + destruct (top_of p (parent_exists s n p F P)) as (r & d & TP). destruct (find_start_ok f (bound s) p r d TP) as (o & EO & HO).
      apply (K o); [| |unfold single_value; rewrite P, EO; reflexivity].
      * intros z ->. destruct HO as [HO _]. destruct HO as [->|HO]; [now apply above_parent|eapply above_up; eauto].
      * intros w W _. destruct o as [z|].
        -- destruct HO as (Z1 & Z2 & Z3). split.
           ++ intros U y Y FY. specialize (U z eq_refl). pose proof (Z3 y (aos_parent (parent_of s) p n P y Y) FY) as [->|YZ]; [exact U|exact (above_trans _ _ _ _ YZ U)].
           ++ intros U z' [= <-]. apply U; [|exact Z2]. destruct Z1 as [->|Z1]; [now apply above_parent|eapply above_up; eauto].
        -- split; [|intros _ z; discriminate]. intros _ y Y FY. cbn in FY. rewrite (HO y (aos_parent (parent_of s) p n P y Y)) in FY. discriminate.
    + apply (K None); [intros z; discriminate| |unfold single_value; rewrite P; reflexivity].
      intros w _ _. split; [|intros _ z; discriminate]. intros _ y Y. exfalso. inversion Y; congruence.
  - destruct (get_root (bound s) s n) as [r|] eqn:R.
    + destruct (get_root_sound s _ _ _ R) as [KR AR]. destruct AR as [->|AR].
      * (* the node is the document *)
        assert (parent_of s n = None) as P by (apply entity_top; auto).
        assert (single_value s n (Some count) None = do o <- find_node s (bound s) count None n ; match o with None => Ok 0%N | Some x => count_siblings s (bound s) count (Some x) end) as EQ.
        { unfold single_value. rewrite R. cbn [bind]. unfold bound. cbn [find_node]. rewrite P. destruct (count n); reflexivity. }
        apply (K None); [intros z; discriminate| |now rewrite EQ]. intros w _ _. split; [intros _ y _ []|intros _ z; discriminate].
      * apply (K (Some r)); [intros z [= <-]; exact AR| |unfold single_value; rewrite R; reflexivity].
        intros w W C. split; [intros _ y _ []|]. intros _ z [= <-]. destruct (above_chain s r w n (or_intror AR) W) as [->|[H|H]]; [|exact H|].
        -- rewrite (HR eq_refl w KR AR) in C. discriminate.
        -- exfalso. pose proof (entity_top s F r KR) as P. inversion H; congruence.
    + apply (K None); [intros z; discriminate| |unfold single_value; rewrite R; reflexivity]. intros w _ _. split; [intros _ y _ []|intros _ z; discriminate].
Qed.

(** ** Multiple *)
Lemma single_self : forall (count : pat) x, exists_node s x -> ~ attribute s x -> count x = true -> exists v, single_value s x (Some count) None = Ok v /\ sibling_number s (holds_of count) x v.
Proof.
  intros count x E A C. destruct (sibling_number_ok count x E A) as (v & V1 & V2 & _). exists v. split; [|exact V2].
  assert (forall st, find_node s (bound s) count st x = Ok (Some x)) as FN by (intros st; unfold bound; cbn [find_node]; now rewrite C).
  unfold single_value. cbn [bind]. rewrite FN. cbn [bind]. exact V1.
Qed.
Lemma multiple_ok : forall (count : pat) (from : option pat) fuel x r d values, top fuel s x = Some (r, d) -> exists_node s x -> ~ attribute s x ->
  exists l vs, multiple_loop s fuel count from (Some x) values = Ok (vs ++ values) /\ StronglySorted (before s) l /\
    (forall w, In w l <-> aos w x /\ count w = true /\ (forall y, abv y x -> from_of from y -> abv y w)) /\ Forall2 (sibling_number s (holds_of count)) l vs.
Proof.
  intros count from. induction fuel as [|f IH]; intros x r d values T0 E A; [discriminate|]. cbn [top] in T0. cbn [multiple_loop].
  assert (exists l1 v1, (if count x then do v <- single_value s x (Some count) None ; Ok (v :: values) else Ok values) = Ok (v1 ++ values) /\
            (forall w, In w l1 <-> w = x /\ count w = true) /\ (l1 = [] \/ l1 = [x]) /\ Forall2 (sibling_number s (holds_of count)) l1 v1) as (l1 & v1 & -> & M1 & S1 & F1).
  { destruct (count x) eqn:C.
    - destruct (single_self count x E A C) as (v & EV & V). exists [x], [v]. split; [rewrite EV; reflexivity|]. split; [|split; [now right|constructor; [exact V|constructor]]].
      intros w. cbn. split; [intros [<-|[]]; auto|intros [-> _]; now left].
    - exists [], []. split; [reflexivity|]. split; [|split; [now left|constructor]]. intros w. cbn. split; [intros []|intros [-> H]; congruence]. }
  cbn [bind]. assert (SX : StronglySorted (before s) l1) by (destruct S1 as [->| ->]; repeat constructor).
  assert (X1 : forall w, In w l1 -> w = x) by (intros w W; now apply M1 in W).
  destruct (parent_of s x) as [p|] eqn:P.
  - destruct (match from with Some fr => fr p | None => false end) eqn:FP.
    + exists l1, v1. split; [reflexivity|]. split; [exact SX|]. split; [|exact F1]. intros w. rewrite M1. split.
      * intros [-> C]. split; [now left|]. split; [exact C|]. auto.
      * intros (W1 & W2 & W3). split; [|exact W2]. destruct (aos_cases p x w P W1) as [->|W']; [reflexivity|]. exfalso.
        apply (no_cycle p w); [|exact W']. apply W3; [now apply above_parent|]. destruct from; [exact FP|discriminate].
    + destruct (top f s p) as [[r' d']|] eqn:TP; [|discriminate].
      destruct (IH p r' d' (v1 ++ values) TP (parent_exists s x p F P) (parent_nonattr s x p F P)) as (l2 & v2 & -> & S2 & M2 & F2).
      exists (l2 ++ l1), (v2 ++ v1). split; [now rewrite app_assoc|]. split; [|split; [|now apply Forall2_app]].
      * apply ss_app; [exact S2|exact SX|]. intros y w Y W. rewrite (X1 w W). apply M2 in Y. destruct Y as [[->|Y] _]; apply before_above; [now apply above_parent|eapply above_up; eauto].
      * intros w. rewrite in_app_iff, M2, M1. split.
        -- intros [(W1 & W2 & W3)|[-> C]]; [|split; [now left|]; split; [exact C|]; auto].
           split; [now apply (aos_up p)|]. split; [exact W2|]. intros y Y FY. apply W3; [|exact FY]. destruct (aos_parent (parent_of s) p x P y Y) as [->|Y']; [|exact Y'].
           unfold from_of in FY. destruct from; [congruence|destruct FY].
        -- intros (W1 & W2 & W3). destruct (aos_cases p x w P W1) as [->|W']; [right; auto|left]. split; [exact W'|]. split; [exact W2|]. intros y Y FY. apply W3; [eapply above_up; eauto|exact FY].
  - exists l1, v1. split; [reflexivity|]. split; [exact SX|]. split; [|exact F1]. intros w. rewrite M1. split.
    + intros [-> C]. split; [now left|]. auto.
    + intros (W1 & W2 & _). split; [|exact W2]. destruct W1 as [->|W1]; [reflexivity|]. exfalso. inversion W1; congruence.
Qed.

(** ** Any: walking backwards in document order *)
Lemma pre_nonempty : forall t, pre t <> [].
Proof. intros [n ts]. discriminate. Qed.
Lemma last_app : forall (a b : list nat) d, b <> [] -> last (a ++ b) d = last b d.
Proof. induction a as [|x a IH]; intros b d H; [reflexivity|]. cbn [app]. destruct (a ++ b) eqn:Q; [destruct a; [cbn in Q; congruence|discriminate]|]. rewrite <- Q, <- (IH b d H), Q. reflexivity. Qed.
Lemma last_default : forall (l : list nat) d e, l <> [] -> last l d = last l e.
Proof. induction l as [|x [|y l] IH]; intros d e H; [congruence|reflexivity|]. change (last (y :: l) d = last (y :: l) e). apply IH. discriminate. Qed.
Lemma last_child_kids : forall n, exists_node s n -> last_child s n = Ok (match List.length (kids s n) with O => None | S k => nth_error (kids s n) k end).
Proof.
  intros n E. unfold last_child. destruct (kids s n) as [|c l] eqn:K.
  - destruct (is_element s n || is_entity s n); [|reflexivity]. rewrite (last_child_ok s n F E), K. reflexivity.
  - rewrite (kids_container s n c F) by (rewrite K; now left). rewrite (last_child_ok s n F E), K. reflexivity.
Qed.
Lemma kid_there : forall p c, In c (kids s p) -> exists_node s c.
Proof. intros p c H. exact (kid_exists s p c F H). Qed.
Lemma deepest_ok : forall t, rep s t -> forall fuel, exists_node s (root t) -> List.length (pre t) <= fuel -> deepest s fuel (root t) = Ok (last (pre t) 0).
Proof.
  induction t as [n ts IH] using tree_ind2. intros R fuel E L. inversion R as [? ? K RS]; subst. cbn [root] in *. cbn [pre] in L. destruct fuel as [|f]; [cbn in L; lia|]. cbn [deepest].
  rewrite (last_child_kids n E), K, map_length. cbn [bind]. destruct (rev ts) as [|t' rts] eqn:RT.
  - apply (f_equal (@rev tree)) in RT. rewrite rev_involutive in RT. subst ts. reflexivity.
  - apply (f_equal (@rev tree)) in RT. rewrite rev_involutive in RT. cbn [rev] in RT. set (ts' := rev rts) in *. subst ts. rewrite app_length. cbn [List.length]. replace (List.length ts' + 1) with (S (List.length ts')) by lia.
    rewrite map_app, nth_error_app2 by (rewrite map_length; lia). rewrite map_length, Nat.sub_diag. cbn [map nth_error].
    apply Forall_app in IH. destruct IH as [_ IH]. inversion IH as [|? ? IH1 _]; subst. apply Forall_app in RS. destruct RS as [_ RS]. inversion RS as [|? ? RS1 _]; subst.
    cbn [pre]. rewrite flat_map_app. cbn [flat_map]. rewrite app_nil_r.
    rewrite (IH1 RS1 f).
    + f_equal. change (n :: flat_map pre ts' ++ pre t') with ((n :: flat_map pre ts') ++ pre t'). rewrite last_app; [reflexivity|apply pre_nonempty].
    + apply (kid_there n). rewrite K, map_app. apply in_or_app. right. now left.
    + cbn in L. rewrite flat_map_app, app_length in L. cbn [flat_map] in L. rewrite app_nil_r in L. lia.
Qed.
Fixpoint adj (l : list nat) : Prop := match l with x :: r => match r with [] => True | y :: _ => step_back s y = Ok (Some x) end /\ adj r | [] => True end.
Lemma adj_app : forall a m b, adj (a ++ [m]) -> adj (m :: b) -> adj (a ++ m :: b).
Proof.
  induction a as [|x a IH]; intros m b H1 H2; [exact H2|]. cbn [app] in *. destruct H1 as [H1 H1']. split; [|now apply IH].
  destruct a; cbn [app] in *; exact H1.
Qed.
Lemma adj_last : forall a m b, adj (a ++ [m]) -> match b with [] => True | y :: _ => step_back s y = Ok (Some m) end -> adj b -> adj (a ++ m :: b).
Proof. intros a m b H1 H2 H3. apply adj_app; [exact H1|]. now split. Qed.
Lemma nodup_pre_short : forall t, rep s t -> exists_node s (root t) -> List.length (pre t) <= bound s.
Proof. intros t R E. pose proof (pre_length s t F R E). unfold bound. lia. Qed.
Lemma step_kid : forall n ts done t rest, kids s n = map root ts -> Forall (rep s) ts -> ts = done ++ t :: rest ->
  step_back s (root t) = Ok (Some (last (n :: flat_map pre done) 0)).
Proof.
  intros n ts done t rest K R E. unfold step_back.
  assert (nth_error (kids s n) (List.length done) = Some (root t)) as N. { rewrite K, E, map_app, nth_error_app2 by (rewrite map_length; lia). rewrite map_length, Nat.sub_diag. reflexivity. }
  rewrite (preceding_ok s n (List.length done) (root t) F N). cbn [bind]. destruct (rev done) as [|t' rd] eqn:RD.
  - apply (f_equal (@rev tree)) in RD. rewrite rev_involutive in RD. cbn in RD. subst done. cbn [List.length]. rewrite (kid_parent_nth s n _ _ F N). reflexivity.
  - apply (f_equal (@rev tree)) in RD. rewrite rev_involutive in RD. cbn [rev] in RD. set (done' := rev rd) in *. subst done.
    rewrite app_length. cbn [List.length]. replace (List.length done' + 1) with (S (List.length done')) by lia.
    assert (nth_error (kids s n) (List.length done') = Some (root t')) as N'.
    { rewrite K, E, <- app_assoc, map_app, nth_error_app2 by (rewrite map_length; lia). rewrite map_length, Nat.sub_diag. reflexivity. }
    rewrite N'. assert (rep s t') as R' by (rewrite Forall_forall in R; apply R; rewrite E; apply in_or_app; left; apply in_or_app; right; now left).
    assert (exists_node s (root t')) as E' by (apply (kid_there n), (nth_error_In _ _ N')).
    rewrite (deepest_ok t' R' (bound s) E' (nodup_pre_short t' R' E')). cbn [bind]. rewrite flat_map_app. cbn [flat_map]. rewrite app_nil_r.
    change (n :: flat_map pre done' ++ pre t') with ((n :: flat_map pre done') ++ pre t'). rewrite last_app; [reflexivity|apply pre_nonempty].
Qed.
Lemma adj_pre : forall t, rep s t -> adj (pre t).
Proof.
  induction t as [n ts IH] using tree_ind2. intros R. inversion R as [? ? K RS]; subst. cbn [pre].
  assert (forall rest done, ts = done ++ rest -> adj (n :: flat_map pre done) -> adj (n :: flat_map pre done ++ flat_map pre rest)) as H.
  { induction rest as [|t rest IHr]; intros done E A; [cbn [flat_map]; now rewrite app_nil_r|].
    replace (n :: flat_map pre done ++ flat_map pre (t :: rest)) with (n :: flat_map pre (done ++ [t]) ++ flat_map pre rest) by (rewrite flat_map_app; cbn [flat_map]; rewrite app_nil_r, <- app_assoc; reflexivity).
    apply IHr; [rewrite <- app_assoc; exact E|]. rewrite flat_map_app. cbn [flat_map]. rewrite app_nil_r.
    pose proof (step_kid n ts done t rest K RS E) as ST.
    assert (adj (pre t)) as AT by (rewrite Forall_forall in IH, RS; assert (In t ts) as I by (rewrite E; apply in_or_app; right; now left); exact (IH t I (RS t I))).
    destruct (exists_last (l := n :: flat_map pre done) ltac:(discriminate)) as (a & m & EA). rewrite EA in A.
    change (n :: flat_map pre done ++ pre t) with ((n :: flat_map pre done) ++ pre t). rewrite EA, <- app_assoc. cbn [app].
    apply adj_last; [exact A| |exact AT]. destruct t as [k us]. cbn [pre root] in *. rewrite ST, EA. rewrite last_last. reflexivity. }
  apply (H ts []); [reflexivity|]. cbn. auto.
Qed.
Fixpoint take_until (p : nat -> bool) (l : list nat) : list nat := match l with [] => [] | x :: r => if p x then [] else x :: take_until p r end.
Definition fromb (from : option pat) (x : nat) : bool := match from with Some f => f x | None => false end.
Lemma any_loop_ok : forall (count : pat) from l1 x fuel v, adj (l1 ++ [x]) -> parent_of s (hd x l1) = None -> List.length l1 < fuel ->
  any_loop s fuel count from (Some x) v = Ok (v + N.of_nat (List.length (filter count (take_until (fromb from) (x :: rev l1)))))%N.
Proof.
  intros count from l1. induction l1 as [|y l1 IH] using rev_ind; intros x fuel v A P L; (destruct fuel as [|f]; [cbn in L; lia|]); cbn [any_loop].
  - cbn [hd] in P. cbn [rev take_until]. fold (fromb from x). destruct (fromb from x); [cbn; f_equal; lia|].
    unfold step_back, get_preceding_sibling. rewrite P. cbn [bind]. cbn [filter]. destruct f; cbn [any_loop]; destruct (count x); cbn [List.length]; f_equal; lia.
  - rewrite app_length in L. cbn [List.length] in L. rewrite rev_app_distr. cbn [rev app]. cbn [take_until]. fold (fromb from x). destruct (fromb from x) eqn:FX; [cbn; f_equal; lia|].
    assert (adj (l1 ++ [y]) /\ step_back s x = Ok (Some y)) as [A1 A2].
    { clear -A. rewrite <- app_assoc in A. cbn [app] in A. induction l1 as [|z l1 IH]; cbn [app] in *.
      - destruct A as [A _]. split; [cbn; auto|exact A].
      - destruct A as [A0 A]. destruct (IH A) as [B1 B2]. split; [|exact B2]. split; [destruct l1; exact A0|exact B1]. }
    rewrite A2. cbn [bind].
    assert (parent_of s (hd y l1) = None) as P' by (destruct l1; exact P).
    rewrite (IH y f _ A1 P') by lia. cbn [take_until]. fold (fromb from y).
    cbn [filter]. set (L' := if fromb from y then [] else y :: take_until (fromb from) (rev l1)). destruct (count x); cbn [List.length]; f_equal; lia.
Qed.
Lemma take_until_in : forall (R : nat -> nat -> Prop) p l, (forall a b, R a b -> R b a -> False) -> StronglySorted R l ->
  forall z, In z (take_until p l) <-> In z l /\ (forall y, In y l -> p y = true -> R z y).
Proof.
  intros R p l AS. induction 1 as [|a l SS IH FA]; intros z; cbn [take_until]; [cbn; tauto|]. rewrite Forall_forall in FA. destruct (p a) eqn:PA.
  - split; [intros []|]. intros [I H]. specialize (H a (or_introl eq_refl) PA). destruct I as [->|I]; [exact (AS _ _ H H)|exact (AS _ _ H (FA z I))].
  - cbn [In]. rewrite IH. split.
    + intros [->|[I H]].
      * split; [now left|]. intros y [->|Y] PY; [congruence|now apply FA].
      * split; [now right|]. intros y [->|Y] PY; [congruence|now apply H].
    + intros [[->|I] H]; [now left|]. right. split; [exact I|]. intros y Y PY. apply H; [now right|exact PY].
Qed.
Lemma sorted_split : forall l1 x l2 z, StronglySorted (before s) (l1 ++ x :: l2) -> In z (l1 ++ x :: l2) -> (In z l1 <-> before s z x).
Proof.
  intros l1 x l2 z SS I. apply ss_app_inv in SS. destruct SS as (S1 & S2 & S3). split; [intros H; apply S3; [exact H|now left]|].
  intros B. apply in_app_or in I. destruct I as [I|[->|I]]; [exact I| |]; exfalso.
  - exact (before_irrefl s z F B).
  - inversion S2 as [|? ? ? FA]; subst. rewrite Forall_forall in FA. exact (before_asym s x z F (FA z I) B).
Qed.
Lemma any_ok : forall n (count : pat) (from : option pat), exists_node s n -> ~ attribute s n -> fromb from n = false ->
  exists v, any_loop s (bound s) count from (Some n) 0 = Ok v /\ any_number s (holds_of count) (from_of from) n v.
Proof.
  intros n count from E A FN. destruct (top_of n E) as (r & d & TN). pose proof (ancestors_ok s F (bound s) n r d TN) as (anc & _ & MA & _). apply top_spec in TN. destruct TN as [UP PR]. apply up_aos in UP.
  pose proof (aos_node s F r n E UP) as ER. destruct (subtree s r F ER) as [ts R].
  assert (In n (pre (T r ts))) as IN. { apply (pre_in s F _ R). cbn [root]. destruct UP as [->|UP]; [now left|right; auto]. }
  apply in_split in IN. destruct IN as (l1 & l2 & EP). pose proof (pre_sorted s F _ R) as SS. pose proof (adj_pre _ R) as AD. pose proof (pre_length s _ F R ER) as LEN. rewrite EP in *.
  assert (adj (l1 ++ [n])) as AD1. { clear -AD. induction l1 as [|z l1 IH]; cbn [app] in *; [cbn; auto|]. destruct AD as [A1 A2]. split; [destruct l1; exact A1|now apply IH]. }
  assert (parent_of s (hd n l1) = None) as PH. { destruct l1 as [|z l1]; cbn [hd]; [injection EP as -> _; exact PR|]. cbn [app] in EP. injection EP as -> _. exact PR. }
  rewrite app_length in LEN. cbn [List.length] in LEN.
  eexists. split; [apply any_loop_ok; [exact AD1|exact PH|unfold bound; lia]|].
  assert (MB : forall z, In z (n :: rev l1) <-> back s n z).
  { intros z. cbn [In]. rewrite <- in_rev. unfold back. rewrite aos_axis. cbn [on_axis]. split.
    - intros [->|I]; [left; now left|]. destruct (in_dec Nat.eq_dec z anc) as [IA|NA]; [left; right; now apply MA|]. right.
      assert (In z (l1 ++ n :: l2)) as IP by (apply in_or_app; now left). split; [now apply (sorted_split l1 n l2 z SS IP)|]. rewrite MA in NA. split; [exact NA|].
      rewrite <- EP in IP. apply (pre_in s F _ R) in IP. cbn [root] in IP. destruct IP as [->|[_ IP]]; [|exact IP]. intros K. destruct UP as [->|UP]; [contradiction|now apply NA].
    - assert (forall z, aos r z -> ~ attribute s z -> before s z n -> In z l1) as H.
      { intros w W NW B. assert (In w (l1 ++ n :: l2)) as IP; [|now apply (sorted_split l1 n l2 w SS IP)]. rewrite <- EP. apply (pre_in s F _ R). cbn [root]. destruct W as [->|W]; auto. }
      intros [[->|B]|(B & _ & NA)]; [now left| |]; right; apply H.
      + apply (top_above s r n z PR UP). now right.
      + exact (above_container s z n F B).
      + now apply before_above.
      + destruct (before_same_tree s z n F B) as (q & Q1 & Q2). exact (aos_trans _ _ _ _ (top_above s r n q PR UP Q2) Q1).
      + exact NA.
      + exact B. }
  assert (SR : StronglySorted (fun x y => before s y x) (n :: rev l1)).
  { change (n :: rev l1) with (rev [n] ++ rev l1). rewrite <- (rev_app_distr l1 [n]). apply (ss_rev (before s)). apply ss_app_inv in SS. destruct SS as (S1 & S2 & S3).
    apply ss_app; [exact S1|repeat constructor|]. intros x y X [<-|[]]. apply S3; [exact X|now left]. }
  exists (filter count (take_until (fromb from) (n :: rev l1))). split; [|split; [|reflexivity]].
  - apply NoDup_filter. assert (forall l, NoDup l -> NoDup (take_until (fromb from) l)) as ND.
    { clear. induction 1 as [|x l N ND IH]; cbn [take_until]; [constructor|]. destruct (fromb from x); constructor; [|exact IH]. intros I. apply N. clear -I. induction l as [|y l IH]; cbn [take_until] in I; [destruct I|]. destruct (fromb from y); [destruct I|]. destruct I as [->|I]; [now left|right; auto]. }
    apply ND. apply (ss_rev (fun x y => before s y x)) in SR. apply (sorted_nodup s) in SR; [|exact F]. apply NoDup_rev in SR. now rewrite rev_involutive in SR.
  - intros z. rewrite filter_In, (take_until_in (fun x y => before s y x)); [|intros a b H1 H2; exact (before_asym s b a F H1 H2)|exact SR].
    rewrite MB. unfold holds_of. split.
    + intros [[B H] C]. split; [exact B|]. split; [exact C|]. intros y Y NY FY. apply H; [now apply MB|]. unfold from_of in FY. unfold fromb. destruct from; [exact FY|destruct FY].
    + intros (B & C & H). split; [|exact C]. split; [exact B|]. intros y Y FY. apply MB in Y. apply H; [exact Y| |].
      * intros ->. congruence.
      * unfold from_of. unfold fromb in FY. destruct from; [exact FY|discriminate].
Qed.

(** ** Simple *)
Lemma simple_loop_ok : forall node p i fuel v, i <= fuel -> i <= List.length (kids s p) ->
  simple_loop s nm fuel node (prev_at p i) v = Ok (v + N.of_nat (List.length (filter (fun x => same_kind s x node && same_name nm x node) (firstn i (kids s p)))))%N.
Proof.
  intros node p. induction i as [|i IH]; intros fuel v L H; [destruct fuel; cbn; f_equal; lia|]. destruct fuel as [|f]; [lia|].
  destruct (nth_error (kids s p) i) as [x|] eqn:N; [|apply nth_error_None in N; lia]. cbn [prev_at]. rewrite N. cbn [simple_loop]. rewrite (preceding_ok s p i x F N). cbn [bind].
  change (match i with 0 => None | S j => nth_error (kids s p) j end) with (prev_at p i). rewrite IH by lia. rewrite (firstn_snoc _ _ _ N), filter_app, app_length. cbn [filter].
  destruct (same_kind s x node && same_name nm x node); cbn [List.length]; f_equal; lia.
Qed.
Lemma simple_ok : forall n, exists_node s n -> kind_of s n = Some KElement ->
  exists v, simple_value s nm n = Ok v /\ sibling_number s (holds_of (default_count s nm n)) n v.
Proof.
  intros n E K. assert (A : ~ attribute s n) by (unfold attribute; congruence).
  assert (is_element s n = true) as EL. { unfold is_element, has_kind. unfold kind_of in K. destruct (get s n) as [m|]; [|discriminate]. cbn in K. injection K as K. rewrite K. reflexivity. }
  destruct (sibling_number_ok (default_count s nm n) n E A) as (v & V1 & V2 & _). exists v. split; [|exact V2]. unfold simple_value. rewrite EL. cbn [orb].
  destruct (parent_of s n) as [p|] eqn:P.
  - destruct (kid_index s p n F P A) as [i N]. assert (i < List.length (kids s p)) as LI by (apply nth_error_Some; congruence). pose proof (kids_short s p F) as KS.
    rewrite (count_siblings_ok _ p (bound s) i n N) in V1 by (unfold bound; lia). injection V1 as <-. rewrite (preceding_ok s p i n F N). cbn [bind].
    change (match i with 0 => None | S j => nth_error (kids s p) j end) with (prev_at p i). rewrite simple_loop_ok by (unfold bound; lia). unfold default_count. rewrite EL. reflexivity.
  - unfold get_preceding_sibling. rewrite P. cbn [bind]. unfold bound in *. cbn [count_siblings simple_loop] in *. unfold get_preceding_sibling in V1. rewrite P in V1. cbn [bind skip_siblings] in V1.
    destruct (List.length (s_nodes s)); cbn in V1; congruence.
Qed.
End Proofs.
