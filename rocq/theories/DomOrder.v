(** * Siblings, document order and identifiers *)
From Coq Require Import NArith ZArith String List Bool Lia Arith.
From Verif Require Import PyStr PyErr DomModel DomSpec DomCells DomInv DomOps DomStep.
Import ListNotations.
Local Open Scope nat_scope.

(** ** Siblings *)
Lemma sibling_get s p c : forest s -> parent_of s c = Some p -> exists n, get s p = Some n /\ n_count n = length (kids s p) /\ holds (n_cells n) (kids s p).
Proof.
  intros F P. destruct (f_parent s F p c P) as [k [K _]]. unfold kind_of in K. destruct (get s p) as [n|] eqn:G; [|discriminate].
  exists n. split; [reflexivity|]. now apply forest_holds.
Qed.
Lemma holds_nth cells l i c : holds cells l -> nth_error l i = Some c -> nth_error cells i = Some (Some c).
Proof.
  intros [L H] E. assert (i < length l) as Hi by (apply nth_error_Some; congruence). specialize (H i Hi).
  rewrite (nth_error_nth' cells None) by lia. congruence.
Qed.
Lemma kid_parent_nth s p i c : forest s -> nth_error (kids s p) i = Some c -> parent_of s c = Some p.
Proof. intros F H. apply kids_parent; [exact F|]. eapply nth_error_In; eauto. Qed.
Lemma lfind_nth cells l i c : NoDup l -> holds cells l -> nth_error l i = Some c -> lfind cells c 0 (length l) = Some i.
Proof. intros D H E. apply nth_error_split in E. destruct E as [l1 [l2 [-> <-]]]. now apply lfind_holds. Qed.

Lemma following_ok s p i c : forest s -> nth_error (kids s p) i = Some c -> get_following_sibling s c = Ok (nth_error (kids s p) (S i)).
Proof.
  intros F E. pose proof (kid_parent_nth s p i c F E) as P. destruct (sibling_get s p c F P) as [n [G [C H]]].
  unfold get_following_sibling. rewrite P, G, C, (lfind_nth _ _ i c (f_nodup s F p) H E).
  assert (i < length (kids s p)) as Hi by (apply nth_error_Some; congruence).
  destruct (Nat.eqb_spec (S i) (length (kids s p))) as [X|X].
  - f_equal. symmetry. apply nth_error_None. lia.
  - destruct (nth_error (kids s p) (S i)) as [d|] eqn:D; [|apply nth_error_None in D; lia]. now rewrite (holds_nth _ _ _ _ H D).
Qed.
Lemma preceding_ok s p i c : forest s -> nth_error (kids s p) i = Some c -> get_preceding_sibling s c = Ok (match i with O => None | S j => nth_error (kids s p) j end).
Proof.
  intros F E. pose proof (kid_parent_nth s p i c F E) as P. destruct (sibling_get s p c F P) as [n [G [C H]]].
  unfold get_preceding_sibling. rewrite P, G, C, (lfind_nth _ _ i c (f_nodup s F p) H E). destruct i as [|i]; [reflexivity|].
  assert (S i < length (kids s p)) as Hi by (apply nth_error_Some; congruence).
  destruct (nth_error (kids s p) i) as [d|] eqn:D; [|apply nth_error_None in D; lia]. now rewrite (holds_nth _ _ _ _ H D).
Qed.

(** ** Addresses: the path from the root as numbers; the attributes of an
       element have the numbers -n ... -1, its children 0, 1, ... *)
Definition place (s : store) (p c : nat) (z : Z) : Prop :=
  (exists i, nth_error (kids s p) i = Some c /\ z = Z.of_nat i) \/ (exists i, nth_error (attrs_of s p) i = Some c /\ z = (Z.of_nat i - Z.of_nat (length (attrs_of s p)))%Z).
Inductive addr (s : store) : nat -> list Z -> Prop :=
| addr_root r : parent_of s r = None -> addr s r []
| addr_step c p l z : parent_of s c = Some p -> addr s p l -> place s p c z -> addr s c (l ++ [z]).

Lemma place_ex s p c : forest s -> parent_of s c = Some p -> exists z, place s p c z.
Proof.
  intros F P. destruct (parent_ex s c p P) as [n [G _]]. pose proof (kind_get s c n G) as K.
  destruct (n_kind n) eqn:KN.
  6:{ assert (In c (attrs_of s p)) as I by (apply (f_alink s F); auto). apply In_nth_error in I. destruct I as [i I]. eexists. right. eauto. }
  all: assert (In c (kids s p)) as I by (apply (f_link s F); split; [exact P|rewrite K; discriminate]); apply In_nth_error in I; destruct I as [i I]; eexists; left; eauto.
Qed.
Lemma place_fun s p c z z' : forest s -> place s p c z -> place s p c z' -> z = z'.
Proof.
  intros F [[i [E1 ->]]|[i [E1 ->]]] [[j [E2 ->]]|[j [E2 ->]]].
  - now rewrite (nodup_nth _ _ _ _ (f_nodup s F p) E1 E2).
  - apply nth_error_In in E1, E2. apply (f_link s F) in E1. apply (f_alink s F) in E2. tauto.
  - apply nth_error_In in E1, E2. apply (f_link s F) in E2. apply (f_alink s F) in E1. tauto.
  - now rewrite (nodup_nth _ _ _ _ (f_anodup s F p) E1 E2).
Qed.
Lemma place_inj s p c c' z : place s p c z -> place s p c' z -> c = c'.
Proof.
  intros [[i [E1 X1]]|[i [E1 X1]]] [[j [E2 X2]]|[j [E2 X2]]].
  - assert (i = j) by lia. congruence.
  - assert (j < length (attrs_of s p)) by (apply nth_error_Some; congruence). lia.
  - assert (i < length (attrs_of s p)) by (apply nth_error_Some; congruence). lia.
  - assert (i = j) by lia. congruence.
Qed.
Lemma addr_fun s : forest s -> forall n l, addr s n l -> forall l', addr s n l' -> l = l'.
Proof.
  intros F n l H. induction H as [r P|c p l z P H IH PL]; intros l' H'.
  - inversion H'; [reflexivity|congruence].
  - inversion H' as [r P'|c' p' l2 z' P' H2 PL' E1 E2]; [congruence|]. subst. rewrite P in P'. injection P' as <-.
    rewrite (IH _ H2). f_equal. f_equal. eapply place_fun; eauto.
Qed.
Lemma addr_above s a b : above (parent_of s) a b -> forall l, forest s -> addr s a l -> exists t, t <> [] /\ addr s b (l ++ t).
Proof.
  intros H l F A. induction H as [b P|b q P H IH].
  - destruct (place_ex s a b F P) as [z PL]. exists [z]. split; [discriminate|]. econstructor; eauto.
  - destruct IH as [t [_ IH]]. destruct (place_ex s q b F P) as [z PL]. exists (t ++ [z]). split; [destruct t; discriminate|]. rewrite app_assoc. econstructor; eauto.
Qed.
Lemma addr_aos s a b l : above_or_self (parent_of s) a b -> forest s -> addr s a l -> exists t, addr s b (l ++ t).
Proof.
  intros [->|H] F A; [exists []; rewrite app_nil_r; exact A|]. destruct (addr_above s a b H l F A) as [t [_ T]]. eauto.
Qed.

(** Lexicographic order, a prefix first. *)
Fixpoint lex (a b : list Z) : Prop :=
  match a, b with
  | [], _ :: _ => True
  | x :: a', y :: b' => (x < y)%Z \/ (x = y /\ lex a' b')
  | _, [] => False
  end.
Lemma lex_irrefl l : ~ lex l l.
Proof. induction l as [|x l IH]; cbn; [tauto|]. intros [H|[_ H]]; [lia|exact (IH H)]. Qed.
Lemma lex_trans a : forall b c, lex a b -> lex b c -> lex a c.
Proof.
  induction a as [|x a IH]; intros [|y b] [|z c]; cbn; try tauto.
  intros [H1|[-> H1]] [H2|[-> H2]]; [left; lia|left; lia|left; lia|right; split; [reflexivity|eapply IH; eauto]].
Qed.
Lemma lex_prefix l t : t <> [] -> lex l (l ++ t).
Proof. intros H. induction l as [|x l IH]; cbn; [destruct t; [congruence|exact I]|right; auto]. Qed.
Lemma lex_fork l x y a b : (x < y)%Z -> lex (l ++ x :: a) (l ++ y :: b).
Proof. intros H. induction l as [|z l IH]; cbn; [left; exact H|right; auto]. Qed.

(** Every node has an address: the climb to the root ends. *)
Lemma climb s : forest s -> forall fuel i vis, exists_node s i -> NoDup vis -> (forall v, In v vis -> exists_node s v /\ above (parent_of s) i v) ->
  length (s_nodes s) < fuel + length vis -> exists r d, top fuel s i = Some (r, d).
Proof.
  intros F. induction fuel as [|f IH]; intros i vis Hi Hd Hv Hf.
  - exfalso. assert (length vis <= length (seq 0 (length (s_nodes s)))) as X.
    { apply NoDup_incl_length; [exact Hd|]. intros v V. apply in_seq. destruct (Hv v V). unfold exists_node in *. lia. }
    rewrite seq_length in X. cbn in Hf. lia.
  - cbn [top]. destruct (parent_of s i) as [p|] eqn:P; [|eauto].
    destruct (IH p (i :: vis)) as [r [d E]].
    + destruct (f_parent s F p i P) as [k [K _]]. eapply kind_exists; eauto.
    + constructor; [|exact Hd]. intro V. destruct (Hv i V) as [_ A]. exact (f_acyclic s F i A).
    + intros v [<-|V]; [split; [exact Hi|now apply above_parent]|]. destruct (Hv v V) as [A B]. split; [exact A|]. eapply above_trans; [apply above_parent; exact P|exact B].
    + cbn. lia.
    + rewrite E. cbn. eauto.
Qed.
Lemma top_ex s i : forest s -> exists_node s i -> exists r d, top (S (length (s_nodes s))) s i = Some (r, d).
Proof. intros F H. apply (climb s F _ i [] H); [constructor|intros v []|cbn; lia]. Qed.
Lemma top_spec s : forall fuel i r d, top fuel s i = Some (r, d) -> up s d i = Some r /\ parent_of s r = None.
Proof.
  induction fuel as [|f IH]; intros i r d; cbn [top]; [discriminate|].
  destruct (parent_of s i) as [p|] eqn:P.
  - destruct (top f s p) as [[r' d']|] eqn:E; [|discriminate]. cbn. intros [= <- <-]. cbn [up]. rewrite P. now apply IH.
  - intros [= <- <-]. split; [reflexivity|exact P].
Qed.
Lemma up_aos s k : forall i j, up s k i = Some j -> above_or_self (parent_of s) j i.
Proof.
  induction k as [|k IH]; intros i j; cbn [up]; [intros [= ->]; left; reflexivity|].
  destruct (parent_of s i) as [p|] eqn:P; [|discriminate]. intros H. right. destruct (IH p j H) as [->|X]; [now apply above_parent|eapply above_up; eauto].
Qed.
Lemma up_above s k i j : up s (S k) i = Some j -> above (parent_of s) j i.
Proof.
  cbn [up]. destruct (parent_of s i) as [p|] eqn:P; [|discriminate]. intros H. apply up_aos in H. destruct H as [->|X]; [now apply above_parent|eapply above_up; eauto].
Qed.
Lemma up_add s k m : forall i, up s (k + m) i = match up s k i with Some j => up s m j | None => None end.
Proof. induction k as [|k IH]; intros i; cbn [up Nat.add]; [reflexivity|]. destruct (parent_of s i); [apply IH|reflexivity]. Qed.
Lemma up_root_fun s d : forall i r d' r', up s d i = Some r -> parent_of s r = None -> up s d' i = Some r' -> parent_of s r' = None -> d = d' /\ r = r'.
Proof.
  induction d as [|d IH]; intros i r d' r'; cbn [up].
  - intros [= <-] P. destruct d'; cbn [up]; [intros [= <-]; auto|]. rewrite P. discriminate.
  - destruct (parent_of s i) as [p|] eqn:P; [|discriminate]. intros H R. destruct d'; cbn [up].
    + intros [= <-] X. congruence.
    + rewrite P. intros H' R'. destruct (IH p r d' r' H R H' R'). auto.
Qed.
Lemma up_addr s : forest s -> forall d i r, up s d i = Some r -> parent_of s r = None -> exists l, addr s i l /\ length l = d.
Proof.
  intros F. induction d as [|d IH]; intros i r; cbn [up].
  - intros [= <-] P. exists []. split; [now constructor|reflexivity].
  - destruct (parent_of s i) as [p|] eqn:P; [|discriminate]. intros H R. destruct (IH p r H R) as [l [A L]].
    destruct (place_ex s p i F P) as [z PL]. exists (l ++ [z]). split; [econstructor; eauto|]. rewrite app_length, L. cbn. lia.
Qed.
Lemma addr_ex s i : forest s -> exists_node s i -> exists l, addr s i l.
Proof.
  intros F H. destruct (top_ex s i F H) as [r [d E]]. apply top_spec in E. destruct E as [E1 E2].
  destruct (up_addr s F d i r E1 E2) as [l [A _]]. eauto.
Qed.

Lemma split2_nth (l1 : list nat) x l2 y l3 : nth_error (l1 ++ x :: l2 ++ y :: l3) (length l1) = Some x /\ nth_error (l1 ++ x :: l2 ++ y :: l3) (length l1 + S (length l2)) = Some y.
Proof.
  split.
  - now rewrite nth_error_mid, Nat.ltb_irrefl, Nat.eqb_refl.
  - rewrite nth_error_app2 by lia. replace (length l1 + S (length l2) - length l1) with (S (length l2)) by lia. cbn. rewrite nth_error_app2, Nat.sub_diag by lia. reflexivity.
Qed.
(** Document order is the order of addresses. *)
Lemma before_lex s a b la lb : forest s -> before s a b -> addr s a la -> addr s b lb -> lex la lb.
Proof.
  intros F H A B. destruct H as [H|p x y l1 l2 l3 K HX HY|p y I J HY|p l1 l2 l3 K].
  - destruct (addr_above s a b H la F A) as [t [T X]]. rewrite (addr_fun s F _ _ B _ X). now apply lex_prefix.
  - destruct (split2_nth l1 x l2 y l3) as [N1 N2]. rewrite <- K in N1, N2.
    pose proof (kid_parent_nth s p _ x F N1) as P1. pose proof (kid_parent_nth s p _ y F N2) as P2.
    destruct (addr_ex s p F) as [l L]. { destruct (f_parent s F p x P1) as [k [KK _]]. eapply kind_exists; eauto. }
    assert (addr s x (l ++ [Z.of_nat (length l1)])) as AX by (econstructor; [exact P1|exact L|left; eauto]).
    assert (addr s y (l ++ [Z.of_nat (length l1 + S (length l2))])) as AY by (econstructor; [exact P2|exact L|left; eauto]).
    destruct (addr_aos s x a _ HX F AX) as [t1 T1]. destruct (addr_aos s y b _ HY F AY) as [t2 T2].
    rewrite (addr_fun s F _ _ A _ T1), (addr_fun s F _ _ B _ T2), <- !app_assoc. cbn [app]. apply lex_fork. lia.
  - pose proof (kids_parent s p y F J) as P2. apply (f_alink s F) in I as [P1 K1].
    destruct (addr_ex s p F) as [l L]. { destruct (f_parent s F p a P1) as [k [KK _]]. eapply kind_exists; eauto. }
    assert (In a (attrs_of s p)) as I by (apply (f_alink s F); auto). apply In_nth_error in I. destruct I as [i I]. apply In_nth_error in J. destruct J as [j J].
    assert (i < length (attrs_of s p)) as Li by (apply nth_error_Some; congruence).
    assert (addr s a (l ++ [(Z.of_nat i - Z.of_nat (length (attrs_of s p)))%Z])) as AX by (econstructor; [exact P1|exact L|right; eauto]).
    assert (addr s y (l ++ [Z.of_nat j])) as AY by (econstructor; [exact P2|exact L|left; eauto]).
    destruct (addr_aos s y b _ HY F AY) as [t2 T2]. rewrite (addr_fun s F _ _ A _ AX), (addr_fun s F _ _ B _ T2), <- app_assoc. cbn [app]. apply lex_fork. lia.
  - destruct (split2_nth l1 a l2 b l3) as [N1 N2]. rewrite <- K in N1, N2.
    assert (parent_of s a = Some p) as P1 by (apply nth_error_In in N1; apply (f_alink s F) in N1; tauto).
    assert (parent_of s b = Some p) as P2 by (apply nth_error_In in N2; apply (f_alink s F) in N2; tauto).
    destruct (addr_ex s p F) as [l L]. { destruct (f_parent s F p a P1) as [k [KK _]]. eapply kind_exists; eauto. }
    assert (addr s a (l ++ [(Z.of_nat (length l1) - Z.of_nat (length (attrs_of s p)))%Z])) as AX by (econstructor; [exact P1|exact L|right; eauto]).
    assert (addr s b (l ++ [(Z.of_nat (length l1 + S (length l2)) - Z.of_nat (length (attrs_of s p)))%Z])) as AY by (econstructor; [exact P2|exact L|right; eauto]).
    rewrite (addr_fun s F _ _ A _ AX), (addr_fun s F _ _ B _ AY). apply lex_fork. lia.
Qed.
Lemma aos_exists s r a : above (parent_of s) r a -> exists_node s a.
Proof. intros H. destruct H as [b P|b q P _]; eapply parent_lt; eauto. Qed.
Lemma before_exists s a b : forest s -> before s a b -> exists_node s a /\ exists_node s b.
Proof.
  intros F H.
  assert (forall x p, parent_of s x = Some p -> exists_node s x) as PE by (intros x p; apply parent_lt).
  assert (forall x y, exists_node s x -> above_or_self (parent_of s) x y -> exists_node s y) as AE.
  { intros x y E [<-|X]; [exact E|eapply aos_exists; eauto]. }
  assert (forall x y, above (parent_of s) x y -> exists_node s x) as UE.
  { intros x y X. assert (exists z, parent_of s z = Some x) as [z Z] by (induction X; eauto). destruct (f_parent s F x z Z) as [k [K _]]. eapply kind_exists; eauto. }
  destruct H as [H|p x y l1 l2 l3 K HX HY|p y I J HY|p l1 l2 l3 K].
  - split; [eapply UE; eauto|eapply aos_exists; eauto].
  - split; [apply (AE x); [|exact HX]|apply (AE y); [|exact HY]]; apply (PE _ p), kids_parent; try exact F; rewrite K; apply in_or_app; right; [left; reflexivity|right; apply in_or_app; right; left; reflexivity].
  - split; [apply (f_alink s F) in I; apply (PE _ p); tauto|apply (AE y); [|exact HY]]. apply (PE _ p). now apply kids_parent.
  - split; apply (PE _ p), (f_alink s F); rewrite K; apply in_or_app; right; [left; reflexivity|right; apply in_or_app; right; left; reflexivity].
Qed.
Lemma before_irrefl s a : forest s -> ~ before s a a.
Proof. intros F H. destruct (before_exists s a a F H) as [E _]. destruct (addr_ex s a F E) as [l L]. apply (lex_irrefl l). eapply before_lex; eauto. Qed.
Lemma before_asym s a b : forest s -> before s a b -> before s b a -> False.
Proof.
  intros F H1 H2. destruct (before_exists s a b F H1) as [E1 E2]. destruct (addr_ex s a F E1) as [l L]. destruct (addr_ex s b F E2) as [m M].
  apply (lex_irrefl l). apply (lex_trans l m l); [exact (before_lex s a b l m F H1 L M)|exact (before_lex s b a m l F H2 M L)].
Qed.

(** ** node_richcompare *)
Lemma positions_spec cells l a b : holds cells l -> NoDup l -> a <> b ->
  forall k i da db, i + k = length l -> (forall j, j < i -> nth_error l j = Some a -> da = Z.of_nat j) -> (forall j, j < i -> nth_error l j = Some b -> db = Z.of_nat j) ->
  (~ In a (firstn i l) -> da = (-1)%Z) -> (~ In b (firstn i l) -> db = (-1)%Z) ->
  let '(x, y) := positions cells a b i k da db in
  (match pos_in l a with Some j => x = Z.of_nat j | None => x = (-1)%Z end) /\ (match pos_in l b with Some j => y = Z.of_nat j | None => y = (-1)%Z end).
Proof.
  intros H D Hab.
  assert (forall c, match pos_in l c with Some j => nth_error l j = Some c | None => ~ In c l end) as PI.
  { intros c. unfold pos_in. destruct (index_of l c 0) as [j|] eqn:E; [apply index_of_some in E; destruct E as [_ E]; now rewrite Nat.sub_0_r in E|].
    clear - E. revert E. generalize 0. induction l as [|x l IH]; intros m; cbn; [tauto|]. destruct (Nat.eqb_spec x c); [discriminate|]. intros E [X|X]; [congruence|exact (IH _ E X)]. }
  induction k as [|k IH]; intros i da db Hk Ha Hb Na Nb; cbn [positions].
  - rewrite Nat.add_0_r in Hk. subst i. rewrite firstn_all in Na, Nb. split.
    + specialize (PI a). destruct (pos_in l a) as [j|]; [|auto]. apply Ha; [apply nth_error_Some; congruence|exact PI].
    + specialize (PI b). destruct (pos_in l b) as [j|]; [|auto]. apply Hb; [apply nth_error_Some; congruence|exact PI].
  - assert (i < length l) as Hi by lia. destruct (nth_error l i) as [c|] eqn:E; [|apply nth_error_None in E; lia].
    rewrite (holds_nth _ _ _ _ H E).
    assert (firstn (S i) l = firstn i l ++ [c]) as FN.
    { clear - E. revert l E. induction i as [|i IH]; intros [|x l]; cbn; try discriminate; [now intros [= ->]|]. intros E. now rewrite <- IH. }
    assert (forall c' d', c <> c' -> (forall j, j < i -> nth_error l j = Some c' -> d' = Z.of_nat j) -> forall j, j < S i -> nth_error l j = Some c' -> d' = Z.of_nat j) as EXT.
    { intros c' d' Hc HH j Hj X. destruct (Nat.eq_dec j i) as [->|]; [congruence|]. apply HH; [lia|exact X]. }
    assert (forall j, j < S i -> nth_error l j = Some c -> Z.of_nat i = Z.of_nat j) as SELF by (intros j _ X; f_equal; eapply nodup_nth; eauto).
    destruct (Nat.eqb_spec c a) as [->|Hca]; [|destruct (Nat.eqb_spec c b) as [->|Hcb]].
    + apply IH; [lia|exact SELF|apply EXT; assumption| |]; rewrite FN.
      * intro X. exfalso. apply X. apply in_or_app. right. left. reflexivity.
      * intro X. apply Nb. intro Y. apply X. apply in_or_app. left. exact Y.
    + apply IH; [lia|apply EXT; [congruence|assumption]|exact SELF| |]; rewrite FN.
      * intro X. apply Na. intro Y. apply X. apply in_or_app. left. exact Y.
      * intro X. exfalso. apply X. apply in_or_app. right. left. reflexivity.
    + apply IH; [lia|apply EXT; assumption|apply EXT; assumption| |]; rewrite FN.
      * intro X. apply Na. intro Y. apply X. apply in_or_app. left. exact Y.
      * intro X. apply Nb. intro Y. apply X. apply in_or_app. left. exact Y.
Qed.

(** Climbing two nodes of the same depth in one tree. *)
Lemma meet_spec s : forall d fuel a b r, d <= fuel -> a <> b -> up s d a = Some r -> up s d b = Some r -> parent_of s r = None ->
  exists a2 b2 p, meet fuel s a b = Some (a2, b2, p) /\ a2 <> b2 /\ parent_of s a2 = Some p /\ parent_of s b2 = Some p /\ above_or_self (parent_of s) a2 a /\ above_or_self (parent_of s) b2 b.
Proof.
  induction d as [|d IH]; intros fuel a b r Hf Hab Ha Hb R; cbn [up] in Ha, Hb; [congruence|].
  destruct (parent_of s a) as [pa|] eqn:Pa; [|discriminate]. destruct (parent_of s b) as [pb|] eqn:Pb; [|discriminate].
  destruct fuel as [|f]; [lia|]. cbn [meet]. rewrite Pa, Pb. destruct (Nat.eqb_spec pa pb) as [<-|Hp].
  - exists a, b, pa. repeat (split; [assumption || reflexivity|]). split; left; reflexivity.
  - destruct (IH f pa pb r ltac:(lia) Hp Ha Hb R) as [a2 [b2 [p [E [N [P1 [P2 [A1 A2]]]]]]]].
    exists a2, b2, p. repeat (split; [assumption|]). split; right; eapply aos_above; eauto; now apply above_parent.
Qed.
Lemma top_bound s : forall fuel i r d, top fuel s i = Some (r, d) -> d < fuel.
Proof.
  induction fuel as [|f IH]; intros i r d; cbn [top]; [discriminate|]. destruct (parent_of s i) as [p|]; [|intros [= _ <-]; lia].
  destruct (top f s p) as [[r' d']|] eqn:E; [|discriminate]. cbn. intros [= _ <-]. apply IH in E. lia.
Qed.

(** What the comparison of two different nodes of one tree means. *)
Definition meaning (s : store) (a b : nat) (x y : Z) : Prop :=
  ((x < y)%Z -> before s a b) /\ ((y < x)%Z -> before s b a) /\ (x = y -> fellow_attributes s a b).
Lemma attr_no_descendant s a x : forest s -> kind_of s a = Some KAttr -> above_or_self (parent_of s) a x -> a = x.
Proof.
  intros F K [->|H]; [reflexivity|]. exfalso. assert (exists z, parent_of s z = Some a) as [z Z] by (induction H; eauto).
  destruct (f_parent s F a z Z) as [k [K' C]]. rewrite K in K'. injection K' as <-. discriminate.
Qed.
Lemma pos_in_some l c j : pos_in l c = Some j -> nth_error l j = Some c.
Proof. intros E. apply index_of_some in E. destruct E as [_ E]. now rewrite Nat.sub_0_r in E. Qed.
Lemma pos_in_none l c : pos_in l c = None -> ~ In c l.
Proof.
  unfold pos_in. generalize 0. induction l as [|x l IH]; intros m; cbn; [tauto|]. destruct (Nat.eqb_spec x c); [discriminate|]. intros E [X|X]; [congruence|exact (IH _ E X)].
Qed.
Lemma nth_split2 (l : list nat) i j x y : i < j -> nth_error l i = Some x -> nth_error l j = Some y -> exists l1 l2 l3, l = l1 ++ x :: l2 ++ y :: l3.
Proof.
  intros Hij Hi Hj. apply nth_error_split in Hi. destruct Hi as [l1 [l' [-> <-]]].
  rewrite nth_error_app2 in Hj by lia. destruct (j - length l1) as [|k] eqn:E; [lia|]. cbn in Hj. apply nth_error_split in Hj. destruct Hj as [l2 [l3 [-> _]]]. eauto.
Qed.
Lemma compare_spec s a b : forest s -> exists_node s a -> exists_node s b -> same_tree s a b -> a <> b ->
  exists x y, compare_nodes s a b = Cmp x y /\ meaning s a b x y.
Proof.
  intros F Ea Eb [t [Ta Tb]] Hab. unfold compare_nodes. destruct (Nat.eqb_spec a b); [contradiction|].
  destruct (top_ex s a F Ea) as [ra [da TA]]. destruct (top_ex s b F Eb) as [rb [db TB]]. rewrite TA, TB.
  pose proof (top_bound _ _ _ _ _ TA) as BA. pose proof (top_bound _ _ _ _ _ TB) as BB.
  apply top_spec in TA, TB. destruct TA as [UA RA], TB as [UB RB].
  (* one root *)
  assert (forall x y, above_or_self (parent_of s) x y -> exists k, up s k y = Some x) as AU.
  { intros x y [->|H]; [exists 0; reflexivity|]. induction H as [y P|y q P H [k IH]]; [exists 1; cbn; now rewrite P|]. exists (S k). cbn. now rewrite P. }
  assert (ra = rb) as <-.
  { destruct (AU _ _ Ta) as [k1 U1]. destruct (AU _ _ Tb) as [k2 U2].
    assert (exists_node s t) as Et. { destruct Ta as [->|H]; [exact Ea|]. assert (exists z, parent_of s z = Some t) as [z Z] by (clear - H; induction H; eauto). destruct (f_parent s F t z Z) as [k [K _]]. eapply kind_exists; eauto. }
    destruct (top_ex s t F Et) as [rt [dt TT]]. apply top_spec in TT. destruct TT as [UT RT].
    assert (up s (k1 + dt) a = Some rt) as X1 by (rewrite up_add, U1; exact UT). assert (up s (k2 + dt) b = Some rt) as X2 by (rewrite up_add, U2; exact UT).
    destruct (up_root_fun s _ _ _ _ _ UA RA X1 RT) as [_ ->]. destruct (up_root_fun s _ _ _ _ _ UB RB X2 RT) as [_ ->]. reflexivity. }
  assert (oN_eqb (doc_index s ra) (doc_index s ra) = true) as ->.
  { destruct (doc_index s ra); [apply N.eqb_refl|reflexivity]. }
  cbn [negb]. rewrite Nat.eqb_refl. cbn [negb].
  assert (above_or_self (parent_of s) ra a) as RAa by (eapply up_aos; eauto). assert (above_or_self (parent_of s) ra b) as RAb by (eapply up_aos; eauto).
  destruct ((0 <? da) && (0 <? db)) eqn:D.
  2:{ eexists. eexists. split; [reflexivity|]. apply andb_false_iff in D.
      assert (da = 0 \/ db = 0) as D' by (destruct D as [D|D]; apply Nat.ltb_ge in D; lia).
      assert (da = 0 -> 0 < db /\ above (parent_of s) a b) as Z1.
      { intros ->. cbn in UA. injection UA as <-. destruct RAb as [|X]; [congruence|]. split; [|exact X]. destruct db; [cbn in UB; congruence|lia]. }
      assert (db = 0 -> 0 < da /\ above (parent_of s) b a) as Z2.
      { intros ->. cbn in UB. injection UB as <-. destruct RAa as [|X]; [congruence|]. split; [|exact X]. destruct da; [cbn in UA; congruence|lia]. }
      unfold meaning. destruct D' as [D'|D'].
      - destruct (Z1 D') as [L A]. split; [intros _; now apply before_above|]. split; intros; lia.
      - destruct (Z2 D') as [L A]. split; [intros; lia|]. split; [intros _; now apply before_above|intros; lia]. }
  assert (exists a', up s (da - db) a = Some a' /\ up s (Nat.min da db) a' = Some ra) as [a' [Ua' Ra']].
  { replace da with ((da - db) + Nat.min da db) in UA by lia. rewrite up_add in UA. destruct (up s (da - db) a); [eauto|discriminate]. }
  assert (exists b', up s (db - da) b = Some b' /\ up s (Nat.min da db) b' = Some ra) as [b' [Ub' Rb']].
  { replace db with ((db - da) + Nat.min da db) in UB by lia. rewrite up_add in UB. destruct (up s (db - da) b); [eauto|discriminate]. }
  rewrite Ua', Ub'. destruct (Nat.eqb_spec a' b') as [<-|Hne].
  - eexists. eexists. split; [reflexivity|]. unfold meaning. split; [|split].
    + intros L. apply before_above. assert (da - db = 0) as E by lia. rewrite E in Ua'. cbn in Ua'. injection Ua' as <-.
      destruct (db - da) as [|k] eqn:E2; [lia|]. eapply up_above; eauto.
    + intros L. apply before_above. assert (db - da = 0) as E by lia. rewrite E in Ub'. cbn in Ub'. injection Ub' as <-.
      destruct (da - db) as [|k] eqn:E2; [lia|]. eapply up_above; eauto.
    + intros L. assert (da - db = 0) as E by lia. assert (db - da = 0) as E2 by lia. rewrite E in Ua'. rewrite E2 in Ub'. cbn in *. congruence.
  - destruct (meet_spec s (Nat.min da db) (S (length (s_nodes s))) a' b' ra ltac:(lia) Hne Ra' Rb' RA) as [a2 [b2 [p [E [N2 [P1 [P2 [A1 A2]]]]]]]]. rewrite E.
    destruct (sibling_get s p a2 F P1) as [n0 [G [C H]]]. rewrite G, C.
    pose proof (positions_spec (n_cells n0) (kids s p) a2 b2 H (f_nodup s F p) N2 (length (kids s p)) 0 (-1)%Z (-1)%Z eq_refl ltac:(intros; lia) ltac:(intros; lia) ltac:(reflexivity) ltac:(reflexivity)) as PS.
    destruct (positions (n_cells n0) a2 b2 0 (length (kids s p)) (-1) (-1)) as [x y]. destruct PS as [PX PY]. exists x, y. split; [reflexivity|].
    assert (above_or_self (parent_of s) a2 a) as AA by (eapply aos_trans; [exact A1|eapply up_aos; eauto]).
    assert (above_or_self (parent_of s) b2 b) as BB2 by (eapply aos_trans; [exact A2|eapply up_aos; eauto]).
    assert (forall c, parent_of s c = Some p -> pos_in (kids s p) c = None -> kind_of s c = Some KAttr /\ In c (attrs_of s p)) as AT.
    { intros c Pc Q. apply pos_in_none in Q. assert (kind_of s c = Some KAttr) as K.
      { destruct (parent_ex s c p Pc) as [m [Gm _]]. rewrite (kind_get s c m Gm). destruct (n_kind m) eqn:KM; [| | | | |reflexivity]; exfalso; apply Q, (f_link s F); (split; [exact Pc|rewrite (kind_get s c m Gm), KM; discriminate]). }
      split; [exact K|]. apply (f_alink s F). auto. }
    unfold meaning. destruct (pos_in (kids s p) a2) as [i|] eqn:I1; destruct (pos_in (kids s p) b2) as [j|] eqn:I2; subst x y.
    + apply pos_in_some in I1, I2. split; [|split].
      * intros L. destruct (nth_split2 (kids s p) i j a2 b2 ltac:(lia) I1 I2) as [l1 [l2 [l3 K]]]. eapply before_kids; eauto.
      * intros L. destruct (nth_split2 (kids s p) j i b2 a2 ltac:(lia) I2 I1) as [l1 [l2 [l3 K]]]. eapply before_kids; eauto.
      * intros L. assert (i = j) by lia. congruence.
    + destruct (AT b2 P2 I2) as [KB IB]. apply pos_in_some in I1. split; [intros; lia|]. split; [|intros; lia]. intros _.
      rewrite <- (attr_no_descendant s b2 b F KB BB2). eapply before_attr; [exact IB|eapply nth_error_In; exact I1|exact AA].
    + destruct (AT a2 P1 I1) as [KA IA]. apply pos_in_some in I2. split; [|split; intros; lia]. intros _.
      rewrite <- (attr_no_descendant s a2 a F KA AA). eapply before_attr; [exact IA|eapply nth_error_In; exact I2|exact BB2].
    + destruct (AT a2 P1 I1) as [KA IA]. destruct (AT b2 P2 I2) as [KB IB]. split; [intros; lia|]. split; [intros; lia|]. intros _.
      rewrite <- (attr_no_descendant s a2 a F KA AA), <- (attr_no_descendant s b2 b F KB BB2). split; [exact N2|eauto].
Qed.
