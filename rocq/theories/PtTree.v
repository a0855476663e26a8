(** * Lemmas on the sets and decision trees of the streaming matcher *)
From Coq Require Import NArith ZArith String List Bool Lia Arith Sorted Permutation.
From Verif Require Import PyStr PyErr PtModel PtSpec.
Import ListNotations.
Open Scope nat_scope.

(** ** Sorted sets *)
Notation ssorted := (StronglySorted lt).
Lemma in_insert : forall x y s, In y (insert x s) <-> y = x \/ In y s.
Proof.
  induction s as [|z s IH]; cbn [insert In]; [intuition (subst; auto)|].
  destruct (x <? z) eqn:E; [cbn; intuition (subst; auto)|].
  destruct (x =? z) eqn:F.
  - apply Nat.eqb_eq in F. subst. cbn. intuition (subst; auto).
  - cbn. rewrite IH. intuition (subst; auto).
Qed.
Lemma insert_sorted : forall x s, ssorted s -> ssorted (insert x s).
Proof.
  induction s as [|z s IH]; cbn [insert]; intros H; [repeat constructor|].
  inversion H as [|? ? Hs Hf]; subst.
  destruct (x <? z) eqn:E.
  - apply Nat.ltb_lt in E. constructor; [exact H|]. constructor; [exact E|].
    eapply Forall_impl; [|exact Hf]. cbn. lia.
  - apply Nat.ltb_ge in E. destruct (x =? z) eqn:F; [exact H|]. apply Nat.eqb_neq in F.
    constructor; [apply IH; exact Hs|]. apply Forall_forall. intros y Hy. apply in_insert in Hy. destruct Hy as [->|Hy]; [lia|].
    rewrite Forall_forall in Hf. apply Hf. exact Hy.
Qed.
Lemma ssorted_ext : forall s t, ssorted s -> ssorted t -> (forall x, In x s <-> In x t) -> s = t.
Proof.
  induction s as [|a s IH]; intros t Hs Ht H.
  - destruct t as [|b t]; [reflexivity|]. exfalso. apply (H b). left. reflexivity.
  - destruct t as [|b t]; [exfalso; apply (H a); left; reflexivity|].
    inversion Hs as [|? ? Hs' Fs]; subst. inversion Ht as [|? ? Ht' Ft]; subst.
    rewrite Forall_forall in Fs, Ft.
    assert (a = b) as ->.
    { destruct (proj1 (H a) (or_introl eq_refl)) as [->|A]; [reflexivity|].
      destruct (proj2 (H b) (or_introl eq_refl)) as [->|B]; [reflexivity|].
      specialize (Fs _ B). specialize (Ft _ A). lia. }
    f_equal. apply IH; [exact Hs'|exact Ht'|]. intros x. split; intros Hx.
    + destruct (proj1 (H x) (or_intror Hx)) as [->|A]; [|exact A]. specialize (Fs _ Hx). lia.
    + destruct (proj2 (H x) (or_intror Hx)) as [->|A]; [|exact A]. specialize (Ft _ Hx). lia.
Qed.
Lemma set_eqb_eq : forall s t, set_eqb s t = true <-> s = t.
Proof.
  induction s as [|a s IH]; intros [|b t]; cbn; try (split; [discriminate|discriminate]).
  - split; reflexivity.
  - rewrite andb_true_iff, Nat.eqb_eq, IH. split; [intros [-> ->]; reflexivity|intros [= -> ->]; split; reflexivity].
Qed.
Lemma set_mem_in : forall s l, set_mem s l = true <-> In s l.
Proof.
  intros s l. unfold set_mem. rewrite existsb_exists. split.
  - intros (x & Hx & E). apply set_eqb_eq in E. subst. exact Hx.
  - intros H. exists s. split; [exact H|apply set_eqb_eq; reflexivity].
Qed.
Lemma memb_in : forall x s, memb x s = true <-> In x s.
Proof.
  intros x s. unfold memb. rewrite existsb_exists. split.
  - intros (y & Hy & E). apply Nat.eqb_eq in E. subst. exact Hy.
  - intros H. exists x. split; [exact H|apply Nat.eqb_refl].
Qed.
Lemma in_dedup : forall l s, In s (dedup l) <-> In s l /\ s <> [].
Proof.
  induction l as [|a l IH]; intros s; cbn; [intuition|].
  destruct a as [|x a].
  - rewrite IH. intuition congruence.
  - destruct (set_mem (x :: a) (dedup l)) eqn:E.
    + apply set_mem_in in E. rewrite IH in E |- *. intuition (subst; auto).
    + cbn [In]. rewrite IH. intuition (subst; auto; congruence).
Qed.
Lemma nodup_dedup : forall l, NoDup (dedup l).
Proof.
  induction l as [|a l IH]; cbn; [constructor|].
  destruct a as [|x a]; [exact IH|]. destruct (set_mem (x :: a) (dedup l)) eqn:E; [exact IH|].
  constructor; [|exact IH]. intros H. apply set_mem_in in H. congruence.
Qed.
Lemma opt_eqb_eq : forall a b, opt_eqb a b = true <-> a = b.
Proof.
  intros [a|] [b|]; cbn; try (split; [discriminate|discriminate]); [|split; reflexivity].
  rewrite str_eqb_eq. split; [intros ->; reflexivity|intros [= ->]; reflexivity].
Qed.

(** ** What a test matches *)
Definition tmatch (t : test) (k : kind) : bool :=
  match t, k with
  | TAny, KElem _ => true
  | TNode ns ln _, KElem nm => test_name ns ln nm
  | TAttr ns ln, KAttr nm => test_name ns ln nm
  | TPi t, KPi t' => opt_eqb t (Some t')
  | _, _ => false
  end.
Fixpoint decide (b : tree) (k : kind) : list nat :=
  match b with Leaf s => s | Branch t x y => if tmatch t k then decide x k else decide y k end.
Definition tree_for (tb : table) (k : kind) : tree := match k with KElem _ => node_tree tb | KAttr _ => attr_tree tb | KPi _ => pi_tree tb end.
Fixpoint tests (b : tree) : list test := match b with Leaf _ => [] | Branch t x y => t :: tests x ++ tests y end.
(** At node [k], two tests that hold are the same. *)
Definition agree (l : list test) (k : kind) : Prop :=
  forall t u, In t l -> In u l -> t <> TAny -> u <> TAny -> tmatch t k = true -> tmatch u k = true -> t = u.
Definition good_test (t : test) : Prop := match t with TNode _ _ p => p = false | _ => True end.
Definition same_kind (t u : test) : Prop := match_type t = match_type u.

Lemma decide_leaves : forall b k, In (decide b k) (leaves b).
Proof.
  induction b as [s|t x IHx y IHy]; intros k; cbn; [left; reflexivity|].
  apply in_or_app. destruct (tmatch t k); [left; apply IHx|right; apply IHy].
Qed.
Lemma decide_add_leaves : forall b id k, decide (add_to_leaves b id) k = insert id (decide b k).
Proof. induction b as [s|t x IHx y IHy]; intros id k; cbn; [reflexivity|]. destruct (tmatch t k); [apply IHx|apply IHy]. Qed.
Lemma tests_add_leaves : forall b id, tests (add_to_leaves b id) = tests b.
Proof. induction b as [s|t x IHx y IHy]; intros id; cbn; [reflexivity|]. rewrite IHx, IHy. reflexivity. Qed.

(** ** The shape of the trees: the true side is a leaf; no test twice *)
Fixpoint comb (b : tree) : Prop := match b with Leaf _ => True | Branch t x y => (exists s, x = Leaf s) /\ ~ In t (tests y) /\ comb y end.
(** The leaf reached when no test holds; and: no other leaf is empty. *)
Fixpoint last_leaf (b : tree) : list nat := match b with Leaf s => s | Branch _ _ y => last_leaf y end.
Fixpoint full (b : tree) : Prop := match b with Leaf _ => True | Branch _ x y => x <> Leaf [] /\ full y end.
Lemma insert_not_nil : forall x s, insert x s <> [].
Proof. intros x s H. assert (In x (insert x s)) as K by (apply in_insert; left; reflexivity). rewrite H in K. exact K. Qed.
Fixpoint sorted_leaves (b : tree) : Prop := match b with Leaf s => ssorted s | Branch _ x y => sorted_leaves x /\ sorted_leaves y end.
Lemma comb_add_leaves : forall b id, comb b -> comb (add_to_leaves b id).
Proof.
  induction b as [s|t x IHx y IHy]; intros id H; cbn in *; [exact I|].
  destruct H as ((s & ->) & N & C). split; [exists (insert id s); reflexivity|]. rewrite tests_add_leaves. split; [exact N|apply IHy; exact C].
Qed.
Lemma sorted_add_leaves : forall b id, sorted_leaves b -> sorted_leaves (add_to_leaves b id).
Proof.
  induction b as [s|t x IHx y IHy]; intros id H; cbn in *; [apply insert_sorted; exact H|].
  destruct H. split; [apply IHx|apply IHy]; assumption.
Qed.
Lemma sorted_leaves_decide : forall b k, sorted_leaves b -> ssorted (decide b k).
Proof. induction b as [s|t x IHx y IHy]; intros k H; cbn in *; [exact H|]. destruct H. destruct (tmatch t k); [apply IHx|apply IHy]; assumption. Qed.
Lemma sorted_leaves_in : forall b s, sorted_leaves b -> In s (leaves b) -> ssorted s.
Proof.
  induction b as [s|t x IHx y IHy]; intros s' H HI; cbn in *; [destruct HI as [->|[]]; exact H|].
  destruct H. apply in_app_or in HI. destruct HI; [apply IHx|apply IHy]; assumption.
Qed.

(** What the intersect functions do below the root, for tests of the right kind. *)
Definition intersect_of (t : test) : option test -> test -> result (answer * answer) :=
  match t with TAny | TNode _ _ _ => node_intersect | TAttr _ _ => attr_intersect | TPi _ => pi_intersect end.
Lemma test_eq_node : forall ns ln ns' ln', opt_eqb ns' ns && opt_eqb ln' ln = true <-> (ns', ln') = (ns, ln).
Proof.
  intros. rewrite andb_true_iff, !opt_eqb_eq. split; [intros [-> ->]; reflexivity|intros [= -> ->]; split; reflexivity].
Qed.
Lemma intersect_named : forall p t, good_test p -> good_test t -> same_kind p t -> p <> TAny -> t <> TAny ->
  (p = t /\ intersect_of t (Some p) t = Ok (AYes, ANo)) \/ (p <> t /\ intersect_of t (Some p) t = Ok (ANo, ATest t)).
Proof.
  intros p t Gp Gt K Np Nt.
  destruct p as [|ns' ln' p'|ns' ln'|t']; destruct t as [|ns ln p|ns ln|t]; cbn in K; try discriminate K; try congruence; cbn in Gp, Gt; subst; cbn [intersect_of node_intersect attr_intersect pi_intersect].
  - destruct (opt_eqb ns' ns && opt_eqb ln' ln) eqn:E.
    + apply test_eq_node in E. inversion E; subst. left. split; reflexivity.
    + right. split; [|reflexivity]. intros [= -> ->]. rewrite (proj2 (test_eq_node ns ln ns ln) eq_refl) in E. discriminate.
  - destruct (opt_eqb ns' ns && opt_eqb ln' ln) eqn:E.
    + apply test_eq_node in E. inversion E; subst. left. split; reflexivity.
    + right. split; [|reflexivity]. intros [= -> ->]. rewrite (proj2 (test_eq_node ns ln ns ln) eq_refl) in E. discriminate.
  - destruct (opt_eqb t' t) eqn:E.
    + apply opt_eqb_eq in E. subst. left. split; reflexivity.
    + right. split; [|reflexivity]. intros [= ->]. rewrite (proj2 (opt_eqb_eq t t) eq_refl) in E. discriminate.
Qed.
Lemma intersect_any : forall p, good_test p -> match_type p = MNode -> p <> TAny -> node_intersect (Some p) TAny = Ok (AYes, AYes).
Proof. intros [|ns ln p|ns ln|t] G K N; try discriminate K; try congruence; cbn in G; subst; reflexivity. Qed.
Lemma intersect_root : forall t, good_test t -> t <> TAny -> intersect_of t None t = Ok (ATest t, ANo).
Proof. intros [|ns ln p|ns ln|t] G N; try congruence; cbn in G; subst; reflexivity. Qed.

(** ** Adding a named test *)
Record tree_ok (mt : mtype) (b : tree) : Prop := {
  ok_tests : forall t, In t (tests b) -> good_test t /\ t <> TAny /\ match_type t = mt;
  ok_comb : comb b;
  ok_sorted : sorted_leaves b }.

Lemma add_branch_eq : forall i p x y t id, add_branch i (Branch p x y) t id =
  (do a <- i (Some p) t ;
   let (at_, af) := a : answer * answer in
   do x' <- place at_ x id (fun t => add_branch i x t id) ;
   do y' <- place af y id (fun t => add_branch i y t id) ;
   Ok (Branch p x' y')).
Proof. reflexivity. Qed.
Lemma add_named_branch : forall p x y t id, good_test t -> t <> TAny -> tree_ok (match_type t) (Branch p x y) ->
  exists b', add_branch (intersect_of t) (Branch p x y) t id = Ok b' /\ tree_ok (match_type t) b' /\ is_branch b' = true /\
    last_leaf b' = last_leaf (Branch p x y) /\ (full (Branch p x y) -> full b') /\
    (forall u, In u (tests b') <-> u = t \/ In u (tests (Branch p x y))) /\
    (forall k, agree (t :: tests (Branch p x y)) k -> decide b' k = if tmatch t k then insert id (decide (Branch p x y) k) else decide (Branch p x y) k).
Proof.
  intros p x y t id Gt Nt. revert p x. induction y as [sy|q y1 _ y2 IH]; intros p x [OT OC OS].
  - destruct (OT p (or_introl eq_refl)) as (Gp & Np & Kp). cbn in OC, OS. destruct OC as ((sx & ->) & Nin & _). destruct OS as [Sx Sy]. cbn in Sx, Sy.
    destruct (intersect_named p t Gp Gt Kp Np Nt) as [[-> E]|[D E]].
    + rewrite add_branch_eq, E. cbn [bind place add_to_leaves].
      exists (Branch t (Leaf (insert id sx)) (Leaf sy)). split; [reflexivity|]. split.
      { constructor; cbn.
        - intros u [<-|[]]. repeat apply conj; assumption || reflexivity.
        - repeat apply conj; [exists (insert id sx); reflexivity|intros []|exact I].
        - split; [apply insert_sorted; exact Sx|exact Sy]. }
      split; [reflexivity|]. split; [reflexivity|]. split; [cbn; intros F; repeat apply conj; try tauto; intros [= Z]; apply (insert_not_nil _ _ Z)|]. split; [cbn; intuition|]. intros k _. cbn. destruct (tmatch t k); reflexivity.
    + rewrite add_branch_eq, E. cbn [bind place].
      exists (Branch p (Leaf sx) (Branch t (Leaf (insert id sy)) (Leaf sy))). split; [reflexivity|]. split.
      { constructor; cbn.
        - intros u [<-|[<-|[]]]; repeat apply conj; assumption || reflexivity.
        - repeat apply conj; [exists sx; reflexivity|intros [->|[]]; congruence|exists (insert id sy); reflexivity|intros []|exact I].
        - repeat apply conj; [exact Sx|apply insert_sorted; exact Sy|exact Sy]. }
      split; [reflexivity|]. split; [reflexivity|]. split; [cbn; intros F; repeat apply conj; try tauto; intros [= Z]; apply (insert_not_nil _ _ Z)|]. split; [cbn; intuition|]. intros k A. cbn. destruct (tmatch p k) eqn:P.
      * destruct (tmatch t k) eqn:T; [|reflexivity]. exfalso. apply D. apply (A p t); cbn; auto.
      * destruct (tmatch t k); reflexivity.
  - destruct (OT p (or_introl eq_refl)) as (Gp & Np & Kp). cbn in OC, OS. destruct OC as ((sx & ->) & Nin & OC). destruct OS as [Sx OS]. cbn in Sx.
    assert (tree_ok (match_type t) (Branch q y1 y2)) as Oky.
    { constructor; [|exact OC|exact OS]. intros u Hu. apply OT. cbn. right. exact Hu. }
    destruct (intersect_named p t Gp Gt Kp Np Nt) as [[-> E]|[D E]].
    + rewrite add_branch_eq, E. cbn [bind place add_to_leaves].
      exists (Branch t (Leaf (insert id sx)) (Branch q y1 y2)). split; [reflexivity|]. split.
      { constructor.
        - intros u [<-|Hu]; [repeat apply conj; assumption || reflexivity|]. apply OT. right. exact Hu.
        - cbn. repeat apply conj; [exists (insert id sx); reflexivity|exact Nin|apply OC|apply OC|apply OC].
        - cbn. repeat apply conj; [apply insert_sorted; exact Sx|apply OS|apply OS]. }
      split; [reflexivity|]. split; [reflexivity|]. split; [cbn; intros F; repeat apply conj; try tauto; intros [= Z]; apply (insert_not_nil _ _ Z)|]. split; [cbn; intuition|]. intros k _. cbn. destruct (tmatch t k); reflexivity.
    + destruct (IH q y1 Oky) as (b' & E' & Ok' & Br & LL & FF & T' & Dc).
      rewrite add_branch_eq, E. cbn [bind place].
      rewrite E'. cbn [bind].
      exists (Branch p (Leaf sx) b'). split; [reflexivity|]. split.
      { constructor.
        - intros u [<-|Hu]; [repeat apply conj; assumption|]. apply (ok_tests _ _ Ok'). exact Hu.
        - cbn. repeat apply conj; [exists sx; reflexivity| |apply (ok_comb _ _ Ok')].
          intros Hu. apply T' in Hu. destruct Hu as [->|Hu]; [congruence|]. apply Nin. exact Hu.
        - cbn. split; [exact Sx|apply (ok_sorted _ _ Ok')]. }
      split; [reflexivity|]. split; [exact LL|]. split; [intros (F1 & F2); split; [exact F1|apply FF; exact F2]|]. split.
      { intros u. cbn. rewrite T'. cbn. intuition. }
      intros k A. cbn [decide]. rewrite Dc; [cbn [decide]|].
      * destruct (tmatch p k) eqn:P; [|reflexivity]. destruct (tmatch t k) eqn:T; [|reflexivity]. exfalso. apply D. apply (A p t); cbn; auto.
      * intros u v Hu Hv. apply A; cbn in Hu, Hv |- *; tauto.
Qed.

Lemma add_named : forall b t id, good_test t -> t <> TAny -> tree_ok (match_type t) b ->
  exists b', add_root (intersect_of t) b t id = Ok b' /\ tree_ok (match_type t) b' /\ is_branch b' = true /\
    last_leaf b' = last_leaf b /\ (full b -> full b') /\
    (forall u, In u (tests b') <-> u = t \/ In u (tests b)) /\
    (forall k, agree (t :: tests b) k -> decide b' k = if tmatch t k then insert id (decide b k) else decide b k).
Proof.
  intros b t id Gt Nt Ok. unfold add_root. rewrite (intersect_root t Gt Nt). cbn [bind fst].
  destruct b as [s|p x y].
  - cbn [place]. exists (Branch t (Leaf (insert id s)) (Leaf s)). split; [reflexivity|]. destruct Ok as [OT OC OS]. cbn in OS. split.
    { constructor; cbn.
      - intros u [<-|[]]. repeat apply conj; assumption || reflexivity.
      - repeat apply conj; [exists (insert id s); reflexivity|intros []|exact I].
      - split; [apply insert_sorted; exact OS|exact OS]. }
    split; [reflexivity|]. split; [reflexivity|]. split; [cbn; intros F; split; [intros [= Z]; apply (insert_not_nil _ _ Z)|exact I]|]. split; [cbn; intuition|]. intros k _. reflexivity.
  - cbn [place]. apply add_named_branch; assumption.
Qed.

Lemma add_any : forall b id, tree_ok MNode b -> add_root node_intersect b TAny id = Ok (add_to_leaves b id) /\ tree_ok MNode (add_to_leaves b id).
Proof.
  intros b id [OT OC OS]. split; [reflexivity|]. constructor.
  - rewrite tests_add_leaves. exact OT.
  - apply comb_add_leaves. exact OC.
  - apply sorted_add_leaves. exact OS.
Qed.

(** ** The table of a list of edges *)
Record table_ok (l : list edge) (tb : table) : Prop := {
  tok_node : tree_ok MNode (node_tree tb);
  tok_attr : tree_ok MAttr (attr_tree tb);
  tok_pi : tree_ok MPi (pi_tree tb);
  tok_tests : forall u, In u (tests (node_tree tb) ++ tests (attr_tree tb) ++ tests (pi_tree tb)) <-> u <> TAny /\ exists id, In (id, u) l;
  tok_last : last_leaf (attr_tree tb) = [] /\ last_leaf (pi_tree tb) = [] /\ full (attr_tree tb) /\ full (pi_tree tb);
  tok_branch : (exists id ns ln p, In (id, TNode ns ln p) l) -> is_branch (node_tree tb) = true;
  tok_decide : forall k, agree (map snd l) k -> forall id, In id (decide (tree_for tb k) k) <-> exists t, In (id, t) l /\ tmatch t k = true }.

Lemma agree_incl : forall l l' k, incl l' l -> agree l k -> agree l' k.
Proof. intros l l' k H A t u Ht Hu. apply A; apply H; assumption. Qed.

Lemma table_add_ok : forall l tb id t, good_test t -> table_ok l tb -> exists tb', table_add tb (id, t) = Ok tb' /\ table_ok (l ++ [(id, t)]) tb'.
Proof.
  intros l tb id t Gt [N A P T L B D].
  assert (forall k, agree (map snd (l ++ [(id, t)])) k -> agree (map snd l) k) as AL.
  { intros k. apply agree_incl. rewrite map_app. apply incl_appl, incl_refl. }
  assert (t = TAny \/ t <> TAny) as [->|Nt] by (destruct t; auto; right; discriminate).
  - cbn [table_add]. destruct (add_any (node_tree tb) id N) as [E O]. rewrite E. cbn [bind]. eexists. split; [reflexivity|]. constructor; cbn [node_tree attr_tree pi_tree].
    + exact O.
    + exact A.
    + exact P.
    + intros u. rewrite tests_add_leaves, T. split; intros (Hu & i & Hi); (split; [exact Hu|]).
      * exists i. apply in_or_app. left. exact Hi.
      * apply in_app_or in Hi. destruct Hi as [Hi|[Hi|[]]]; [exists i; exact Hi|congruence].
    + exact L.
    + intros (i & ns & ln & p & Hi). apply in_app_or in Hi. destruct Hi as [Hi|[Hi|[]]]; [|congruence].
      assert (is_branch (node_tree tb) = true) as Bt by (apply B; exists i, ns, ln, p; exact Hi).
      destruct (node_tree tb); [discriminate|reflexivity].
    + intros k Ag i. specialize (D k (AL k Ag) i). destruct k as [nm|nm|tg]; cbn [tree_for node_tree attr_tree pi_tree] in *.
      * rewrite decide_add_leaves, in_insert, D. split.
        -- intros [->|(u & Hu & M)]; [exists TAny; split; [apply in_or_app; right; left; reflexivity|reflexivity]|exists u; split; [apply in_or_app; left; exact Hu|exact M]].
        -- intros (u & Hu & M). apply in_app_or in Hu. destruct Hu as [Hu|[[= <- <-]|[]]]; [right; exists u; split; assumption|left; reflexivity].
      * rewrite D. split; intros (u & Hu & M); exists u; (split; [|exact M]).
        -- apply in_or_app. left. exact Hu.
        -- apply in_app_or in Hu. destruct Hu as [Hu|[[= <- <-]|[]]]; [exact Hu|discriminate M].
      * rewrite D. split; intros (u & Hu & M); exists u; (split; [|exact M]).
        -- apply in_or_app. left. exact Hu.
        -- apply in_app_or in Hu. destruct Hu as [Hu|[[= <- <-]|[]]]; [exact Hu|discriminate M].
  - assert (forall b, (forall u, In u (tests b) -> In u (tests (node_tree tb) ++ tests (attr_tree tb) ++ tests (pi_tree tb))) ->
              forall k, agree (map snd (l ++ [(id, t)])) k -> agree (t :: tests b) k) as AG.
    { intros b Hb k. apply agree_incl. intros u [<-|Hu].
      - rewrite map_app. apply in_or_app. right. left. reflexivity.
      - apply Hb, T in Hu. destruct Hu as (_ & i & Hi). rewrite map_app. apply in_or_app. left. apply in_map_iff. exists (i, u). split; [reflexivity|exact Hi]. }
    destruct t as [|ns ln p|ns ln|tg]; [congruence| | |].
    + destruct (add_named (node_tree tb) (TNode ns ln p) id Gt Nt N) as (b' & E & O & Br & LL & FF & T' & Dc).
      cbn [table_add]. cbn [intersect_of] in E. rewrite E. cbn [bind]. eexists. split; [reflexivity|]. constructor; cbn [node_tree attr_tree pi_tree].
      * exact O.
      * exact A.
      * exact P.
      * intros u. specialize (T u). rewrite !in_app_iff in T |- *. rewrite T'. split.
        -- intros [[->|Hu]|Hu]; [split; [exact Nt|exists id; apply in_or_app; right; left; reflexivity]| |];
           (destruct T as [T _]; destruct T as (Hn & i & Hi); [tauto|]; split; [exact Hn|exists i; apply in_or_app; left; exact Hi]).
        -- intros (Hn & i & Hi). apply in_app_or in Hi. destruct Hi as [Hi|[[= _ <-]|[]]]; [|tauto].
           destruct T as [_ T]. destruct T as [T|T]; [split; [exact Hn|exists i; exact Hi]|tauto|tauto].
      * exact L.
      * intros _. exact Br.
      * intros k Ag i. specialize (D k (AL k Ag) i). destruct k as [nm|nm|t']; cbn [tree_for node_tree attr_tree pi_tree] in *.
        -- rewrite Dc; [|apply AG; [intros u Hu; apply in_or_app; left; exact Hu|exact Ag]].
           destruct (tmatch (TNode ns ln p) (KElem nm)) eqn:M.
           ++ rewrite in_insert, D. split.
              ** intros [->|(u & Hu & Mu)]; [exists (TNode ns ln p); split; [apply in_or_app; right; left; reflexivity|exact M]|exists u; split; [apply in_or_app; left; exact Hu|exact Mu]].
              ** intros (u & Hu & Mu). apply in_app_or in Hu. destruct Hu as [Hu|[[= <- <-]|[]]]; [right; exists u; split; assumption|left; reflexivity].
           ++ rewrite D. split; intros (u & Hu & Mu); exists u; (split; [|exact Mu]).
              ** apply in_or_app. left. exact Hu.
              ** apply in_app_or in Hu. destruct Hu as [Hu|[[= <- <-]|[]]]; [exact Hu|congruence].
        -- rewrite D. split; intros (u & Hu & M); exists u; (split; [|exact M]).
           ++ apply in_or_app. left. exact Hu.
           ++ apply in_app_or in Hu. destruct Hu as [Hu|[[= <- <-]|[]]]; [exact Hu|discriminate M].
        -- rewrite D. split; intros (u & Hu & M); exists u; (split; [|exact M]).
           ++ apply in_or_app. left. exact Hu.
           ++ apply in_app_or in Hu. destruct Hu as [Hu|[[= <- <-]|[]]]; [exact Hu|discriminate M].
    + destruct (add_named (attr_tree tb) (TAttr ns ln) id Gt Nt A) as (b' & E & O & Br & LL & FF & T' & Dc).
      cbn [table_add]. cbn [intersect_of] in E. rewrite E. cbn [bind]. eexists. split; [reflexivity|]. constructor; cbn [node_tree attr_tree pi_tree].
      * exact N.
      * exact O.
      * exact P.
      * intros u. specialize (T u). rewrite !in_app_iff in T |- *. rewrite T'. split.
        -- intros [Hu|[[->|Hu]|Hu]]; [|split; [exact Nt|exists id; apply in_or_app; right; left; reflexivity]| |];
           (destruct T as [T _]; destruct T as (Hn & i & Hi); [tauto|]; split; [exact Hn|exists i; apply in_or_app; left; exact Hi]).
        -- intros (Hn & i & Hi). apply in_app_or in Hi. destruct Hi as [Hi|[[= _ <-]|[]]]; [|tauto].
           destruct T as [_ T]. destruct T as [T|[T|T]]; [split; [exact Hn|exists i; exact Hi]|tauto|tauto|tauto].
      * destruct L as (L1 & L2 & L3 & L4). rewrite LL. repeat apply conj; auto.
      * intros (i & n1 & l1 & p1 & Hi). apply in_app_or in Hi. destruct Hi as [Hi|[Hi|[]]]; [|congruence]. apply B. exists i, n1, l1, p1. exact Hi.
      * intros k Ag i. specialize (D k (AL k Ag) i). destruct k as [nm|nm|t']; cbn [tree_for node_tree attr_tree pi_tree] in *.
        -- rewrite D. split; intros (u & Hu & M); exists u; (split; [|exact M]).
           ++ apply in_or_app. left. exact Hu.
           ++ apply in_app_or in Hu. destruct Hu as [Hu|[[= <- <-]|[]]]; [exact Hu|discriminate M].
        -- rewrite Dc; [|apply AG; [intros u Hu; apply in_or_app; right; apply in_or_app; left; exact Hu|exact Ag]].
           destruct (tmatch (TAttr ns ln) (KAttr nm)) eqn:M.
           ++ rewrite in_insert, D. split.
              ** intros [->|(u & Hu & Mu)]; [exists (TAttr ns ln); split; [apply in_or_app; right; left; reflexivity|exact M]|exists u; split; [apply in_or_app; left; exact Hu|exact Mu]].
              ** intros (u & Hu & Mu). apply in_app_or in Hu. destruct Hu as [Hu|[[= <- <-]|[]]]; [right; exists u; split; assumption|left; reflexivity].
           ++ rewrite D. split; intros (u & Hu & Mu); exists u; (split; [|exact Mu]).
              ** apply in_or_app. left. exact Hu.
              ** apply in_app_or in Hu. destruct Hu as [Hu|[[= <- <-]|[]]]; [exact Hu|congruence].
        -- rewrite D. split; intros (u & Hu & M); exists u; (split; [|exact M]).
           ++ apply in_or_app. left. exact Hu.
           ++ apply in_app_or in Hu. destruct Hu as [Hu|[[= <- <-]|[]]]; [exact Hu|discriminate M].
    + destruct (add_named (pi_tree tb) (TPi tg) id Gt Nt P) as (b' & E & O & Br & LL & FF & T' & Dc).
      cbn [table_add]. cbn [intersect_of] in E. rewrite E. cbn [bind]. eexists. split; [reflexivity|]. constructor; cbn [node_tree attr_tree pi_tree].
      * exact N.
      * exact A.
      * exact O.
      * intros u. specialize (T u). rewrite !in_app_iff in T |- *. rewrite T'. split.
        -- intros [Hu|[Hu|[->|Hu]]]; [| |split; [exact Nt|exists id; apply in_or_app; right; left; reflexivity]|];
           (destruct T as [T _]; destruct T as (Hn & i & Hi); [tauto|]; split; [exact Hn|exists i; apply in_or_app; left; exact Hi]).
        -- intros (Hn & i & Hi). apply in_app_or in Hi. destruct Hi as [Hi|[[= _ <-]|[]]]; [|tauto].
           destruct T as [_ T]. destruct T as [T|[T|T]]; [split; [exact Hn|exists i; exact Hi]|tauto|tauto|tauto].
      * destruct L as (L1 & L2 & L3 & L4). rewrite LL. repeat apply conj; auto.
      * intros (i & n1 & l1 & p1 & Hi). apply in_app_or in Hi. destruct Hi as [Hi|[Hi|[]]]; [|congruence]. apply B. exists i, n1, l1, p1. exact Hi.
      * intros k Ag i. specialize (D k (AL k Ag) i). destruct k as [nm|nm|t']; cbn [tree_for node_tree attr_tree pi_tree] in *.
        -- rewrite D. split; intros (u & Hu & M); exists u; (split; [|exact M]).
           ++ apply in_or_app. left. exact Hu.
           ++ apply in_app_or in Hu. destruct Hu as [Hu|[[= <- <-]|[]]]; [exact Hu|discriminate M].
        -- rewrite D. split; intros (u & Hu & M); exists u; (split; [|exact M]).
           ++ apply in_or_app. left. exact Hu.
           ++ apply in_app_or in Hu. destruct Hu as [Hu|[[= <- <-]|[]]]; [exact Hu|discriminate M].
        -- rewrite Dc; [|apply AG; [intros u Hu; apply in_or_app; right; apply in_or_app; right; exact Hu|exact Ag]].
           destruct (tmatch (TPi tg) (KPi t')) eqn:M.
           ++ rewrite in_insert, D. split.
              ** intros [->|(u & Hu & Mu)]; [exists (TPi tg); split; [apply in_or_app; right; left; reflexivity|exact M]|exists u; split; [apply in_or_app; left; exact Hu|exact Mu]].
              ** intros (u & Hu & Mu). apply in_app_or in Hu. destruct Hu as [Hu|[[= <- <-]|[]]]; [right; exists u; split; assumption|left; reflexivity].
           ++ rewrite D. split; intros (u & Hu & Mu); exists u; (split; [|exact Mu]).
              ** apply in_or_app. left. exact Hu.
              ** apply in_app_or in Hu. destruct Hu as [Hu|[[= <- <-]|[]]]; [exact Hu|congruence].
Qed.

Lemma table_of_ok : forall l, (forall id t, In (id, t) l -> good_test t) -> exists tb, table_of l empty_table = Ok tb /\ table_ok l tb.
Proof.
  assert (forall l l0 tb, table_ok l0 tb -> (forall id t, In (id, t) l -> good_test t) -> exists tb', table_of l tb = Ok tb' /\ table_ok (l0 ++ l) tb') as H.
  { induction l as [|[id t] l IH]; intros l0 tb O G.
    - exists tb. rewrite app_nil_r. split; [reflexivity|exact O].
    - destruct (table_add_ok l0 tb id t) as (tb1 & E & O1); [apply (G id); left; reflexivity|exact O|].
      cbn [table_of]. rewrite E. cbn [bind]. destruct (IH _ _ O1) as (tb' & E' & O'); [intros i u Hi; apply (G i); right; exact Hi|].
      exists tb'. split; [exact E'|]. rewrite <- app_assoc in O'. exact O'. }
  intros l G. apply (H l [] empty_table); [|exact G].
  constructor; cbn.
  - constructor; cbn; [intros t []|exact I|constructor].
  - constructor; cbn; [intros t []|exact I|constructor].
  - constructor; cbn; [intros t []|exact I|constructor].
  - intros u. split; [intros []|intros (_ & i & [])].
  - repeat apply conj; reflexivity || exact I.
  - intros (i & n & x & p & []).
  - intros k _ id. destruct k; cbn; (split; [intros []|intros (t & [] & _)]).
Qed.
