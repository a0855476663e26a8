(** * Proofs about string values and the conversions of paths *)
From Coq Require Import NArith ZArith QArith String List Bool Lia Arith Sorted Permutation.
From Verif Require Import PyStr PyErr DomModel DomSpec DomCells DomInv DomOps DomStep DomOrder DomProps XpModel XpSpec XpTree XpAxes XpOrder XpSelect XpProps XpPath XpPathSpec XpPathSteps XpPathOrder XpPathEval XpNum XpNumSpec XpNumLemmas XpFuncs XpFuncSpec XpFuncNum XpFuncCmp XpString XpStringSpec.
Import ListNotations.
Local Open Scope nat_scope.

(** ** The buffer *)
Definition filled (st : buffer * nat) (acc : str) : Prop :=
  snd st = List.length acc /\ firstn (snd st) (fst st) = map Some acc /\ snd st <= List.length (fst st) /\ 0 < List.length (fst st).
Lemma doubled_ok : forall fuel u a, 0 < a -> u <= a + fuel -> exists n, doubled fuel u a = Ok n /\ u <= n /\ a <= n.
Proof.
  induction fuel as [|f IH]; intros u a A H; cbn [doubled]; destruct (Nat.leb_spec u a) as [L|L]; [exists a; auto|lia|exists a; auto|].
  destruct (IH u (2 * a)) as [n [E [N1 N2]]]; [lia|lia|]. exists n. split; [exact E|lia].
Qed.
Lemma length_resize b n : List.length (resize b n) = n.
Proof. unfold resize. rewrite app_length, firstn_length, repeat_length. lia. Qed.
Lemma firstn_resize b n k : k <= List.length b -> k <= n -> firstn k (resize b n) = firstn k b.
Proof.
  intros K N. unfold resize. rewrite firstn_app, firstn_length, firstn_firstn. replace (Nat.min k n) with k by lia. replace (k - Nat.min n (List.length b)) with 0 by lia. cbn. apply app_nil_r.
Qed.
Lemma copy_ok b u v : u + List.length v <= List.length b -> exists b', copy_to b u v = Ok b' /\ List.length b' = List.length b /\ firstn (u + List.length v) b' = firstn u b ++ map Some v.
Proof.
  intros H. unfold copy_to. destruct (Nat.ltb_spec (List.length b) (u + List.length v)); [lia|]. eexists. split; [reflexivity|]. split.
  - rewrite !app_length, map_length, firstn_length, skipn_length. lia.
  - rewrite app_assoc, firstn_app, app_length, map_length, firstn_length. replace (u + List.length v - (Nat.min u (List.length b) + List.length v)) with 0 by lia.
    cbn [firstn]. rewrite app_nil_r. apply firstn_all2. rewrite app_length, map_length, firstn_length. lia.
Qed.
Lemma append_ok st acc v : filled st acc -> exists st', append_text st v = Ok st' /\ filled st' (acc ++ v).
Proof.
  destruct st as [b u]. unfold filled. cbn [fst snd]. intros [U [C [L P]]]. unfold append_text.
  assert (exists b1, (if List.length b <? u + List.length v then do n <- doubled (u + List.length v) (u + List.length v) (List.length b) ; Ok (resize b n) else Ok b) = Ok b1 /\ u + List.length v <= List.length b1 /\ 0 < List.length b1 /\ firstn u b1 = firstn u b) as [b1 [E [L1 [P1 C1]]]].
  { destruct (Nat.ltb_spec (List.length b) (u + List.length v)).
    - destruct (doubled_ok (u + List.length v) (u + List.length v) (List.length b)) as [n [D [N1 N2]]]; [exact P|lia|]. rewrite D. cbn [bind]. exists (resize b n). split; [reflexivity|].
      rewrite length_resize. split; [exact N1|]. split; [lia|]. apply firstn_resize; lia.
    - exists b. auto. }
  rewrite E. cbn [bind]. destruct (copy_ok b1 u v L1) as [b2 [E2 [L2 C2]]]. rewrite E2. cbn [bind]. exists (b2, u + List.length v). split; [reflexivity|]. cbn [fst snd].
  rewrite app_length, C2, C1, C, map_app. repeat split; try lia.
Qed.
Lemma contents_map v : contents (map Some v) = Ok v.
Proof. induction v as [|c v IH]; cbn; [reflexivity|]. now rewrite IH. Qed.

(** ** The subtree *)
Definition text_part (s : store) (l : list nat) : str := flat_map (fun x => if has_kind s KText x then data_of s x else []) l.
Lemma text_part_app s a b : text_part s (a ++ b) = text_part s a ++ text_part s b.
Proof. apply flat_map_app. Qed.
Lemma leaf s n ts k : forest s -> rep s (T n ts) -> kind_of s n = Some k -> is_container k = false -> ts = [].
Proof.
  intros F R K C. inversion R as [n' ts' KS RT E]; subst. destruct ts as [|t ts]; [reflexivity|]. exfalso.
  assert (In (root t) (kids s n)) as I by (rewrite KS; now left). destruct (f_parent s F n (root t) (kid_parent s n _ F I)) as [k' [K' C']]. congruence.
Qed.
Lemma has_kind_eq s k k' n : kind_of s n = Some k -> has_kind s k' n = kind_eqb k k'.
Proof. unfold kind_of, has_kind. destruct (get s n) as [m|]; cbn; [|discriminate]. now intros [= <-]. Qed.
Lemma join_ok s : forest s -> forall fuel t st acc, rep s t -> exists_node s (root t) -> length (pre t) <= fuel -> filled st acc ->
  exists st', join_descendants fuel s (root t) st = Ok st' /\ filled st' (acc ++ text_part s (tl (pre t))).
Proof.
  intros F. induction fuel as [|f IH]; intros [n ts] st acc R E L H; [cbn in L; lia|]. cbn [join_descendants root pre tl] in *.
  rewrite (f_read s F n E). cbn [bind]. inversion R as [n' ts' K RT EE]; subst n' ts'.
  assert (forall l st acc, (forall t, In t l -> In t ts) -> filled st acc -> exists st', join_children (join_descendants f s) s (map root l) st = Ok st' /\ filled st' (acc ++ text_part s (flat_map pre l))) as HC.
  { clear st acc H. induction l as [|t l IHl]; intros st acc Sub H; cbn [map join_children flat_map]; [exists st; now rewrite app_nil_r|].
    assert (In t ts) as It by (apply Sub; now left). rewrite Forall_forall in RT. pose proof (RT t It) as Rt.
    assert (In (root t) (kids s n)) as Ik by (rewrite K; now apply in_map). destruct (f_kind s F n (root t) Ik) as [k [KK CK]].
    assert (length (pre t) <= f) as Lt.
    { cbn [length] in L. clear -L It. induction ts as [|u ts IH]; [destruct It|]. cbn [flat_map] in L. rewrite app_length in L. destruct It as [->|It]; [lia|]. apply IH; [lia|exact It]. }
    assert (exists st1, (if is_element s (root t) then join_descendants f s (root t) st else if has_kind s KText (root t) then append_text st (data_of s (root t)) else Ok st) = Ok st1 /\ filled st1 (acc ++ text_part s (pre t))) as [st1 [E1 H1]].
    { unfold is_element. rewrite !(has_kind_eq s k _ _ KK). destruct t as [m us]. cbn [root] in *. destruct k; try discriminate CK; cbn [kind_eqb].
      - destruct (IH (T m us) st acc Rt (kid_exists s n m F Ik) Lt H) as [st1 [E1 H1]]. exists st1. split; [exact E1|]. cbn [pre tl] in H1. cbn [pre]. unfold text_part in *. cbn [flat_map]. rewrite (has_kind_eq s KElement _ _ KK). exact H1.
      - rewrite (leaf s m us KText F Rt KK eq_refl). cbn [pre flat_map]. unfold text_part. cbn [flat_map]. rewrite (has_kind_eq s KText _ _ KK). cbn [kind_eqb]. rewrite app_nil_r. now apply append_ok.
      - rewrite (leaf s m us _ F Rt KK eq_refl). cbn [pre flat_map]. unfold text_part. cbn [flat_map]. rewrite (has_kind_eq s _ _ _ KK). cbn [kind_eqb app]. rewrite app_nil_r. eauto.
      - rewrite (leaf s m us _ F Rt KK eq_refl). cbn [pre flat_map]. unfold text_part. cbn [flat_map]. rewrite (has_kind_eq s _ _ _ KK). cbn [kind_eqb app]. rewrite app_nil_r. eauto. }
    rewrite E1. cbn [bind]. destruct (IHl st1 _ ltac:(intros; apply Sub; now right) H1) as [st2 [E2 H2]]. exists st2. split; [exact E2|]. rewrite text_part_app, app_assoc. exact H2. }
  rewrite K. apply HC; auto.
Qed.
Lemma text_part_filter s l : text_part s l = flat_map (data_of s) (filter (has_kind s KText) l).
Proof. induction l as [|x l IH]; [reflexivity|]. unfold text_part in *. cbn. destruct (has_kind s KText x); cbn; now rewrite IH. Qed.

Lemma element_string s n : forest s -> exists_node s n -> is_element s n || is_entity s n = true ->
  exists l, (forall x, In x l <-> above (parent_of s) n x /\ kind_of s x = Some KText) /\ StronglySorted (before s) l /\ node_to_string s n = Ok (flat_map (data_of s) l).
Proof.
  intros F E C. destruct (subtree s n F E) as [ts R]. pose proof (pre_sorted s F _ R) as SS. pose proof (pre_in s F _ R) as M. cbn [root pre] in *.
  exists (filter (has_kind s KText) (flat_map pre ts)). inversion SS as [|? ? S1 S2]; subst. split; [|split].
  - intros x. rewrite filter_In, has_kind_iff. split.
    + intros [I K]. split; [|exact K]. destruct (proj1 (M x) (or_intror I)) as [->|[A _]]; [|exact A]. exfalso. rewrite Forall_forall in S2. exact (before_irrefl s n F (S2 n I)).
    + intros [A K]. split; [|exact K]. destruct (proj2 (M x)) as [<-|I]; [right; split; [exact A|unfold attribute; rewrite K; discriminate]| |exact I]. exfalso. exact (f_acyclic s F n A).
  - eapply sub_sorted; [apply sub_filter|exact S1].
  - unfold node_to_string. rewrite C. destruct (join_ok s F (bound s) (T n ts) (resize [] 100, 0) [] R E) as [[b u] [J [U [CC [L P]]]]].
    + pose proof (pre_length s (T n ts) F R E). unfold bound. lia.
    + unfold filled. cbn [fst snd]. rewrite length_resize. repeat split; cbn; lia.
    + cbn [root] in J. rewrite J. cbn [bind fst snd] in *. unfold resize. rewrite CC. replace (u - List.length b) with 0 by lia. cbn [repeat]. rewrite app_nil_r, contents_map. cbn [pre tl]. now rewrite text_part_filter.
Qed.
Lemma node_string_ok s n : forest s -> exists_node s n -> exists v, node_to_string s n = Ok v /\ string_value s n v.
Proof.
  intros F E. destruct (is_element s n || is_entity s n) eqn:C.
  - destruct (element_string s n F E C) as [l [M [O V]]]. eexists. split; [exact V|]. unfold string_value. apply orb_prop in C. unfold is_element, is_entity in C. rewrite !has_kind_iff in C.
    destruct C as [-> | ->]; eauto.
  - unfold node_to_string. rewrite C. assert (exists k, kind_of s n = Some k) as [k K]. { unfold kind_of. unfold exists_node in E. apply nth_error_Some in E. unfold get. destruct (nth_error (s_nodes s) n); [cbn; eauto|congruence]. }
    unfold is_element, is_entity in C. rewrite !(has_kind_eq s k _ _ K) in *. unfold string_value. rewrite K. destruct k; cbn in *; try discriminate C; eauto.
Qed.
Lemma string_value_fun s n v w : forest s -> string_value s n v -> string_value s n w -> v = w.
Proof.
  intros F. unfold string_value. destruct (kind_of s n) as [k|]; [|tauto].
  assert ((exists l, (forall x, In x l <-> above (parent_of s) n x /\ kind_of s x = Some KText) /\ StronglySorted (before s) l /\ v = flat_map (data_of s) l) ->
          (exists l, (forall x, In x l <-> above (parent_of s) n x /\ kind_of s x = Some KText) /\ StronglySorted (before s) l /\ w = flat_map (data_of s) l) -> v = w) as H.
  { intros [l [M [O ->]]] [l' [M' [O' ->]]]. f_equal. apply (sorted_eq (before s)); auto.
    - intros x. now apply before_irrefl.
    - intros x y X Y. eapply before_asym; eauto.
    - intros x. rewrite M, M'. tauto. }
  destruct k; auto; congruence.
Qed.

(** ** Paths whose steps keep document order *)
Section Steps.
Variables (namespaces : str -> option str) (s : store) (nm : names) (size : nat).
Hypothesis F : forest s.

Lemma attr_alone a x : attribute s a -> above_or_self (parent_of s) a x -> x = a.
Proof. intros A [->|H]; [reflexivity|]. exfalso. exact (above_container s a x F H A). Qed.
Lemma before_under a b x y : before s a b -> ~ above (parent_of s) a b -> above_or_self (parent_of s) a x -> above_or_self (parent_of s) b y -> before s x y.
Proof.
  intros [A|p u v l1 l2 l3 K U V|p v I J V|p l1 l2 l3 E] NA X Y.
  - contradiction.
  - eapply before_kids; [exact K|eapply aos_trans; eauto|eapply aos_trans; eauto].
  - rewrite (attr_alone a x (proj2 (proj1 (f_alink s F p a) I)) X). eapply before_attr; [exact I|exact J|eapply aos_trans; eauto].
  - assert (In a (attrs_of s p) /\ In b (attrs_of s p)) as [A B] by (rewrite E; split; apply in_or_app; right; [now left|right; apply in_or_app; right; now left]).
    rewrite (attr_alone a x (proj2 (proj1 (f_alink s F p a) A)) X), (attr_alone b y (proj2 (proj1 (f_alink s F p b) B)) Y). eapply before_attrs; eauto.
Qed.
Lemma downward_under st n x : downward st -> on_axis s (ls_axis st) n x -> above_or_self (parent_of s) n x.
Proof.
  unfold downward. destruct (ls_axis st); try contradiction; cbn; intros _ H.
  - right. apply above_parent. tauto.
  - right. apply above_parent. tauto.
  - right. tauto.
  - destruct H as [->|[H _]]; [left; reflexivity|right; exact H].
  - left. now symmetry.
Qed.
Lemma step_nodes_sorted st c : compile_step namespaces st = Ok c -> Forall handled (ls_preds st) -> downward st ->
  forall ctx l, (forall n, In n ctx -> exists_node s n) -> StronglySorted (before s) ctx -> antichain s ctx -> step_nodes s nm size c ctx = Ok l -> StronglySorted (before s) l.
Proof.
  intros C HH D. induction ctx as [|n ctx IH]; intros l E SS AC; cbn [step_nodes]; [intros [= <-]; constructor|].
  destruct (step_node s nm size c n) as [l1|] eqn:S1; cbn [bind]; [|discriminate]. destruct (step_nodes s nm size c ctx) as [l2|] eqn:S2; cbn [bind]; [|discriminate].
  intros [= <-]. inversion SS as [|? ? SS' FA]; subst. assert (forall m, In m ctx -> exists_node s m) as E' by (intros; apply E; now right).
  destruct (step_node_ok namespaces s nm size F st c n l1 (E n ltac:(now left)) C HH S1) as [M1 O1]. pose proof (step_nodes_ok namespaces s nm size F st c C HH ctx l2 E' S2) as M2.
  apply ss_app; [exact O1|apply IH; auto; intros a b A B; apply AC; now right|].
  intros x y X Y. apply M1 in X. apply M2 in Y. destruct Y as [m [I Y]]. apply step_from_axis in X, Y. rewrite Forall_forall in FA.
  apply (before_under n m); [now apply FA|apply AC; [now left|now right]|apply (downward_under st n x D), X|apply (downward_under st m y D), Y].
Qed.
Lemma iterate_front : forall front cs ctx l, compile_steps namespaces front = Ok cs -> Forall (fun st => Forall handled (ls_preds st)) front -> Forall narrow front ->
  (forall n, In n ctx -> exists_node s n) -> StronglySorted (before s) ctx -> antichain s ctx -> iterate s nm size cs ctx = Ok l ->
  (forall n, In n l -> exists_node s n) /\ StronglySorted (before s) l /\ antichain s l.
Proof.
  induction front as [|st front IH]; intros cs ctx l C HH N E SS AC.
  - injection C as <-. intros [= <-]. auto.
  - destruct (compile_steps_cons _ _ _ _ C) as [c [cs' [-> [C1 C2]]]]. inversion HH as [|? ? H1 H2]; subst. inversion N as [|? ? N1 N2]; subst. cbn [iterate].
    destruct (step_nodes s nm size c ctx) as [m|] eqn:S1; cbn [bind]; [|discriminate]. pose proof (step_nodes_ok namespaces s nm size F st c C1 H1 ctx m E S1) as M.
    intros IT. apply (IH cs' m l C2 H2 N2); [| | |exact IT].
    + intros y Y. apply M in Y. destruct Y as [n [I SF]]. eapply step_from_tree; [exact F| |exact SF]. auto.
    + apply (step_nodes_sorted st c C1 H1) with (ctx := ctx); auto. unfold narrow in N1. unfold downward. destruct (ls_axis st); tauto.
    + eapply narrow_antichain; [exact F|exact N1|exact AC|]. intros x X. apply M in X. destruct X as [n [I SF]]. exists n. split; [exact I|]. eapply step_from_axis; exact SF.
Qed.
Lemma single_antichain n : antichain s [n].
Proof. intros x y [<-|[]] [<-|[]]. apply (f_acyclic s F). Qed.
Lemma iterate_in_order sts cs n l : compile_steps namespaces sts = Ok cs -> Forall (fun st => Forall handled (ls_preds st)) sts -> in_order sts -> exists_node s n ->
  iterate s nm size cs [n] = Ok l -> StronglySorted (before s) l.
Proof.
  intros C HH O E IT. assert (forall m, In m [n] -> exists_node s m) as EN by (intros m [<-|[]]; exact E).
  assert (StronglySorted (before s) [n]) as SN by (repeat constructor).
  destruct sts as [|st sts].
  - injection C as <-. injection IT as <-. exact SN.
  - destruct sts as [|st2 sts].
    + destruct (compile_steps_cons _ _ _ _ C) as [c [cs' [-> [C1 C2]]]]. injection C2 as <-. inversion HH as [|? ? H1 H2]; subst. cbn [iterate step_nodes] in IT.
      destruct (step_node s nm size c n) as [l1|] eqn:S1; cbn [bind] in IT; [|discriminate]. injection IT as <-. rewrite app_nil_r.
      apply (step_node_ok namespaces s nm size F st c n l1 E C1 H1 S1).
    + destruct O as [front [last [EQ [N D]]]]. rewrite EQ in C, HH. clear EQ. rewrite compile_app in C. destruct (compile_steps namespaces front) as [cf|] eqn:CF; cbn [bind] in C; [|discriminate].
      destruct (compile_steps namespaces [last]) as [cl|] eqn:CL; cbn [bind] in C; [|discriminate]. injection C as <-. apply Forall_app in HH. destruct HH as [HF HL].
      rewrite iterate_app in IT. destruct (iterate s nm size cf [n]) as [m|] eqn:IM; cbn [bind] in IT; [|discriminate].
      destruct (iterate_front front cf [n] m CF HF N EN SN (single_antichain n) IM) as [EM [SM AM]].
      destruct (compile_steps_cons _ _ _ _ CL) as [c [cs' [-> [C1 C2]]]]. injection C2 as <-. inversion HL as [|? ? H1 H2]; subst. cbn [iterate] in IT.
      destruct (step_nodes s nm size c m) as [r|] eqn:S1; cbn [bind] in IT; [|discriminate]. injection IT as <-. exact (step_nodes_sorted last c C1 H1 D m r EM SM AM S1).
Qed.
Lemma path_in_order p n l : exists_node s n -> Forall (fun st => Forall handled (ls_preds st)) (lp_steps p) -> in_order (lp_steps p) -> path_iterable namespaces s nm size p n = Ok l -> StronglySorted (before s) l.
Proof.
  intros E HH O. unfold path_iterable. destruct (compile_steps namespaces (lp_steps p)) as [cs|] eqn:C; cbn [bind]; [|discriminate]. destruct (lp_absolute p).
  - destruct (get_root (bound s) s n) as [m|] eqn:R; [|discriminate]. apply iterate_in_order with (sts := lp_steps p); auto. destruct (get_root_sound s _ _ _ R) as [_ A]. exact (aos_node s F m n E A).
  - now apply iterate_in_order with (sts := lp_steps p).
Qed.
(** The first node of a list in document order. *)
Lemma head_first (P : nat -> Prop) l : (forall x, In x l <-> P x) -> StronglySorted (fun x y => x = y \/ document_order s x y) l ->
  match l with [] => forall x, ~ P x | x :: _ => first_in_document_order s P x end.
Proof.
  intros M SS. destruct l as [|x l]; [intros x X; apply M in X; destruct X|]. split; [apply M; now left|]. intros y Y. apply M in Y. destruct Y as [->|Y]; [now left|].
  inversion SS as [|? ? _ FA]; subst. rewrite Forall_forall in FA. destruct (FA y Y) as [->|H]; auto.
Qed.
Lemma sorted_upto l : StronglySorted (before s) l -> StronglySorted (fun x y => x = y \/ document_order s x y) l.
Proof. induction 1 as [|x l H IH FA]; constructor; [exact IH|]. eapply Forall_impl; [|exact FA]. intros y Y. right. now left. Qed.
Lemma path_first_ok p n r : exists_node s n -> Forall (fun st => Forall handled (ls_preds st)) (lp_steps p) -> in_order (lp_steps p) -> path_first namespaces s nm size p n = Ok r ->
  match r with
  | None => forall x, ~ denotes namespaces s nm p n x
  | Some x => first_in_document_order s (denotes namespaces s nm p n) x /\ exists_node s x
  end.
Proof.
  intros E HH O. unfold path_first. destruct (path_iterable namespaces s nm size p n) as [l|] eqn:R; cbn [bind]; [|discriminate]. intros [= <-].
  destruct (path_iterable_ok namespaces s nm size F p n l E HH R) as [M [OT _]]. pose proof (path_in_order p n l E HH O R) as SS.
  pose proof (head_first _ l M (sorted_upto l SS)) as H. destruct l as [|x l]; cbn [hd_error]; [exact H|]. split; [exact H|]. apply OT. now left.
Qed.
End Steps.

Lemma union_iter_ok keys namespaces s nm size (F : forest s) ps node ls : exists_node s node ->
  (forall args, NoDup (keys args) /\ forall x, In x (keys args) <-> In x args) ->
  Forall (fun p => Forall (fun st => Forall handled (ls_preds st)) (lp_steps p)) ps -> iterate_all namespaces s nm size ps node = Ok ls ->
  (forall x, In x (union_iter keys s ls) <-> exists p, In p ps /\ denotes namespaces s nm p node x) /\
  (forall x, In x (union_iter keys s ls) -> exists_node s x) /\ StronglySorted (fun x y => x = y \/ document_order s x y) (union_iter keys s ls).
Proof.
  intros E HK HH IA.
  assert ((forall x, In x (concat ls) <-> exists p, In p ps /\ denotes namespaces s nm p node x) /\ (forall x, In x (concat ls) -> exists_node s x /\ same_tree s node x)) as [M T].
  { revert ls IA. induction ps as [|p ps IH]; intros ls; cbn [iterate_all].
    - intros [= <-]. split; [intros x; split; [intros []|intros [? [[] _]]]|intros x []].
    - inversion HH as [|? ? H1 H2]; subst. destruct (path_iterable namespaces s nm size p node) as [l1|] eqn:R; cbn [bind]; [|discriminate]. destruct (iterate_all namespaces s nm size ps node) as [r|]; cbn [bind]; [|discriminate]. intros [= <-].
      destruct (IH H2 r eq_refl) as [IM IT]. destruct (path_iterable_ok namespaces s nm size F p node l1 E H1 R) as [M1 _]. cbn [concat]. split; intros x; rewrite in_app_iff.
      + rewrite IM, M1. split; [intros [D|[q [Q D]]]; [exists p; cbn; auto|exists q; cbn; auto]|intros [q [[<-|Q] D]]; [auto|right; eauto]].
      + intros [I|I]; [|auto]. exact (path_tree namespaces s nm size F p node l1 E R x I). }
  unfold union_iter. destruct (HK (concat (rev ls))) as [ND KI].
  assert (forall x, In x (concat (rev ls)) <-> In x (concat ls)) as RV.
  { intros x. rewrite !in_concat. split; intros [y [Y I]]; exists y; (split; [now apply in_rev in Y || (apply in_rev; rewrite ?rev_involutive; exact Y)|exact I]). }
  set (k := keys (concat (rev ls))) in *. assert (one_tree s k) as O.
  { split; [intros x X; apply T, RV, KI, X|]. intros x y X Y. apply KI, RV, T in X, Y. destruct X as [_ X], Y as [_ Y]. apply (same_tree_trans s x node y F E); [|exact Y]. destruct X as [t [T1 T2]]. exists t. auto. }
  split; [intros x; rewrite sort_in, KI, RV; apply M|]. split; [intros x; rewrite sort_in; apply O|]. now apply sort_sorted.
Qed.
Lemma names_ok s nm qname x : name_is s nm qname x (name_of s nm qname x) /\ local_name_is s nm x (local_name_of s nm x) /\ namespace_uri_is s nm x (namespace_uri_of s nm x).
Proof.
  unfold name_is, local_name_is, namespace_uri_is, name_of, local_name_of, namespace_uri_of, has_name, is_element.
  destruct (has_kind s KElement x) eqn:A; cbn [orb].
  - apply has_kind_iff in A. split; [left; auto|]. split; [left; auto|]. destruct (nm_ns nm x) as [u|]; [left|right]; eauto.
  - assert (kind_of s x <> Some KElement) as NA by (rewrite <- has_kind_iff; congruence). destruct (has_kind s KAttr x) eqn:B.
    + apply has_kind_iff in B. split; [left; auto|]. split; [left; auto|]. destruct (nm_ns nm x) as [u|]; [left|right]; eauto.
    + assert (kind_of s x <> Some KAttr) as NB by (rewrite <- has_kind_iff; congruence). destruct (has_kind s KPI x) eqn:C.
      * apply has_kind_iff in C. split; [right; left; auto|]. split; [left; auto|]. right. split; [left; tauto|reflexivity].
      * assert (kind_of s x <> Some KPI) as NC by (rewrite <- has_kind_iff; congruence). split; [right; right; tauto|]. split; [right; tauto|]. right. split; [left; tauto|reflexivity].
Qed.
Lemma same_number_new n m : same_number n m -> same_number (number_new n) m.
Proof.
  intros H. eapply same_trans; [|exact H]. unfold number_new. destruct (is_zero n) eqn:E; [|apply same_refl]. destruct n; try discriminate; cbn in *; [reflexivity|]. apply Qeq_bool_iff in E. now symmetry.
Qed.
