(** * The non-deterministic automaton reads exactly what matches *)
From Coq Require Import NArith ZArith String List Bool Lia Arith.
From Verif Require Import PyStr PyErr HashModel HashMap DtdModel DtdSpec.
Import ListNotations.
Local Open Scope nat_scope.

Lemma event_eqb_eq a b : event_eqb a b = true <-> a = b.
Proof. destruct a, b; cbn; try (split; congruence). rewrite str_eqb_eq. split; congruence. Qed.
Lemma event_eqb_refl a : event_eqb a a = true.
Proof. now apply event_eqb_eq. Qed.
Lemma event_eqb_neq a b : a <> b -> event_eqb a b = false.
Proof. intros N. destruct (event_eqb a b) eqn:E; [|reflexivity]. apply event_eqb_eq in E. contradiction. Qed.
Lemma event_spec a b : reflect (a = b) (event_eqb a b).
Proof. destruct (event_eqb a b) eqn:E; constructor; [now apply event_eqb_eq|]. intros ->. rewrite event_eqb_refl in E. discriminate. Qed.
Lemma lookup_update {A} (d : list (event * A)) e a e' : lookup (update d e a) e' = if event_eqb e e' then Some a else lookup d e'.
Proof.
  induction d as [|[x b] d IH]; cbn; [reflexivity|]. destruct (event_spec x e) as [->|N]; cbn.
  - destruct (event_spec e e'); reflexivity.
  - rewrite IH. destruct (event_spec x e') as [->|]; [|reflexivity]. now rewrite (event_eqb_neq e e') by congruence.
Qed.
Lemma lookup_in {A} (d : list (event * A)) e a : lookup d e = Some a -> In (e, a) d.
Proof. induction d as [|[x b] d IH]; cbn; [discriminate|]. destruct (event_spec x e) as [->|]; [intros [= ->]; auto|auto]. Qed.
Lemma in_lookup {A} (d : list (event * A)) e a : NoDup (map fst d) -> In (e, a) d -> lookup d e = Some a.
Proof.
  induction d as [|[x b] d IH]; cbn; [intros _ []|]. intros D [[= -> ->]|I]; [now rewrite event_eqb_refl|]. inversion_clear D. destruct (event_spec x e) as [->|]; [|auto]. exfalso. apply H. now apply (in_map fst) in I.
Qed.
Lemma update_in {A} (d : list (event * A)) e a x b : In (x, b) (update d e a) -> (x = e /\ b = a) \/ In (x, b) d.
Proof.
  induction d as [|[y c] d IH]; cbn.
  - intros [[= <- <-]|[]]. auto.
  - destruct (event_spec y e) as [->|]; cbn; intros [[= <- <-]|I]; auto. destruct (IH I); auto.
Qed.
Lemma update_keys {A} (d : list (event * A)) e a : NoDup (map fst d) -> NoDup (map fst (update d e a)).
Proof.
  induction d as [|[y c] d IH]; cbn; intros D; [constructor; [intros []|constructor]|]. inversion_clear D. destruct (event_spec y e) as [->|N]; cbn; constructor; auto.
  intros I. apply in_map_iff in I. destruct I as [[x b] [E I]]. cbn in E. subst x. apply update_in in I. destruct I as [[C _]|I]; [congruence|]. apply H. now apply (in_map fst) in I.
Qed.

(** ** Edges *)
Definition edge (m : nfa) (s : nat) (e : event) (t : nat) : Prop := In t (targets m s e).
Definition edges := list (nat * event * nat).
Definition adds (m m' : nfa) (E : edges) : Prop := length m <= length m' /\ forall s e t, edge m' s e t <-> edge m s e t \/ In (s, e, t) E.
Definition keys_ok (m : nfa) : Prop := forall s, NoDup (map fst (nth s m [])) /\ forall e ts, In (e, ts) (nth s m []) -> ts <> [].
Lemma adds_refl m : adds m m [].
Proof. split; [lia|]. intros. cbn. tauto. Qed.
Lemma adds_trans m m1 m2 E1 E2 : adds m m1 E1 -> adds m1 m2 E2 -> adds m m2 (E1 ++ E2).
Proof. intros [L1 A1] [L2 A2]. split; [lia|]. intros. rewrite A2, A1, in_app_iff. tauto. Qed.
Lemma new_state_adds m : adds m (m ++ [[]]) [] /\ length (m ++ [[]]) = S (length m).
Proof.
  rewrite app_length. cbn. split; [split; [rewrite app_length; lia|]|lia]. intros s e t. unfold edge, targets. destruct (Nat.lt_ge_cases s (length m)) as [L|L].
  - rewrite app_nth1 by assumption. cbn. tauto.
  - rewrite app_nth2 by assumption. rewrite (nth_overflow m) by assumption. destruct (s - length m) as [|[|]]; cbn; tauto.
Qed.
Lemma new_state_keys m : keys_ok m -> keys_ok (m ++ [[]]).
Proof.
  intros K s. destruct (Nat.lt_ge_cases s (length m)) as [L|L]; [rewrite app_nth1 by assumption; apply K|]. rewrite app_nth2 by assumption.
  replace (nth (s - length m) [[]] []) with (@nil (event * list nat)) by (destruct (s - length m) as [|[|]]; reflexivity). split; [constructor|intros e ts []].
Qed.
Lemma add_transition_adds m e a b : a < length m -> adds m (add_transition m e a b) [(a, e, b)] /\ length (add_transition m e a b) = length m.
Proof.
  intros L. unfold add_transition. rewrite length_set_slot. split; [|reflexivity]. split; [rewrite length_set_slot; lia|]. intros s e' t. unfold edge at 1. unfold targets at 1.
  rewrite nth_set_slot. destruct (Nat.eqb_spec s a) as [->|N]; cbn [andb].
  - destruct (Nat.ltb_spec a (length m)); [|lia]. rewrite lookup_update. destruct (event_spec e e') as [->|N].
    + rewrite in_app_iff. unfold edge. cbn. split; [intros [H1|[->|[]]]; auto|intros [H1|[[= ->]|[]]]; auto].
    + unfold edge, targets. cbn. split; [auto|intros [H1|[[= E]|[]]]; [exact H1|congruence]].
  - unfold edge, targets. cbn. split; [auto|intros [H1|[[= E]|[]]]; [exact H1|congruence]].
Qed.
Lemma add_transition_keys m e a b : keys_ok m -> keys_ok (add_transition m e a b).
Proof.
  intros K s. unfold add_transition. rewrite nth_set_slot. destruct ((s =? a) && (a <? length m)); [|apply K]. destruct (K a) as [K1 K2]. split; [now apply update_keys|].
  intros x ts I. apply update_in in I. destruct I as [[-> ->]|I]; [|eapply K2; eauto]. intros C. apply app_eq_nil in C. destruct C; discriminate.
Qed.

(** ** Paths *)
Inductive path (E : edges) : nat -> list event -> nat -> Prop :=
  | p_nil : forall s, path E s [] s
  | p_eps : forall s t u w, In (s, EEpsilon, t) E -> path E t w u -> path E s w u
  | p_ev : forall s e t u w, e <> EEpsilon -> In (s, e, t) E -> path E t w u -> path E s (e :: w) u.
Lemma path_app E s u t v r : path E s u t -> path E t v r -> path E s (u ++ v) r.
Proof. induction 1; intros H'; [exact H'|eapply p_eps; eauto|cbn; eapply p_ev; eauto]. Qed.
Lemma path_restrict (E E' : edges) (P : nat -> Prop) : (forall s e t, In (s, e, t) E -> P s -> In (s, e, t) E' /\ P t) -> forall s w t, path E s w t -> P s -> path E' s w t.
Proof.
  intros H s w t Hp. induction Hp as [s|s t u w I Hp IH|s e t u w N I Hp IH]; intros Ps; [constructor| |].
  - destruct (H _ _ _ I Ps). eapply p_eps; eauto.
  - destruct (H _ _ _ I Ps). eapply p_ev; eauto.
Qed.
Lemma path_mono (E E' : edges) : (forall x, In x E -> In x E') -> forall s w t, path E s w t -> path E' s w t.
Proof. intros H s w t Hp. apply (path_restrict E E' (fun _ => True)) in Hp; auto. Qed.
(** [E] is a fragment from [i] to [f] with its own states [a .. b-1]. *)
Definition plain (e : event) : Prop := match e with EName _ | EPcdata | EEpsilon => True | _ => False end.
Definition within (E : edges) (i f a b : nat) : Prop := forall s e t, In (s, e, t) E -> (s = i \/ a <= s < b) /\ (t = f \/ a <= t < b) /\ plain e.

Lemma path_single e i f w : i <> f -> e <> EEpsilon -> path [(i, e, f)] i w f <-> w = [e].
Proof.
  intros N Ne. split.
  - intros H. inversion H as [|? t ? ? I H'|? e' t ? w' N' I H']; subst; [congruence| |].
    + destruct I as [C|[]]. injection C. congruence.
    + destruct I as [[= <- <-]|[]]. inversion H' as [|? t ? ? I H2|? e' t ? w'' N2 I H2]; subst; [reflexivity| |]; destruct I as [[= C]|[]]; congruence.
  - intros ->. eapply p_ev; [exact Ne|left; reflexivity|constructor].
Qed.
Lemma path_epsilon i f w : i <> f -> path [(i, EEpsilon, f)] i w f <-> w = [].
Proof.
  intros N. split.
  - intros H. inversion H as [|? t ? ? I H'|? e' t ? w' N' I H']; subst; [congruence| |].
    + destruct I as [[= <-]|[]]. inversion H' as [|? t ? ? I H2|? e' t ? w'' N2 I H2]; subst; [reflexivity| |]; destruct I as [[= C]|[]]; congruence.
    + destruct I as [[= <- <-]|[]]. congruence.
  - intros ->. eapply p_eps; [left; reflexivity|constructor].
Qed.
Lemma path_nothing i f w : i <> f -> ~ path [] i w f.
Proof. intros N H. inversion H; subst; [congruence|contradiction|contradiction]. Qed.

Lemma path_seq E1 E2 i m f a b c w : i < a -> m < a -> f < a -> i <> m -> i <> f -> m <> f -> a <= b -> within E1 i m a b -> within E2 m f b c ->
  path (E1 ++ E2) i w f <-> exists u v, w = u ++ v /\ path E1 i u m /\ path E2 m v f.
Proof.
  intros Li Lm Lf N1 N2 N3 Lab W1 W2. split.
  - assert (forall s, s = m \/ b <= s < c -> forall w, path (E1 ++ E2) s w f -> path E2 s w f) as A.
    { intros s Hs w' H. apply (path_restrict (E1 ++ E2) E2 (fun s => s = m \/ s = f \/ b <= s < c)) in H; [exact H| |tauto]. intros x e t I P. apply in_app_iff in I. destruct I as [I|I].
      - destruct (W1 _ _ _ I) as [S _]. lia.
      - destruct (W2 _ _ _ I) as [_ [T _]]. split; [exact I|]. lia. }
    assert (forall s w, path (E1 ++ E2) s w f -> s = i \/ a <= s < b -> exists u v, w = u ++ v /\ path E1 s u m /\ path E2 m v f) as B.
    { intros s w' H. remember f as g eqn:Eg in H. induction H as [s|s t u w' I H IH|s e t u w' N I H IH]; intros Hs; subst; [lia| |]; specialize (IH eq_refl).
      - apply in_app_iff in I. destruct I as [I|I]; [|destruct (W2 _ _ _ I) as [S _]; lia]. destruct (W1 _ _ _ I) as [_ [T _]]. destruct T as [->|T].
        + exists [], w'. split; [reflexivity|]. split; [eapply p_eps; [exact I|constructor]|]. apply A; auto.
        + destruct (IH (or_intror T)) as [u [v [E [P1 P2]]]]. exists u, v. split; [exact E|]. split; [eapply p_eps; eauto|exact P2].
      - apply in_app_iff in I. destruct I as [I|I]; [|destruct (W2 _ _ _ I) as [S _]; lia]. destruct (W1 _ _ _ I) as [_ [T _]]. destruct T as [->|T].
        + exists [e], w'. split; [reflexivity|]. split; [eapply p_ev; [exact N|exact I|constructor]|]. apply A; auto.
        + destruct (IH (or_intror T)) as [u [v [E [P1 P2]]]]. exists (e :: u), v. split; [cbn; now rewrite E|]. split; [eapply p_ev; eauto|exact P2]. }
    intros H. apply B; auto.
  - intros [u [v [-> [P1 P2]]]]. eapply path_app; eapply path_mono; try eassumption; intros x I; apply in_app_iff; auto.
Qed.
Lemma path_alt E1 E2 i f a b c w : i < a -> f < a -> i <> f -> a <= b -> within E1 i f a b -> within E2 i f b c ->
  path (E1 ++ E2) i w f <-> path E1 i w f \/ path E2 i w f.
Proof.
  intros Li Lf N Lab W1 W2. split.
  - assert (forall s, s = f \/ a <= s < b -> forall w, path (E1 ++ E2) s w f -> path E1 s w f) as A1.
    { intros s Hs w' H. apply (path_restrict (E1 ++ E2) E1 (fun s => s = f \/ a <= s < b)) in H; [exact H| |exact Hs]. intros x e t I P. apply in_app_iff in I. destruct I as [I|I].
      - destruct (W1 _ _ _ I) as [_ [T _]]. auto.
      - destruct (W2 _ _ _ I) as [S _]. lia. }
    assert (forall s, s = f \/ b <= s < c -> forall w, path (E1 ++ E2) s w f -> path E2 s w f) as A2.
    { intros s Hs w' H. apply (path_restrict (E1 ++ E2) E2 (fun s => s = f \/ b <= s < c)) in H; [exact H| |exact Hs]. intros x e t I P. apply in_app_iff in I. destruct I as [I|I].
      - destruct (W1 _ _ _ I) as [S _]. lia.
      - destruct (W2 _ _ _ I) as [_ [T _]]. auto. }
    intros H. inversion H as [|? t ? ? I H'|? e t ? w' Ne I H']; subst; [congruence| |]; apply in_app_iff in I; destruct I as [I|I].
    + left. destruct (W1 _ _ _ I) as [_ [T _]]. eapply p_eps; [exact I|]. now apply A1.
    + right. destruct (W2 _ _ _ I) as [_ [T _]]. eapply p_eps; [exact I|]. now apply A2.
    + left. destruct (W1 _ _ _ I) as [_ [T _]]. eapply p_ev; [exact Ne|exact I|]. now apply A1.
    + right. destruct (W2 _ _ _ I) as [_ [T _]]. eapply p_ev; [exact Ne|exact I|]. now apply A2.
  - intros [H|H]; eapply path_mono; try eassumption; intros x I; apply in_app_iff; auto.
Qed.
Inductive star (P : list event -> Prop) : list event -> Prop := star_nil : star P [] | star_cons : forall u v, P u -> star P v -> star P (u ++ v).
Lemma path_plus E1 i f s1 s2 a b w : i < a -> f < a -> s1 < a -> s2 < a -> i <> f -> i <> s1 -> i <> s2 -> f <> s1 -> f <> s2 -> s1 <> s2 -> within E1 s1 s2 a b ->
  path ([(i, EEpsilon, s1)] ++ E1 ++ [(s2, EEpsilon, s1); (s2, EEpsilon, f)]) i w f <-> exists u v, w = u ++ v /\ path E1 s1 u s2 /\ star (fun x => path E1 s1 x s2) v.
Proof.
  intros Li Lf L1 L2 N1 N2 N3 N4 N5 N6 W. set (E := [(i, EEpsilon, s1)] ++ E1 ++ [(s2, EEpsilon, s1); (s2, EEpsilon, f)]).
  assert (forall s e t, In (s, e, t) E <-> (s = i /\ e = EEpsilon /\ t = s1) \/ In (s, e, t) E1 \/ (s = s2 /\ e = EEpsilon /\ t = s1) \/ (s = s2 /\ e = EEpsilon /\ t = f)) as IE.
  { intros s e t. unfold E. rewrite !in_app_iff. cbn. split.
    - intros [[[= <- <- <-]|[]]|[H|[[= <- <- <-]|[[= <- <- <-]|[]]]]]; auto 10.
    - intros [(-> & -> & ->)|[H|[(-> & -> & ->)|(-> & -> & ->)]]]; auto 10. }
  assert (forall s w, path E s w f -> (s = s1 \/ a <= s < b -> exists u v, w = u ++ v /\ path E1 s u s2 /\ star (fun x => path E1 s1 x s2) v) /\ (s = s2 -> star (fun x => path E1 s1 x s2) w) /\ (s = f -> w = [])) as A.
  { intros s w' H. remember f as g eqn:Eg in H. induction H as [s|s t u w' I H IH|s e t u w' N I H IH]; subst.
    - split; [intros; lia|]. split; [congruence|reflexivity].
    - specialize (IH eq_refl). destruct IH as [H1 [H2 H3]]. apply IE in I. destruct I as [(-> & _ & ->)|[I|[(-> & _ & ->)|(-> & _ & ->)]]].
      + repeat split; intros; lia.
      + destruct (W _ _ _ I) as [S [T _]]. split; [|split; intros; lia]. intros _. destruct T as [->|T].
        * exists [], w'. split; [reflexivity|]. split; [eapply p_eps; [exact I|constructor]|auto].
        * destruct (H1 (or_intror T)) as [x [v [Ev [P1 P2]]]]. exists x, v. split; [exact Ev|]. split; [eapply p_eps; eauto|exact P2].
      + split; [intros; lia|]. split; [|intros; lia]. intros _. destruct (H1 (or_introl eq_refl)) as [x [v [-> [P1 P2]]]]. now constructor.
      + split; [intros; lia|]. split; [|intros; lia]. intros _. rewrite (H3 eq_refl). constructor.
    - specialize (IH eq_refl). destruct IH as [H1 [H2 H3]]. apply IE in I. destruct I as [(_ & C & _)|[I|[(_ & C & _)|(_ & C & _)]]]; [congruence| |congruence|congruence].
      destruct (W _ _ _ I) as [S [T _]]. split; [|split; intros; lia]. intros _. destruct T as [->|T].
      + exists [e], w'. split; [reflexivity|]. split; [eapply p_ev; [exact N|exact I|constructor]|auto].
      + destruct (H1 (or_intror T)) as [x [v [-> [P1 P2]]]]. exists (e :: x), v. split; [reflexivity|]. split; [eapply p_ev; eauto|exact P2]. }
  split.
  - intros H. inversion H as [|? t ? ? I H'|? e t ? w' Ne I H']; subst; [congruence| |]; apply IE in I.
    + destruct I as [(_ & _ & ->)|[I|[(C & _)|(C & _)]]]; [|destruct (W _ _ _ I) as [S _]; lia|congruence|congruence]. apply A in H'. apply H'. auto.
    + destruct I as [(_ & C & _)|[I|[(_ & C & _)|(_ & C & _)]]]; try congruence. destruct (W _ _ _ I) as [S _]. lia.
  - intros [u [v [-> [P1 P2]]]]. assert (forall x y z, path E1 x y z -> path E x y z) as Mono by (apply path_mono; intros [[? ?] ?] ?; apply IE; auto).
    apply (p_eps E i s1); [apply IE; auto|]. apply (path_app E s1 u s2); [now apply Mono|]. clear P1. induction P2 as [|x y P1 P2 IH].
    + apply (p_eps E s2 f); [apply IE; auto 10|constructor].
    + apply (p_eps E s2 s1); [apply IE; auto 10|]. eapply path_app; [apply Mono; exact P1|exact IH].
Qed.

(** ** The construction *)
Section Lists.
Variables i0 f : nat.
Fixpoint compile_alt (l : list content) (m : nfa) : result nfa := match l with [] => Ok m | x :: l' => do m' <- compile_content x i0 f m ; compile_alt l' m' end.
Fixpoint compile_seq (l : list content) (i : nat) (m : nfa) : result nfa :=
  match l with
  | [] => Ok m
  | x :: l' => match l' with [] => compile_content x i f m | _ => let '(m', s) := new_state m in do m'' <- compile_content x i s m' ; compile_seq l' s m'' end
  end.
End Lists.
Definition body_of (c : content) (mixed_ok : bool) (i f : nat) (m : nfa) : result nfa :=
  match c with
  | CName _ n => Ok (add_transition m (EName n) i f)
  | CSeq _ l => compile_seq f l i m
  | CAlt _ l => compile_alt i f l m
  | CMixed _ l => if mixed_ok then compile_alt i f l (add_transition m EPcdata i f) else Err SystemError
  end.
Definition repeated_of (c : content) (i f : nat) (m : nfa) : result nfa :=
  do m' <- body_of c true (length m) (S (length m)) (add_epsilon ((m ++ [[]]) ++ [[]]) i (length m)) ;
  Ok (add_epsilon (add_epsilon m' (S (length m)) (length m)) (S (length m)) f).
Lemma compile_content_eq c i f m : compile_content c i f m =
  match quant_of c with
  | Opt => body_of c false i f (add_epsilon m i f)
  | One => body_of c false i f m
  | Rep => repeated_of c i f (add_epsilon m i f)
  | Plus => repeated_of c i f m
  end.
Proof.
  assert (forall m : nfa, length (m ++ [[]]) = S (length m)) as L by (intros; rewrite app_length; cbn; lia).
  unfold repeated_of. destruct c as [q n|q l|q l|q l]; destruct q; cbn; rewrite ?L; reflexivity.
Qed.

Lemma content_rect' (P : content -> Prop) :
  (forall q n, P (CName q n)) -> (forall q l, Forall P l -> P (CSeq q l)) -> (forall q l, Forall P l -> P (CAlt q l)) -> (forall q l, Forall P l -> P (CMixed q l)) -> forall c, P c.
Proof.
  intros H1 H2 H3 H4. fix IH 1. intros [q n|q l|q l|q l]; [apply H1|apply H2|apply H3|apply H4]; (induction l as [|x l IHl]; constructor; [apply IH|exact IHl]).
Qed.
Fixpoint all_proper (l : list content) : Prop := match l with [] => True | x :: l' => proper x /\ all_proper l' end.

(** From every state of the fragment the way to [f] is open. *)
Definition live (E : edges) (i f a b : nat) : Prop := forall s, s = i \/ a <= s < b -> exists w, path E s w f.
Definition built (L : Prop) (m : nfa) (r : result nfa) (i f : nat) (P : list event -> Prop) : Prop :=
  exists m' E, r = Ok m' /\ adds m m' E /\ keys_ok m' /\ within E i f (length m) (length m') /\ (L -> live E i f (length m) (length m')) /\ forall w, path E i w f <-> P w.
Definition builds (c : content) : Prop := forall i f m, keys_ok m -> i < length m -> f < length m -> i <> f -> built (inhabited c) m (compile_content c i f m) i f (matches c).
Lemma path_in_app_l E1 E2 s w t : path E1 s w t -> path (E1 ++ E2) s w t.
Proof. apply path_mono. intros x I. apply in_app_iff. auto. Qed.
Lemma path_in_app_r E1 E2 s w t : path E2 s w t -> path (E1 ++ E2) s w t.
Proof. apply path_mono. intros x I. apply in_app_iff. auto. Qed.

Lemma within_weaken E i f a b a' b' : a' <= a -> b <= b' -> within E i f a b -> within E i f a' b'.
Proof. intros La Lb W s e t I. destruct (W s e t I) as [A [B C]]. repeat split; try exact C; lia. Qed.
Lemma within_app E1 E2 i f a b : within E1 i f a b -> within E2 i f a b -> within (E1 ++ E2) i f a b.
Proof. intros W1 W2 s e t I. apply in_app_iff in I. destruct I; eauto. Qed.
Lemma within_nil i f a b : within [] i f a b.
Proof. intros s e t []. Qed.
Lemma within_single i e f a b : plain e -> within [(i, e, f)] i f a b.
Proof. intros P s e' t [[= <- <- <-]|[]]. auto. Qed.

Lemma alt_built i f : i <> f -> forall l, Forall builds l -> forall m, keys_ok m -> i < length m -> f < length m ->
  built (l <> [] /\ Forall inhabited l) m (compile_alt i f l m) i f (fun w => exists c, In c l /\ matches c w).
Proof.
  intros N l F. induction F as [|c l Hc F IH]; intros m K Li Lf; cbn [compile_alt].
  - exists m, []. split; [reflexivity|]. split; [apply adds_refl|]. split; [exact K|]. split; [apply within_nil|]. split; [intros [C _]; congruence|]. intros w. split; [intros H; now apply path_nothing in H|intros [c [[] _]]].
  - destruct (Hc i f m K Li Lf N) as [m1 [E1 [R1 [A1 [K1 [W1 [V1 P1]]]]]]]. rewrite R1. cbn [bind]. pose proof (proj1 A1) as L1.
    destruct (IH m1 K1 ltac:(lia) ltac:(lia)) as [m2 [E2 [R2 [A2 [K2 [W2 [V2 P2]]]]]]]. pose proof (proj1 A2) as L2.
    exists m2, (E1 ++ E2). split; [exact R2|]. split; [eapply adds_trans; eauto|]. split; [exact K2|]. split; [apply within_app; [apply (within_weaken E1 i f (length m) (length m1))|apply (within_weaken E2 i f (length m1) (length m2))]; assumption || lia|].
    split.
    { intros [_ FI]. inversion_clear FI as [|? ? F1 F2]. intros s Hs. destruct (Nat.lt_ge_cases s (length m1)) as [Ls|Ls].
      - destruct (V1 F1 s) as [w Pw]; [lia|]. exists w. now apply path_in_app_l.
      - destruct l as [|c2 l]; [cbn in R2; injection R2 as <-; lia|]. assert (c2 :: l <> []) as NL by discriminate. destruct (V2 (conj NL F2) s) as [w Pw]; [lia|]. exists w. now apply path_in_app_r. }
    intros w. rewrite (path_alt E1 E2 i f (length m) (length m1) (length m2) w) by (assumption || lia). rewrite P1, P2. split.
    + intros [H|[c' [I H]]]; [exists c; cbn; auto|exists c'; cbn; auto].
    + intros [c' [[<-|I] H]]; [auto|right; eauto].
Qed.
Lemma in_turn_one c w : in_turn [c] w <-> matches c w.
Proof.
  split.
  - intros H. inversion H as [|? ? w1 w2 H1 H2]; subst. inversion H2; subst. now rewrite app_nil_r.
  - intros H. rewrite <- (app_nil_r w). constructor; [exact H|constructor].
Qed.
Lemma seq_built f : forall l, l <> [] -> Forall builds l -> forall i m, i <> f -> keys_ok m -> i < length m -> f < length m -> built (Forall inhabited l) m (compile_seq f l i m) i f (in_turn l).
Proof.
  intros l NE F. induction F as [|c l Hc F IH]; [congruence|]. intros i m N K Li Lf. cbn [compile_seq]. destruct l as [|c2 l].
  - destruct (Hc i f m K Li Lf N) as [m1 [E1 [R1 [A1 [K1 [W1 [V1 P1]]]]]]]. exists m1, E1. do 4 (split; [assumption|]). split; [intros FI; inversion_clear FI; auto|]. intros w. rewrite P1. symmetry. apply in_turn_one.
  - unfold new_state. set (m0 := m ++ [[]]). destruct (new_state_adds m) as [A0 L0]. fold m0 in A0, L0. pose proof (new_state_keys m K) as K0. fold m0 in K0.
    destruct (Hc i (length m) m0 K0 ltac:(lia) ltac:(lia) ltac:(lia)) as [m1 [E1 [R1 [A1 [K1 [W1 [V1 P1]]]]]]]. rewrite R1. cbn [bind]. pose proof (proj1 A1) as L1.
    destruct (IH ltac:(discriminate) (length m) m1 ltac:(lia) K1 ltac:(lia) ltac:(lia)) as [m2 [E2 [R2 [A2 [K2 [W2 [V2 P2]]]]]]]. pose proof (proj1 A2) as L2.
    exists m2, (E1 ++ E2). split; [exact R2|]. split; [apply (adds_trans m m0 m2 []); [exact A0|eapply adds_trans; eauto]|]. split; [exact K2|]. split.
    + intros s e t I. apply in_app_iff in I. destruct I as [I|I]; [destruct (W1 _ _ _ I) as [S [T P]]|destruct (W2 _ _ _ I) as [S [T P]]]; repeat split; try exact P; lia.
    + split.
      { intros FI. inversion_clear FI as [|? ? F1 F2]. intros s Hs. destruct (Nat.lt_ge_cases s (length m1)) as [Ls|Ls]; [destruct (Nat.eq_dec s (length m)) as [Em|Em]|].
        - destruct (V2 F2 s) as [w Pw]; [lia|]. exists w. now apply path_in_app_r.
        - destruct (V1 F1 s) as [w Pw]; [lia|]. destruct (V2 F2 (length m)) as [w' Pw']; [auto|]. exists (w ++ w'). eapply path_app; [apply path_in_app_l; exact Pw|now apply path_in_app_r].
        - destruct (V2 F2 s) as [w Pw]; [lia|]. exists w. now apply path_in_app_r. }
      intros w. rewrite (path_seq E1 E2 i (length m) f (length m0) (length m1) (length m2) w) by (assumption || lia). split.
      * intros [u [v [-> [H1 H2]]]]. constructor; [now apply P1|now apply P2].
      * intros H. inversion H as [|? ? w1 w2 H1 H2]; subst. exists w1, w2. split; [reflexivity|]. split; [now apply P1|now apply P2].
Qed.

Lemma inhabited_all l : (fix all (l : list content) : Prop := match l with [] => True | x :: l' => inhabited x /\ all l' end) l -> Forall inhabited l.
Proof. induction l as [|x l IH]; intros H; constructor; [apply H|apply IH, H]. Qed.
Definition body_builds (c : content) (mixed_ok : bool) : Prop := forall i f m, keys_ok m -> i < length m -> f < length m -> i <> f -> built (inhabited c) m (body_of c mixed_ok i f m) i f (once c).
Lemma once_name_iff q n w : once (CName q n) w <-> w = [EName n].
Proof. split; [intros H; now inversion H|intros ->; constructor]. Qed.
Lemma once_seq_iff q l w : once (CSeq q l) w <-> in_turn l w.
Proof. split; [intros H; now inversion H|now constructor]. Qed.
Lemma once_alt_iff q l w : once (CAlt q l) w <-> exists c, In c l /\ matches c w.
Proof. split; [intros H; inversion H; eauto|intros [c [I H]]; econstructor; eauto]. Qed.
Lemma once_mixed_iff q l w : once (CMixed q l) w <-> w = [EPcdata] \/ exists c, In c l /\ matches c w.
Proof. split; [intros H; inversion H; eauto|intros [->|[c [I H]]]; [apply once_text|eapply once_mixed; eauto]]. Qed.
Lemma body_built c mixed_ok : match c with CName _ _ => True | CSeq _ l => l <> [] /\ Forall builds l | CAlt _ l => Forall builds l | CMixed _ l => mixed_ok = true /\ Forall builds l end -> body_builds c mixed_ok.
Proof.
  intros H i f m K Li Lf N. destruct c as [q n|q l|q l|q l]; cbn [body_of].
  - destruct (add_transition_adds m (EName n) i f Li) as [A L]. exists (add_transition m (EName n) i f), [(i, EName n, f)]. split; [reflexivity|]. split; [exact A|]. split; [now apply add_transition_keys|].
    split; [apply within_single; exact I|]. split; [intros _ s Hs; exists [EName n]; assert (s = i) as -> by lia; eapply p_ev; [discriminate|left; reflexivity|constructor]|]. intros w. rewrite path_single by (assumption || discriminate). symmetry. apply once_name_iff.
  - destruct H as [NE F]. destruct (seq_built f l NE F i m N K Li Lf) as [m' [E [R [A [K' [W [V P]]]]]]]. exists m', E. do 4 (split; [assumption|]). split; [intros IL; apply V; now apply inhabited_all|]. intros w. rewrite P. symmetry. apply once_seq_iff.
  - destruct (alt_built i f N l H m K Li Lf) as [m' [E [R [A [K' [W [V P]]]]]]]. exists m', E. do 4 (split; [assumption|]). split; [intros [NE IL]; apply V; split; [exact NE|now apply inhabited_all]|]. intros w. rewrite P. symmetry. apply once_alt_iff.
  - destruct H as [-> F]. destruct (add_transition_adds m EPcdata i f Li) as [A L]. pose proof (add_transition_keys m EPcdata i f K) as K0. set (m0 := add_transition m EPcdata i f) in *.
    destruct (alt_built i f N l F m0 K0 ltac:(lia) ltac:(lia)) as [m' [E [R [A' [K' [W [V P]]]]]]]. exists m', ([(i, EPcdata, f)] ++ E). split; [exact R|]. split; [eapply adds_trans; eauto|]. split; [exact K'|]. pose proof (proj1 A') as L'.
    rewrite L in *. split; [apply within_app; [apply within_single; exact I|exact W]|]. split.
    { intros IL s Hs. destruct (Nat.eq_dec s i) as [->|Ns]; [exists [EPcdata]; eapply p_ev; [discriminate|left; reflexivity|constructor]|]. destruct l as [|c2 l]; [cbn in R; injection R as <-; lia|].
      assert (c2 :: l <> []) as NL by discriminate. destruct (V (conj NL (inhabited_all (c2 :: l) IL)) s) as [w Pw]; [lia|]. exists w. now apply path_in_app_r. }
    intros w. rewrite (path_alt [(i, EPcdata, f)] E i f (length m) (length m) (length m') w); try assumption; try lia; [|apply within_single; exact I].
    rewrite path_single by (assumption || discriminate). rewrite P. symmetry. apply once_mixed_iff.
Qed.
Lemma star_times c v P : (forall w, P w <-> once c w) -> star P v <-> times c v.
Proof.
  intros H. split.
  - induction 1 as [|u v Hu Hv IH]; constructor; [now apply H|exact IH].
  - intros T. induction T as [|c w1 w2 Ho T IH]; constructor; [now apply H|now apply IH].
Qed.
Lemma repeated_built c i f m : body_builds c true -> keys_ok m -> i < length m -> f < length m -> i <> f -> built (inhabited c) m (repeated_of c i f m) i f (fun w => exists u v, w = u ++ v /\ once c u /\ times c v).
Proof.
  intros B K Li Lf N. unfold repeated_of. destruct (new_state_adds m) as [A1 L1]. destruct (new_state_adds (m ++ [[]])) as [A2 L2]. pose proof (new_state_keys _ (new_state_keys m K)) as K2. set (m2 := (m ++ [[]]) ++ [[]]) in *. rewrite L1 in L2.
  destruct (add_transition_adds m2 EEpsilon i (length m) ltac:(lia)) as [A3 L3]. pose proof (add_transition_keys m2 EEpsilon i (length m) K2) as K3. fold (add_epsilon m2 i (length m)) in A3, L3, K3. set (m3 := add_epsilon m2 i (length m)) in *.
  destruct (B (length m) (S (length m)) m3 K3 ltac:(lia) ltac:(lia) ltac:(lia)) as [m4 [E [R [A4 [K4 [W [V P]]]]]]]. rewrite R. cbn [bind]. pose proof (proj1 A4) as L4.
  destruct (add_transition_adds m4 EEpsilon (S (length m)) (length m) ltac:(lia)) as [A5 L5]. pose proof (add_transition_keys m4 EEpsilon (S (length m)) (length m) K4) as K5. fold (add_epsilon m4 (S (length m)) (length m)) in A5, L5, K5. set (m5 := add_epsilon m4 (S (length m)) (length m)) in *.
  destruct (add_transition_adds m5 EEpsilon (S (length m)) f ltac:(lia)) as [A6 L6]. pose proof (add_transition_keys m5 EEpsilon (S (length m)) f K5) as K6. fold (add_epsilon m5 (S (length m)) f) in A6, L6, K6. set (m6 := add_epsilon m5 (S (length m)) f) in *.
  exists m6, ([(i, EEpsilon, length m)] ++ E ++ [(S (length m), EEpsilon, length m); (S (length m), EEpsilon, f)]). split; [reflexivity|]. split.
  - pose proof (adds_trans _ _ _ _ _ (adds_trans _ _ _ _ _ (adds_trans _ _ _ _ _ A1 A2) A3) (adds_trans _ _ _ _ _ A4 (adds_trans _ _ _ _ _ A5 A6))) as A. exact A.
  - split; [exact K6|]. split.
    + intros s e t I. rewrite !in_app_iff in I. destruct I as [I|[I|I]].
      * destruct I as [[= <- <- <-]|[]]. repeat split; lia.
      * destruct (W _ _ _ I) as [S [T Pl]]. repeat split; try exact Pl; lia.
      * destruct I as [[= <- <- <-]|[[= <- <- <-]|[]]]; repeat split; lia.
    + split.
      { intros IL. assert (path ([(i, EEpsilon, length m)] ++ E ++ [(S (length m), EEpsilon, length m); (S (length m), EEpsilon, f)]) (S (length m)) [] f) as PF by (eapply p_eps; [rewrite !in_app_iff; cbn; auto 10|constructor]).
        assert (forall s, s = length m \/ length m3 <= s < length m4 -> exists w, path ([(i, EEpsilon, length m)] ++ E ++ [(S (length m), EEpsilon, length m); (S (length m), EEpsilon, f)]) s w f) as PE.
        { intros s Hs. destruct (V IL s Hs) as [w Pw]. exists (w ++ []). eapply path_app; [apply path_in_app_r, path_in_app_l; exact Pw|exact PF]. }
        intros s Hs. destruct (Nat.eq_dec s i) as [->|Ns]; [destruct (PE (length m) (or_introl eq_refl)) as [w Pw]; exists w; eapply p_eps; [left; reflexivity|exact Pw]|].
        destruct (Nat.eq_dec s (S (length m))) as [->|Ns']; [exists []; exact PF|]. apply PE. lia. }
      intros w. rewrite (path_plus E i f (length m) (S (length m)) (length m3) (length m4) w) by (assumption || lia). split.
      * intros [u [v [-> [H1 H2]]]]. exists u, v. split; [reflexivity|]. split; [now apply P|]. eapply star_times; [|exact H2]. exact P.
      * intros [u [v [-> [H1 H2]]]]. exists u, v. split; [reflexivity|]. split; [now apply P|]. eapply star_times; [|exact H2]. exact P.
Qed.

Lemma matches_iff c w : matches c w <->
  match quant_of c with
  | One => once c w
  | Opt => w = [] \/ once c w
  | Rep => w = [] \/ exists u v, w = u ++ v /\ once c u /\ times c v
  | Plus => exists u v, w = u ++ v /\ once c u /\ times c v
  end.
Proof.
  split.
  - intros H. inversion H as [? ? Q O|? Q|? ? Q O|? ? Q T|? ? ? Q O T]; subst; rewrite Q; auto; [|eauto].
    inversion T; subst; [auto|right; eauto].
  - destruct (quant_of c) eqn:Q; intros H.
    + now apply m_one.
    + destruct H as [->|H]; [now apply m_opt_none|now apply m_opt_some].
    + apply m_rep; [exact Q|]. destruct H as [->|[u [v [-> [H1 H2]]]]]; now constructor.
    + destruct H as [u [v [-> [H1 H2]]]]. now apply m_plus.
Qed.
Lemma opt_built L m r i f P : keys_ok m -> i < length m -> f < length m -> i <> f -> built L (add_epsilon m i f) r i f P -> built L m r i f (fun w => w = [] \/ P w).
Proof.
  intros K Li Lf N [m' [E [R [A [K' [W [V H]]]]]]]. destruct (add_transition_adds m EEpsilon i f Li) as [A0 L0]. fold (add_epsilon m i f) in A0, L0. pose proof (proj1 A) as L'. rewrite L0 in *.
  exists m', ([(i, EEpsilon, f)] ++ E). split; [exact R|]. split; [eapply adds_trans; eauto|]. split; [exact K'|]. split; [apply within_app; [apply within_single; exact I|exact W]|].
  split; [intros HL s Hs; destruct (V HL s Hs) as [w Pw]; exists w; now apply path_in_app_r|].
  intros w. rewrite (path_alt [(i, EEpsilon, f)] E i f (length m) (length m) (length m') w); try assumption; try lia; [|apply within_single; exact I]. rewrite path_epsilon by assumption. now rewrite H.
Qed.
Lemma built_ext L m r i f P Q : (forall w, P w <-> Q w) -> built L m r i f P -> built L m r i f Q.
Proof. intros H [m' [E [R [A [K [W [V X]]]]]]]. exists m', E. do 5 (split; [assumption|]). intros w. rewrite X. apply H. Qed.
Lemma content_builds c : (forall b, (b = true -> quant_of c = Rep \/ quant_of c = Plus) -> (quant_of c = Rep \/ quant_of c = Plus -> b = true) -> body_builds c b) -> builds c.
Proof.
  intros B i f m K Li Lf N. rewrite compile_content_eq. destruct (add_transition_adds m EEpsilon i f Li) as [A0 L0]. fold (add_epsilon m i f) in A0, L0. pose proof (add_transition_keys m EEpsilon i f K) as K0. fold (add_epsilon m i f) in K0.
  destruct (quant_of c) eqn:Q.
  - apply (built_ext _ m _ i f (once c)); [intros w; rewrite matches_iff, Q; tauto|]. apply (B false); first [assumption | lia | discriminate | intros [C|C]; discriminate].
  - apply (built_ext _ m _ i f (fun w => w = [] \/ once c w)); [intros w; rewrite matches_iff, Q; tauto|]. apply opt_built; try assumption. apply (B false); first [assumption | lia | discriminate | intros [C|C]; discriminate].
  - apply (built_ext _ m _ i f (fun w => w = [] \/ exists u v, w = u ++ v /\ once c u /\ times c v)); [intros w; rewrite matches_iff, Q; tauto|]. apply opt_built; try assumption. apply repeated_built; try assumption; try lia. apply B; auto.
  - apply (built_ext _ m _ i f (fun w => exists u v, w = u ++ v /\ once c u /\ times c v)); [intros w; rewrite matches_iff, Q; tauto|]. apply repeated_built; try assumption. apply B; auto.
Qed.
Theorem compile_builds : forall c, proper c -> builds c.
Proof.
  assert (forall l, Forall (fun c => proper c -> builds c) l -> (fix all (l : list content) : Prop := match l with [] => True | x :: l' => proper x /\ all l' end) l -> Forall builds l) as FA.
  { intros l F. induction F as [|x l Hx F IH]; intros Pr; [constructor|]. destruct Pr as [P1 P2]. constructor; auto. }
  induction c as [q n|q l F|q l F|q l F] using content_rect'; intros Pr; apply content_builds; intros b B1 B2; apply body_built; cbn in Pr.
  - exact I.
  - destruct Pr as [NE Pr]. split; [exact NE|]. now apply FA.
  - now apply FA.
  - destruct Pr as [Q Pr]. split; [apply B2; exact Q|now apply FA].
Qed.

(** ** Labels *)
Inductive occurs (e : event) : content -> Prop :=
  | o_name : forall q n, e = EName n -> occurs e (CName q n)
  | o_text : forall q l, e = EPcdata -> occurs e (CMixed q l)
  | o_seq : forall q l x, In x l -> occurs e x -> occurs e (CSeq q l)
  | o_alt : forall q l x, In x l -> occurs e x -> occurs e (CAlt q l)
  | o_mixed : forall q l x, In x l -> occurs e x -> occurs e (CMixed q l).
Definition only (P : event -> Prop) (m m' : nfa) : Prop := length m <= length m' /\ forall s e t, edge m' s e t -> edge m s e t \/ e = EEpsilon \/ P e.
Lemma only_refl P m : only P m m.
Proof. split; auto. Qed.
Lemma only_trans P m m1 m2 : only P m m1 -> only P m1 m2 -> only P m m2.
Proof. intros [L1 A] [L2 B]. split; [lia|]. intros s e t E. destruct (B _ _ _ E) as [H|H]; auto. Qed.
Lemma only_imp (P Q : event -> Prop) m m' : (forall e, P e -> Q e) -> only P m m' -> only Q m m'.
Proof. intros I [L A]. split; [exact L|]. intros s e t E. destruct (A _ _ _ E) as [H|[H|H]]; auto. Qed.
Lemma only_new P m : only P m (m ++ [[]]).
Proof. destruct (new_state_adds m) as [[L A] _]. split; [exact L|]. intros s e t E. apply A in E. destruct E as [E|[]]. auto. Qed.
Lemma only_add (P : event -> Prop) m e a b : a < length m -> e = EEpsilon \/ P e -> only P m (add_transition m e a b).
Proof. intros La H. destruct (add_transition_adds m e a b La) as [[L A] _]. split; [exact L|]. intros s e' t E. apply A in E. destruct E as [E|[[= <- <- <-]|[]]]; auto. Qed.
Definition labels_ok (c : content) : Prop := forall i f m m', i < length m -> compile_content c i f m = Ok m' -> only (fun e => occurs e c) m m'.
Lemma alt_labels i f l : Forall labels_ok l -> forall m m', i < length m -> compile_alt i f l m = Ok m' -> only (fun e => exists x, In x l /\ occurs e x) m m'.
Proof.
  induction 1 as [|c l Hc F IH]; intros m m' Li; cbn [compile_alt]; [intros [= <-]; apply only_refl|]. destruct (compile_content c i f m) as [m1|] eqn:R; cbn [bind]; [|discriminate]. intros R2.
  pose proof (Hc _ _ _ _ Li R) as O1. eapply only_trans; eapply only_imp; [|exact O1| |eapply IH; [destruct O1; lia|exact R2]]; cbn; [eauto|]. intros e [x [I H]]. eauto.
Qed.
Lemma seq_labels f l : Forall labels_ok l -> forall i m m', i < length m -> compile_seq f l i m = Ok m' -> only (fun e => exists x, In x l /\ occurs e x) m m'.
Proof.
  induction 1 as [|c l Hc F IH]; intros i m m' Li; cbn [compile_seq]; [intros [= <-]; apply only_refl|]. destruct l as [|c2 l].
  - intros R. eapply only_imp; [|eapply Hc; eauto]. cbn. eauto.
  - unfold new_state. pose proof (only_new (fun e => exists x, In x (c :: c2 :: l) /\ occurs e x) m) as O0. destruct (new_state_adds m) as [_ Ln]. destruct (compile_content c i (length m) (m ++ [[]])) as [m1|] eqn:R; cbn [bind]; [|discriminate]. intros R2.
    assert (i < length (m ++ [[]])) as Li' by lia. pose proof (Hc _ _ _ _ Li' R) as O1. eapply only_trans; [exact O0|]. eapply only_trans; eapply only_imp; [|exact O1| |apply (IH (length m) m1 m'); [destruct O1; lia|exact R2]]; cbn; [eauto|]. intros e [x [I H]]. eauto.
Qed.
Lemma body_labels c b : match c with CName _ _ => True | CSeq _ l | CAlt _ l | CMixed _ l => Forall labels_ok l end ->
  forall i f m m', i < length m -> body_of c b i f m = Ok m' -> only (fun e => occurs e c) m m'.
Proof.
  intros H i f m m' Li. destruct c as [q n|q l|q l|q l]; cbn [body_of].
  - intros [= <-]. apply only_add; [exact Li|]. right. now constructor.
  - intros R. eapply only_imp; [|eapply seq_labels; eauto]. intros e [x [I O]]. econstructor; eauto.
  - intros R. eapply only_imp; [|eapply alt_labels; eauto]. intros e [x [I O]]. econstructor; eauto.
  - destruct b; [|discriminate]. intros R. destruct (add_transition_adds m EPcdata i f Li) as [_ L]. eapply only_trans; [apply only_add; [exact Li|right; now apply o_text]|]. eapply only_imp; [|eapply alt_labels; [exact H| |exact R]; lia]. intros e [x [I O]]. eapply o_mixed; eauto.
Qed.
Lemma repeated_labels c i f m m' : (forall i f m m', i < length m -> body_of c true i f m = Ok m' -> only (fun e => occurs e c) m m') -> i < length m -> repeated_of c i f m = Ok m' -> only (fun e => occurs e c) m m'.
Proof.
  intros H Li. unfold repeated_of. destruct (new_state_adds m) as [_ L1]. destruct (new_state_adds (m ++ [[]])) as [_ L2]. set (m2 := (m ++ [[]]) ++ [[]]) in *.
  destruct (add_transition_adds m2 EEpsilon i (length m) ltac:(lia)) as [_ L3]. destruct (body_of c true (length m) (S (length m)) (add_epsilon m2 i (length m))) as [m4|] eqn:R; cbn [bind]; [|discriminate]. intros [= <-].
  assert (length m < length (add_epsilon m2 i (length m))) as L4 by (unfold add_epsilon; lia). pose proof (H _ _ _ _ L4 R) as O. eapply only_trans; [apply only_new|]. eapply only_trans; [apply only_new|]. fold m2.
  eapply only_trans; [apply (only_add _ m2 EEpsilon i (length m)); [lia|auto]|]. eapply only_trans; [exact O|]. destruct O as [L5 _]. unfold add_epsilon in *.
  eapply only_trans; [apply (only_add _ m4 EEpsilon (S (length m)) (length m)); [lia|auto]|]. apply only_add; [|auto]. destruct (add_transition_adds m4 EEpsilon (S (length m)) (length m) ltac:(lia)) as [_ L6]. lia.
Qed.
Theorem compile_labels : forall c, labels_ok c.
Proof.
  assert (forall c, (forall b i f m m', i < length m -> body_of c b i f m = Ok m' -> only (fun e => occurs e c) m m') -> labels_ok c) as X.
  { intros c H i f m m' Li. rewrite compile_content_eq. destruct (add_transition_adds m EEpsilon i f Li) as [_ L0]. fold (add_epsilon m i f) in L0.
    destruct (quant_of c); intros R.
    - eapply H; eauto.
    - eapply only_trans; [apply (only_add _ m EEpsilon i f); [exact Li|auto]|]. fold (add_epsilon m i f). eapply H; [|exact R]. rewrite L0. exact Li.
    - eapply only_trans; [apply (only_add _ m EEpsilon i f); [exact Li|auto]|]. fold (add_epsilon m i f). eapply repeated_labels; [apply H| |exact R]. rewrite L0. exact Li.
    - eapply repeated_labels; [apply H| |exact R]; exact Li. }
  induction c as [q n|q l F|q l F|q l F] using content_rect'; apply X; intros b; apply body_labels; auto.
Qed.
Lemma element_content_text c : element_content c -> ~ occurs EPcdata c.
Proof.
  assert (forall l, Forall (fun c => element_content c -> ~ occurs EPcdata c) l -> (fix all (l : list content) : Prop := match l with [] => True | x :: l' => element_content x /\ all l' end) l -> forall x, In x l -> ~ occurs EPcdata x) as FA.
  { intros l F. induction F as [|x l Hx F IH]; intros A y [].
    - subst. apply Hx. apply A.
    - apply IH; [apply A|assumption]. }
  induction c as [q n|q l F|q l F|q l F] using content_rect'; cbn; intros H O; inversion O; subst; try discriminate; try contradiction.
  - destruct H as [_ H]. eapply FA; eauto.
  - eapply FA; eauto.
Qed.
Lemma occurs_plain e c : occurs e c -> e = EPcdata \/ exists n, e = EName n.
Proof. induction 1; eauto. Qed.
Lemma path_labels E s w t : path E s w t -> forall e, In e w -> exists a b, In (a, e, b) E.
Proof. induction 1 as [|s t u w I P IH|s e t u w N I P IH]; intros x J; [destruct J|auto|]. destruct J as [<-|J]; eauto. Qed.
