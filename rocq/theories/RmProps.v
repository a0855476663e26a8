(** * Property C127: regexp:match *)
From Coq Require Import NArith String List Bool Lia Arith.
From Verif Require Import PyStr RmModel RmSpec.
Import ListNotations.

Lemma has_g : forall flags, In 103%N flags -> existsb (N.eqb 103) flags = true.
Proof. intros flags H. apply existsb_exists. exists 103%N. split; [exact H|reflexivity]. Qed.
Lemma no_g : forall flags, ~ In 103%N flags -> existsb (N.eqb 103) flags = false.
Proof.
  intros flags H. destruct (existsb (N.eqb 103) flags) eqn:E; [|reflexivity]. apply existsb_exists in E. destruct E as (x & Hx & E).
  apply N.eqb_eq in E. subst x. contradiction (H Hx).
Qed.
Lemma skip_skip : forall (s : str) a b, skipn a (skipn b s) = skipn (a + b) s.
Proof.
  intro s. induction s as [|c s IH]; intros a b; [rewrite !skipn_nil; reflexivity|]. destruct b as [|b]; [rewrite Nat.add_0_r; reflexivity|].
  rewrite Nat.add_succ_r. cbn [skipn]. apply IH.
Qed.
Lemma group_split : forall s p m, (p <= m_start m /\ m_start m <= m_end m /\ m_end m <= length s)%nat ->
  exists before rest, skipn p s = before ++ group s m ++ rest /\ length before = (m_start m - p)%nat /\ length (group s m) = (m_end m - m_start m)%nat.
Proof.
  intros s p m H. exists (firstn (m_start m - p) (skipn p s)), (skipn (m_end m) s). split; [|split].
  - assert (E : skipn (m_start m) s = skipn (m_start m - p) (skipn p s)) by (rewrite skip_skip; f_equal; lia).
    assert (F : skipn (m_end m) s = skipn (m_end m - m_start m) (skipn (m_start m) s)) by (rewrite skip_skip; f_equal; lia).
    unfold group. rewrite F, firstn_skipn, E, firstn_skipn. reflexivity.
  - rewrite firstn_length, skipn_length. lia.
  - unfold group. rewrite firstn_length, skipn_length. lia.
Qed.
Lemma loop_cut : forall search, sane search -> forall s n p l, global_loop search n s (search s p) = Some l -> cut search s p l.
Proof.
  intros search Hs s n. induction n as [|n IH]; intros p l H; destruct (search s p) as [m|] eqn:E; cbn [global_loop] in H.
  - discriminate H.
  - injection H as H. subst l. apply cut_nil. exact E.
  - destruct (global_loop search n s (search s (m_end m))) as [l'|] eqn:E2; [|discriminate H]. injection H as H. subst l.
    destruct (group_split s p m (Hs s p m E)) as (b & r & H1 & H2 & H3). apply cut_cons with (m := m) (before := b) (rest := r); [exact E|exact H1|exact H2|exact H3|].
    apply IH. exact E2.
  - injection H as H. subst l. apply cut_nil. exact E.
Qed.
(** C127: with 'g' the result is the texts of all matches from the left, without overlap. *)
Theorem C127_all_partial : forall search s flags n l, sane search -> In 103%N flags -> match_function search n s flags = Some l -> cut search s 0 l.
Proof.
  intros search s flags n l Hs Hg H. unfold match_function in H. rewrite (has_g _ Hg) in H. destruct (search s 0%nat) as [m|] eqn:E.
  - apply (loop_cut search Hs s n). rewrite E. exact H.
  - injection H as H. subst l. apply cut_nil. exact E.
Qed.
Print Assumptions C127_all_partial.
(** C127: it returns if no match is empty. *)
Lemma loop_ends : forall search, sane search -> forall s, (forall p m, search s p = Some m -> (m_start m < m_end m)%nat) ->
  forall n p, (length s < n + p)%nat -> (p <= length s)%nat -> exists l, global_loop search n s (search s p) = Some l.
Proof.
  intros search Hs s Hp n. induction n as [|n IH]; intros p H H2; destruct (search s p) as [m|] eqn:E; cbn [global_loop]; try (eexists; reflexivity).
  - lia.
  - pose proof (Hs s p m E) as B. pose proof (Hp p m E) as B2. destruct (IH (m_end m)) as [l El]; [lia|lia|]. rewrite El. eexists. reflexivity.
Qed.
Theorem C127_returns_partial : forall search s flags, sane search -> In 103%N flags -> (forall p m, search s p = Some m -> (m_start m < m_end m)%nat) ->
  forall n, (length s < n)%nat -> exists l, match_function search n s flags = Some l.
Proof.
  intros search s flags Hs Hg Hp n Hn. unfold match_function. rewrite (has_g _ Hg). destruct (search s 0%nat) as [m|] eqn:E; [|eexists; reflexivity].
  rewrite <- E. apply loop_ends; [exact Hs|exact Hp|lia|lia].
Qed.
Print Assumptions C127_returns_partial.
(** C127: without 'g' there is the text of the first match, then one for each group. *)
Theorem C127_first : forall search s flags n m, sane search -> ~ In 103%N flags -> search s 0%nat = Some m -> exists text before rest,
  match_function search n s flags = Some (text :: map (fun g => match g with Some t => t | None => [] end) (m_groups m)) /\
  s = before ++ text ++ rest /\ length before = m_start m /\ length text = (m_end m - m_start m)%nat.
Proof.
  intros search s flags n m Hs Hg E. destruct (group_split s 0 m (Hs s 0%nat m E)) as (b & r & H1 & H2 & H3). exists (group s m), b, r.
  split; [unfold match_function; rewrite E, (no_g _ Hg); reflexivity|]. split; [exact H1|]. split; [rewrite H2; lia|exact H3].
Qed.
Print Assumptions C127_first.
Theorem C127_none : forall search s n g, search s 0%nat = None -> match_function search n s g = Some [].
Proof. intros search s n g E. unfold match_function. rewrite E. reflexivity. Qed.
Print Assumptions C127_none.
(** C127 is false for empty matches: the search goes on where the match ended, finds it again, and the function never returns. *)
Theorem C127_empty_refuted : forall search s flags m, In 103%N flags -> search s 0%nat = Some m -> search s (m_end m) = Some m ->
  forall n, match_function search n s flags = None.
Proof.
  intros search s flags m Hg E E2 n. unfold match_function. rewrite E, (has_g _ Hg). induction n as [|n IH]; cbn [global_loop]; [reflexivity|]. rewrite E2, IH. reflexivity.
Qed.
Print Assumptions C127_empty_refuted.
(** *** Cases: the pattern "a", and the pattern "a*" at the beginning of "b" *)
Fixpoint find_a (s : str) (i : nat) : option nat := match s with [] => None | c :: s' => if (c =? 97)%N then Some i else find_a s' (S i) end.
Definition search_a (s : str) (p : nat) : option found :=
  match find_a (skipn p s) p with Some i => Some {| m_start := i; m_end := S i; m_groups := [None; Some [97%N]] |} | None => None end.
Lemma find_a_in : forall s i j, find_a s i = Some j -> (i <= j < i + length s)%nat.
Proof.
  intro s. induction s as [|c s IH]; intros i j H; cbn [find_a] in H; [discriminate H|]. destruct (c =? 97)%N.
  - injection H as H. subst j. cbn [length]. lia.
  - apply IH in H. cbn [length]. lia.
Qed.
Example C127_case : sane search_a /\ (forall s p m, search_a s p = Some m -> (m_start m < m_end m)%nat) /\
  match_function search_a 9 (lit "banana") (lit "ig") = Some [lit "a"; lit "a"; lit "a"] /\
  match_function search_a 0 (lit "banana") (lit "i") = Some [lit "a"; []; lit "a"].
Proof.
  split; [|split; [|split; vm_compute; reflexivity]].
  - intros s p m H. unfold search_a in H. destruct (find_a (skipn p s) p) as [i|] eqn:E; [|discriminate H]. injection H as H. subst m. cbn [m_start m_end].
    apply find_a_in in E. rewrite skipn_length in E. lia.
  - intros s p m H. unfold search_a in H. destruct (find_a (skipn p s) p) as [i|]; [|discriminate H]. injection H as H. subst m. cbn [m_start m_end]. lia.
Qed.
Fixpoint as_ (s : str) : nat := match s with [] => 0 | c :: s' => if (c =? 97)%N then S (as_ s') else 0 end.
Definition search_star (s : str) (p : nat) : option found := if (p <=? length s)%nat then
  Some {| m_start := p; m_end := p + as_ (skipn p s); m_groups := [] |} else None.
Example C127_loop : forall n, match_function search_star n (lit "ab") (lit "g") = None.
Proof.
  intro n. unfold match_function. change (existsb (N.eqb 103) (lit "g")) with true. change (search_star (lit "ab") 0) with (Some {| m_start := 0; m_end := 1; m_groups := [] |}).
  destruct n as [|n]; [reflexivity|]. cbn [global_loop m_end]. change (search_star (lit "ab") 1) with (Some {| m_start := 1; m_end := 1; m_groups := [] |}).
  assert (H : forall k, global_loop search_star k (lit "ab") (Some {| m_start := 1; m_end := 1; m_groups := [] |}) = None).
  { intro k. induction k as [|k IH]; [reflexivity|]. cbn [global_loop m_end]. change (search_star (lit "ab") 1) with (Some {| m_start := 1; m_end := 1; m_groups := [] |}). rewrite IH. reflexivity. }
  rewrite H. reflexivity.
Qed.
