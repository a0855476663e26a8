(** * Caches are maps, and names are what the document says *)
From Coq Require Import NArith ZArith String List Bool Lia Arith Permutation.
From Verif Require Import PyStr PyErr HashProbe NcModel NcSpec.
Import ListNotations.
Local Open Scope nat_scope.

Lemma slot_lt k x : slot k x < 2 ^ k.
Proof.
  unfold slot. assert (0 < 2 ^ Z.of_nat k)%Z as P by (apply Z.pow_pos_nonneg; lia). pose proof (Z.mod_pos_bound x _ P). rewrite <- (Nat2Z.id (2 ^ k)), pow_nat. lia.
Qed.
Lemma slot_mod k a b : (a mod 2 ^ Z.of_nat k = b mod 2 ^ Z.of_nat k)%Z -> slot k a = slot k b.
Proof. unfold slot. now intros ->. Qed.
Lemma it_mod k n : forall a b, (a mod 2 ^ Z.of_nat k = b mod 2 ^ Z.of_nat k)%Z -> (it n a mod 2 ^ Z.of_nat k = it n b mod 2 ^ Z.of_nat k)%Z.
Proof.
  induction n as [|n IH]; intros a b H; cbn [it]; [exact H|].
  rewrite Z.add_mod, Z.mul_mod, (IH a b H), <- Z.mul_mod, <- Z.add_mod by (apply Z.pow_nonzero; lia). reflexivity.
Qed.
Lemma mod_wrap k (x : Z) : k <= 32 -> ((x mod 2 ^ 32) mod 2 ^ Z.of_nat k = x mod 2 ^ Z.of_nat k)%Z.
Proof.
  intro H. replace (2 ^ 32)%Z with (2 ^ Z.of_nat k * 2 ^ (32 - Z.of_nat k))%Z by (rewrite <- Z.pow_add_r by lia; f_equal; lia).
  symmetry. apply Znumtheory.Zmod_div_mod; [apply Z.pow_pos_nonneg; lia|apply Z.mul_pos_pos; apply Z.pow_pos_nonneg; lia|]. exists (2 ^ (32 - Z.of_nat k))%Z. ring.
Qed.
Lemma next_mod k (i : N) : k <= 32 -> (Z.of_N ((N.shiftl i 2 + i + 0 + 1) mod 2 ^ 32) mod 2 ^ Z.of_nat k = it 1 (Z.of_N i) mod 2 ^ Z.of_nat k)%Z.
Proof.
  intro H. rewrite N.shiftl_mul_pow2, N2Z.inj_mod. change (Z.of_N (2 ^ 32)) with (2 ^ 32)%Z. rewrite mod_wrap by exact H.
  f_equal. change (2 ^ 2)%N with 4%N. cbn [it]. lia.
Qed.
Section Table.
Context {V : Type}.
Implicit Types t : table V.
Definition shape (k : nat) t : Prop := length (t_slots t) = 2 ^ k /\ t_mask t = (N.of_nat (2 ^ k) - 1)%N.
Lemma index k t i : shape k t -> N.to_nat (N.land i (t_mask t)) = slot k (Z.of_N i).
Proof. intros [_ ->]. apply land_slot. Qed.
Definition good k t key h (r : result nat) : Prop := exists p, r = Ok p /\ p < 2 ^ k /\ stop (nth p (t_slots t) None) key h = true.
Lemma probe_zero k t key h p0 : shape k t -> k <= 32 -> nth p0 (t_slots t) None = None ->
  forall n f i, n < f -> slot k (it (S n) (Z.of_N i)) = p0 -> good k t key h (probe f t key h i 0).
Proof.
  intros S K E. induction n as [|n IH]; intros f i Hf Hp; (destruct f as [|f]; [lia|]); cbn [probe]; rewrite (index k) by exact S;
  rewrite (slot_mod k _ _ (next_mod k i K)); (destruct (stop _ key h) eqn:ST; [eexists; split; [reflexivity|]; split; [apply slot_lt|exact ST]|]).
  - rewrite Hp, E in ST. discriminate ST.
  - change (N.shiftr 0 5) with 0%N. apply IH; [lia|]. rewrite <- Hp. apply slot_mod. rewrite (it_mod k _ _ _ (next_mod k i K)). rewrite <- it_add. f_equal. f_equal. lia.
Qed.
Lemma probe_shift k t key h f : shape k t -> (forall i, good k t key h (probe f t key h i 0)) ->
  forall m i perturb, (perturb < 2 ^ (5 * N.of_nat m))%N -> good k t key h (probe (m + f) t key h i perturb).
Proof.
  intros S G. induction m as [|m IH]; intros i pe Hp.
  - cbn [Nat.add]. change (2 ^ (5 * N.of_nat 0))%N with 1%N in Hp. replace pe with 0%N by lia. apply G.
  - cbn [Nat.add probe]. rewrite (index k) by exact S. destruct (stop _ key h) eqn:ST; [eexists; split; [reflexivity|]; split; [apply slot_lt|exact ST]|].
    apply IH. rewrite N.shiftr_div_pow2. apply N.div_lt_upper_bound; [apply N.pow_nonzero; lia|]. rewrite <- N.pow_add_r. replace (5 + 5 * N.of_nat m)%N with (5 * N.of_nat (Datatypes.S m))%N by lia. exact Hp.
Qed.
Lemma lookup_good k t key h p0 : shape k t -> k <= 32 -> p0 < 2 ^ k -> nth p0 (t_slots t) None = None -> good k t key h (lookup_entry t key h).
Proof.
  intros S K P E. unfold lookup_entry. rewrite (index k) by exact S. destruct (stop _ key h) eqn:ST; [eexists; split; [reflexivity|]; split; [apply slot_lt|exact ST]|].
  apply probe_shift with (f := length (t_slots t)); [exact S| |].
  - intro i. destruct (it_all k (it 1 (Z.of_N i)) p0 P) as (n & Hn & Hs). eapply probe_zero; [exact S|exact K|exact E| |].
    + destruct S as [-> _]. exact Hn.
    + rewrite <- Hs. rewrite <- it_add. f_equal. f_equal. lia.
  - eapply N.lt_le_trans; [apply N.mod_lt; apply N.pow_nonzero; lia|]. apply N.pow_le_mono_r; lia.
Qed.
(** Filling an empty slot *)
Lemma set_other {A} (l : list A) q x r d : r <> q -> nth r (set_slot l q x) d = nth r l d.
Proof. revert q r. induction l as [|a l IH]; intros q r H; [reflexivity|]. destruct q, r; cbn; try reflexivity; try lia. apply IH. lia. Qed.
Lemma set_same {A} (l : list A) q x d : q < length l -> nth q (set_slot l q x) d = x.
Proof. revert q. induction l as [|a l IH]; intros q H; [cbn in H; lia|]. destruct q; cbn; [reflexivity|]. apply IH. cbn in H. lia. Qed.
Lemma set_length {A} (l : list A) q x : length (set_slot l q x) = length l.
Proof. revert q. induction l as [|a l IH]; intro q; [reflexivity|]. destruct q; cbn; auto. Qed.
Section Fill.
Variables (t t' : table V) (q : nat) (e : entry V).
Hypothesis M : t_mask t' = t_mask t.
Hypothesis Q : nth q (t_slots t) None = None.
Hypothesis L : q < length (t_slots t).
Hypothesis S' : t_slots t' = set_slot (t_slots t) q (Some e).
Lemma probe_fill key h : (forall p, p = q -> check_entry e key h = true) \/ True ->
  forall f i pe p, probe f t key h i pe = Ok p -> (p = q -> check_entry e key h = true) -> probe f t' key h i pe = Ok p.
Proof.
  intros _. induction f as [|f IH]; intros i pe p H C; cbn [probe] in *; [discriminate H|]. rewrite M, S'.
  set (r := N.to_nat _) in *. destruct (Nat.eq_dec r q) as [->|N].
  - rewrite Q in H. cbn [stop] in H. injection H as <-. rewrite set_same by exact L. cbn [stop]. now rewrite C.
  - rewrite set_other by exact N. destruct (stop _ key h); [exact H|]. now apply IH.
Qed.
Lemma lookup_fill key h p : lookup_entry t key h = Ok p -> (p = q -> check_entry e key h = true) -> lookup_entry t' key h = Ok p.
Proof.
  unfold lookup_entry. rewrite M, S'. set (r := N.to_nat _). intros H C. rewrite set_length. destruct (Nat.eq_dec r q) as [R|N].
  - rewrite R in *. rewrite Q in H. cbn [stop] in H. injection H as <-. rewrite set_same by exact L. cbn [stop]. now rewrite C.
  - rewrite set_other by exact N. destruct (stop _ key h); [exact H|]. apply probe_fill; auto.
Qed.
End Fill.
(** What a table holds *)
Fixpoint entries (l : list (option (entry V))) : list (str * V) :=
  match l with [] => [] | None :: l' => entries l' | Some e :: l' => (en_key e, en_value e) :: entries l' end.
Lemma entries_in l s v : In (s, v) (entries l) <-> exists p e, nth p l None = Some e /\ en_key e = s /\ en_value e = v.
Proof.
  induction l as [|o l IH]; cbn [entries].
  - split; [intros []|]. intros (p & e & H & _). destruct p; discriminate H.
  - split.
    + destruct o as [e|]; cbn [In]; intro H.
      * destruct H as [H|H]; [injection H as <- <-; exists 0, e; auto|]. apply IH in H. destruct H as (p & e' & H). exists (S p), e'. exact H.
      * apply IH in H. destruct H as (p & e' & H). exists (S p), e'. exact H.
    + intros (p & e & H & A & B). destruct p as [|p]; cbn [nth] in H; [subst; now left|].
      assert (I : In (s, v) (entries l)) by (apply IH; eauto). destruct o; [now right|exact I].
Qed.
Lemma entries_set l q e : nth q l None = None -> q < length l -> Permutation ((en_key e, en_value e) :: entries l) (entries (set_slot l q (Some e))).
Proof.
  revert q. induction l as [|o l IH]; intros q H L; [cbn in L; lia|]. destruct q as [|q]; cbn [nth] in H; cbn [set_slot entries].
  - subst o. reflexivity.
  - cbn [length] in L. specialize (IH q H ltac:(lia)). destruct o; [|exact IH]. rewrite perm_swap. now rewrite IH.
Qed.
Lemma entries_room l : length (entries l) < length l -> exists p, p < length l /\ nth p l None = None.
Proof.
  induction l as [|o l IH]; cbn [entries length]; [lia|]. destruct o as [e|]; cbn [length]; intro H.
  - destruct IH as (p & A & B); [lia|]. exists (S p). split; [lia|exact B].
  - exists 0. split; [lia|reflexivity].
Qed.
Lemma check_same (e : entry V) : check_entry e (en_key e) (en_hash e) = true.
Proof. unfold check_entry. now rewrite N.eqb_refl, Nat.eqb_refl, str_eqb_refl. Qed.
Lemma check_key (e : entry V) s h : check_entry e s h = true -> en_key e = s.
Proof.
  unfold check_entry. intro H. apply andb_prop in H. destruct H as [H H2]. apply andb_prop in H. destruct H as [_ H1].
  apply Nat.eqb_eq in H1. apply str_eqb_eq in H2. rewrite firstn_all in H2. rewrite <- H1, firstn_all in H2. exact H2.
Qed.
Definition holds (k : nat) t (m : list (str * V)) : Prop :=
  shape k t /\ Permutation m (entries (t_slots t)) /\ NoDup (map fst m) /\
  forall p e, nth p (t_slots t) None = Some e -> en_hash e = hash_of (en_key e) /\ lookup_entry t (en_key e) (en_hash e) = Ok p.
Lemma cached_in (m : list (str * V)) s v : cached m s = Some v -> In (s, v) m.
Proof. induction m as [|[k w] m IH]; cbn [cached]; intro H; [discriminate H|]. destruct (str_eqb_spec k s); [injection H as <-; subst; now left|right; auto]. Qed.
Lemma cached_none (m : list (str * V)) s : cached m s = None <-> ~ In s (map fst m).
Proof.
  induction m as [|[k w] m IH]; cbn [cached map fst In]; [tauto|]. destruct (str_eqb_spec k s); [split; [intro H; discriminate H|tauto]|]. rewrite IH. tauto.
Qed.
Lemma find_held k t m s v : holds k t m -> cached m s = Some v -> exists p e, lookup_entry t s (hash_of s) = Ok p /\ nth p (t_slots t) None = Some e /\ en_value e = v.
Proof.
  intros (_ & P & _ & E) C. apply cached_in in C. eapply Permutation_in in C; [|exact P]. apply entries_in in C. destruct C as (p & e & N & A & B).
  destruct (E p e N) as [H L]. rewrite H, A in L. eauto.
Qed.
Lemma find_free k t m s : holds k t m -> k <= 32 -> length m < 2 ^ k -> cached m s = None ->
  exists p, lookup_entry t s (hash_of s) = Ok p /\ nth p (t_slots t) None = None /\ p < 2 ^ k.
Proof.
  intros (S & P & D & E) K R C. destruct (entries_room (t_slots t)) as (p0 & A & B).
  { rewrite <- (Permutation_length P). destruct S as [-> _]. exact R. }
  destruct (lookup_good k t s (hash_of s) p0 S K) as (p & L & Lt & ST); [destruct S as [<- _]; exact A|exact B|]. exists p. split; [exact L|]. split; [|exact Lt].
  destruct (nth p (t_slots t) None) as [e|] eqn:N; [|reflexivity]. exfalso. cbn [stop] in ST. apply check_key in ST. apply cached_none in C. apply C.
  apply in_map_iff. exists (s, en_value e). split; [reflexivity|]. eapply Permutation_in; [apply Permutation_sym, P|]. apply entries_in. eauto.
Qed.
Lemma holds_add k t t' m s v p : holds k t m -> cached m s = None -> lookup_entry t s (hash_of s) = Ok p -> nth p (t_slots t) None = None -> p < 2 ^ k ->
  t_mask t' = t_mask t -> t_slots t' = set_slot (t_slots t) p (Some {| en_hash := hash_of s; en_key := s; en_value := v |}) -> holds k t' (m ++ [(s, v)]).
Proof.
  intros (S & P & D & E) C L N Lt M SL. set (e0 := {| en_hash := _; en_key := s; en_value := v |}) in *.
  assert (LL : p < length (t_slots t)) by (destruct S as [-> _]; exact Lt). split; [|split; [|split]].
  - destruct S as [S1 S2]. split; [rewrite SL, set_length; exact S1|congruence].
  - rewrite SL. rewrite <- (entries_set _ _ e0 N LL). rewrite Permutation_app_comm. cbn [app]. now apply perm_skip.
  - rewrite map_app. cbn [map fst]. apply (Permutation_NoDup (l := s :: map fst m)); [rewrite Permutation_app_comm; reflexivity|]. constructor; [now apply cached_none|exact D].
  - intros r e H. rewrite SL in H. destruct (Nat.eq_dec r p) as [->|NE].
    + rewrite set_same in H by exact LL. injection H as <-. split; [reflexivity|]. eapply lookup_fill; eauto. intros _. apply check_same.
    + rewrite set_other in H by exact NE. destruct (E r e H) as [H1 H2]. split; [exact H1|]. apply (lookup_fill t t' p e0 M N LL SL); [exact H2|]. intros ->. congruence.
Qed.
Lemma holds_new k : forall u, holds k {| t_used := u; t_mask := (N.of_nat (2 ^ k) - 1)%N; t_slots := repeat None (2 ^ k) |} [].
Proof.
  intro u. split; [split; [apply repeat_length|reflexivity]|]. cbn [t_slots]. split; [|split; [constructor|]].
  - generalize (2 ^ k). induction n as [|n IH]; cbn [repeat entries]; auto.
  - intros p e H. exfalso. revert p H. generalize (2 ^ k). induction n as [|n IH]; intros p H; destruct p; cbn in H; try discriminate H. exact (IH _ H).
Qed.
Lemma copy_holds k : forall old i t m, k <= 32 -> i = length (entries old) -> holds k t m -> NoDup (map fst (m ++ entries old)) ->
  (forall p e, nth p old None = Some e -> en_hash e = hash_of (en_key e)) -> length m + i < 2 ^ k ->
  exists t', copy i old t = Ok t' /\ holds k t' (m ++ entries old) /\ t_used t' = t_used t.
Proof.
  induction old as [|o old IH]; intros i t m K -> H D HH R.
  - exists t. cbn [entries length copy]. rewrite app_nil_r. auto.
  - destruct o as [e|]; cbn [entries length] in *.
    + cbn [copy]. assert (C : cached m (en_key e) = None).
      { apply cached_none. rewrite map_app in D. cbn [map fst] in D. apply NoDup_remove_2 in D. intro I. apply D. apply in_or_app. now left. }
      destruct (find_free k t m (en_key e) H K ltac:(lia) C) as (p & L & N & Lt). rewrite (HH 0 e eq_refl), L. cbn [bind].
      destruct (IH (length (entries old)) (with_slots t (set_slot (t_slots t) p (Some e))) (m ++ [(en_key e, en_value e)])) as (t' & A & B & U).
      * exact K.
      * reflexivity.
      * eapply holds_add; eauto. cbn [with_slots t_slots]. f_equal. f_equal. destruct e as [h x w]. cbn [en_key en_value]. f_equal. exact (HH 0 _ eq_refl).
      * rewrite <- app_assoc. exact D.
      * intros q e' Hq. exact (HH (S q) e' Hq).
      * rewrite app_length. cbn [length]. lia.
      * exists t'. rewrite <- app_assoc in B. auto.
    + destruct (length (entries old)) as [|i] eqn:EL.
      * cbn [copy]. exists t. destruct (entries old); [|discriminate EL]. rewrite app_nil_r. auto.
      * cbn [copy]. apply IH; auto. intros q e' Hq. exact (HH (S q) e' Hq).
Qed.
Lemma holds_perm k t m m' : Permutation m m' -> holds k t m -> holds k t m'.
Proof. intros P (S & A & D & E). split; [exact S|]. split; [now rewrite <- P|]. split; [|exact E]. eapply Permutation_NoDup; [|exact D]. now apply Permutation_map. Qed.
Definition rep t (m : list (str * V)) : Prop := t_used t = length m /\ exists k, k <= 29 /\ holds k t m /\ (N.of_nat (length m) * 3 < 2 ^ N.of_nat k * 2)%N.
Lemma pow_N k : N.of_nat (2 ^ k) = (2 ^ N.of_nat k)%N.
Proof. exact (Nnat.Nat2N.inj_pow 2 k). Qed.
Lemma rep_new : rep (new_table (V := V)) [].
Proof. split; [reflexivity|]. exists 6. split; [lia|]. split; [apply (holds_new 6)|]. vm_compute. reflexivity. Qed.
Definition small (m : list (str * V)) : Prop := (3 * N.of_nat (length m) + 3 < 2 ^ 29)%N.
Lemma table_lookup_spec S (build : S -> str -> result (S * V)) st t m s : rep t m -> small m ->
  match cached m s with
  | Some v => table_lookup build st t s = Ok (st, t, v)
  | None => match build st s with
            | Err e => table_lookup build st t s = Err e
            | Ok (st', v) => exists t', table_lookup build st t s = Ok (st', t', v) /\ rep t' (m ++ [(s, v)])
            end
  end.
Proof.
  intros (U & k & K & H & R) SM. unfold table_lookup. destruct (cached m s) as [v|] eqn:C.
  - destruct (find_held k t m s v H C) as (p & e & L & N & E). rewrite L. cbn [bind]. rewrite N. now rewrite E.
  - assert (Lm : length m < 2 ^ k). { assert (N.of_nat (length m) < N.of_nat (2 ^ k))%N by (rewrite pow_N; lia). lia. }
    destruct (find_free k t m s H ltac:(lia) Lm C) as (p & L & N & Lt). rewrite L. cbn [bind]. rewrite N.
    destruct (build st s) as [[st' v]|er]; [|reflexivity]. cbn [bind].
    set (t1 := {| t_used := t_used t + 1; t_mask := t_mask t; t_slots := _ |}).
    assert (H1 : holds k t1 (m ++ [(s, v)])) by (eapply holds_add; eauto; reflexivity).
    assert (U1 : t_used t1 = length (m ++ [(s, v)])) by (cbn [t1 t_used]; rewrite app_length; cbn [length]; lia).
    assert (MK : (t_mask t1 + 1 = 2 ^ N.of_nat k)%N). { destruct H1 as ((_ & ->) & _). rewrite pow_N. assert (2 ^ N.of_nat k <> 0)%N by (apply N.pow_nonzero; lia). lia. }
    cbn [t1 t_mask t_used]. fold t1. change (t_mask t) with (t_mask t1). rewrite MK. change (t_used t + 1) with (t_used t1). rewrite U1.
    assert (LM : length (m ++ [(s, v)]) = Datatypes.S (length m)) by (rewrite app_length; cbn [length]; lia).
    destruct (2 ^ N.of_nat k * 2 <=? N.of_nat (length (m ++ [(s, v)])) * 3)%N eqn:LE.
    + apply N.leb_le in LE. unfold table_resize. rewrite MK, U1.
      assert (K27 : k <= 27).
      { destruct (Nat.le_gt_cases k 27) as [|G]; [assumption|]. exfalso. assert (2 ^ 28 <= 2 ^ N.of_nat k)%N by (apply N.pow_le_mono_r; lia). unfold small in SM. lia. }
      assert (SZ : (2 ^ N.of_nat k * 4)%N = N.of_nat (2 ^ (k + 2))). { rewrite pow_N. replace (N.of_nat (k + 2)) with (N.of_nat k + 2)%N by lia. rewrite N.pow_add_r. reflexivity. }
      rewrite SZ, Nnat.Nat2N.id.
      pose proof H1 as (SH & P1 & D1 & E1).
      destruct (copy_holds (k + 2) (t_slots t1) (length (m ++ [(s, v)])) _ [] ltac:(lia) (Permutation_length P1) (holds_new (k + 2) (length (m ++ [(s, v)])))) as (t' & A & B & UU).
      * cbn [app]. eapply Permutation_NoDup; [|exact D1]. now apply Permutation_map.
      * intros q e Hq. exact (proj1 (E1 q e Hq)).
      * cbn [length Nat.add]. rewrite LM. assert (N.of_nat (length m) < N.of_nat (2 ^ k))%N by (rewrite pow_N; lia).
        assert (N.of_nat (2 ^ (k + 2)) = 4 * N.of_nat (2 ^ k))%N by (rewrite <- SZ, pow_N; lia). lia.
      * rewrite A. cbn [bind]. exists t'. split; [reflexivity|]. split; [rewrite UU; reflexivity|]. exists (k + 2). split; [lia|]. split.
        -- eapply holds_perm; [|exact B]. cbn [app]. now symmetry.
        -- rewrite <- pow_N, <- SZ, LM. lia.
    + apply N.leb_gt in LE. cbn [bind]. exists t1. split; [reflexivity|]. split; [exact U1|]. exists k. auto.
Qed.
Lemma release_all l : release (length (entries l)) l = Ok (entries l).
Proof.
  induction l as [|o l IH]; [reflexivity|]. destruct o as [e|]; cbn [entries length release]; [now rewrite IH|].
  destruct (length (entries l)) eqn:E; [|exact IH]. destruct (entries l); [reflexivity|discriminate E].
Qed.
(** The answers to requests: each comes with the value that would be built *)
Fixpoint serve t (requests : list (str * V)) : result (table V * list V) :=
  match requests with
  | [] => Ok (t, [])
  | (k, v) :: l => do r <- table_lookup (fun (_ : unit) _ => Ok (tt, v)) tt t k ; do s <- serve (snd (fst r)) l ; Ok (fst s, snd r :: snd s)
  end.
Lemma among_small t (m : list (str * V)) (all : list str) : rep t m -> incl (map fst m) all -> length m <= length all.
Proof. intros (_ & k & _ & (_ & _ & D & _) & _) I. rewrite <- (map_length fst m). now apply NoDup_incl_length. Qed.
Lemma serve_spec all : (3 * N.of_nat (length all) + 3 < 2 ^ 29)%N -> forall requests t m, rep t m -> incl (map fst m) all -> incl (map fst requests) all ->
  exists t', serve t requests = Ok (t', answers m requests) /\ rep t' (kept m requests).
Proof.
  intro S. induction requests as [|[k v] l IH]; intros t m H I1 I2; [exists t; auto|]. cbn [serve answers kept map fst] in *.
  pose proof (among_small t m all H I1) as LE.
  pose proof (table_lookup_spec unit (fun _ _ => Ok (tt, v)) tt t m k H ltac:(unfold small; lia)) as T. apply incl_cons_inv in I2. destruct I2 as [I2 I3]. destruct (cached m k) as [w|].
  - rewrite T. cbn [bind fst snd]. destruct (IH t m H I1 I3) as (t' & -> & R). exists t'. auto.
  - destruct T as (t1 & -> & R1). cbn [bind fst snd]. destruct (IH t1 (m ++ [(k, v)]) R1) as (t' & -> & R); [|exact I3|exists t'; auto].
    rewrite map_app. apply incl_app; [exact I1|]. cbn [map fst]. intros x [<-|[]]. exact I2.
Qed.
End Table.
(** For all requests, with less than 2^27 different keys: the cache answers as a map does, comes back, stays inside its table, and releases in the end every key
    it holds, once. *)
Theorem C121_cache : forall (V : Type) (requests : list (str * V)) (keys : list str), incl (map fst requests) keys -> (N.of_nat (length keys) < 2 ^ 27)%N ->
  exists t l, serve new_table requests = Ok (t, answers [] requests) /\ table_del t = Ok l /\ Permutation l (kept [] requests) /\ NoDup (map fst l).
Proof.
  intros V requests keys I L. destruct (serve_spec keys ltac:(lia) requests new_table [] rep_new ltac:(intros x []) I) as (t & A & U & k & _ & (_ & P & D & _) & _).
  exists t, (entries (t_slots t)). split; [exact A|]. split; [unfold table_del; rewrite U, (Permutation_length P); apply release_all|].
  split; [now symmetry|]. eapply Permutation_NoDup; [apply Permutation_map, P|exact D].
Qed.
Print Assumptions C121_cache.
(** ** Names *)
Definition pure (s : str) : name :=
  match scan s with
  | (_, None) => (None, s, s)
  | (u, Some rest) => match scan rest with (l, Some (c :: p)) => (Some u, l, (c :: p) ++ 58%N :: l) | (l, _) => (Some u, l, l) end
  end.
Lemma scan_none s : ~ In 12%N s -> scan s = (s, None).
Proof.
  induction s as [|c s IH]; [reflexivity|]. intro H. cbn [scan]. unfold SEP. destruct (N.eqb_spec c 12); [exfalso; apply H; now left|].
  rewrite IH; [reflexivity|]. intro I. apply H. now right.
Qed.
Lemma scan_some s r : ~ In 12%N s -> scan (s ++ 12%N :: r) = (s, Some r).
Proof.
  induction s as [|c s IH]; [reflexivity|]. intro H. cbn [scan app]. unfold SEP. destruct (N.eqb_spec c 12); [exfalso; apply H; now left|].
  rewrite IH; [reflexivity|]. intro I. apply H. now right.
Qed.
Lemma pure_meaning w : legal w -> pure (triplet w) = meaning w.
Proof.
  unfold pure. destruct w as [l|u l|u l p]; cbn [legal triplet meaning].
  - intro H. now rewrite scan_none.
  - intros [H1 H2]. rewrite scan_some, scan_none by assumption. reflexivity.
  - intros (H1 & H2 & H3). rewrite !scan_some by assumption. destruct p; [congruence|reflexivity].
Qed.
Definition texts (m : list (str * str)) : Prop := Forall (fun kv => snd kv = fst kv) m.
Lemma unicode_spec t m s : rep t m -> texts m -> small m -> exists t' m', unicode t s = Ok (t', s) /\ rep t' m' /\ texts m' /\ length m' <= length m + 1.
Proof.
  intros R T S. pose proof (table_lookup_spec unit (fun u k => Ok (u, k)) tt t m s R S) as L. unfold unicode. destruct (cached m s) as [v|] eqn:C.
  - rewrite L. cbn [bind fst snd]. apply cached_in in C. pose proof T as T0. unfold texts in T0. rewrite Forall_forall in T0. specialize (T0 _ C). cbn in T0. subst v.
    exists t, m. split; [reflexivity|]. split; [exact R|]. split; [exact T|lia].
  - destruct L as (t' & -> & R'). exists t', (m ++ [(s, s)]). split; [reflexivity|]. split; [exact R'|]. split; [apply Forall_app; split; [exact T|repeat constructor]|].
    rewrite app_length. cbn [length]. lia.
Qed.
Lemma split_spec t m s : rep t m -> texts m -> (3 * N.of_nat (length m) + 9 < 2 ^ 29)%N -> exists t' m', split_triplet t s = Ok (t', pure s) /\ rep t' m' /\ texts m' /\ length m' <= length m + 2.
Proof.
  intros R T S. unfold split_triplet, pure. destruct (scan s) as [u [rest|]].
  - destruct (unicode_spec t m u R T) as (t1 & m1 & -> & R1 & T1 & L1); [unfold small; lia|]. cbn [bind fst snd].
    destruct (scan rest) as [l more]. destruct (unicode_spec t1 m1 l R1 T1) as (t2 & m2 & -> & R2 & T2 & L2); [unfold small; lia|]. cbn [bind fst snd].
    exists t2, m2. split; [destruct more as [[|c p]|]; reflexivity|]. split; [exact R2|]. split; [exact T2|lia].
  - destruct (unicode_spec t m s R T) as (t1 & m1 & -> & R1 & T1 & L1); [unfold small; lia|]. cbn [bind fst snd].
    exists t1, m1. split; [reflexivity|]. split; [exact R1|]. split; [exact T1|lia].
Qed.
Fixpoint create_names (c : caches) (l : list str) : result (caches * list name) :=
  match l with
  | [] => Ok (c, [])
  | s :: l' => do r <- create_name c s ; do q <- create_names (fst r) l' ; Ok (fst q, snd r :: snd q)
  end.
Lemma names_spec all : (6 * N.of_nat (length all) + 9 < 2 ^ 29)%N -> forall l t m tu mu, rep t m -> Forall (fun kv => snd kv = pure (fst kv)) m -> rep tu mu -> texts mu ->
  length mu <= 2 * length m -> incl (map fst m) all -> incl l all -> exists c, create_names (t, tu) l = Ok (c, map pure l).
Proof.
  intro S. induction l as [|s l IH]; intros t m tu mu R P RU T LU I1 I2; [eexists; reflexivity|]. cbn [create_names map] in *. unfold create_name. cbn [fst snd].
  pose proof (among_small t m all R I1) as LE. apply incl_cons_inv in I2. destruct I2 as [I2 I3].
  pose proof (table_lookup_spec (table str) split_triplet tu t m s R ltac:(unfold small; lia)) as L. destruct (cached m s) as [v|] eqn:C.
  - rewrite L. cbn [bind fst snd]. destruct (IH t m tu mu R P RU T LU I1 I3) as (c & ->). cbn [bind fst snd]. exists c.
    apply cached_in in C. rewrite Forall_forall in P. specialize (P _ C). cbn in P. now subst v.
  - destruct (split_spec tu mu s RU T) as (tu' & mu' & E & RU' & T' & LU'); [lia|]. rewrite E in L. destruct L as (t' & -> & R'). cbn [bind fst snd].
    destruct (IH t' (m ++ [(s, pure s)]) tu' mu' R') as (c & ->); auto.
    + apply Forall_app. split; [exact P|repeat constructor].
    + rewrite app_length. cbn [length]. lia.
    + rewrite map_app. apply incl_app; [exact I1|]. cbn [map fst]. intros x [<-|[]]. exact I2.
    + exists c. reflexivity.
Qed.
(** Whatever names come before, with less than 2^26 different ones: a name is reported as the document has it. *)
Theorem C121_names : forall ws different, Forall legal ws -> incl ws different -> (N.of_nat (length different) < 2 ^ 26)%N ->
  exists c, create_names new_caches (map triplet ws) = Ok (c, map meaning ws).
Proof.
  intros ws df H I L. destruct (names_spec (map triplet df) ltac:(rewrite map_length; lia) (map triplet ws) new_table [] new_table []) as (c & E);
  [apply rep_new|constructor|apply rep_new|constructor|cbn; lia|intros x []|now apply incl_map|].
  exists c. unfold new_caches. rewrite E. f_equal. f_equal. rewrite map_map. apply map_ext_in. intros w W. apply pure_meaning. rewrite Forall_forall in H. auto.
Qed.
Print Assumptions C121_names.
(** Fifty names make the table grow. *)
Definition case_requests : list (str * N) := map (fun n => ([N.of_nat n; 98], N.of_nat n)%N) (seq 0 50) ++ [([7; 98], 900)]%N.
Example C121_case : exists t, serve new_table case_requests = Ok (t, answers [] case_requests) /\ t_mask t = 255%N /\ nth 50 (answers [] case_requests) 0%N = 7%N.
Proof. eexists. split; [vm_compute; reflexivity|]. split; vm_compute; reflexivity. Qed.
Example C121_case_names : Forall legal [Prefixed (lit "u") (lit "a") (lit "p"); NoNamespace (lit "a"); DefaultNamespace (lit "u") (lit "a")] /\
  meaning (Prefixed (lit "u") (lit "a") (lit "p")) = (Some (lit "u"), lit "a", lit "p:a").
Proof. split; [|reflexivity]. repeat constructor; cbn; intuition discriminate. Qed.
