(** * Proofs about the order of the rules of a stylesheet *)
From Coq Require Import NArith String List Bool Lia Arith Sorted Permutation.
From Verif Require Import PyStr PyErr RdModel RdSpec RdProofs.
Import ListNotations.

Lemma str_le_refl : forall a, str_le a a = true.
Proof. induction a as [|x a IH]; [reflexivity|]; cbn [str_le]; rewrite N.eqb_refl; exact IH. Qed.
Lemma str_le_trans : forall a b c, str_le a b = true -> str_le b c = true -> str_le a c = true.
Proof.
  induction a as [|x a IH]; intros [|y b] [|z c] H1 H2; cbn [str_le] in *; try reflexivity; try discriminate.
  destruct (N.eqb_spec x y) as [->|NE1].
  - destruct (N.eqb y z) eqn:EZ; [exact (IH _ _ H1 H2)|exact H2].
  - destruct (N.eqb_spec y z) as [->|NE2]; [rewrite (proj2 (N.eqb_neq x z) NE1); exact H1|].
    apply N.ltb_lt in H1; apply N.ltb_lt in H2. destruct (N.eqb_spec x z) as [->|NE3]; [lia|apply N.ltb_lt; lia].
Qed.
Lemma str_le_antisym : forall a b, str_le a b = true -> str_le b a = true -> a = b.
Proof.
  induction a as [|x a IH]; intros [|y b] H1 H2; cbn [str_le] in *; try reflexivity; try discriminate.
  destruct (N.eqb_spec x y) as [->|NE1].
  - rewrite N.eqb_refl in H2. f_equal; exact (IH _ H1 H2).
  - rewrite (proj2 (N.eqb_neq y x)) in H2 by congruence. apply N.ltb_lt in H1; apply N.ltb_lt in H2; lia.
Qed.
Lemma str_le_total : forall a b, str_le a b = false -> str_le b a = true.
Proof.
  induction a as [|x a IH]; intros [|y b] H; cbn [str_le] in *; try reflexivity; try discriminate.
  destruct (N.eqb_spec x y) as [->|NE1].
  - rewrite N.eqb_refl; exact (IH _ H).
  - rewrite (proj2 (N.eqb_neq y x)) by congruence. apply N.ltb_ge in H. apply N.ltb_lt; lia.
Qed.
Lemma ostr_le_trans : forall a b c, ostr_le a b = true -> ostr_le b c = true -> ostr_le a c = true.
Proof. intros [a|] [b|] [c|] H1 H2; cbn [ostr_le] in *; try reflexivity; try discriminate; eapply str_le_trans; eauto. Qed.
Lemma ostr_le_antisym : forall a b, ostr_le a b = true -> ostr_le b a = true -> a = b.
Proof. intros [a|] [b|] H1 H2; cbn [ostr_le] in *; try reflexivity; try discriminate; f_equal; apply str_le_antisym; assumption. Qed.
Lemma ostr_le_total : forall a b, ostr_le a b = false -> ostr_le b a = true.
Proof. intros [a|] [b|] H; cbn [ostr_le] in *; try reflexivity; try discriminate; apply str_le_total; exact H. Qed.

Section lex.
  Context {A B : Type} (eqa lea : A -> A -> bool) (leb : B -> B -> bool).
  Hypothesis eqa_spec : forall a b, eqa a b = true <-> a = b.
  Hypothesis lea_trans : forall a b c, lea a b = true -> lea b c = true -> lea a c = true.
  Hypothesis lea_anti : forall a b, lea a b = true -> lea b a = true -> a = b.
  Hypothesis lea_total : forall a b, lea a b = false -> lea b a = true.
  Hypothesis leb_trans : forall a b c, leb a b = true -> leb b c = true -> leb a c = true.
  Hypothesis leb_anti : forall a b, leb a b = true -> leb b a = true -> a = b.
  Hypothesis leb_total : forall a b, leb a b = false -> leb b a = true.
  Definition lex (x y : A * B) : bool := if negb (eqa (fst x) (fst y)) then lea (fst x) (fst y) else leb (snd x) (snd y).
  Lemma eqa_dec : forall a b, {a = b /\ eqa a b = true} + {a <> b /\ eqa a b = false}.
  Proof.
    intros a b; destruct (eqa a b) eqn:E; [left; split; [apply eqa_spec; exact E|reflexivity]|right; split; [|reflexivity]].
    intros ->. assert (eqa b b = true) by (apply eqa_spec; reflexivity). congruence.
  Qed.
  Lemma lex_trans : forall x y z, lex x y = true -> lex y z = true -> lex x z = true.
  Proof.
    intros [a1 b1] [a2 b2] [a3 b3]; unfold lex; cbn [fst snd]. intros H1 H2.
    destruct (eqa_dec a1 a2) as [[-> E1]|[N1 E1]]; rewrite E1 in H1; cbn [negb] in H1.
    - destruct (eqa_dec a2 a3) as [[-> E2]|[N2 E2]]; rewrite E2 in *; cbn [negb] in *; [eapply leb_trans; eauto|exact H2].
    - destruct (eqa_dec a2 a3) as [[-> E2]|[N2 E2]]; rewrite E2 in H2; cbn [negb] in H2.
      + rewrite E1; exact H1.
      + destruct (eqa_dec a1 a3) as [[-> E3]|[N3 E3]]; rewrite E3; cbn [negb]; [|eapply lea_trans; eauto].
        exfalso; apply N1; apply lea_anti; assumption.
  Qed.
  Lemma lex_anti : forall x y, lex x y = true -> lex y x = true -> x = y.
  Proof.
    intros [a1 b1] [a2 b2]; unfold lex; cbn [fst snd]. intros H1 H2.
    destruct (eqa_dec a1 a2) as [[-> E1]|[N1 E1]].
    - rewrite E1 in *; cbn [negb] in *; f_equal; apply leb_anti; assumption.
    - rewrite E1 in H1. destruct (eqa_dec a2 a1) as [[-> E2]|[N2 E2]]; [congruence|]. rewrite E2 in H2. cbn [negb] in *.
      exfalso; apply N1; apply lea_anti; assumption.
  Qed.
  Lemma lex_total : forall x y, lex x y = false -> lex y x = true.
  Proof.
    intros [a1 b1] [a2 b2]; unfold lex; cbn [fst snd]. intros H.
    destruct (eqa_dec a1 a2) as [[-> E1]|[N1 E1]].
    - rewrite E1 in *; cbn [negb] in *; apply leb_total; assumption.
    - rewrite E1 in H. destruct (eqa_dec a2 a1) as [[-> E2]|[N2 E2]]; [congruence|]. rewrite E2. cbn [negb] in *. apply lea_total; exact H.
  Qed.
End lex.

Notation entry := (option str * str * bool)%type.
Definition entry_lex : entry -> entry -> bool :=
  fun x y => lex ostr_eqb ostr_le (lex str_eqb str_le implb) (fst (fst x), (snd (fst x), snd x)) (fst (fst y), (snd (fst y), snd y)).
Lemma entry_le_lex : forall x y, entry_le x y = entry_lex x y.
Proof. intros [[a b] c] [[a' b'] c']; reflexivity. Qed.
Lemma entry_le_trans : forall x y z, entry_le x y = true -> entry_le y z = true -> entry_le x z = true.
Proof.
  intros x y z. rewrite !entry_le_lex. unfold entry_lex. apply lex_trans; eauto using ostr_eqb_true, ostr_le_trans, ostr_le_antisym.
  apply lex_trans; eauto using str_eqb_true, str_le_trans, str_le_antisym. intros [] [] []; auto.
Qed.
Lemma entry_le_antisym : forall x y, entry_le x y = true -> entry_le y x = true -> x = y.
Proof.
  intros [[a b] c] [[a' b'] c']. rewrite !entry_le_lex. unfold entry_lex; cbn [fst snd]. intros H1 H2.
  assert (E : (a, (b, c)) = (a', (b', c'))).
  { revert H1 H2. apply lex_anti; eauto using ostr_eqb_true, ostr_le_antisym. apply lex_anti; eauto using str_eqb_true, str_le_antisym. intros [] []; auto. }
  congruence.
Qed.
Lemma entry_le_total : forall x y, entry_le x y = false -> entry_le y x = true.
Proof.
  intros x y. rewrite !entry_le_lex. unfold entry_lex. apply lex_total; eauto using ostr_eqb_true, ostr_le_total.
  apply lex_total; eauto using str_eqb_true, str_le_total. intros [] []; auto.
Qed.

(** ** Sorting *)

Lemma insert_desc_perm : forall x l, Permutation (insert_desc x l) (x :: l).
Proof.
  induction l as [|y l IH]; cbn [insert_desc]; [constructor; constructor|].
  destruct (entry_le y x); [apply Permutation_refl|]. eapply Permutation_trans; [apply perm_skip; exact IH|apply perm_swap].
Qed.
Lemma sort_desc_perm : forall l, Permutation (sort_desc l) l.
Proof.
  induction l as [|x l IH]; cbn [sort_desc]; [constructor|].
  eapply Permutation_trans; [apply insert_desc_perm|apply perm_skip; exact IH].
Qed.
Definition desc (x y : entry) : Prop := entry_le y x = true.
Lemma insert_desc_sorted : forall x l, StronglySorted desc l -> StronglySorted desc (insert_desc x l).
Proof.
  induction l as [|y l IH]; intros HS; cbn [insert_desc]; [repeat constructor|].
  inversion_clear HS as [|? ? HS' HF]. destruct (entry_le y x) eqn:E.
  - constructor; [constructor; assumption|]. constructor; [exact E|]. rewrite Forall_forall in *. intros z HIn. unfold desc in *.
    eapply entry_le_trans; [apply HF; exact HIn|exact E].
  - constructor; [apply IH; exact HS'|]. rewrite Forall_forall in *. intros z HIn.
    apply (Permutation_in z (insert_desc_perm x l)) in HIn. destruct HIn as [<-|HIn]; [apply entry_le_total; exact E|apply HF; exact HIn].
Qed.
Lemma sort_desc_sorted : forall l, StronglySorted desc (sort_desc l).
Proof. induction l as [|x l IH]; cbn [sort_desc]; [constructor|apply insert_desc_sorted; exact IH]. Qed.

(** ** The dictionary *)

Lemma token_eqb_true : forall a b, token_eqb a b = true <-> a = b.
Proof.
  intros [a1 a2] [b1 b2]; unfold token_eqb; cbn [fst snd]. rewrite andb_true_iff, ostr_eqb_true, str_eqb_true.
  split; [intros [-> ->]; reflexivity|intros E; injection E as -> ->; auto].
Qed.
(** [last_value l k v]: the last pair of [l] with the key [k] has the value [v]. *)
Definition last_value (l : list (token * bool)) (k : token) (v : bool) : Prop :=
  exists l1 l2, l = l1 ++ (k, v) :: l2 /\ (forall w, ~ In (k, w) l2).

Definition agrees (d l : list (token * bool)) : Prop := NoDup (map fst d) /\ (forall k v, In (k, v) d <-> last_value l k v).

Lemma dict_set_in : forall d k v k' v', NoDup (map fst d) -> In (k', v') (dict_set d k v) <-> (k' = k /\ v' = v) \/ (k' <> k /\ In (k', v') d).
Proof.
  induction d as [|[k0 v0] d IH]; intros k v k' v' ND; cbn [dict_set].
  - split; [intros [E|[]]; injection E as <- <-; left; auto|intros [[-> ->]|[_ []]]; left; reflexivity].
  - cbn [map fst] in ND. inversion_clear ND as [|? ? NI ND'].
    destruct (token_eqb k k0) eqn:EK.
    + apply token_eqb_true in EK as <-. split.
      * intros [E|HIn]; [injection E as <- <-; left; auto|right]. split; [|right; exact HIn]. intros ->. apply NI. apply (in_map fst) in HIn; exact HIn.
      * intros [[-> ->]|[NE [E|HIn]]]; [left; reflexivity|injection E as -> ->; congruence|right; exact HIn].
    + assert (NK : k <> k0) by (intros ->; rewrite (proj2 (token_eqb_true k0 k0) eq_refl) in EK; discriminate EK).
      split.
      * intros [E|HIn]; [injection E as <- <-; right; split; [congruence|left; reflexivity]|].
        apply IH in HIn; [|exact ND']. destruct HIn as [[-> ->]|[NE HIn]]; [left; auto|right; split; [exact NE|right; exact HIn]].
      * intros [[-> ->]|[NE [E|HIn]]]; [right; apply IH; auto|injection E as -> ->; left; reflexivity|right; apply IH; auto].
Qed.
Lemma dict_set_keys : forall d k v x, In x (map fst (dict_set d k v)) -> x = k \/ In x (map fst d).
Proof.
  induction d as [|[k0 v0] d IH]; intros k v x; cbn [dict_set map fst].
  - intros [<-|[]]; left; reflexivity.
  - destruct (token_eqb k k0); cbn [map fst]; [intros H; right; exact H|].
    intros [<-|H]; [right; left; reflexivity|]. apply IH in H as [->|H]; [left; reflexivity|right; right; exact H].
Qed.
Lemma dict_set_nodup : forall d k v, NoDup (map fst d) -> NoDup (map fst (dict_set d k v)).
Proof.
  induction d as [|[k0 v0] d IH]; intros k v ND; cbn [dict_set map fst]; [constructor; [intros []|constructor]|].
  cbn [map fst] in ND. destruct (token_eqb k k0) eqn:EK; cbn [map fst]; [exact ND|].
  inversion_clear ND as [|? ? NI ND']. constructor; [|apply IH; exact ND'].
  intros HIn. apply dict_set_keys in HIn as [->|HIn]; [|contradiction]. rewrite (proj2 (token_eqb_true k k) eq_refl) in EK; discriminate EK.
Qed.
Lemma last_value_snoc : forall l k v k' v', last_value (l ++ [(k, v)]) k' v' <-> (k' = k /\ v' = v) \/ (k' <> k /\ last_value l k' v').
Proof.
  intros l k v k' v'; split.
  - intros (l1 & l2 & E & NI). destruct (exists_last (l := (k', v') :: l2)) as (m & z & EZ); [discriminate|].
    rewrite EZ, app_assoc in E. apply app_inj_tail in E as [E <-].
    destruct m as [|y m].
    + injection EZ as E1 E2. subst l2. inversion E1; left; auto.
    + injection EZ as <- ->. right. split.
      * intros ->. apply (NI v). apply in_or_app; right; left; reflexivity.
      * exists l1, m; split; [exact E|]. intros w HIn; apply (NI w); apply in_or_app; left; exact HIn.
  - intros [[-> ->]|[NE (l1 & l2 & -> & NI)]].
    + exists l, []; split; [reflexivity|intros w []].
    + exists l1, (l2 ++ [(k, v)]); split; [rewrite <- app_assoc; reflexivity|].
      intros w HIn; apply in_app_or in HIn as [HIn|[E|[]]]; [exact (NI w HIn)|injection E as -> ->; congruence].
Qed.
Lemma agrees_set : forall d l k v, agrees d l -> agrees (dict_set d k v) (l ++ [(k, v)]).
Proof.
  intros d l k v [ND A]; split; [apply dict_set_nodup; exact ND|].
  intros k' v'. rewrite (dict_set_in d k v k' v' ND), last_value_snoc, A. reflexivity.
Qed.
Lemma agrees_tokens : forall ts strip d l, agrees d l ->
  agrees (fold_left (fun d t => dict_set d t strip) ts d) (l ++ map (fun t => (t, strip)) ts).
Proof.
  induction ts as [|t ts IH]; intros strip d l A; cbn [fold_left map]; [rewrite app_nil_r; exact A|].
  change ((t, strip) :: map (fun t0 => (t0, strip)) ts) with ([(t, strip)] ++ map (fun t0 => (t0, strip)) ts).
  rewrite app_assoc. apply IH. apply agrees_set; exact A.
Qed.
Lemma agrees_decls : forall decls d l, agrees d l ->
  agrees (fold_left (fun d e => fold_left (fun d t => dict_set d t (fst e)) (snd e) d) decls d) (l ++ declared decls).
Proof.
  induction decls as [|e decls IH]; intros d l A; cbn [fold_left declared flat_map]; [rewrite app_nil_r; exact A|].
  rewrite app_assoc. apply IH. apply agrees_tokens; exact A.
Qed.
Lemma space_dict_agrees : forall decls, agrees (space_dict decls) (declared decls).
Proof.
  intros decls. apply (agrees_decls decls [] []). split; [constructor|].
  intros k v; split; [intros []|intros (l1 & l2 & E & _)]. destruct l1; discriminate E.
Qed.

(** ** Matching *)


Lemma star_neq : forall c s, (42 < c)%N -> str_eqb (c :: s) (lit "*") = false.
Proof.
  intros c s H. change (lit "*") with [42%N]. cbn [str_eqb]. rewrite (proj2 (N.eqb_neq c 42)) by lia. reflexivity.
Qed.
(** The three patterns that can match. *)
Lemma matching : forall p n, named n -> pattern_matches p n = true ->
  (p = (x_ns n, x_local n) /\ specificity p = 2%nat)
  \/ (exists u, x_ns n = Some u /\ p = (Some u, lit "*") /\ specificity p = 1%nat)
  \/ (p = (None, lit "*") /\ specificity p = 0%nat).
Proof.
  intros [ns local] n (c & s & EL & HC) M. unfold pattern_matches, specificity in *; cbn [fst snd] in *.
  destruct (str_eqb local (lit "*")) eqn:ES.
  - apply str_eqb_true in ES as ->. destruct ns as [u|].
    + apply ostr_eqb_true in M. right; left; exists u; auto.
    + right; right; auto.
  - apply andb_true_iff in M as [M1 M2]. apply ostr_eqb_true in M1. apply str_eqb_true in M2. subst. left; auto.
Qed.
Lemma same_specificity : forall p q n, named n -> pattern_matches p n = true -> pattern_matches q n = true -> specificity p = specificity q -> p = q.
Proof.
  intros p q n NM MP MQ E.
  destruct (matching p n NM MP) as [[-> E1]|[(u & EU & -> & E1)|[-> E1]]]; destruct (matching q n NM MQ) as [[-> E2]|[(w & EW & -> & E2)|[-> E2]]];
    try reflexivity; rewrite E1, E2 in E; try discriminate E. congruence.
Qed.
Lemma star_le : forall n, named n -> str_le (lit "*") (x_local n) = true.
Proof.
  intros n (c & s & -> & HC). change (lit "*") with [42%N]. cbn [str_le]. destruct (N.eqb_spec 42 c); [lia|]. apply N.ltb_lt; lia.
Qed.
Lemma star_local : forall n, named n -> str_eqb (lit "*") (x_local n) = false.
Proof. intros n (c & s & -> & HC). rewrite str_eqb_sym'. apply star_neq; exact HC. Qed.
(** A more specific pattern is greater. *)
Lemma specific_le : forall p q n v w, named n -> pattern_matches p n = true -> pattern_matches q n = true -> (specificity q < specificity p)%nat ->
  entry_le (fst q, snd q, w) (fst p, snd p, v) = true.
Proof.
  intros p q n v w NM MP MQ L.
  destruct (matching p n NM MP) as [[-> E1]|[(u & EU & -> & E1)|[-> E1]]]; destruct (matching q n NM MQ) as [[-> E2]|[(x & EW & -> & E2)|[-> E2]]];
    try (exfalso; lia); clear L; unfold entry_le; cbn [fst snd].
  - rewrite <- EW. rewrite (proj2 (ostr_eqb_true _ _) eq_refl). cbn [negb]. rewrite (star_local n NM). cbn [negb]. apply star_le; exact NM.
  - destruct (x_ns n) as [u|]; cbn [ostr_eqb negb ostr_le]; [reflexivity|]. rewrite (star_local n NM). cbn [negb]. apply star_le; exact NM.
  - reflexivity.
Qed.

(** The first matching rule. *)
Lemma find_sorted : forall (f : entry -> bool) l x, StronglySorted desc l -> find f l = Some x ->
  In x l /\ f x = true /\ (forall y, In y l -> f y = true -> y = x \/ desc x y).
Proof.
  induction l as [|z l IH]; intros x HS HF; cbn [find] in HF; [discriminate HF|].
  inversion_clear HS as [|? ? HS' HA]. rewrite Forall_forall in HA. destruct (f z) eqn:EZ.
  - injection HF as ->. split; [left; reflexivity|]. split; [exact EZ|]. intros y [<-|HIn] FY; [left; reflexivity|right; apply HA; exact HIn].
  - destruct (IH x HS' HF) as (H1 & H2 & H3). split; [right; exact H1|]. split; [exact H2|].
    intros y [<-|HIn] FY; [congruence|apply H3; assumption].
Qed.

Lemma in_declared_last : forall l k w, In (k, w) l -> exists v, last_value l k v.
Proof.
  intros l; induction l as [|[k0 v0] l IH] using rev_ind; intros k w HIn; [contradiction HIn|].
  apply in_app_or in HIn as [HIn|[E|[]]].
  - destruct (IH k w HIn) as [v LV]. destruct (token_eqb k k0) eqn:EK.
    + apply token_eqb_true in EK as <-. exists v0. apply last_value_snoc; left; auto.
    + exists v. apply last_value_snoc; right; split; [|exact LV]. intros ->. rewrite (proj2 (token_eqb_true k0 k0) eq_refl) in EK; discriminate EK.
  - injection E as -> ->. exists w. apply last_value_snoc; left; auto.
Qed.

Theorem space_rules_chosen : forall decls n, named n ->
  match find (fun r => pattern_matches (fst r) n) (space_rules decls) with
  | Some r => chosen (declared decls) n (snd r)
  | None => forall q w, In (q, w) (declared decls) -> pattern_matches q n = false
  end.
Proof.
  intros decls n NM. destruct (space_dict_agrees decls) as [ND A].
  assert (IN : forall p v, In (fst p, snd p, v) (space_rules decls) <-> In (p, v) (space_dict decls)).
  { intros [p1 p2] v; cbn [fst snd]. unfold space_rules. split.
    - intros HIn. apply (Permutation_in _ (sort_desc_perm _)) in HIn. apply in_map_iff in HIn as ([[q1 q2] w] & E & HIn). cbn [fst snd] in E. injection E as -> -> ->. exact HIn.
    - intros HIn. apply (Permutation_in _ (Permutation_sym (sort_desc_perm _))). apply in_map_iff. exists ((p1, p2), v); auto. }
  destruct (find _ _) as [[[p1 p2] v]|] eqn:EF.
  - apply find_sorted in EF as (H1 & H2 & H3); [|apply sort_desc_sorted]. cbn [fst snd] in *.
    change (In (fst (p1, p2), snd (p1, p2), v) (space_rules decls)) in H1. apply IN in H1.
    assert (MAX : forall q w, In (q, w) (declared decls) -> pattern_matches q n = true -> (specificity q < specificity (p1, p2))%nat \/ q = (p1, p2)).
    { intros q w HIn MQ. destruct (in_declared_last _ _ _ HIn) as [w' LV]. apply A in LV. apply IN in LV. 
      destruct (H3 (fst q, snd q, w') LV) as [E|D].
      - cbn [fst snd]. destruct q; exact MQ.
      - right. destruct q; cbn [fst snd] in E; congruence.
      - destruct (Nat.lt_trichotomy (specificity q) (specificity (p1, p2))) as [L|[E|L]]; [left; exact L|right; apply (same_specificity q (p1, p2) n NM MQ H2 E)|].
        pose proof (specific_le q (p1, p2) n w' v NM MQ H2 L) as D'. cbn [fst snd] in D'. unfold desc in D.
        pose proof (entry_le_antisym _ _ D D') as E. right. destruct q; cbn [fst snd] in E; congruence. }
    apply A in H1. destruct H1 as (l1 & l2 & E & NI).
    exists l1, (p1, p2), l2. split; [exact E|]. split; [exact H2|]. split.
    + intros q w HIn MQ. destruct (MAX q w HIn MQ) as [L|EQ]; [apply Nat.lt_le_incl; exact L|rewrite EQ; apply Nat.le_refl].
    + intros q w HIn MQ. destruct (MAX q w) as [L|EQ]; [rewrite E; apply in_or_app; right; right; exact HIn|exact MQ|exact L|].
      exfalso. rewrite EQ in HIn. exact (NI w HIn).
  - intros q w HIn. destruct (pattern_matches q n) eqn:MQ; [|reflexivity].
    destruct (in_declared_last _ _ _ HIn) as [w' LV]. apply A in LV. apply IN in LV.
    pose proof (find_none _ _ EF _ LV) as F. cbn [fst snd] in F. destruct q; cbn [fst snd] in F; congruence.
Qed.
