(** * Proofs about the comparison of documents *)
From Coq Require Import NArith String List Bool Lia Arith Permutation.
From Verif Require Import PyStr PyErr SerModel SerCanon TcModel TcSpec.
Import ListNotations.
Open Scope N_scope.

(** ** Sorting *)
Lemma opt_eqb_spec : forall a b, reflect (a = b) (opt_eqb a b).
Proof.
  intros [a|] [b|]; cbn [opt_eqb]; try (constructor; congruence).
  destruct (str_eqb_spec a b); constructor; congruence.
Qed.
Lemma opt_leb_total : forall a b, opt_leb a b = false -> opt_leb b a = true.
Proof. intros [a|] [b|] H; cbn [opt_leb] in *; try reflexivity; try discriminate H. now apply str_leb_total. Qed.
Lemma opt_leb_antisym : forall a b, opt_leb a b = true -> opt_leb b a = true -> a = b.
Proof. intros [a|] [b|] H1 H2; cbn [opt_leb] in *; try reflexivity; try discriminate H1; try discriminate H2. f_equal. now apply str_leb_antisym. Qed.
Lemma opt_leb_trans : forall a b c, opt_leb a b = true -> opt_leb b c = true -> opt_leb a c = true.
Proof. intros [a|] [b|] [c|] H1 H2; cbn [opt_leb] in *; try reflexivity; try discriminate H1; try discriminate H2. eapply str_leb_trans; eauto. Qed.
Lemma pair_leb_total : forall a b, pair_leb a b = false -> pair_leb b a = true.
Proof.
  intros a b H. unfold pair_leb in *. destruct (opt_eqb_spec (fst a) (fst b)) as [E|E]; destruct (opt_eqb_spec (fst b) (fst a)) as [E2|E2]; try congruence;
    [now apply str_leb_total|now apply opt_leb_total].
Qed.
Lemma pair_leb_antisym : forall a b, pair_leb a b = true -> pair_leb b a = true -> a = b.
Proof.
  intros [n v] [m w] H1 H2. unfold pair_leb in *. cbn [fst snd] in *.
  destruct (opt_eqb_spec n m) as [E|E]; destruct (opt_eqb_spec m n) as [E2|E2]; try congruence.
  - subst. f_equal. now apply str_leb_antisym.
  - exfalso. apply E. now apply opt_leb_antisym.
Qed.
Lemma pair_leb_trans : forall a b c, pair_leb a b = true -> pair_leb b c = true -> pair_leb a c = true.
Proof.
  intros a b c H1 H2. unfold pair_leb in *.
  destruct (opt_eqb_spec (fst a) (fst b)) as [E1|E1]; destruct (opt_eqb_spec (fst b) (fst c)) as [E2|E2]; destruct (opt_eqb_spec (fst a) (fst c)) as [E3|E3]; try congruence.
  - eapply str_leb_trans; eauto.
  - exfalso. apply E2. apply opt_leb_antisym; [assumption|]. now rewrite <- E3.
  - eapply opt_leb_trans; eauto.
Qed.
Lemma insert_pair_comm : forall a b l, insert_pair a (insert_pair b l) = insert_pair b (insert_pair a l).
Proof.
  intros a b l. induction l as [|c l IH]; cbn [insert_pair].
  - destruct (pair_leb a b) eqn:E1, (pair_leb b a) eqn:E2; try reflexivity.
    + now rewrite (pair_leb_antisym a b E1 E2).
    + apply pair_leb_total in E1. congruence.
  - destruct (pair_leb b c) eqn:Eb, (pair_leb a c) eqn:Ea; cbn [insert_pair]; rewrite ?Ea, ?Eb.
    + destruct (pair_leb a b) eqn:E1, (pair_leb b a) eqn:E2; try reflexivity.
      * now rewrite (pair_leb_antisym a b E1 E2).
      * apply pair_leb_total in E1. congruence.
    + destruct (pair_leb a b) eqn:E1; [|reflexivity]. rewrite (pair_leb_trans a b c E1 Eb) in Ea. discriminate Ea.
    + destruct (pair_leb b a) eqn:E2; [|reflexivity]. rewrite (pair_leb_trans b a c E2 Ea) in Eb. discriminate Eb.
    + now rewrite IH.
Qed.
Lemma insert_pair_perm : forall a l, Permutation (a :: l) (insert_pair a l).
Proof.
  intros a l. induction l as [|b l IH]; cbn [insert_pair]; [apply Permutation_refl|].
  destruct (pair_leb a b); [apply Permutation_refl|]. eapply Permutation_trans; [apply perm_swap|]. now constructor.
Qed.
Lemma sorted_perm : forall l, Permutation l (sorted_pairs l).
Proof.
  induction l as [|a l IH]; [constructor|]. cbn [sorted_pairs fold_right]. fold (sorted_pairs l).
  eapply Permutation_trans; [apply perm_skip; exact IH|apply insert_pair_perm].
Qed.
Lemma sorted_iff : forall a b, sorted_pairs a = sorted_pairs b <-> Permutation a b.
Proof.
  intros a b. split.
  - intro H. eapply Permutation_trans; [apply sorted_perm|]. rewrite H. apply Permutation_sym, sorted_perm.
  - induction 1 as [|x a b P IH|x y a|a b c P1 IH1 P2 IH2]; [reflexivity| | |congruence].
    + cbn [sorted_pairs fold_right]. fold (sorted_pairs a) (sorted_pairs b). now rewrite IH.
    + cbn [sorted_pairs fold_right]. apply insert_pair_comm.
Qed.

(** ** repr *)
Lemma hexw_len : forall w n, length (hexw w n) = w.
Proof. induction w as [|w IH]; intro n; [reflexivity|]. cbn [hexw]. rewrite app_length, IH. cbn [length]. lia. Qed.
Lemma hexd_inj : forall n m, n < 16 -> m < 16 -> hexd n = hexd m -> n = m.
Proof. intros n m Hn Hm. unfold hexd. destruct (N.ltb_spec n 10), (N.ltb_spec m 10); lia. Qed.
Lemma hexw_inj : forall w n m, n < 16 ^ N.of_nat w -> m < 16 ^ N.of_nat w -> hexw w n = hexw w m -> n = m.
Proof.
  induction w as [|w IH]; intros n m Hn Hm H.
  - change (16 ^ N.of_nat 0) with 1 in *. lia.
  - cbn [hexw] in H. rewrite Nat2N.inj_succ, N.pow_succ_r' in Hn, Hm. apply app_inj_tail in H as [H1 H2].
    apply IH in H1; [|apply N.div_lt_upper_bound; lia|apply N.div_lt_upper_bound; lia].
    apply hexd_inj in H2; [|apply N.mod_lt; lia|apply N.mod_lt; lia].
    rewrite (N.div_mod' n 16), (N.div_mod' m 16). congruence.
Qed.
Lemma app_len_inj : forall (A : Type) (a b x y : list A), length a = length b -> a ++ x = b ++ y -> a = b /\ x = y.
Proof.
  intros A. induction a as [|c a IH]; intros [|d b] x y Hl H; try discriminate Hl; [now split|].
  cbn [app] in H. injection H as H1 H2. injection Hl as Hl. destruct (IH b x y Hl H2). subst. now split.
Qed.
Lemma hexw_app : forall w n m x y, n < 16 ^ N.of_nat w -> m < 16 ^ N.of_nat w -> hexw w n ++ x = hexw w m ++ y -> n = m /\ x = y.
Proof.
  intros w n m x y Hn Hm H. apply app_len_inj in H as [H1 H2]; [|now rewrite !hexw_len]. split; [|assumption]. now apply hexw_inj in H1.
Qed.
(** The seven ways a character is written. *)
Inductive rclass (q c : N) : str -> Prop :=
| rc_esc : c = 92 \/ c = q -> rclass q c [92; c]
| rc_t : c = 9 -> rclass q c [92; 116]
| rc_n : c = 10 -> rclass q c [92; 110]
| rc_r : c = 13 -> rclass q c [92; 114]
| rc_U : c < 16 ^ N.of_nat 8 -> rclass q c (92 :: 85 :: hexw 8 c)
| rc_u : c < 16 ^ N.of_nat 4 -> rclass q c (92 :: 117 :: hexw 4 c)
| rc_x : c < 16 ^ N.of_nat 2 -> rclass q c (92 :: 120 :: hexw 2 c)
| rc_lit : c <> 92 -> c <> q -> rclass q c [c].
Lemma repr_char_class : forall q c, c < 1114112 -> rclass q c (repr_char q c).
Proof.
  intros q c Hc. unfold repr_char.
  change (16 ^ N.of_nat 8) with 4294967296 in *.
  destruct (N.eqb_spec c 92) as [E|E]; [subst; cbn [orb]; apply rc_esc; auto|].
  destruct (N.eqb_spec c q) as [E2|E2]; [subst; cbn [orb]; apply rc_esc; auto|]. cbn [orb].
  destruct (N.eqb_spec c 9); [now apply rc_t|]. destruct (N.eqb_spec c 10); [now apply rc_n|]. destruct (N.eqb_spec c 13); [now apply rc_r|].
  destruct (N.leb_spec 65536 c); [apply rc_U; change (16 ^ N.of_nat 8) with 4294967296; lia|].
  destruct (N.leb_spec 256 c); [apply rc_u; change (16 ^ N.of_nat 4) with 65536; lia|].
  destruct ((c <? 32) || (127 <=? c)); [apply rc_x; change (16 ^ N.of_nat 2) with 256; lia|now apply rc_lit].
Qed.
Definition quotec (q : N) : Prop := q = 34 \/ q = 39.
Lemma class_inj : forall q c d s t x y, quotec q -> rclass q c s -> rclass q d t -> s ++ x = t ++ y -> c = d /\ x = y.
Proof.
  intros q c d s t x y Hq Hs Ht H. unfold quotec in Hq. destruct Hs, Ht; cbn [app] in H;
    try (apply (f_equal (skipn 2)) in H; cbn [skipn] in H; eapply hexw_app; eassumption);
    injection H; intros; subst; try (split; reflexivity); try (exfalso; lia).
Qed.
Lemma class_head : forall q c s x y, quotec q -> rclass q c s -> s ++ x = q :: y -> False.
Proof.
  intros q c s x y Hq Hs H. unfold quotec in Hq. destruct Hs; cbn [app] in H; injection H; intros; subst; lia.
Qed.
Lemma body_inj : forall q s t x y, quotec q -> unicode s -> unicode t ->
  flat_map (repr_char q) s ++ q :: x = flat_map (repr_char q) t ++ q :: y -> s = t /\ x = y.
Proof.
  intros q s t x y Hq Hs. revert t. induction Hs as [|c s Hc Hs IH]; intros t Ht H.
  - destruct Ht as [|d t Hd Ht]; cbn [flat_map app] in H; [injection H as ->; now split|].
    exfalso. rewrite <- app_assoc in H. symmetry in H. eapply class_head; [exact Hq|apply repr_char_class; exact Hd|exact H].
  - destruct Ht as [|d t Hd Ht]; cbn [flat_map] in H.
    + exfalso. rewrite <- app_assoc in H. cbn [app] in H. eapply class_head; [exact Hq|apply repr_char_class; exact Hc|exact H].
    + rewrite <- !app_assoc in H. destruct (class_inj q c d _ _ _ _ Hq (repr_char_class q c Hc) (repr_char_class q d Hd) H) as [-> H2].
      destruct (IH t Ht H2) as [-> ->]. now split.
Qed.
Lemma quote_quotec : forall s, quotec (repr_quote s).
Proof. intro s. unfold repr_quote, quotec. destruct (mem 39 s && negb (mem 34 s)); auto. Qed.
Lemma repr_inj : forall s t x y, unicode s -> unicode t -> repr s ++ x = repr t ++ y -> s = t /\ x = y.
Proof.
  intros s t x y Hs Ht H. unfold repr in H. cbn [app] in H. injection H as Hq H. rewrite Hq in H. rewrite <- !app_assoc in H. cbn [app] in H.
  eapply body_inj; [apply (quote_quotec t)|assumption|assumption|exact H].
Qed.
Lemma repr_inj0 : forall s t, unicode s -> unicode t -> repr s = repr t -> s = t.
Proof. intros s t Hs Ht H. apply (repr_inj s t [] []); [assumption|assumption|]. now rewrite H. Qed.
Lemma repr_opt_inj : forall s t x y, (forall a, s = Some a -> unicode a) -> (forall a, t = Some a -> unicode a) ->
  repr_opt s ++ x = repr_opt t ++ y -> s = t /\ x = y.
Proof.
  intros [s|] [t|] x y Hs Ht H; cbn [repr_opt] in H.
  - apply repr_inj in H as [-> ->]; auto.
  - exfalso. unfold repr in H. vm_compute in H. discriminate H.
  - exfalso. unfold repr in H. change (lit "None") with [78; 111; 110; 101] in H. cbn [app] in H. discriminate H.
  - apply app_inv_head in H. now split.
Qed.

(** ** Lines *)
Lemma split_at : forall (P : N -> Prop) a b q q' x y, (forall c, P c \/ ~ P c) -> (forall c, In c a -> ~ P c) -> (forall c, In c b -> ~ P c) -> P q -> P q' ->
  a ++ q :: x = b ++ q' :: y -> a = b /\ q = q' /\ x = y.
Proof.
  intros P. induction a as [|c a IH]; intros [|d b] q q' x y D Ha Hb Hq Hq' H; cbn [app] in H.
  - injection H as -> ->. auto.
  - injection H as -> H. exfalso. apply (Hb d); [now left|assumption].
  - injection H as -> H. exfalso. apply (Ha q'); [now left|assumption].
  - injection H as -> H. destruct (IH b q q' x y D) as (-> & -> & ->); auto.
    + intros e He. apply Ha. now right.
    + intros e He. apply Hb. now right.
Qed.
Definition okkey (b : bool) (k : option str) : Prop := if b then k <> Some (lit "None") else k <> None.
Definition okpair (b : bool) (x : option str * str) : Prop := unquoted (show (fst x)) /\ unicode (snd x) /\ okkey b (fst x).
Definition show1 (p : option str * str) : str := show (fst p) ++ lit "=" ++ repr (snd p).
Lemma show_inj : forall f (a b : option str), okkey f a -> okkey f b -> show a = show b -> a = b.
Proof. intros [] [a|] [b|] Ha Hb H; cbn [show okkey] in *; congruence. Qed.
Lemma show1_inj : forall f p p' x y, okpair f p -> okpair f p' -> show1 p ++ x = show1 p' ++ y -> p = p' /\ x = y.
Proof.
  intros f [k v] [k' v'] x y (Hk & Hv & Hn) (Hk' & Hv' & Hn') H. cbn [fst snd] in *. unfold show1 in H. cbn [fst snd] in H.
  change (lit "=") with [61] in H. rewrite <- !app_assoc in H. cbn [app] in H.
  assert (K : show k = show k' /\ repr v ++ x = repr v' ++ y).
  { unfold repr in H |- *. cbn [app] in H |- *.
    replace (show k ++ 61 :: 117 :: repr_quote v :: (flat_map (repr_char (repr_quote v)) v ++ [repr_quote v]) ++ x)
      with ((show k ++ [61; 117]) ++ repr_quote v :: (flat_map (repr_char (repr_quote v)) v ++ [repr_quote v]) ++ x) in H by now rewrite <- app_assoc.
    replace (show k' ++ 61 :: 117 :: repr_quote v' :: (flat_map (repr_char (repr_quote v')) v' ++ [repr_quote v']) ++ y)
      with ((show k' ++ [61; 117]) ++ repr_quote v' :: (flat_map (repr_char (repr_quote v')) v' ++ [repr_quote v']) ++ y) in H by now rewrite <- app_assoc.
    assert (Q : forall k0 c, unquoted k0 -> In c (k0 ++ [61; 117]) -> ~ quotec c).
    { intros k0 c [H1 H2] Hc [-> | ->]; apply in_app_or in Hc as [Hc|[Hc|[Hc|[]]]]; try discriminate Hc; auto. }
    apply (split_at quotec) in H as (H1 & H2 & H3).
    - apply app_inv_tail in H1. split; [assumption|]. now rewrite H2, H3 in *.
    - intro c. unfold quotec. lia.
    - intros c. now apply Q.
    - intros c. now apply Q.
    - apply quote_quotec.
    - apply quote_quotec. }
  destruct K as [K1 K2]. apply repr_inj in K2 as [-> ->]; try assumption. apply (show_inj f) in K1; try assumption. subst. now split.
Qed.
Lemma show_pairs_cons : forall p l, show_pairs (p :: l) = show1 p ++ match l with [] => [] | _ => lit ", " ++ show_pairs l end.
Proof. intros p [|p' l]; [cbn; now rewrite app_nil_r|reflexivity]. Qed.
Lemma show_pairs_inj : forall f l l', Forall (okpair f) l -> Forall (okpair f) l' -> l <> [] -> l' <> [] -> show_pairs l = show_pairs l' -> l = l'.
Proof.
  intro f. induction l as [|p l IH]; intros [|p' l'] Hl Hl' N1 N2 H; try congruence. rewrite !show_pairs_cons in H.
  inversion Hl as [|? ? P1 P2]; subst. inversion Hl' as [|? ? P1' P2']; subst. apply (show1_inj f) in H as [-> H]; try assumption.
  f_equal. destruct l as [|p2 l], l' as [|p2' l']; try reflexivity; try discriminate H.
  apply app_inv_head in H. apply IH; try assumption; discriminate.
Qed.

Inductive line :=
| LStart (n : str)
| LNs (l : list (option str * str))
| LAtt (l : list (option str * str))
| LEnd (n : str)
| LText (s : str)
| LComment (s : str)
| LPI (t d : str)
| LEntity (n : str)
| LSC
| LEC
| LDoc (n : str) (sy pu : option str) (b : bool).
Definition show_line (l : line) : str :=
  match l with
  | LStart n => lit "start-tag: " ++ n
  | LNs l => lit "  namespaces: " ++ show_pairs l
  | LAtt l => lit "  attributes: " ++ show_pairs l
  | LEnd n => lit "end-tag: " ++ n
  | LText s => lit "#text: " ++ repr s
  | LComment s => lit "#comment: " ++ repr s
  | LPI t d => lit "processing-instruction: target=" ++ t ++ lit ", data=" ++ repr d
  | LEntity n => lit "entity-ref: name=" ++ n
  | LSC => lit "start-cdata"
  | LEC => lit "end-cdata"
  | LDoc n sy pu b => lit "doctype-decl: name=" ++ n ++ lit ", sysid=" ++ repr_opt sy ++ lit ", pubid=" ++ repr_opt pu ++
              lit ", subset=" ++ (if b then lit "yes" else lit "no")
  end.
Definition okline (l : line) : Prop :=
  match l with
  | LNs l => Forall (okpair true) l /\ l <> []
  | LAtt l => Forall (okpair false) l /\ l <> []
  | LText s | LComment s => unicode s
  | LPI t d => ~ In 44 t /\ unicode d
  | LDoc n sy pu b => ~ In 44 n /\ (forall a, sy = Some a -> unicode a) /\ (forall a, pu = Some a -> unicode a)
  | _ => True
  end.
Lemma comma_split : forall a b x y, ~ In 44 a -> ~ In 44 b -> a ++ 44 :: x = b ++ 44 :: y -> a = b /\ x = y.
Proof.
  intros a b x y Ha Hb H. apply (split_at (fun c => c = 44)) in H as (-> & _ & ->); try reflexivity; auto.
  - intro c. lia.
  - intros c Hc ->. auto.
  - intros c Hc ->. auto.
Qed.
Lemma show_line_inj : forall a b, okline a -> okline b -> show_line a = show_line b -> a = b.
Proof.
  intros a b Ha Hb H. destruct a, b; cbn [show_line okline] in *;
    try (exfalso; revert H; clear; intro H;
         match type of H with lit ?s ++ ?x = lit ?t ++ ?y => let a := eval vm_compute in (lit s) in let b := eval vm_compute in (lit t) in change (a ++ x = b ++ y) in H; cbn [app] in H; discriminate H
         | lit ?s = lit ?t ++ ?y => let a := eval vm_compute in (lit s) in let b := eval vm_compute in (lit t) in change (a = b ++ y) in H; cbn [app] in H; discriminate H
         | lit ?s ++ ?x = lit ?t => let a := eval vm_compute in (lit s) in let b := eval vm_compute in (lit t) in change (a ++ x = b) in H; cbn [app] in H; discriminate H
         | lit ?s = lit ?t => discriminate H end); try reflexivity; try (apply app_inv_head in H).
  - congruence.
  - f_equal. destruct Ha, Hb. now apply (show_pairs_inj true).
  - f_equal. destruct Ha, Hb. now apply (show_pairs_inj false).
  - congruence.
  - f_equal. now apply repr_inj0.
  - f_equal. now apply repr_inj0.
  - destruct Ha as [A1 A2], Hb as [B1 B2]. change (lit ", data=") with (44 :: lit " data=") in H. cbn [app] in H.
    apply comma_split in H as [-> H]; try assumption. apply app_inv_head in H. f_equal. now apply repr_inj0.
  - congruence.
  - destruct Ha as (A1 & A2 & A3), Hb as (B1 & B2 & B3). change (lit ", sysid=") with (44 :: lit " sysid=") in H. cbn [app] in H.
    apply comma_split in H as [-> H]; try assumption. apply app_inv_head in H.
    apply repr_opt_inj in H as [-> H]; try assumption. apply app_inv_head in H.
    apply repr_opt_inj in H as [-> H]; try assumption. apply app_inv_head in H. f_equal. match type of H with (if ?u then _ else _) = (if ?v then _ else _) => destruct u, v end; try reflexivity; discriminate H.
Qed.
Lemma show_lines_inj : forall a b, Forall okline a -> Forall okline b -> map show_line a = map show_line b -> a = b.
Proof.
  induction a as [|x a IH]; intros [|y b] Ha Hb H; try reflexivity; try discriminate H.
  inversion Ha; subst. inversion Hb; subst. cbn [map] in H. injection H as E1 E2. f_equal; [now apply show_line_inj|now apply IH].
Qed.

(** ** Items and lines *)
Lemma item_ind2 : forall P : item -> Prop,
  (forall d q a k, Forall P k -> P (IElem d q a k)) -> (forall s, P (IText s)) -> (forall s, P (ICdata s)) -> (forall s, P (IComment s)) ->
  (forall t d, P (IPI t d)) -> (forall n, P (IEntity n)) -> (forall n sy pu b, P (IDoctype n sy pu b)) -> forall n, P n.
Proof.
  intros P H1 H2 H3 H4 H5 H6 H7. fix F 1. intros [d q a k|s|s|s|t d|n|n sy pu b];
    [|apply H2|apply H3|apply H4|apply H5|apply H6|apply H7].
  apply H1. induction k as [|x k IH]; constructor; [apply F|exact IH].
Qed.
Definition somes (a : list (str * str)) : list (option str * str) := map (fun x => (Some (fst x), snd x)) a.
Definition one (b : line) (l : list (option str * str)) : list line := match l with [] => [] | _ => [b] end.
Fixpoint lines (n : item) : list line :=
  match n with
  | IElem d q a k => LStart q :: one (LNs (sorted_pairs d)) d ++ one (LAtt (sorted_pairs (somes a))) (somes a) ++ flat_map lines k ++ [LEnd q]
  | IText s => [LText s]
  | ICdata s => LSC :: match s with [] => [] | _ => [LText s] end ++ [LEC]
  | IComment s => [LComment s]
  | IPI t d => [LPI t d]
  | IEntity n => [LEntity n]
  | IDoctype n sy pu b => [LDoc n sy pu b]
  end.
Definition stops (r : list line) : Prop := r = [] \/ exists n r', r = LEnd n :: r'.
Lemma somes_perm : forall a b, Permutation (somes a) (somes b) <-> Permutation a b.
Proof.
  intros a b. split; intro H; [|now apply Permutation_map].
  apply (Permutation_map (fun x : option str * str => (match fst x with Some s => s | None => [] end, snd x))) in H.
  assert (E : forall l, map (fun x : option str * str => (match fst x with Some s => s | None => [] end, snd x)) (somes l) = l).
  { intro l. unfold somes. induction l as [|[n v] l IH]; [reflexivity|]. cbn [map fst snd]. f_equal. exact IH. }
  now rewrite !E in H.
Qed.
Lemma sorted_nil : forall l, sorted_pairs l = [] -> l = [].
Proof. intros l H. pose proof (sorted_perm l) as P. rewrite H in P. now apply Permutation_sym, Permutation_nil in P. Qed.
Lemma one_inj : forall (f : list (option str * str) -> line) (l l' : list (option str * str)) x y,
  (forall a b, f a = f b -> a = b) -> (forall a z, x = f a :: z -> False) -> (forall a z, y = f a :: z -> False) ->
  one (f (sorted_pairs l)) l ++ x = one (f (sorted_pairs l')) l' ++ y -> Permutation l l' /\ x = y.
Proof.
  intros f l l' x y Hf Hx Hy H. destruct l as [|p l], l' as [|p' l']; cbn [one app] in H.
  - split; [constructor|assumption].
  - exfalso. eapply Hx. exact H.
  - exfalso. eapply Hy. symmetry. exact H.
  - injection H as H1 ->. split; [|reflexivity]. apply sorted_iff. now apply Hf.
Qed.
Lemma lines_no : forall k r z b w, flat_map lines k ++ LEnd r :: z = b :: w -> (forall l, b <> LNs l) /\ (forall l, b <> LAtt l).
Proof.
  intros [|n k] r z b w H; cbn [flat_map app] in H; [injection H; intros; subst; split; intros l X; discriminate X|].
  destruct n; cbn [lines app] in H; injection H; intros; subst; split; intros l X; discriminate X.
Qed.
Lemma one_kids : forall f (l : list (option str * str)) k r z b w, one (f (sorted_pairs l)) l ++ flat_map lines k ++ LEnd r :: z = b :: w ->
  (forall a c, f a <> LNs c) -> (forall c, b <> LNs c).
Proof.
  intros f l k r z b w H Hf c. destruct l as [|p l]; cbn [one app] in H.
  - apply lines_no in H. apply H.
  - injection H as <- _. apply Hf.
Qed.
Lemma lines_inj1 : forall n n' x y, (forall k' z z', stops z -> stops z' -> match n with IElem _ _ _ k => flat_map lines k ++ z = flat_map lines k' ++ z' -> Forall2 alike k k' /\ z = z' | _ => True end) ->
  lines n ++ x = lines n' ++ y -> alike n n' /\ x = y.
Proof.
  intros n n' x y IH H. destruct n, n'; cbn [lines app] in H; try discriminate H.
  - injection H as -> H. rewrite <- !app_assoc in H. cbn [app] in H.
    apply (one_inj LNs) in H as [P1 H]; [|congruence| |].
    2:{ intros a z X. eapply one_kids in X; [eapply X; reflexivity|]. intros; discriminate. }
    2:{ intros a z X. eapply one_kids in X; [eapply X; reflexivity|]. intros; discriminate. }
    apply (one_inj LAtt) in H as [P2 H]; [|congruence| |].
    2:{ intros a z X. apply lines_no in X as [_ X]. eapply X; reflexivity. }
    2:{ intros a z X. apply lines_no in X as [_ X]. eapply X; reflexivity. }
    apply IH in H as [K H]; [|right; eauto|right; eauto]. injection H as H. split; [|assumption].
    apply al_elem; try assumption. now apply somes_perm.
  - injection H as -> ->. split; [constructor|reflexivity].
  - destruct s as [|c s], s0 as [|c' s0]; cbn [app] in H; try discriminate H; injection H; intros; subst; (split; [apply al_cdata|reflexivity]).
  - injection H as -> ->. split; [constructor|reflexivity].
  - injection H as -> -> ->. split; [constructor|reflexivity].
  - injection H as -> ->. split; [constructor|reflexivity].
  - injection H as -> -> -> -> ->. split; [constructor|reflexivity].
Qed.
Lemma stops_no : forall n k z, stops z -> z = lines n ++ k -> False.
Proof. intros n k z [-> | (m & r & ->)] H; destruct n; cbn [lines app] in H; discriminate H. Qed.
Definition kinj (n : item) : Prop := forall n' x y, lines n ++ x = lines n' ++ y -> alike n n' /\ x = y.
Lemma kids_inj : forall k, Forall kinj k -> forall k' z z', stops z -> stops z' -> flat_map lines k ++ z = flat_map lines k' ++ z' -> Forall2 alike k k' /\ z = z'.
Proof.
  induction 1 as [|n k Hn Hk IH]; intros [|n' k'] z z' Hz Hz' H; cbn [flat_map] in H.
  - split; [constructor|assumption].
  - exfalso. rewrite <- app_assoc in H. cbn [app] in H. eapply stops_no; [exact Hz|exact H].
  - exfalso. rewrite <- app_assoc in H. cbn [app] in H. symmetry in H. eapply stops_no; [exact Hz'|exact H].
  - rewrite <- !app_assoc in H. apply Hn in H as [H1 H2]. apply IH in H2 as [H2 ->]; try assumption. split; [now constructor|reflexivity].
Qed.
Lemma lines_inj : forall n, kinj n.
Proof.
  induction n as [d q a k IH| | | | | | ] using item_ind2; intros n' x y H; apply lines_inj1 in H; try exact H; intros k' z z' Hz Hz'; try exact I.
  intro E. now apply (kids_inj k IH).
Qed.
Lemma all_inj : forall k k', flat_map lines k = flat_map lines k' -> Forall2 alike k k'.
Proof.
  intros k k' H. apply (kids_inj k) with (z := []) (z' := []); try (now left); [|now rewrite H].
  apply Forall_forall. intros n _. apply lines_inj.
Qed.
Lemma one_perm : forall (f : list (option str * str) -> line) l l', Permutation l l' -> one (f (sorted_pairs l)) l = one (f (sorted_pairs l')) l'.
Proof.
  intros f l l' P. destruct l as [|p l].
  - apply Permutation_nil in P. now subst.
  - destruct l' as [|p' l']; [apply Permutation_sym, Permutation_nil in P; discriminate P|]. cbn [one]. do 2 f_equal. now apply sorted_iff.
Qed.
Lemma alike_lines : forall n n', alike n n' -> lines n = lines n'.
Proof.
  induction n as [d q a k IH| | | | | | ] using item_ind2; intros n' H; inversion H as [| | | | | |? d' ? ? a' ? k' P1 P2 F]; subst; try reflexivity.
  cbn [lines]. rewrite (one_perm LNs d d' P1), (one_perm LAtt (somes a) (somes a')); [|now apply somes_perm].
  do 3 f_equal. f_equal. clear H P1 P2. revert k' F. induction IH as [|n k Hn Hk IHk]; intros k' F; inversion F; subst; [reflexivity|].
  cbn [flat_map]. f_equal; auto.
Qed.
Lemma all_lines : forall k k', Forall2 alike k k' -> flat_map lines k = flat_map lines k'.
Proof. induction 1 as [|n n' k k' H F IH]; [reflexivity|]. cbn [flat_map]. f_equal; [now apply alike_lines|assumption]. Qed.

(** ** The run *)
Lemma blank_isspace : forall s, isspace s = blank s.
Proof.
  intro s. unfold isspace, blank. induction s as [|c s IH]; [reflexivity|]. cbn [forallb]. rewrite IH. f_equal. cbn [mem existsb].
  rewrite orb_false_r. rewrite !orb_assoc. reflexivity.
Qed.
Section Run.
  Variable ws : bool.
  Definition run (l : list event) (s : seq) : seq := fold_left (fun s e => handle ws e s) l s.
  Lemma run_app : forall a b s, run (a ++ b) s = run b (run a s).
  Proof. intros. apply fold_left_app. Qed.
  Definition st (o : list str) (d : str) : seq := {| q_out := o; q_data := d; q_ns := [] |}.
  Definition shown (l : list item) : list str := map show_line (flat_map lines (filter (kept ws) l)).
  Definition ftext (d : str) : list str := shown (glue d []).
  Lemma flush_st : forall o d, flush ws (st o d) = st (o ++ ftext d) [].
  Proof.
    intros o [|c d]; unfold flush, st, ftext, shown; cbn [q_data q_out q_ns glue filter kept flat_map map app].
    - now rewrite app_nil_r.
    - rewrite blank_isspace. destruct ws, (blank (c :: d)); cbn [orb negb andb flat_map map app lines show_line]; rewrite ?app_nil_r; reflexivity.
  Qed.
  Lemma glue_app : forall a b l, glue (a ++ b) l = glue a (glue b l).
  Proof.
    intros [|x a] b l; [reflexivity|]. destruct b as [|y b]; [now rewrite app_nil_r|]. cbn [glue app].
    destruct l as [|[] l]; cbn [glue app]; rewrite <- ?app_assoc; reflexivity.
  Qed.
  Definition marked (n : item) : Prop := match n with IText _ => False | _ => True end.
  Lemma shown_glue : forall d n l, marked n -> shown (glue d (n :: l)) = ftext d ++ map show_line (lines n) ++ shown l.
  Proof.
    intros d n l Hn. unfold ftext, shown. assert (K : kept ws n = true) by (destruct n; try reflexivity; destruct Hn).
    assert (G : glue d (n :: l) = glue d [] ++ n :: l).
    { destruct d as [|c d]; [reflexivity|]. cbn [glue app]. destruct n; try reflexivity. destruct Hn. }
    rewrite G, filter_app. cbn [filter]. rewrite K. rewrite flat_map_app, map_app. cbn [flat_map]. now rewrite map_app.
  Qed.
  Lemma run_chars : forall ps o d, run (map EChars ps) (st o d) = st o (d ++ concat ps).
  Proof.
    induction ps as [|p ps IH]; intros o d; cbn [map concat].
    - now rewrite app_nil_r.
    - change (run (EChars p :: map EChars ps) (st o d)) with (run (map EChars ps) (st o (d ++ p))). rewrite IH. now rewrite app_assoc.
  Qed.
  Lemma run_decls : forall (ds l : list (option str * str)) o d,
    run (map (fun x => ENs (fst x) (snd x)) ds) {| q_out := o; q_data := d; q_ns := l |} = {| q_out := o; q_data := d; q_ns := l ++ ds |}.
  Proof.
    induction ds as [|[p u] ds IH]; intros l o d; cbn [map].
    - now rewrite app_nil_r.
    - unfold run. cbn [fold_left handle fst snd q_out q_data q_ns]. fold (run (map (fun x => ENs (fst x) (snd x)) ds)
        {| q_out := o; q_data := d; q_ns := l ++ [(p, u)] |}). rewrite IH. now rewrite <- app_assoc.
  Qed.
  Lemma pairs_flat : forall a : list (str * str), pairs (flat_map (fun x => [fst x; snd x]) a) = somes a.
  Proof. induction a as [|[n v] a IH]; [reflexivity|]. cbn [flat_map app pairs fst snd somes map]. f_equal. exact IH. Qed.
  Lemma run_start : forall ds n (a : list (str * str)) o d,
    run (map (fun x => ENs (fst x) (snd x)) ds ++ [EStart n (flat_map (fun x => [fst x; snd x]) a)]) (st o d) =
    st (o ++ ftext d ++ map show_line (LStart n :: one (LNs (sorted_pairs ds)) ds ++ one (LAtt (sorted_pairs (somes a))) (somes a))) [].
  Proof.
    intros ds n a o d. rewrite run_app. unfold st at 1. rewrite run_decls. cbn [app]. unfold run. cbn [fold_left handle].
    unfold start_element.
    assert (F : flush ws {| q_out := o; q_data := d; q_ns := ds |} = {| q_out := o ++ ftext d; q_data := []; q_ns := ds |}).
    { pose proof (flush_st o d) as F. unfold flush, st in *. cbn [q_data q_out q_ns] in *. destruct d as [|c d].
      - unfold ftext, shown. cbn. now rewrite app_nil_r.
      - apply (f_equal q_out) in F. cbn [q_out] in F. now rewrite F. }
    rewrite F. unfold append. cbn [q_out q_data q_ns].
    destruct ds as [|p ds]; cbn [q_out q_data q_ns one app map].
    - destruct a as [|x a]; cbn [flat_map app somes map one q_out q_data q_ns]; unfold st.
      + now rewrite <- !app_assoc.
      + f_equal. rewrite <- !app_assoc. cbn [app]. repeat f_equal. change (fst x :: snd x :: flat_map (fun x => [fst x; snd x]) a) with (flat_map (fun x => [fst x; snd x]) (x :: a)).
        now rewrite pairs_flat.
    - destruct a as [|x a]; cbn [flat_map app somes map one q_out q_data q_ns]; unfold st.
      + now rewrite <- !app_assoc.
      + f_equal. rewrite <- !app_assoc. cbn [app]. repeat f_equal. change (fst x :: snd x :: flat_map (fun x => [fst x; snd x]) a) with (flat_map (fun x => [fst x; snd x]) (x :: a)).
        now rewrite pairs_flat.
  Qed.
  Definition runs (n : item) : Prop := forall es o d, says n es -> exists o' d', run es (st o d) = st o' d' /\
    forall R, o' ++ shown (glue d' R) = o ++ shown (glue d (tidy ws n R)).
  Lemma runs_all : forall k, Forall runs k -> forall ks o d, Forall2 says k ks -> exists o' d', run (concat ks) (st o d) = st o' d' /\
    forall R, o' ++ shown (glue d' R) = o ++ shown (glue d (fold_right (tidy ws) R k)).
  Proof.
    induction 1 as [|n k Hn Hk IH]; intros ks o d F; inversion F as [|? e ? ks' S F']; subst.
    - exists o, d. split; reflexivity.
    - destruct (Hn e o d S) as (o1 & d1 & E1 & R1). destruct (IH ks' o1 d1 F') as (o2 & d2 & E2 & R2).
      exists o2, d2. split; [cbn [concat]; now rewrite run_app, E1|]. intro R. rewrite R2, R1. reflexivity.
  Qed.
  Lemma runs_mark : forall n es, marked n -> (forall o d, run es (st o d) = st (o ++ ftext d ++ map show_line (lines n)) []) ->
    tidy ws n = (fun R => n :: R) ->
    forall o d, exists o' d', run es (st o d) = st o' d' /\ forall R, o' ++ shown (glue d' R) = o ++ shown (glue d (tidy ws n R)).
  Proof.
    intros n es Hn E T o d. exists (o ++ ftext d ++ map show_line (lines n)), []. split; [apply E|]. intro R. rewrite T, shown_glue by assumption.
    cbn [glue]. now rewrite <- !app_assoc.
  Qed.
  Lemma run_one : forall e b o d, (forall s, handle ws e s = append (show_line b) (flush ws s)) -> run [e] (st o d) = st (o ++ ftext d ++ map show_line [b]) [].
  Proof. intros e b o d H. unfold run. cbn [fold_left map]. rewrite H, flush_st. unfold append, st. cbn [q_out q_data q_ns]. now rewrite <- app_assoc. Qed.
  Lemma run_item : forall n, runs n.
  Proof.
    induction n as [ds q a k IH|s|s|s|t d0|m|m sy pu b] using item_ind2; intros es o d S; inversion S; subst; clear S.
    - match goal with |- context[run (?A ++ ?B :: ?C) _] => replace (A ++ B :: C) with ((A ++ [B]) ++ C) by now rewrite <- app_assoc end.
      rewrite run_app, run_start, run_app.
      set (o1 := o ++ ftext d ++ map show_line (LStart q :: one (LNs (sorted_pairs ds)) ds ++ one (LAtt (sorted_pairs (somes a))) (somes a))).
      match goal with F0 : Forall2 says k ?kk |- _ => destruct (runs_all k IH kk o1 [] F0) as (o2 & d2 & E2 & R2) end. rewrite E2.
      rewrite (run_one (EEnd q) (LEnd q)) by reflexivity. eexists _, _. split; [reflexivity|]. intro R. cbn [glue tidy].
      rewrite shown_glue by exact I. specialize (R2 []). change (shown (glue d2 [])) with (ftext d2) in R2. cbn [glue] in R2.
      rewrite (app_assoc o2), R2. subst o1. unfold shown at 1. cbn [lines]. rewrite <- !app_assoc. f_equal. f_equal.
      rewrite !map_cons, !map_app. cbn [app map]. rewrite <- !app_assoc. reflexivity.
    - exists o, (d ++ concat ps). split; [apply run_chars|]. intro R. cbn [tidy]. now rewrite glue_app.
    - match goal with |- context[run (EStartCdata :: ?B) _] => change (EStartCdata :: B) with ([EStartCdata] ++ B) end.
      rewrite run_app, (run_one EStartCdata LSC) by reflexivity. rewrite run_app, run_chars. cbn [app].
      rewrite (run_one EEndCdata LEC) by reflexivity. eexists _, _. split; [reflexivity|]. intro R. cbn [glue tidy]. rewrite shown_glue by exact I.
      rewrite <- !app_assoc. do 2 f_equal. unfold ftext, shown. generalize (concat ps) as s. intros [|c s]; cbn [glue filter kept].
      + destruct ws; reflexivity.
      + destruct (ws || negb (blank (c :: s))); reflexivity.
    - apply runs_mark; [exact I| |reflexivity]. intros o1 d1. now apply run_one.
    - apply runs_mark; [exact I| |reflexivity]. intros o1 d1. now apply run_one.
    - apply runs_mark; [exact I| |reflexivity]. intros o1 d1. now apply run_one.
    - apply runs_mark; [exact I| |reflexivity]. intros o1 d1. now apply run_one.
  Qed.
  Theorem sequence_reports : forall l es, reports l es -> sequence ws es = map show_line (flat_map lines (tidy_all ws l)).
  Proof.
    intros l es (ess & F & ->). unfold sequence. fold (run (concat ess) seq0). change seq0 with (st [] []).
    destruct (runs_all l) with (ks := ess) (o := @nil str) (d := @nil N) as (o & d & E & R); [apply Forall_forall; intros n _; apply run_item|assumption|].
    rewrite E, flush_st. cbn [st q_out]. apply (R []).
  Qed.

  (** ** Fine items have fine lines *)
  Lemma fine_lines : forall n, fine n -> Forall okline (lines n).
  Proof.
    induction n as [ds q a k IH|s|s|s|t d0|m|m sy pu b] using item_ind2; intros S; inversion S; subst; clear S; cbn [lines].
    - assert (O : forall b l, Forall (okpair b) l -> Forall okline (one ((if b then LNs else LAtt) (sorted_pairs l)) l)).
      { intros b l Hl. destruct l as [|p l]; [constructor|]. cbn [one]. constructor; [|constructor].
        assert (K : Forall (okpair b) (sorted_pairs (p :: l)) /\ sorted_pairs (p :: l) <> []).
        { split; [eapply Permutation_Forall; [apply sorted_perm|assumption]|]. intro E. apply sorted_nil in E. discriminate E. }
        destruct b; exact K. }
      constructor; [exact I|]. apply Forall_app. split; [apply (O true)|]. 2:apply Forall_app; split; [apply (O false)|].
      + eapply Forall_impl; [|eassumption]. intros [[p|] v] [G1 G2]; cbn [fst snd] in *.
        * destruct (G1 p eq_refl) as [U X]. repeat split; cbn [fst snd show]; try assumption; try apply U. congruence.
        * repeat split; cbn [fst snd show]; try assumption; try discriminate; intro X; vm_compute in X; repeat (destruct X as [X|X]; [discriminate X|]); exact X.
      + unfold somes. apply Forall_map. eapply Forall_impl; [|eassumption]. intros [p v] (G1 & G2); cbn [fst snd] in *.
        repeat split; cbn [fst snd show]; try assumption; try apply G1. discriminate.
      + apply Forall_app. split; [|constructor; [exact I|constructor]]. apply Forall_flat_map.
        match goal with Hk : Forall fine k |- _ => revert Hk end. clear -IH. induction IH as [|n k Hn Hk IHk]; intro H; inversion H; subst; constructor; auto.
    - constructor; [assumption|constructor].
    - constructor; [exact I|]. destruct s; cbn [app]; repeat (constructor; try assumption; try exact I).
    - constructor; [assumption|constructor].
    - constructor; [now split|constructor].
    - constructor; [exact I|constructor].
    - constructor; [now repeat split|constructor].
  Qed.
  Lemma fine_glue : forall s l, unicode s -> Forall fine l -> Forall fine (glue s l).
  Proof.
    intros [|c s] l Hs Hl; [assumption|]. cbn [glue]. destruct Hl as [|n l Hn Hl]; [constructor; [now constructor|constructor]|].
    destruct n; try (constructor; [now constructor|now constructor]).
    inversion Hn; subst. constructor; [|assumption]. constructor. now apply Forall_app.
  Qed.
  Lemma fine_filter : forall l, Forall fine l -> Forall fine (filter (kept ws) l).
  Proof. induction 1; [constructor|]. cbn [filter]. destruct (kept ws x); [now constructor|assumption]. Qed.
  Lemma fine_tidy : forall n, fine n -> forall R, Forall fine R -> Forall fine (tidy ws n R).
  Proof.
    induction n as [ds q a k IH|s|s|s|t d0|m|m sy pu b] using item_ind2; intros S R HR; cbn [tidy]; try (constructor; assumption).
    - constructor; [|assumption]. inversion S; subst. constructor; try assumption. apply fine_filter.
      match goal with Hk : Forall fine k |- _ => revert Hk end. clear -IH. induction IH as [|n k Hn Hk IHk]; intro H; inversion H; subst; [constructor|].
      cbn [fold_right]. apply Hn; auto.
    - inversion S; subst. now apply fine_glue.
    - constructor; [|assumption]. inversion S; subst. constructor. destruct (ws || negb (blank s)); [assumption|constructor].
  Qed.
  Lemma fine_all : forall l, Forall fine l -> Forall okline (flat_map lines (tidy_all ws l)).
  Proof.
    intros l H. apply Forall_flat_map. eapply Forall_impl; [apply fine_lines|]. unfold tidy_all. apply fine_filter.
    induction H as [|n l Hn H IH]; [constructor|]. cbn [fold_right]. now apply fine_tidy.
  Qed.
  Theorem sequence_same : forall l es l' es', reports l es -> reports l' es' -> Forall fine l -> Forall fine l' ->
    (sequence ws es = sequence ws es' <-> same ws l l').
  Proof.
    intros l es l' es' R R' F F'. rewrite (sequence_reports l es R), (sequence_reports l' es' R'). unfold same. split; intro H.
    - apply all_inj. apply show_lines_inj; [now apply fine_all|now apply fine_all|exact H].
    - now rewrite (all_lines _ _ H).
  Qed.
  Theorem same_sequence : forall l es l' es', reports l es -> reports l' es' -> same ws l l' -> sequence ws es = sequence ws es'.
  Proof.
    intros l es l' es' R R' H. rewrite (sequence_reports l es R), (sequence_reports l' es' R'). now rewrite (all_lines _ _ H).
  Qed.
End Run.
Lemma lines_eqb_spec : forall a b, lines_eqb a b = true <-> a = b.
Proof.
  induction a as [|x a IH]; intros [|y b]; cbn [lines_eqb]; try (split; [reflexivity||intro H; discriminate H|reflexivity||intro H; discriminate H]).
  rewrite andb_true_iff, str_eqb_eq, IH. split; [intros [-> ->]; reflexivity|intro H; injection H; auto].
Qed.
