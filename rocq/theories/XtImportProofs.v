(** * Proofs for C55 *)
From Coq Require Import NArith String List Bool Lia Arith Sorted.
From Verif Require Import PyStr PyErr XtImport XtImportSpec.
Import ListNotations.
Local Open Scope nat_scope.

(** ** Reading *)
Fixpoint load_list {E} (world : str -> option (list (written E))) (f : str -> result (list (item E))) (visited : list str) (doc : list (written E)) : result (list (item E)) :=
  match doc with
  | [] => Ok []
  | Here e :: doc' => do l <- load_list world f visited doc' ; Ok (Elem e :: l)
  | Refer b v :: doc' =>
      match world v with
      | None => Err IncludeNotFound
      | Some _ =>
          if visiting v visited then Err CircularInclude
          else do s <- f v ; do l <- load_list world f visited doc' ; Ok (Combine b s :: l)
      end
  end.
Lemma load_step : forall E (world : str -> option (list (written E))) fuel visited u,
  load world (S fuel) visited u =
  match world u with None => Err IncludeNotFound | Some doc => load_list world (load world fuel (u :: visited)) (u :: visited) doc end.
Proof.
  intros. cbn [load]. destruct (world u) as [doc|]; auto.
  induction doc as [|[e|b v] doc IH]; cbn [load_list]; auto.
  - rewrite IH. auto.
  - destruct (world v); auto. destruct (visiting v (u :: visited)); auto.
    destruct (load world fuel (u :: visited) v); cbn [bind]; auto. rewrite IH. auto.
Qed.
Lemma visiting_spec : forall u l, visiting u l = true <-> In u l.
Proof.
  intros. unfold visiting. rewrite existsb_exists. split.
  - intros (x & Hx & He). apply str_eqb_eq in He. subst; auto.
  - intros. exists u. split; auto. apply str_eqb_eq; auto.
Qed.
Lemma load_total : forall E (world : str -> option (list (written E))) us,
  (forall v d, world v = Some d -> In v us) ->
  forall fuel visited u, NoDup visited -> incl visited us -> ~ In u visited -> List.length us < List.length visited + fuel ->
  load world fuel visited u <> Err StillReading.
Proof.
  intros E world us Hus. induction fuel as [|fuel IH]; intros visited u Hnd Hin Hu Hlt.
  - exfalso. pose proof (NoDup_incl_length Hnd Hin). lia.
  - rewrite load_step. destruct (world u) as [doc|] eqn:Eu; [|discriminate].
    assert (Hin' : incl (u :: visited) us). { intros x [<-|Hx]; [eapply Hus; eauto|auto]. }
    assert (Hnd' : NoDup (u :: visited)) by (constructor; auto).
    assert (Hlt' : List.length us < List.length (u :: visited) + fuel) by (cbn [List.length]; lia).
    clear Eu. induction doc as [|[e|b v] doc IHd]; cbn [load_list]; [discriminate| |].
    + destruct (load_list world _ _ doc) as [l|x]; cbn [bind]; [discriminate|congruence].
    + destruct (world v) eqn:Ev; [|discriminate]. destruct (visiting v (u :: visited)) eqn:Evis; [discriminate|].
      assert (Hv : ~ In v (u :: visited)). { intro Hx. apply visiting_spec in Hx. congruence. }
      pose proof (IH _ _ Hnd' Hin' Hv Hlt') as Hne.
      destruct (load world fuel (u :: visited) v) as [s|x]; cbn [bind]; [|congruence].
      destruct (load_list world _ _ doc) as [l0|x]; cbn [bind]; [discriminate|congruence].
Qed.
Lemma reaches_trans : forall E (world : str -> option (list (written E))) u v w,
  reaches world u v -> reaches world v w -> reaches world u w.
Proof. intros E world u v w H1 H2. induction H2; auto. eapply reaches_on; eauto. Qed.
Lemma load_error : forall E (world : str -> option (list (written E))) fuel visited u e,
  load world fuel visited u = Err e -> (forall x, In x visited -> reaches world x u) ->
  e = StillReading \/ (e = CircularInclude /\ exists v, reaches world u v /\ circular world v) \/
  (e = IncludeNotFound /\ exists v, reaches world u v /\ world v = None).
Proof.
  intros E world. induction fuel as [|fuel IH]; intros visited u e H Hvis.
  - cbn [load] in H. injection H as <-. auto.
  - rewrite load_step in H. destruct (world u) as [doc|] eqn:Eu.
    2: { injection H as <-. right; right. split; auto. exists u. split; [constructor|auto]. }
    assert (Hsub : forall d, (forall x, In x d -> In x doc) -> load_list world (load world fuel (u :: visited)) (u :: visited) d = Err e ->
      e = StillReading \/ (e = CircularInclude /\ exists v, reaches world u v /\ circular world v) \/
      (e = IncludeNotFound /\ exists v, reaches world u v /\ world v = None)).
    2: { apply (Hsub doc); auto. }
    clear H. induction d as [|[x|b v] d IHd]; intros Hd H; cbn [load_list] in H; [discriminate| |].
    + destruct (load_list world _ _ d) as [l0|x']; cbn [bind] in H; [discriminate|]. injection H as <-. apply IHd; auto. intros; apply Hd; right; auto.
    + assert (Hr : refers world u v). { exists doc, b. split; auto. apply Hd. left; auto. }
      destruct (world v) eqn:Ev.
      2: { injection H as <-. right; right. split; auto. exists v. split; auto. eapply reaches_on; [constructor|auto]. }
      destruct (visiting v (u :: visited)) eqn:Evis.
      * injection H as <-. right; left. split; auto. exists u. split; [constructor|]. exists v. split; auto.
        apply visiting_spec in Evis. destruct Evis as [<-|Hx]; [constructor|auto].
      * destruct (load world fuel (u :: visited) v) as [s|x] eqn:El; cbn [bind] in H.
        -- destruct (load_list world _ _ d) as [l0|x']; cbn [bind] in H; [discriminate|]. injection H as <-. apply IHd; auto. intros; apply Hd; right; auto.
        -- injection H as <-. assert (Hru : reaches world u v) by (eapply reaches_on; [constructor|auto]).
           destruct (IH _ _ _ El) as [He|[(He & w & Hw & Hc)|(He & w & Hw & Hc)]]; auto.
           { intros y [<-|Hy]; auto. eapply reaches_on; eauto. }
           ++ right; left. split; auto. exists w. split; auto. eapply reaches_trans; eauto.
           ++ right; right. split; auto. exists w. split; auto. eapply reaches_trans; eauto.
Qed.
Lemma load_unfolds : forall E (world : str -> option (list (written E))) fuel visited u s,
  load world fuel visited u = Ok s -> unfolds world u s.
Proof.
  intros E world. induction fuel as [|fuel IH]; intros visited u s H; [discriminate|].
  rewrite load_step in H. destruct (world u) as [doc|] eqn:Eu; [|discriminate].
  econstructor; eauto. clear Eu. revert s H.
  induction doc as [|[x|b v] d IHd]; intros s H; cbn [load_list] in H.
  - injection H as <-. constructor.
  - destruct (load_list world _ _ d) as [l0|]; cbn [bind] in H; [|discriminate]. injection H as <-. constructor; auto.
  - destruct (world v) eqn:Ev; [|discriminate]. destruct (visiting v (u :: visited)); [discriminate|].
    destruct (load world fuel (u :: visited) v) as [t|] eqn:El; cbn [bind] in H; [|discriminate].
    destruct (load_list world _ _ d) as [l0|]; cbn [bind] in H; [|discriminate]. injection H as <-. constructor; eauto.
Qed.
Scheme unfolds_min := Minimality for unfolds Sort Prop
with unfolds_list_min := Minimality for unfolds_list Sort Prop.

Lemma unfolds_fun : forall E (world : str -> option (list (written E))) u s, unfolds world u s -> forall s', unfolds world u s' -> s = s'.
Proof.
  intros E world. apply (unfolds_min E world (fun u s => forall s', unfolds world u s' -> s = s') (fun d s => forall s', unfolds_list world d s' -> s = s')).
  - intros u doc s Hd _ IH s' H. inversion H; subst. apply IH. congruence.
  - intros s' H. inversion H; auto.
  - intros e doc s _ IH s' H. inversion H; subst. f_equal; auto.
  - intros b v t doc s _ IH1 _ IH2 s' H. inversion H; subst. f_equal; auto. f_equal; auto.
Qed.
Fixpoint weight {E} (i : item E) : nat := match i with Elem _ => 0 | Combine _ s => S (list_sum (map weight s)) end.
Lemma unfolds_refers : forall E (world : str -> option (list (written E))) u s v, unfolds world u s -> refers world u v ->
  exists t, unfolds world v t /\ list_sum (map weight t) < list_sum (map weight s).
Proof.
  intros E world u s v Hu (doc & b & Hd & Hin). destruct Hu as [u doc' s Hd' Hl].
  replace doc' with doc in Hl by congruence. clear Hd Hd'.
  induction Hl as [|e d s Hl IH|b' v' t d s Ht Hl IH]; [destruct Hin| |].
  - destruct Hin as [Hx|Hin]; [discriminate|]. destruct (IH Hin) as (t & Ht & Hlt). exists t. split; auto.
  - cbn [map weight list_sum fold_right]. destruct Hin as [Hx|Hin].
    + injection Hx as <- <-. exists t. split; auto. unfold list_sum. cbn [fold_right]. lia.
    + destruct (IH Hin) as (t' & Ht' & Hlt). exists t'. split; auto. unfold list_sum in *. cbn [fold_right]. lia.
Qed.
Lemma unfolds_reaches : forall E (world : str -> option (list (written E))) u s v, unfolds world u s -> reaches world u v ->
  exists t, unfolds world v t /\ list_sum (map weight t) <= list_sum (map weight s).
Proof.
  intros E world u s v Hu Hr. induction Hr as [|v w Hr (t & Ht & Hle) Hvw].
  - exists s. auto.
  - destruct (unfolds_refers _ _ _ _ _ Ht Hvw) as (t' & Ht' & Hlt). exists t'. split; auto. lia.
Qed.
Lemma unfolds_sound : forall E (world : str -> option (list (written E))) u s v, unfolds world u s -> reaches world u v ->
  world v <> None /\ ~ circular world v.
Proof.
  intros E world u s v Hu Hr. destruct (unfolds_reaches _ _ _ _ _ Hu Hr) as (t & Ht & _). split.
  - destruct Ht. congruence.
  - intros (w & Hvw & Hwv). destruct (unfolds_refers _ _ _ _ _ Ht Hvw) as (t' & Ht' & Hlt).
    destruct (unfolds_reaches _ _ _ _ _ Ht' Hwv) as (t'' & Ht'' & Hle).
    rewrite (unfolds_fun _ _ _ _ Ht'' _ Ht) in Hle. lia.
Qed.

(** ** Precedences *)
Lemma item_all : forall E (P : item E -> Prop), (forall e, P (Elem e)) -> (forall b s, Forall P s -> P (Combine b s)) -> forall i, P i.
Proof.
  intros E P H1 H2. fix F 1. intros [e|b s]; [apply H1|]. apply H2. induction s as [|i s IH]; constructor; auto.
Qed.
Lemma read_combine : forall E index b (s : list (item E)),
  read_item index (Combine b s) = (fst (read_sheet index s), if b then S (snd (read_sheet index s)) else snd (read_sheet index s)).
Proof.
  intros. cbn [read_item].
  assert (H : forall s index, (fix read (index : nat) (s : list (item E)) {struct s} : list (E * nat) * nat :=
     match s with
     | [] => ([], index)
     | i :: s' => let '(l1, index1) := read_item index i in let '(l2, index2) := read index1 s' in (l1 ++ l2, index2)
     end) index s = read_sheet index s).
  { clear. induction s as [|i s IH]; intros; cbn [read_sheet]; auto. destruct (read_item index i) as [l1 i1]. rewrite IH. auto. }
  rewrite H. destruct (read_sheet index s); auto.
Qed.
Lemma read_cons : forall E index (i : item E) s,
  read_sheet index (i :: s) = (fst (read_item index i) ++ fst (read_sheet (snd (read_item index i)) s), snd (read_sheet (snd (read_item index i)) s)).
Proof. intros. cbn [read_sheet]. destruct (read_item index i). cbn [fst snd]. destruct (read_sheet n s). auto. Qed.

(** The index after reading, whatever the sheet. *)
Lemma read_index : forall E (s : list (item E)) index, snd (read_sheet index s) = index + List.length (imported s).
Proof.
  assert (HI : forall E (i : item E) index, snd (read_item index i) = index + List.length (imported_item i)).
  { intros E. apply (item_all E (fun i => forall index, snd (read_item index i) = index + List.length (imported_item i))).
    - intros. cbn. lia.
    - intros b s Hs index. rewrite read_combine. cbn [snd].
      assert (H : forall index, snd (read_sheet index s) = index + List.length (flat_map imported_item s)).
      { clear index. induction Hs as [|i s Hi Hs IH]; intros index; cbn [flat_map]; [cbn; lia|].
        rewrite read_cons. cbn [snd]. rewrite IH, Hi, app_length. lia. }
      rewrite H. destruct b; cbn [imported_item]; [rewrite app_length; cbn [List.length]|]; lia. }
  intros E s. induction s as [|i s IH]; intros index; cbn [imported flat_map]; [cbn; lia|].
  rewrite read_cons. cbn [snd]. rewrite IH, HI, app_length. unfold imported. lia.
Qed.
(** Precedences lie between the indices before and after, and do not decrease. *)
Definition within (a b : nat) (l : list nat) : Prop := Forall (fun k => a <= k <= b) l.
Lemma within_app : forall a b c l1 l2, a <= b <= c -> within a b l1 -> within b c l2 -> within a c (l1 ++ l2).
Proof. intros a b c l1 l2 H H1 H2. apply Forall_app. split; (eapply Forall_impl; [|eassumption]); cbn; intros; lia. Qed.
Lemma sorted_app : forall a b c l1 l2, within a b l1 -> within b c l2 -> StronglySorted le l1 -> StronglySorted le l2 -> StronglySorted le (l1 ++ l2).
Proof.
  intros a b c l1 l2 H1 H2 S1 S2. induction S1 as [|x l1 S1 IH Hx]; cbn [app]; auto. inversion H1; subst. constructor; auto.
  apply Forall_app. split; auto. eapply Forall_impl; [|exact H2]. cbn. intros; lia.
Qed.
Lemma read_sorted : forall E (s : list (item E)) index,
  within index (snd (read_sheet index s)) (map snd (fst (read_sheet index s))) /\ StronglySorted le (map snd (fst (read_sheet index s))) /\ index <= snd (read_sheet index s).
Proof.
  assert (HI : forall E (i : item E) index,
     within index (snd (read_item index i)) (map snd (fst (read_item index i))) /\ StronglySorted le (map snd (fst (read_item index i))) /\ index <= snd (read_item index i)).
  { intros E. apply (item_all E (fun i => forall index, within index (snd (read_item index i)) (map snd (fst (read_item index i))) /\ StronglySorted le (map snd (fst (read_item index i))) /\ index <= snd (read_item index i))).
    - intros. cbn. repeat split; auto; repeat constructor; auto.
    - intros b s Hs index. rewrite read_combine. cbn [fst snd].
      assert (H : forall index, within index (snd (read_sheet index s)) (map snd (fst (read_sheet index s))) /\ StronglySorted le (map snd (fst (read_sheet index s))) /\ index <= snd (read_sheet index s)).
      { clear index. induction Hs as [|i s Hi Hs IH]; intros index; [cbn; repeat split; auto; constructor|].
        rewrite read_cons. cbn [fst snd]. rewrite map_app.
        destruct (Hi index) as (W1 & S1 & L1). destruct (IH (snd (read_item index i))) as (W2 & S2 & L2).
        split; [|split]; [eapply within_app; eauto|eapply sorted_app; eauto|lia]. }
      destruct (H index) as (W & St & L). split; [|split]; auto; destruct b; auto.
      eapply Forall_impl; [|exact W]. cbn. intros; lia. }
  intros E s. induction s as [|i s IH]; intros index; [cbn; repeat split; auto; constructor|].
  rewrite read_cons. cbn [fst snd]. rewrite map_app.
  destruct (HI E i index) as (W1 & S1 & L1). destruct (IH (snd (read_item index i))) as (W2 & S2 & L2).
  split; [|split]; [eapply within_app; eauto|eapply sorted_app; eauto|lia].
Qed.
Lemma read_all_sorted : forall E (sheets : list (list (item E))) index,
  Forall (fun k => index <= k) (map snd (read_all index sheets)) /\ StronglySorted le (map snd (read_all index sheets)).
Proof.
  induction sheets as [|s sheets IH]; intros index; cbn [read_all]; [split; constructor|].
  destruct (read_sheet index s) as [l i'] eqn:Er. destruct (read_sorted E s index) as (W & St & L). rewrite Er in *. cbn [fst snd] in *.
  destruct (IH (S i')) as (W' & St'). rewrite map_app. split.
  - apply Forall_app. split; (eapply Forall_impl; [|eassumption]); cbn; intros; lia.
  - clear Er IH. induction (map snd l) as [|x m IHm]; cbn [app]; auto.
    inversion W; subst. inversion St; subst. constructor; auto. apply Forall_app. split; auto.
    eapply Forall_impl; [|exact W']. cbn. intros; lia.
Qed.

Lemma of_app : forall E k (l1 l2 : list (E * nat)), of_precedence k (l1 ++ l2) = of_precedence k l1 ++ of_precedence k l2.
Proof. intros. unfold of_precedence. rewrite filter_app, map_app. auto. Qed.
Lemma of_outside : forall E a b k (l : list (E * nat)), within a b (map snd l) -> k < a \/ b < k -> of_precedence k l = [].
Proof.
  intros E a b k l H Hk. induction l as [|[e p] l IH]; auto. cbn [map snd] in H. inversion H; subst. unfold of_precedence in *.
  cbn [filter snd]. replace (p =? k) with false; auto. symmetry. apply Nat.eqb_neq. lia.
Qed.
Lemma first_tail : forall E (i : item E) s, imports_first (i :: s) -> imports_first s.
Proof.
  intros E i s H. inversion H as [s' H1 H2]; subst. constructor.
  - intros l1 j l2 -> Ho. apply (H1 (i :: l1) j l2); auto. unfold own in *. cbn [flat_map]. intro Hx. apply app_eq_nil in Hx. apply Ho, Hx.
  - intros b t Ht. apply (H2 b t). right; auto.
Qed.
Lemma first_later : forall E (i : item E) s, imports_first (i :: s) -> own_item i <> [] -> imported s = [].
Proof.
  intros E i s H Ho. inversion H as [s' H1 _]; subst.
  assert (Hn : forall j, In j s -> imported_item j = []).
  { intros j Hj. apply in_split in Hj. destruct Hj as (l1 & l2 & ->). apply (H1 (i :: l1) j l2); auto.
    unfold own. cbn [flat_map]. intro Hx. apply app_eq_nil in Hx. apply Ho, Hx. }
  unfold imported. clear -Hn. induction s as [|j s IH]; auto. cbn [flat_map]. rewrite (Hn j (or_introl eq_refl)), IH; auto. intros; apply Hn; right; auto.
Qed.
Definition as_postorder {E} (s : list (item E)) : Prop :=
  forall index k, of_precedence (index + k) (fst (read_sheet index s)) = nth k (postorder s) [].
Lemma read_ok : forall E (s : list (item E)), imports_first s -> as_postorder s.
Proof.
  intros E.
  assert (HL : forall s : list (item E), Forall (fun i => match i with Elem _ => True | Combine _ t => imports_first t -> as_postorder t end) s -> imports_first s -> as_postorder s).
  { intros s Hs. induction Hs as [|i s Hi Hs IH]; intros Hf index k.
    - cbn. destruct k as [|[|k]]; auto.
    - specialize (IH (first_tail _ _ _ Hf)). rewrite read_cons. cbn [fst]. rewrite of_app. destruct i as [e|b t].
      + cbn [read_item fst snd]. rewrite IH. unfold postorder.
        rewrite (first_later _ _ _ Hf) by (cbn; discriminate).
        replace (imported (Elem e :: s)) with (imported s) by reflexivity.
        rewrite (first_later _ _ _ Hf) by (cbn; discriminate).
        unfold of_precedence. cbn [filter snd app]. destruct k as [|k].
        * rewrite Nat.add_0_r, Nat.eqb_refl. reflexivity.
        * replace (index =? index + S k) with false by (symmetry; apply Nat.eqb_neq; lia). cbn. destruct k; auto.
      + inversion Hf as [s' _ Hsub]; subst. specialize (Hi (Hsub b t (or_introl eq_refl))).
        rewrite read_combine. cbn [fst snd]. rewrite Hi.
        pose proof (read_index E t index) as Hix. unfold postorder in *.
        destruct b.
        * replace (imported (Combine true t :: s)) with ((imported t ++ [own t]) ++ imported s) by reflexivity.
          replace (own (Combine true t :: s)) with (own s) by reflexivity.
          rewrite <- (app_assoc (imported t ++ [own t])). destruct (le_lt_dec k (List.length (imported t))) as [Hk|Hk].
          -- rewrite (app_nth1 (imported t ++ [own t])) by (rewrite app_length; cbn [List.length]; lia).
             destruct (read_sorted E s (S (snd (read_sheet index t)))) as (W & _ & _).
             rewrite (of_outside _ _ _ _ _ W) by lia. apply app_nil_r.
          -- rewrite nth_overflow by (rewrite app_length; cbn [List.length]; lia).
             rewrite (app_nth2 (imported t ++ [own t])) by (rewrite app_length; cbn [List.length]; lia). rewrite app_length. cbn [List.length app].
             rewrite <- (IH (S (snd (read_sheet index t)))). f_equal. lia.
        * replace (imported (Combine false t :: s)) with (imported t ++ imported s) by reflexivity.
          replace (own (Combine false t :: s)) with (own t ++ own s) by reflexivity.
          rewrite <- app_assoc. destruct (lt_dec k (List.length (imported t))) as [Hk|Hk].
          -- rewrite !app_nth1 by lia. destruct (read_sorted E s (snd (read_sheet index t))) as (W & _ & _).
             rewrite (of_outside _ _ _ _ _ W) by lia. apply app_nil_r.
          -- rewrite !app_nth2 by lia.
             replace (index + k) with (snd (read_sheet index t) + (k - List.length (imported t))) by lia. rewrite IH.
             set (m := k - List.length (imported t)). unfold postorder. destruct (own t) as [|x o] eqn:Eo.
             ++ cbn [app]. destruct m as [|[|m]]; auto.
             ++ rewrite (first_later _ _ _ Hf) by (cbn [own_item]; unfold own in Eo; rewrite Eo; discriminate).
                cbn [app]. destruct m as [|[|m]]; cbn; auto. }
  intros s. apply HL. apply Forall_forall. intros i _. revert i. apply (item_all E); auto.
Qed.
(** Several stylesheets. *)
Lemma postorder_length : forall E (s : list (item E)), List.length (postorder s) = S (List.length (imported s)).
Proof. intros. unfold postorder. rewrite app_length. cbn [List.length]. lia. Qed.
Lemma read_all_ok : forall E (sheets : list (list (item E))) index k, Forall imports_first sheets ->
  of_precedence (index + k) (read_all index sheets) = nth k (flat_map postorder sheets) [].
Proof.
  induction sheets as [|s sheets IH]; intros index k Hf; cbn [read_all flat_map].
  - destruct k; auto.
  - inversion Hf as [|x y Hs Hf']; subst. pose proof (read_ok E s Hs index k) as Hk. pose proof (read_index E s index) as Hix.
    destruct (read_sorted E s index) as (W & _ & _).
    destruct (read_sheet index s) as [l i']. cbn [fst snd] in *. rewrite of_app, Hk.
    pose proof (postorder_length E s) as Hp. destruct (lt_dec k (List.length (postorder s))) as [Hlt|Hge].
    + rewrite app_nth1 by lia. destruct (read_all_sorted E sheets (S i')) as (W' & _).
      assert (Hn : of_precedence (index + k) (read_all (S i') sheets) = []).
      { clear -W' Hlt Hp Hix. induction (read_all (S i') sheets) as [|[e p] m IHm]; auto. cbn [map snd] in W'. inversion W'; subst.
        unfold of_precedence in *. cbn [filter snd]. replace (p =? index + k) with false by (symmetry; apply Nat.eqb_neq; lia). apply IHm; auto. }
      rewrite Hn. apply app_nil_r.
    + rewrite nth_overflow by lia. rewrite app_nth2 by lia. cbn [app].
      rewrite <- (IH (S i')) by auto. f_equal. lia.
Qed.
(** What apply-imports considers. *)
Lemma considered_of : forall E k (l : list (E * nat)) e, In e (considered k l) <-> exists j, j < k /\ In e (of_precedence j l).
Proof.
  intros. unfold considered, of_precedence. rewrite in_map_iff. split.
  - intros ((e' & p) & He & Hin). cbn in He. subst e'. apply filter_In in Hin. destruct Hin as [Hin Hlt]. cbn [snd] in Hlt. apply Nat.ltb_lt in Hlt.
    exists p. split; auto. apply in_map_iff. exists (e, p). split; auto. apply filter_In. split; auto. cbn. apply Nat.eqb_refl.
  - intros (j & Hj & Hin). apply in_map_iff in Hin. destruct Hin as ((e' & p) & He & Hin). cbn in He. subst e'. apply filter_In in Hin. destruct Hin as [Hin Hp].
    cbn [snd] in Hp. apply Nat.eqb_eq in Hp. subst j. exists (e, p). split; auto. apply filter_In. split; auto. cbn. apply Nat.ltb_lt. auto.
Qed.
Lemma in_concat_nth : forall A (e : A) ls, In e (concat ls) <-> exists j, j < List.length ls /\ In e (nth j ls []).
Proof.
  intros A e ls. induction ls as [|l ls IH]; cbn [concat List.length].
  - split; [intros []|intros (j & Hj & _); lia].
  - rewrite in_app_iff, IH. split.
    + intros [H|(j & Hj & H)]; [exists 0; split; [lia|auto]|exists (S j); split; [lia|auto]].
    + intros ([|j] & Hj & H); cbn [nth] in H; [left; auto|right; exists j; split; [lia|auto]].
Qed.

(** ** Winners *)
Definition ordered {A} (prec : A -> nat) (l : list A) : Prop := StronglySorted le (map prec l).
Lemma ordered_tail : forall A (prec : A -> nat) l x l', ordered prec (l ++ x :: l') -> (forall y, In y l -> prec y <= prec x) /\ (forall y, In y l' -> prec x <= prec y).
Proof.
  intros A prec l x l' H. unfold ordered in H. rewrite map_app in H. cbn [map] in H.
  induction l as [|y l IH]; cbn [map app] in H.
  - split; [intros y []|]. inversion H; subst. rewrite Forall_forall in *. intros y Hy. apply H3, in_map. auto.
  - inversion H as [|a b H1 H2]; subst. destruct (IH H1) as [I1 I2]. split; auto. intros z [<-|Hz]; auto.
    rewrite Forall_forall in H2. apply H2. apply in_or_app. right; left; auto.
Qed.

Lemma keep_variables_in : forall A (name : A -> str) l index x, In x (keep_variables name index l) ->
  ~ In (name x) index /\ exists l1 l2, l = l1 ++ x :: l2 /\ forall y, In y l1 -> name y <> name x.
Proof.
  induction l as [|v l IH]; intros index x H; cbn [keep_variables] in H; [destruct H|].
  destruct (existsb (str_eqb (name v)) index) eqn:Ex.
  - destruct (IH _ _ H) as (Hn & l1 & l2 & -> & Hy). split; auto. exists (v :: l1), l2. split; auto. intros y [<-|Hin]; auto.
    intros Hx. apply visiting_spec in Ex. congruence.
  - apply in_app_or in H. destruct H as [H|[<-|[]]].
    + destruct (IH _ _ H) as (Hn & l1 & l2 & -> & Hy). split; [intro; apply Hn; right; auto|].
      exists (v :: l1), l2. split; auto. intros y [<-|Hin]; auto. intros Hx. apply Hn. left; auto.
    + split. * intro Hin. apply visiting_spec in Hin. unfold visiting in Hin. congruence.
      * exists [], l. split; [reflexivity|]. intros y [].
Qed.
Lemma keep_variables_has : forall A (name : A -> str) l index x, In x l -> ~ In (name x) index ->
  exists y, In y (keep_variables name index l) /\ name y = name x.
Proof.
  induction l as [|v l IH]; intros index x H Hn; [destruct H|]. cbn [keep_variables].
  destruct (existsb (str_eqb (name v)) index) eqn:Ex.
  - destruct H as [<-|H]; [exfalso; apply Hn, visiting_spec; auto|auto].
  - destruct (str_eqb (name v) (name x)) eqn:Ev.
    + apply str_eqb_eq in Ev. exists v. split; auto. apply in_or_app. right; left; auto.
    + assert (Hne : name v <> name x). { intro Hx. apply str_eqb_eq in Hx. congruence. }
      destruct H as [<-|H]; [congruence|]. destruct (IH (name v :: index) x H) as (y & Hy & Hyx).
      { intros [Hx|Hx]; auto. }
      exists y. split; auto. apply in_or_app. auto.
Qed.
Lemma variables_last : forall A (name : A -> str) l x, In x (variables name l) ->
  exists l1 l2, l = l1 ++ x :: l2 /\ forall y, In y l2 -> name y <> name x.
Proof.
  intros A name l x H. unfold variables in H. destruct (keep_variables_in _ _ _ _ _ H) as (_ & l1 & l2 & He & Hy).
  exists (rev l2), (rev l1). split.
  - rewrite <- (rev_involutive l), He, rev_app_distr. cbn [rev]. rewrite <- app_assoc. auto.
  - intros y Hin. apply Hy, in_rev. auto.
Qed.
(** One element for each name. *)
Lemma keep_variables_names : forall A (name : A -> str) l index, NoDup (map name (keep_variables name index l)).
Proof.
  induction l as [|v l IH]; intros index; cbn [keep_variables]; [constructor|].
  destruct (existsb (str_eqb (name v)) index); auto. rewrite map_app. cbn [map].
  apply (NoDup_Add (a := name v) (l := map name (keep_variables name (name v :: index) l))).
  - rewrite <- (app_nil_r (map name _)) at 1. apply Add_app.
  - split; auto. intros Hin. apply in_map_iff in Hin. destruct Hin as (y & Hy & Hin).
    destruct (keep_variables_in _ _ _ _ _ Hin) as (Hn & _). apply Hn. left; auto.
Qed.

(** The check of global variables. *)
Definition seen (global pre : list (str * nat)) : Prop :=
  forall n, (forall k, global_index global n = Some k -> In (n, k) pre) /\
            (forall k, In (n, k) pre -> exists k', global_index global n = Some k' /\ k <= k').
Lemma seen_add : forall global pre n k, seen global pre -> (forall y, In y pre -> snd y <= k) -> seen ((n, k) :: global) (pre ++ [(n, k)]).
Proof.
  intros global pre n k H Hle m. destruct (H m) as [H1 H2]. cbn [global_index]. destruct (str_eqb n m) eqn:En.
  - apply str_eqb_eq in En. subst m. split.
    + intros k' Hk. injection Hk as <-. apply in_or_app. right; left; auto.
    + intros k' Hin. exists k. split; auto. apply in_app_or in Hin. destruct Hin as [Hin|[Hx|[]]]; [apply (Hle _ Hin)|]. injection Hx as <-. auto.
  - split.
    + intros k' Hk. apply in_or_app. left; auto.
    + intros k' Hin. apply in_app_or in Hin. destruct Hin as [Hin|[Hx|[]]]; auto. injection Hx as -> ->.
      exfalso. assert (str_eqb m m = true) by (apply str_eqb_eq; auto). congruence.
Qed.
Lemma check_ok : forall vars global pre, seen global pre -> ordered snd (pre ++ vars) ->
  (forall n, ~ twice (fun v => fst v = n) snd pre) ->
  match check_globals global vars with
  | Ok _ => forall n, ~ twice (fun v => fst v = n) snd (pre ++ vars)
  | Err e => e = DuplicateTopLevelVar /\ exists n, twice (fun v => fst v = n) snd (pre ++ vars)
  end.
Proof.
  induction vars as [|[n k] vars IH]; intros global pre Hs Ho Hp; cbn [check_globals].
  - rewrite app_nil_r. auto.
  - destruct (ordered_tail _ _ _ _ _ Ho) as [Hle _]. cbn [snd] in Hle.
    assert (Hnew : (forall j, In (n, j) pre -> j < k) -> forall m, ~ twice (fun v => fst v = m) snd (pre ++ [(n, k)])).
    { intros Hlt m (l1 & x & l2 & y & l3 & He & Hx & Hy & Hxy).
      destruct (exists_last (l := y :: l3)) as (l4 & z & Hz); [discriminate|].
      assert (He' : pre ++ [(n, k)] = (l1 ++ x :: l2 ++ l4) ++ [z]).
      { rewrite He, Hz, <- app_assoc. cbn [app]. rewrite <- app_assoc. auto. }
      apply app_inj_tail in He'. destruct He' as [He1 He2]. subst z.
      destruct l4 as [|w l4].
      - cbn [app] in Hz. injection Hz as Hz _. subst y. cbn [fst snd] in *. subst m. rewrite app_nil_r in He1.
        assert (Hin : In (n, snd x) pre). { rewrite He1. apply in_or_app. right; left. destruct x; cbn in *; congruence. }
        specialize (Hlt _ Hin). lia.
      - cbn [app] in Hz. injection Hz as Hz _. subst w. apply (Hp m). exists l1, x, l2, y, l4. auto. }
    replace (pre ++ (n, k) :: vars) with ((pre ++ [(n, k)]) ++ vars) in * by (rewrite <- app_assoc; auto).
    destruct (Hs n) as [S1 S2]. destruct (global_index global n) as [m|] eqn:Eg.
    + pose proof (S1 _ eq_refl) as Hm. destruct (m <? k) eqn:Elt.
      * apply Nat.ltb_lt in Elt. apply IH; auto. { apply seen_add; auto. }
        apply Hnew. intros j Hj. destruct (S2 _ Hj) as (k' & Hk & Hle'). injection Hk as <-. lia.
      * apply Nat.ltb_ge in Elt. pose proof (Hle _ Hm) as Hx. cbn [snd] in Hx. replace m with k in * by lia.
        rewrite Nat.eqb_refl. split; auto. exists n. apply in_split in Hm. destruct Hm as (l1 & l2 & ->).
        exists l1, (n, k), l2, (n, k), vars. rewrite <- !app_assoc. cbn [app]. auto.
    + apply IH; auto. { apply seen_add; auto. } apply Hnew. intros j Hj. destruct (S2 _ Hj) as (k' & Hk & _). discriminate.
Qed.
Lemma variables_winner : forall A (name : A -> str) (prec : A -> nat) l, ordered prec l ->
  (forall n, ~ twice (fun v => name v = n) prec l) -> forall x, In x (variables name l) <-> winner (fun v => name v = name x) prec l x.
Proof.
  intros A name prec l Ho Ht x. split.
  - intros H. destruct (variables_last _ _ _ _ H) as (l1 & l2 & -> & Hy). exists l1, l2. split; auto. split; auto.
    intros y Hin Hn. destruct (ordered_tail _ _ _ _ _ Ho) as [Hle _]. apply in_app_or in Hin. destruct Hin as [Hin|Hin]; [|exfalso; eapply Hy; eauto].
    destruct (Nat.eq_dec (prec y) (prec x)) as [He|]; [|specialize (Hle _ Hin); lia].
    exfalso. apply (Ht (name x)). apply in_split in Hin. destruct Hin as (l3 & l4 & ->). exists l3, y, l4, x, l2. rewrite <- app_assoc. auto.
  - intros (l1 & l2 & He & _ & Hw).
    assert (Hin : In x l) by (rewrite He; apply in_or_app; right; left; auto).
    destruct (keep_variables_has A name (rev l) [] x) as (y & Hy & Hyx); [apply -> in_rev; auto|intros []|].
    change (In y (variables name l)) in Hy. destruct (variables_last _ _ _ _ Hy) as (m1 & m2 & He' & Hm).
    pose proof Ho as Ho2. rewrite He' in Ho2. destruct (ordered_tail _ _ _ _ _ Ho2) as [Hle _].
    assert (Hin2 : In x m1 \/ x = y).
    { rewrite He' in Hin. apply in_app_or in Hin. destruct Hin as [Hin|[Hin|Hin]]; auto. exfalso. eapply Hm; eauto. }
    destruct Hin2 as [Hin2|<-]; auto.
    assert (Hyl : In y l) by (rewrite He'; apply in_or_app; right; left; auto).
    rewrite He in Hyl. apply in_app_or in Hyl. destruct Hyl as [Hyl|[<-|Hyl]]; auto.
    + assert (prec y < prec x) by (apply Hw; auto; apply in_or_app; auto). specialize (Hle _ Hin2). lia.
    + assert (prec y < prec x) by (apply Hw; auto; apply in_or_app; auto). specialize (Hle _ Hin2). lia.
Qed.

(** Named templates. *)
Definition has {A} (name : A -> option str) (n : str) (t : A) : bool := match name t with Some m => str_eqb m n | None => false end.
Lemma has_spec : forall A (name : A -> option str) n t, has name n t = true <-> name t = Some n.
Proof.
  intros. unfold has. destruct (name t) as [m|]; [|split; discriminate]. rewrite str_eqb_eq. split; congruence.
Qed.
Lemma find_app : forall A (f : A -> bool) l1 l2, find f (l1 ++ l2) = match find f l1 with Some x => Some x | None => find f l2 end.
Proof. induction l1 as [|x l1 IH]; intros; cbn [app find]; auto. destruct (f x); auto. Qed.
Lemma keep_named_ok : forall A (name : A -> option str) prec l kept p,
  (forall n, lookup_named name kept n = find (has name n) p) ->
  match keep_named name prec kept l with
  | Ok kept' => (forall n, lookup_named name kept' n = find (has name n) (p ++ l)) /\
                forall l1 t l2 n t', l = l1 ++ t :: l2 -> name t = Some n -> find (has name n) (p ++ l1) = Some t' -> prec t' <> prec t
  | Err e => e = DuplicateNamedTemplate /\
             exists l1 t l2 n t', l = l1 ++ t :: l2 /\ name t = Some n /\ find (has name n) (p ++ l1) = Some t' /\ prec t' = prec t
  end.
Proof.
  intros A name prec. induction l as [|t l IH]; intros kept p Hk; cbn [keep_named].
  - rewrite app_nil_r. split; auto. intros l1 t l2 n t' H. destruct l1; discriminate.
  - assert (Hcase : forall kept', (forall n, lookup_named name kept' n = find (has name n) (p ++ [t])) ->
      (forall n t', name t = Some n -> find (has name n) p = Some t' -> prec t' <> prec t) ->
      match keep_named name prec kept' l with
      | Ok kept' => (forall n, lookup_named name kept' n = find (has name n) (p ++ t :: l)) /\
                forall l1 t0 l2 n t', t :: l = l1 ++ t0 :: l2 -> name t0 = Some n -> find (has name n) (p ++ l1) = Some t' -> prec t' <> prec t0
      | Err e => e = DuplicateNamedTemplate /\
             exists l1 t0 l2 n t', t :: l = l1 ++ t0 :: l2 /\ name t0 = Some n /\ find (has name n) (p ++ l1) = Some t' /\ prec t' = prec t0
      end).
    { intros kept' Hk' Hn. specialize (IH kept' (p ++ [t]) Hk'). destruct (keep_named name prec kept' l) as [k|e].
      - destruct IH as [I1 I2]. split.
        + intros n. rewrite I1, <- app_assoc. auto.
        + intros [|y l1] t0 l2 n t' He Hname Hf; cbn [app] in He.
          * injection He as <- <-. rewrite app_nil_r in Hf. eapply Hn; eauto.
          * injection He as <- He. apply (I2 l1 t0 l2 n t'); auto. rewrite <- app_assoc. auto.
      - destruct IH as (He & l1 & t0 & l2 & n & t' & Hl & Hname & Hf & Hp). split; auto.
        exists (t :: l1), t0, l2, n, t'. subst l. rewrite <- app_assoc in Hf. auto. }
    destruct (name t) as [n|] eqn:En.
    + destruct (lookup_named name kept n) as [t'|] eqn:El.
      * destruct (prec t' =? prec t) eqn:Ep.
        -- split; auto. exists [], t, l, n, t'. rewrite app_nil_r, <- Hk. apply Nat.eqb_eq in Ep. auto.
        -- apply Nat.eqb_neq in Ep. apply Hcase.
           ++ intros m. rewrite find_app, <- Hk. destruct (lookup_named name kept m) eqn:Em; auto. cbn [find].
              destruct (has name m t) eqn:Eh; auto. apply has_spec in Eh. congruence.
           ++ intros m t'' Hm Hf. rewrite <- Hk in Hf. congruence.
      * apply Hcase.
        -- intros m. unfold lookup_named. cbn [find]. fold (has name m t). rewrite find_app, <- Hk.
           destruct (has name m t) eqn:Eh.
           ++ apply has_spec in Eh. replace m with n by congruence. rewrite El. cbn [find].
              assert (Hh : has name n t = true) by (apply has_spec; auto). rewrite Hh. auto.
           ++ unfold lookup_named. destruct (find _ kept); auto. cbn [find]. rewrite Eh. auto.
        -- intros m t'' Hm Hf. rewrite <- Hk in Hf. congruence.
    + apply Hcase.
      * intros m. rewrite find_app, <- Hk. destruct (lookup_named name kept m); auto. cbn [find].
        unfold has. rewrite En. auto.
      * intros; discriminate.
Qed.
Lemma find_split : forall A (f : A -> bool) l x, find f l = Some x -> exists l1 l2, l = l1 ++ x :: l2 /\ f x = true /\ forall y, In y l1 -> f y = false.
Proof.
  induction l as [|y l IH]; intros x H; cbn [find] in H; [discriminate|]. destruct (f y) eqn:Ef.
  - injection H as <-. exists [], l. repeat split; auto. intros z [].
  - destruct (IH x H) as (l1 & l2 & -> & Hx & Hl). exists (y :: l1), l2. repeat split; auto. intros z [<-|Hz]; auto.
Qed.
Lemma rev_split : forall A (l l1 l2 : list A) x, rev l = l1 ++ x :: l2 -> l = rev l2 ++ x :: rev l1.
Proof. intros. rewrite <- (rev_involutive l), H, rev_app_distr. cbn [rev]. rewrite <- app_assoc. auto. Qed.
Lemma named_ok : forall A (name : A -> option str) prec l, ordered prec l ->
  match named_templates name prec l with
  | Ok kept => forall n, (forall t, lookup_named name kept n = Some t <-> winner (fun t => name t = Some n) prec l t) /\
                         (lookup_named name kept n = None <-> forall t, In t l -> name t <> Some n)
  | Err e => e = DuplicateNamedTemplate /\ exists n, twice (fun t => name t = Some n) prec l
  end.
Proof.
  intros A name prec l Ho. unfold named_templates.
  pose proof (keep_named_ok A name prec (rev l) [] [] (fun n => eq_refl)) as H. cbn [app] in H.
  destruct (keep_named name prec [] (rev l)) as [kept|e].
  - destruct H as [H1 H2]. intros n. rewrite H1.
    assert (Hw : forall t, find (has name n) (rev l) = Some t -> winner (fun t => name t = Some n) prec l t).
    { intros t Hf. destruct (find_split _ _ _ _ Hf) as (w1 & w2 & He & Ht & Hno). pose proof (rev_split _ _ _ _ _ He) as Hl.
      exists (rev w2), (rev w1). split; auto. apply has_spec in Ht. split; auto.
      intros y Hin Hy. apply in_app_or in Hin. destruct Hin as [Hin|Hin].
      2: { apply in_rev in Hin. apply Hno in Hin. apply has_spec in Hy. congruence. }
      rewrite Hl in Ho. destruct (ordered_tail _ _ _ _ _ Ho) as [Hle _]. specialize (Hle _ Hin).
      apply in_rev in Hin. apply in_split in Hin. destruct Hin as (w3 & w4 & ->).
      assert (Hne : prec t <> prec y).
      { apply (H2 (w1 ++ t :: w3) y w4 n t); auto.
        - rewrite He, <- app_assoc. auto.
        - rewrite find_app. replace (find (has name n) w1) with (@None A).
          + cbn [find]. apply has_spec in Ht. rewrite Ht. auto.
          + symmetry. destruct (find (has name n) w1) eqn:Ew; auto. apply find_some in Ew. destruct Ew as [E1 E2]. rewrite (Hno _ E1) in E2. discriminate. }
      lia. }
    split; [intros t; split; auto|split].
    + intros (l1 & l2 & He & Ht & Hlt). destruct (find (has name n) (rev l)) as [t'|] eqn:Ef.
      * destruct (Hw _ eq_refl) as (m1 & m2 & He' & Ht' & Hlt').
        assert (Hin : In t' (l1 ++ t :: l2)) by (rewrite <- He, He'; apply in_or_app; right; left; auto).
        assert (Hin' : In t (m1 ++ t' :: m2)) by (rewrite <- He', He; apply in_or_app; right; left; auto).
        apply in_app_or in Hin. apply in_app_or in Hin'.
        destruct Hin as [Hin|[<-|Hin]]; auto; (assert (prec t' < prec t) by (apply Hlt; auto; apply in_or_app; auto));
        (destruct Hin' as [Hin'|[<-|Hin']]; auto; (assert (prec t < prec t') by (apply Hlt'; auto; apply in_or_app; auto)); lia).
      * exfalso. assert (Hin : In t (rev l)) by (apply -> in_rev; rewrite He; apply in_or_app; right; left; auto).
        pose proof (find_none _ _ Ef _ Hin) as Hx. apply has_spec in Ht. congruence.
    + intros Hf t Hin Ht. apply in_rev in Hin. pose proof (find_none _ _ Hf _ Hin) as Hx. apply has_spec in Ht. congruence.
    + intros Hno. destruct (find (has name n) (rev l)) eqn:Ef; auto. apply find_some in Ef. destruct Ef as [E1 E2].
      exfalso. apply (Hno a); [apply in_rev; auto|apply has_spec; auto].
  - destruct H as (He & l1 & t & l2 & n & t' & Hl & Hname & Hf & Hp). split; auto. exists n.
    pose proof (rev_split _ _ _ _ _ Hl) as Hr. destruct (find_split _ _ _ _ Hf) as (w1 & w2 & -> & Ht' & _). apply has_spec in Ht'.
    exists (rev l2), t, (rev w2), t', (rev w1). split; auto. rewrite Hr, rev_app_distr. cbn [rev]. rewrite <- app_assoc. auto.
Qed.

(** xsl:output *)
Lemma output_app : forall A V (value : A -> option V) l p e, output_parameter value p (l ++ [e]) = match value e with Some v => Some v | None => output_parameter value p l end.
Proof. induction l as [|x l IH]; intros; cbn [app output_parameter]; auto. Qed.
Lemma output_ok : forall A V (value : A -> option V) prec l, ordered prec l -> forall v,
  output_parameter value None l = Some v <-> exists e, last_winner (fun e => value e <> None) prec l e /\ value e = Some v.
Proof.
  intros A V value prec l Ho v.
  assert (Hs : output_parameter value None l = Some v -> exists l1 e l2, l = l1 ++ e :: l2 /\ value e = Some v /\ forall y, In y l2 -> value y = None).
  { clear Ho. induction l as [|e l IH] using rev_ind; intros H; [discriminate|]. rewrite output_app in H. destruct (value e) as [w|] eqn:Ee.
    - injection H as <-. exists l, e, []. repeat split; auto. intros y [].
    - destruct (IH H) as (l1 & x & l2 & -> & Hx & Hl2). exists l1, x, (l2 ++ [e]). rewrite <- app_assoc. repeat split; auto.
      intros y Hy. apply in_app_or in Hy. destruct Hy as [Hy|[<-|[]]]; auto. }
  split.
  - intros H. destruct (Hs H) as (l1 & e & l2 & -> & He & Hl2). exists e. split; auto. exists l1, l2. split; auto. split; [congruence|].
    destruct (ordered_tail _ _ _ _ _ Ho) as [Hle _]. split; auto. intros y Hy Hn. exfalso. auto.
  - intros (e & (l1 & l2 & -> & _ & _ & Hl2) & He).
    assert (Hno : forall y, In y l2 -> value y = None).
    { intros y Hy. destruct (value y) eqn:Ey; auto. exfalso. assert (Hlt : prec y < prec e) by (apply Hl2; auto; congruence).
      destruct (ordered_tail _ _ _ _ _ Ho) as [_ Hge]. specialize (Hge _ Hy). lia. }
    clear Ho Hs Hl2. assert (Hx : output_parameter value None (l1 ++ [e]) = Some v) by (rewrite output_app, He; auto).
    replace (l1 ++ e :: l2) with ((l1 ++ [e]) ++ l2) by (rewrite <- app_assoc; auto). revert Hx. generalize (l1 ++ [e]). 
    induction l2 as [|y l2 IH]; intros m Hm; [rewrite app_nil_r; auto|].
    replace (m ++ y :: l2) with ((m ++ [y]) ++ l2) by (rewrite <- app_assoc; auto). apply IH.
    + intros; apply Hno; right; auto.
    + rewrite output_app, (Hno y (or_introl eq_refl)). auto.
Qed.
