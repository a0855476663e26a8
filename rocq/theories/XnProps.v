(** * C68: the namespaces of literal result elements *)
From Coq Require Import NArith ZArith String List Bool Lia Arith Permutation Sorted.
From Verif Require Import PyStr PyErr XsModel SerModel SerSpec SerTree SerNs XwModel XwSpec XwProofs XcModel XlModel XlSpec.
Import ListNotations.
Open Scope N_scope.

(** ** Aliases *)
Lemma okey_refl : forall k, okey_eqb k k = true.
Proof. intro k. now destruct (okey_eqb_spec k k). Qed.
(** The groups as one pass: [cur] is the precedence of the group. *)
Fixpoint flat (l : list alias_decl) (cur : option Z) (mapped : list (option str)) (al : aliases) : result aliases :=
  match l with
  | [] => Ok al
  | d :: l' =>
    let mapped := match cur with Some c => if (c =? al_prec d)%Z then mapped else [] | None => [] end in
    match alias_of al (al_ns d) with
    | None => flat l' (Some (al_prec d)) (al_ns d :: mapped) (al ++ [(al_ns d, (al_to d, al_prefix d))])
    | Some _ => if existsb (okey_eqb (al_ns d)) mapped then Err DuplicateAlias else flat l' (Some (al_prec d)) mapped al
    end
  end.
Lemma groups_head : forall l d g gs, groups l = (d :: g) :: gs -> exists l', l = d :: l'.
Proof.
  intros [|x l] d g gs H; [discriminate|]. cbn [groups] in H. destruct (groups l) as [|[|d' g'] gs'].
  - injection H as <- <- <-. eauto.
  - injection H as <- <- <-. eauto.
  - destruct (al_prec x =? al_prec d')%Z; injection H as <- <- <-; eauto.
Qed.
Lemma groups_nonempty : forall l, Forall (fun g => g <> []) (groups l).
Proof.
  induction l as [|d l IH]; [constructor|]. cbn [groups]. destruct (groups l) as [|[|d' g'] gs'].
  - repeat constructor; discriminate.
  - inversion IH; congruence.
  - inversion IH; subst. destruct (al_prec d =? al_prec d')%Z; repeat constructor; auto; discriminate.
Qed.
Lemma flat_groups : forall l mapped al,
  match groups l with
  | [] => l = []
  | g :: gs => (do al' <- alias_group g mapped al ; alias_groups gs al') = flat l (match l with d :: _ => Some (al_prec d) | [] => None end) mapped al
  end.
Proof.
  induction l as [|d l IH]; intros mapped al; [reflexivity|]. cbn [groups]. pose proof (groups_nonempty l) as HN. specialize (IH) . 
  destruct (groups l) as [|[|d' g'] gs'] eqn:EG.
  - specialize (IH [] []). subst l. cbn [flat alias_group alias_groups]. rewrite Z.eqb_refl. destruct (alias_of al (al_ns d)); [|reflexivity]. destruct (existsb (okey_eqb (al_ns d)) mapped); reflexivity.
  - inversion HN; congruence.
  - destruct (groups_head _ _ _ _ EG) as [l' ->]. destruct (al_prec d =? al_prec d')%Z eqn:EP.
    + cbn [flat]. rewrite Z.eqb_refl. apply Z.eqb_eq in EP. remember (d' :: g') as g1. cbn [alias_group]. destruct (alias_of al (al_ns d)); [destruct (existsb (okey_eqb (al_ns d)) mapped); [reflexivity|]|].
      * rewrite IH, EP. reflexivity.
      * rewrite IH, EP. reflexivity.
    + cbn [flat]. rewrite Z.eqb_refl. cbn [alias_group].
      assert (HR : forall m a, alias_groups ((d' :: g') :: gs') a = flat (d' :: l') (Some (al_prec d)) m a).
      { intros m a. cbn [alias_groups]. rewrite IH. cbn [flat]. rewrite Z.eqb_refl, EP. reflexivity. }
      destruct (alias_of al (al_ns d)); [destruct (existsb (okey_eqb (al_ns d)) mapped); [reflexivity|]|]; cbn [bind]; apply HR.
Qed.
Lemma collect_flat : forall decls, collect_aliases decls = flat (rev decls) None [] [].
Proof.
  intro decls. unfold collect_aliases. pose proof (flat_groups (rev decls) [] []) as H. destruct (groups (rev decls)) as [|g gs]; [now rewrite H|].
  cbn [alias_groups]. rewrite H. destruct (rev decls) as [|d l]; [reflexivity|]. cbn [flat]. rewrite Z.eqb_refl. reflexivity.
Qed.
Lemma alias_of_app : forall al k v ns, alias_of (al ++ [(k, v)]) ns = match alias_of al ns with Some x => Some x | None => if okey_eqb k ns then Some v else None end.
Proof. induction al as [|[k' v'] al IH]; intros; [reflexivity|]. cbn [app alias_of]. destruct (okey_eqb k' ns); [reflexivity|apply IH]. Qed.

Definition first_with (ns : option str) (l : list alias_decl) : option alias_decl := find (fun d => okey_eqb (al_ns d) ns) l.
Definition target (d : alias_decl) := (al_to d, al_prefix d).
(** Two declarations for a namespace at its highest precedence. *)
Definition ambiguous (decls : list alias_decl) : Prop :=
  exists d1 d2 l1 l2 l3, decls = l1 ++ d1 :: l2 ++ d2 :: l3 /\ al_ns d1 = al_ns d2 /\ al_prec d1 = al_prec d2 /\
    forall d, In d decls -> al_ns d = al_ns d1 -> (al_prec d <= al_prec d1)%Z.
Definition desc (l : list alias_decl) : Prop := StronglySorted (fun a b => (al_prec b <= al_prec a)%Z) l.

Lemma first_app : forall ns l1 l2, first_with ns (l1 ++ l2) = match first_with ns l1 with Some d => Some d | None => first_with ns l2 end.
Proof. intros ns l1 l2. unfold first_with. induction l1 as [|d l1 IH]; [reflexivity|]. cbn [app find]. destruct (okey_eqb (al_ns d) ns); [reflexivity|exact IH]. Qed.
Lemma desc_app : forall l1 l2, desc (l1 ++ l2) -> forall a b, In a l1 -> In b l2 -> (al_prec b <= al_prec a)%Z.
Proof.
  induction l1 as [|x l1 IH]; intros l2 H a b Ha Hb; [destruct Ha|]. inversion H as [|? ? HS HF]; subst. destruct Ha as [<-|Ha]; [|eapply IH; eauto].
  rewrite Forall_forall in HF. apply HF, in_or_app. now right.
Qed.
Lemma desc_prefix : forall l1 l2, desc (l1 ++ l2) -> desc l1.
Proof.
  induction l1 as [|x l1 IH]; intros l2 H; [constructor|]. inversion H as [|? ? HS HF]; subst. constructor; [now apply IH with l2|].
  rewrite Forall_forall in *. intros y Hy. apply HF, in_or_app. now left.
Qed.
Lemma first_In : forall ns l d, first_with ns l = Some d -> In d l /\ al_ns d = ns.
Proof. intros ns l d F. unfold first_with in F. apply find_some in F as [H1 H2]. split; [exact H1|]. now destruct (okey_eqb_spec (al_ns d) ns). Qed.
Definition clash_in (l : list alias_decl) (d1 d2 : alias_decl) : Prop := exists l1 l2, l = l1 ++ d2 :: l2 /\ first_with (al_ns d2) l1 = Some d1 /\ al_prec d1 = al_prec d2.
Lemma clash_snoc : forall l d d1 d2, clash_in (l ++ [d]) d1 d2 <-> clash_in l d1 d2 \/ (d2 = d /\ first_with (al_ns d) l = Some d1 /\ al_prec d1 = al_prec d).
Proof.
  intros l d d1 d2. split.
  - intros (l1 & l2 & E & F & P). destruct l2 as [|z l2 _] using rev_ind.
    + apply app_inj_tail in E as [-> ->]. right. auto.
    + rewrite app_comm_cons, app_assoc in E. apply app_inj_tail in E as [-> ->]. left. exists l1, l2. auto.
  - intros [(l1 & l2 & -> & F & P)|(-> & F & P)]; [exists l1, (l2 ++ [d])|exists l, []]; rewrite <- ?app_assoc; auto.
Qed.
(** What has been seen: [seen], the rest: [l]. *)
Lemma flat_spec : forall l seen cur mapped al, desc (seen ++ l) ->
  (forall ns, alias_of al ns = option_map target (first_with ns seen)) ->
  (cur = None /\ seen = [] \/ exists s x, seen = s ++ [x] /\ cur = Some (al_prec x) /\
     forall ns, In ns mapped <-> exists d, first_with ns seen = Some d /\ al_prec d = al_prec x) ->
  (forall d1 d2, ~ clash_in seen d1 d2) ->
  match flat l cur mapped al with
  | Ok al' => (forall ns, alias_of al' ns = option_map target (first_with ns (seen ++ l))) /\ (forall d1 d2, ~ clash_in (seen ++ l) d1 d2)
  | Err x => x = DuplicateAlias /\ exists d1 d2, clash_in (seen ++ l) d1 d2
  end.
Proof.
  induction l as [|d l IH]; intros seen cur mapped al HS HA HM HU; [cbn [flat]; rewrite app_nil_r; split; assumption|].
  cbn [flat]. set (m := match cur with Some c => if (c =? al_prec d)%Z then mapped else [] | None => [] end).
  assert (Hm : forall ns, In ns m <-> exists d0, first_with ns seen = Some d0 /\ al_prec d0 = al_prec d).
  { intro ns. unfold m. destruct HM as [[-> ->]|(s & x & -> & -> & HM)]; [split; [intros []|intros (d0 & F & _); discriminate]|].
    destruct (Z.eqb_spec (al_prec x) (al_prec d)) as [E|E]; [rewrite HM, E; reflexivity|]. split; [intros []|]. intros (d0 & F & P). exfalso. apply first_In in F as [F _].
    assert (al_prec x <= al_prec d0)%Z. { apply desc_prefix in HS. apply in_app_or in F as [F|[<-|[]]]; [|lia]. now apply (desc_app _ _ HS); [|left]. }
    assert (al_prec d <= al_prec x)%Z by (apply (desc_app _ _ HS); [apply in_or_app; right; now left|now left]). lia. }
  assert (EX : existsb (okey_eqb (al_ns d)) m = true <-> In (al_ns d) m).
  { rewrite existsb_exists. split; [intros (x & Hx & Ex); destruct (okey_eqb_spec (al_ns d) x); [now subst|discriminate]|intro Hx; exists (al_ns d); split; [exact Hx|apply okey_refl]]. }
  replace (seen ++ d :: l) with ((seen ++ [d]) ++ l) in * by now rewrite <- app_assoc.
  assert (HF : forall ns, first_with ns (seen ++ [d]) = match first_with ns seen with Some x => Some x | None => if okey_eqb (al_ns d) ns then Some d else None end) by (intro ns; rewrite first_app; reflexivity).
  rewrite HA. destruct (first_with (al_ns d) seen) as [d0|] eqn:F; cbn [option_map].
  - destruct (existsb (okey_eqb (al_ns d)) m) eqn:X.
    + split; [reflexivity|]. pose proof (proj1 EX eq_refl) as X1. apply Hm in X1 as (d1 & F1 & P). exists d1, d. rewrite F in F1. injection F1 as <-. exists seen, l. rewrite <- app_assoc. auto.
    + apply IH; [exact HS| | |].
      * intro ns. rewrite HA, HF. destruct (first_with ns seen) eqn:G; [reflexivity|]. destruct (okey_eqb_spec (al_ns d) ns) as [<-|]; [congruence|reflexivity].
      * right. exists seen, d. repeat split; auto; setoid_rewrite HF.
        -- intro H. apply Hm in H as (d1 & F1 & P). exists d1. now rewrite F1.
        -- intros (d1 & F1 & P). apply Hm. destruct (first_with ns seen) eqn:G; [eauto|]. destruct (okey_eqb_spec (al_ns d) ns) as [<-|]; [congruence|discriminate].
      * intros d1 d2 H. apply clash_snoc in H as [H|(-> & F1 & P)]; [exact (HU _ _ H)|]. enough (false = true) by discriminate. apply EX, Hm. eauto.
  - apply IH; [exact HS| | |].
    * intro ns. rewrite alias_of_app, HA, HF. destruct (first_with ns seen) eqn:G; [reflexivity|]. cbn [option_map]. destruct (okey_eqb (al_ns d) ns); reflexivity.
    * right. exists seen, d. repeat split; auto; setoid_rewrite HF.
      -- intros [<-|H]; [rewrite F, okey_refl; eauto|]. apply Hm in H as (d1 & F1 & P). exists d1. now rewrite F1.
      -- intros (d1 & F1 & P). destruct (first_with ns seen) as [z|] eqn:G; [injection F1 as ->; right; apply Hm; exists d1; auto|]. destruct (okey_eqb_spec (al_ns d) ns) as [E|]; [left; exact E|discriminate].
    * intros d1 d2 H. apply clash_snoc in H as [H|(-> & F1 & P)]; [exact (HU _ _ H)|congruence].
Qed.

(** C68: declarations of aliases, in the order of the stylesheet (import
    precedence not decreasing): the one of highest precedence counts for each
    namespace; two of them are an error, and there is no other. *)
Definition precedence_order (decls : list alias_decl) : Prop := StronglySorted (fun a b => (al_prec a <= al_prec b)%Z) decls.
Lemma sorted_rev : forall l, precedence_order l -> desc (rev l).
Proof.
  induction l as [|d l IH]; intro H; [constructor|]. inversion H as [|? ? HS HF]; subst. cbn [rev]. specialize (IH HS). rewrite Forall_forall in HF.
  assert (HF' : forall x, In x (rev l) -> (al_prec d <= al_prec x)%Z) by (intros x Hx; apply HF; now apply in_rev). clear - IH HF'.
  induction (rev l) as [|x r IHr]; [repeat constructor|]. inversion IH as [|? ? HS HF]; subst. cbn [app]. constructor.
  - apply IHr; [exact HS|]. intros y Hy. apply HF'. now right.
  - apply Forall_app. split; [exact HF|]. repeat constructor. apply HF'. now left.
Qed.
Theorem C68_aliases : forall decls, precedence_order decls ->
  match collect_aliases decls with
  | Ok al => ~ ambiguous decls /\ forall ns, declared_alias decls ns (alias_of al ns)
  | Err x => x = DuplicateAlias /\ ambiguous decls
  end.
Proof.
  intros decls H. rewrite collect_flat. pose proof (sorted_rev _ H) as HS.
  pose proof (flat_spec (rev decls) [] None [] [] HS (fun _ => eq_refl) (or_introl (conj eq_refl eq_refl))) as HF. cbn [app] in HF.
  assert (H0 : forall d1 d2, ~ clash_in [] d1 d2) by (intros d1 d2 ([|] & ? & E & _); discriminate). specialize (HF H0). clear H0.
  assert (TOP : forall d1 d2 l1 l2, rev decls = l1 ++ d2 :: l2 -> first_with (al_ns d2) l1 = Some d1 -> forall d, In d (rev decls) -> al_ns d = al_ns d2 -> (al_prec d <= al_prec d1)%Z).
  { intros d1 d2 l1 l2 E F d Hd En. rewrite E in HS, Hd. unfold first_with in F. clear E.
    assert (G : exists a b, l1 = a ++ d1 :: b /\ forall x, In x a -> al_ns x <> al_ns d2).
    { clear - F. induction l1 as [|x l1 IH]; [discriminate|]. cbn [find] in F. destruct (okey_eqb_spec (al_ns x) (al_ns d2)) as [E|E].
      - injection F as ->. exists [], l1. split; [reflexivity|]. intros ? [].
      - destruct (IH F) as (a & b & -> & Ha). exists (x :: a), b. split; [reflexivity|]. intros y [<-|Hy]; auto. }
    destruct G as (a & b & -> & Ha). rewrite <- app_assoc in HS, Hd. apply in_app_or in Hd as [Hd|Hd]; [exfalso; exact (Ha _ Hd En)|]. cbn [app] in Hd. destruct Hd as [->|Hd]; [lia|].
    rewrite app_assoc in HS. clear - HS Hd. rewrite <- app_assoc in HS. apply (desc_app (a ++ [d1]) (b ++ d2 :: l2)); [now rewrite <- app_assoc|apply in_or_app; right; now left|exact Hd]. }
  destruct (flat (rev decls) None [] []) as [al|x].
  - destruct HF as [HA HU]. split.
    + intros (d1 & d2 & l1 & l2 & l3 & E & En & Ep & HT).
      (* the first in the reversed list of this namespace *)
      assert (E' : rev decls = (rev l3 ++ d2 :: rev l2) ++ d1 :: rev l1) by (rewrite E; repeat (rewrite rev_app_distr; cbn [rev]); rewrite <- !app_assoc; reflexivity).
      destruct (first_with (al_ns d1) (rev l3 ++ d2 :: rev l2)) as [d0|] eqn:F.
      * apply (HU d0 d1). exists (rev l3 ++ d2 :: rev l2), (rev l1). repeat split; [exact E'|exact F|].
        pose proof (first_In _ _ _ F) as [I0 N0]. assert (al_prec d0 <= al_prec d1)%Z by (apply HT; [apply in_rev; rewrite E'; apply in_or_app; now left|exact N0]).
        assert (al_prec d1 <= al_prec d0)%Z by (apply (TOP d0 d1 _ _ E' F); [rewrite E'; apply in_or_app; right; now left|reflexivity]). lia.
      * rewrite first_app in F. destruct (first_with (al_ns d1) (rev l3)); [discriminate|]. unfold first_with in F. cbn [find] in F. rewrite <- En, okey_refl in F. discriminate.
    + intro ns. rewrite HA. unfold declared_alias. destruct (first_with ns (rev decls)) as [d|] eqn:F; cbn [option_map].
      * pose proof F as F0. unfold first_with in F.
        assert (G : exists a b, rev decls = a ++ d :: b /\ al_ns d = ns /\ forall x, In x a -> al_ns x <> ns).
        { clear - F. induction (rev decls) as [|x l1 IH]; [discriminate|]. cbn [find] in F. destruct (okey_eqb_spec (al_ns x) ns) as [E|E].
          - injection F as ->. exists [], l1. repeat split; [exact E|]. intros ? [].
          - destruct (IH F) as (a & b & -> & En & Ha). exists (x :: a), b. repeat split; [exact En|]. intros y [<-|Hy]; auto. }
        destruct G as (a & b & E & En & Ha). exists (rev b), d, (rev a). split; [|split; [exact En|split; [reflexivity|]]].
        { rewrite <- (rev_involutive decls), E, rev_app_distr. cbn [rev]. now rewrite <- app_assoc. }
        intros d' Hd' En'. apply in_app_or in Hd' as [Hd'|Hd']; [|exfalso; apply in_rev in Hd'; exact (Ha _ Hd' En')]. apply in_rev in Hd'.
        assert (al_prec d' <= al_prec d)%Z. { rewrite E in HS. apply (desc_app (a ++ [d]) b); [now rewrite <- app_assoc|apply in_or_app; right; now left|exact Hd']. }
        assert (al_prec d <> al_prec d'); [|lia]. intro P. apply in_split in Hd' as (b1 & b2 & ->). apply (HU d d'). exists (a ++ d :: b1), b2.
        repeat split; [rewrite E, <- app_assoc; reflexivity| |exact P]. rewrite first_app. rewrite En'.
        replace (first_with ns a) with (@None alias_decl); [unfold first_with; cbn [find]; now rewrite En, okey_refl|].
        symmetry. destruct (first_with ns a) as [z|] eqn:FZ; [|reflexivity]. apply first_In in FZ as [I1 I2]. exfalso. exact (Ha _ I1 I2).
      * intros d Hd En. apply in_rev in Hd. unfold first_with in F. pose proof (find_none _ _ F d Hd) as HN. cbn beta in HN. rewrite En, okey_refl in HN. discriminate.
  - destruct HF as [-> (d1 & d2 & l1 & l2 & E & F & P)]. split; [reflexivity|]. pose proof (first_In _ _ _ F) as [I1 N1]. apply in_split in I1 as (a & b & ->).
    exists d2, d1, (rev l2), (rev b), (rev a). repeat split; [|now symmetry|now symmetry|].
    + rewrite <- (rev_involutive decls), E. repeat (rewrite rev_app_distr; cbn [rev]). rewrite <- !app_assoc. reflexivity.
    + intros d Hd En. rewrite <- P. apply (TOP d1 d2 _ _ E F); [now apply in_rev; rewrite rev_involutive|exact En].
Qed.
Print Assumptions C68_aliases.

(** ** Names *)
Lemma after_colon_qn : forall p l, mem 58 l = false -> (forall q, p = Some q -> mem 58 q = false) -> after_colon (qn p l) = l.
Proof.
  intros [q|] l Hl Hq; unfold after_colon, qn.
  - assert (E : break1 58 (q ++ 58 :: l) = Some (q, l)); [|now rewrite E]. specialize (Hq q eq_refl). clear Hl. induction q as [|c q IH]; [reflexivity|].
    cbn [mem existsb] in Hq. apply orb_false_elim in Hq as [H1 H2]. cbn [app break1]. rewrite N.eqb_sym, H1. rewrite (IH H2). reflexivity.
  - assert (E : break1 58 l = None); [|now rewrite E]. induction l as [|c l IH]; [reflexivity|].
    cbn [mem existsb] in Hl. apply orb_false_elim in Hl as [H1 H2]. cbn [break1]. rewrite N.eqb_sym, H1, (IH H2). reflexivity.
Qed.
(** C68: the expanded names of literal result elements and of their attributes are
    those of the stylesheet with aliased namespaces replaced; unprefixed attributes
    keep theirs, which is none. *)
Theorem C68_names : forall al p l, mem 58 l = false -> (forall q, p = Some q -> mem 58 q = false) ->
  (forall ns, exists p', fix_name al (qn p l) ns = (qn p' l, fst (aliased al (ns, l)))) /\
  (forall A ns (v : A), ns <> Some [] -> ns <> None -> exists p', fix_attr al (qn p l, ns, v) = (qn p' l, fst (aliased al (ns, l)), v)) /\
  (forall A (v : A), fix_attr al (qn p l, None, v) = (qn p l, None, v)).
Proof.
  intros al p l Hl Hp.
  assert (E : forall ns, exists p', fix_name al (qn p l) ns = (qn p' l, fst (aliased al (ns, l)))).
  { intro ns. unfold fix_name, aliased. cbn [fst snd]. rewrite (after_colon_qn p l Hl Hp). destruct (alias_of al ns) as [[ns' [q|]]|]; [exists (Some q)|exists None|exists p]; reflexivity. }
  split; [exact E|split; [|reflexivity]]. intros A ns v H0 H1. destruct (E ns) as [p' Ep]. exists p'. unfold fix_attr. destruct ns as [[|c ns]|]; [contradiction| |contradiction]. now rewrite Ep.
Qed.
Print Assumptions C68_names.

(** ** Declarations *)
Lemma wdel_keys : forall d k x, NoDup (map fst d) -> (In x (map fst (wdel d k)) <-> In x (map fst d) /\ x <> k).
Proof.
  induction d as [|[a b] d IH]; intros k x H; [cbn; tauto|]. inversion H as [|? ? Ha Hd]; subst. cbn [wdel map fst]. destruct (okey_eqb_spec a k) as [->|E].
  - cbn [In]. split; [intro Hx; split; [now right|intros ->; contradiction]|intros [[->|Hx] Hn]; [contradiction|exact Hx]].
  - cbn [map fst In]. rewrite (IH k x Hd). intuition congruence.
Qed.
Lemma wdel_nodup : forall d k, NoDup (map fst d) -> NoDup (map fst (wdel d k)).
Proof.
  induction d as [|[a b] d IH]; intros k H; [constructor|]. inversion H as [|? ? Ha Hd]; subst. cbn [wdel]. destruct (okey_eqb_spec a k); [exact Hd|].
  cbn [map fst]. constructor; [|now apply IH]. intro Hx. apply wdel_keys in Hx; [|exact Hd]. tauto.
Qed.
Lemma wget_wdel : forall d k p, NoDup (map fst d) -> wget (wdel d k) p = if okey_eqb k p then None else wget d p.
Proof.
  induction d as [|[a b] d IH]; intros k p H; [cbn; now destruct (okey_eqb k p)|]. inversion H as [|? ? Ha Hd]; subst. cbn [wdel wget]. destruct (okey_eqb_spec a k) as [->|E].
  - destruct (okey_eqb_spec k p) as [->|]; [now apply wget_None|reflexivity].
  - cbn [wget]. rewrite (IH k p Hd). destruct (okey_eqb_spec a p) as [->|]; [|reflexivity]. destruct (okey_eqb_spec k p); [congruence|reflexivity].
Qed.
Section Nss.
  Variable al : aliases.
  Variable nss : wdict.
  Hypothesis Hnd : NoDup (map fst nss).
  Hypothesis Hchain : forall ns u p, alias_of al ns = Some (u, p) -> alias_of al u = None.
  Hypothesis Hprefix : forall p0 ns u p v, wget nss p0 = Some ns -> alias_of al ns = Some (u, p) -> wget nss p = Some v -> v = u.
  Hypothesis Hsame : forall n1 n2 u1 u2 p, alias_of al n1 = Some (u1, p) -> alias_of al n2 = Some (u2, p) -> u1 = u2.
  Let step := (fun (d : wdict) kv => match alias_of al (snd kv) with Some (ns', p) => wset (wdel d (fst kv)) p ns' | None => d end).
  Definition gets (pre : wdict) (p v : option str) : Prop := exists p0 u, In (p0, u) pre /\ alias_of al u = Some (v, p).
  Definition inv (pre d : wdict) : Prop := NoDup (map fst d) /\ (forall p v, gets pre p v -> wget d p = Some v) /\
    (forall p, (forall v, ~ gets pre p v) -> ((exists u, In (p, u) pre /\ alias_of al u <> None) -> wget d p = None) /\ ((forall u, In (p, u) pre -> alias_of al u = None) -> wget d p = wget nss p)).
  Lemma fold_inv : forall suf pre d, nss = pre ++ suf -> inv pre d -> inv nss (fold_left step suf d).
  Proof.
    induction suf as [|[k u] suf IH]; intros pre d E HI; [rewrite app_nil_r in E; now rewrite E|].
    cbn [fold_left]. apply (IH (pre ++ [(k, u)])); [rewrite <- app_assoc; exact E|].
    assert (Hk : In (k, u) nss) by (rewrite E; apply in_or_app; right; now left).
    destruct HI as (HN & H1 & H2). unfold step. cbn [fst snd]. destruct (alias_of al u) as [[u' p']|] eqn:EA.
    - split; [apply wset_nodup; now apply wdel_nodup|]. split.
      + intros p v (p0 & u0 & Hin & Ea). rewrite wget_wset. destruct (okey_eqb_spec p' p) as [->|Hp].
        * f_equal. exact (Hsame _ _ _ _ _ EA Ea).
        * rewrite wget_wdel by exact HN. apply in_app_or in Hin as [Hin|[[= <- <-]|[]]]; [|congruence].
          destruct (okey_eqb_spec k p) as [->|]; [|apply H1; exists p0, u0; auto]. exfalso.
          assert (u = v) by (apply (Hprefix p0 u0 v p u); [apply In_wget; [exact Hnd|rewrite E; apply in_or_app; now left]|exact Ea|now apply In_wget]). subst v.
          rewrite (Hchain _ _ _ Ea) in EA. discriminate.
      + intros p HG. assert (p' <> p) by (intros ->; apply (HG u'); exists k, u; split; [apply in_or_app; right; now left|exact EA]).
        rewrite wget_wset. destruct (okey_eqb_spec p' p); [contradiction|]. rewrite wget_wdel by exact HN.
        destruct (H2 p) as [H3 H4]; [intros v (p0 & u0 & Hin & Ea); apply (HG v); exists p0, u0; split; [apply in_or_app; now left|exact Ea]|].
        destruct (okey_eqb_spec k p) as [->|Hkp].
        * split; [reflexivity|]. intro HX. exfalso. specialize (HX u). rewrite EA in HX. discriminate HX. apply in_or_app; right; now left.
        * split; [intros (u0 & Hin & Ha); apply H3; exists u0; apply in_app_or in Hin as [Hin|[[= <- _]|[]]]; [auto|contradiction]|].
          intro HX. apply H4. intros u0 Hin. apply HX, in_or_app. now left.
    - split; [exact HN|]. split.
      + intros p v (p0 & u0 & Hin & Ea). apply H1. exists p0, u0. apply in_app_or in Hin as [Hin|[[= <- <-]|[]]]; [auto|congruence].
      + intros p HG. destruct (H2 p) as [H3 H4]; [intros v (p0 & u0 & Hin & Ea); apply (HG v); exists p0, u0; split; [apply in_or_app; now left|exact Ea]|]. split.
        * intros (u0 & Hin & Ha). apply H3. exists u0. apply in_app_or in Hin as [Hin|[[= <- <-]|[]]]; [auto|congruence].
        * intro HX. apply H4. intros u0 Hin. apply HX, in_or_app. now left.
  Qed.
  Lemma fix_once : forall p v, wget (fix_nss al nss) p = Some v <-> (wget nss p = Some v /\ alias_of al v = None) \/ (exists p0 u, wget nss p0 = Some u /\ alias_of al u = Some (v, p)).
  Proof.
    assert (HI : inv nss (fix_nss al nss)).
    { apply (fold_inv nss [] nss); [reflexivity|]. split; [exact Hnd|]. split; [intros p v (? & ? & [] & _)|]. intros p _. split; [intros (? & [] & _)|reflexivity]. }
    destruct HI as (_ & H1 & H2). intros p v.
    assert (HG : forall w, gets nss p w <-> exists p0 u, wget nss p0 = Some u /\ alias_of al u = Some (w, p)).
    { intro w. split; intros (p0 & u & Ha & Hb); exists p0, u; (split; [|exact Hb]); [now apply In_wget|now apply wget_In]. }
    assert (HD : (exists x, gets nss p x) \/ forall x, ~ gets nss p x).
    { clear. induction nss as [|[k u] l IH]; [right; intros x (? & ? & [] & _)|]. destruct IH as [[x (p0 & u0 & Hi & Ha)]|IH]; [left; exists x, p0, u0; split; [now right|exact Ha]|].
      destruct (alias_of al u) as [[u' q]|] eqn:A; [destruct (okey_eqb_spec q p) as [->|Hq]; [left; exists u', k, u; split; [now left|exact A]|]|].
      - right. intros x (p0 & u0 & [[= <- <-]|Hi] & Ha); [congruence|]. apply (IH x). exists p0, u0. auto.
      - right. intros x (p0 & u0 & [[= <- <-]|Hi] & Ha); [congruence|]. apply (IH x). exists p0, u0. auto. }
    destruct HD as [[x Hx]|HD].
    - rewrite (H1 _ _ Hx). pose proof (proj1 (HG x) Hx) as (p0 & u & Hu & Ha). split; [intros [= <-]; right; eauto|].
      intros [[W _]|(p1 & u1 & _ & Hb)]; f_equal; [symmetry; exact (Hprefix _ _ _ _ _ Hu Ha W)|exact (Hsame _ _ _ _ _ Ha Hb)].
    - destruct (H2 p HD) as [H3 H4]. assert (HN : ~ exists p0 u, wget nss p0 = Some u /\ alias_of al u = Some (v, p)) by (intro HX; apply (HD v), HG, HX).
      destruct (wget nss p) as [w|] eqn:W.
      + destruct (alias_of al w) as [[w' q]|] eqn:A.
        * rewrite H3 by (exists w; split; [now apply wget_In|congruence]). split; [discriminate|]. intros [[[= ->] Ha]|HX]; [congruence|contradiction].
        * rewrite H4 by (intros u Hu; apply In_wget in Hu; [|exact Hnd]; congruence). split; [intros [= <-]; left; auto|]. intros [[[= ->] Ha]|HX]; [reflexivity|contradiction].
      + rewrite H4 by (intros u Hu; apply In_wget in Hu; [|exact Hnd]; congruence). split; [discriminate|]. intros [[? _]|HX]; [discriminate|contradiction].
  Qed.
  Lemma fix_again : forall k, fix_shared (S k) al nss = fix_nss al nss.
  Proof.
    assert (HI : inv nss (fix_nss al nss)).
    { apply (fold_inv nss [] nss); [reflexivity|]. split; [exact Hnd|]. split; [intros p v (? & ? & [] & _)|]. intros p _. split; [intros (? & [] & _)|reflexivity]. }
    destruct HI as (HN & _).
    assert (E : fix_nss al (fix_nss al nss) = fix_nss al nss).
    { unfold fix_nss at 1. assert (HA : forall kv, In kv (fix_nss al nss) -> alias_of al (snd kv) = None).
      { intros [p v] Hin. apply In_wget in Hin; [|exact HN]. apply fix_once in Hin as [[_ Ha]|(p0 & u & _ & Ha)]; [exact Ha|exact (Hchain _ _ _ Ha)]. }
      assert (HF : forall l d, (forall kv, In kv l -> alias_of al (snd kv) = None) -> fold_left step l d = d).
      { induction l as [|kv l IH]; intros d Hl; [reflexivity|]. cbn [fold_left]. unfold step at 2. rewrite (Hl kv) by now left. apply IH. intros x Hx. apply Hl. now right. }
      apply HF, HA. }
    intro k. cbn [fix_shared]. induction k as [|k IH]; [reflexivity|]. cbn [fix_shared]. rewrite E. exact IH.
  Qed.
End Nss.
(** C68: the declarations copied to the result are those in scope with the aliased
    ones replaced, if no result namespace is aliased itself and the result prefixes
    used mean the same here as where the alias is declared; however many elements
    share the declarations. *)
Theorem C68_declarations_partial : forall al nss k, NoDup (map fst nss) ->
  (forall ns u p, alias_of al ns = Some (u, p) -> alias_of al u = None) ->
  (forall p0 ns u p v, wget nss p0 = Some ns -> alias_of al ns = Some (u, p) -> wget nss p = Some v -> v = u) ->
  (forall n1 n2 u1 u2 p, alias_of al n1 = Some (u1, p) -> alias_of al n2 = Some (u2, p) -> u1 = u2) ->
  forall p v, wget (fix_shared (S k) al nss) p = Some v <->
    (wget nss p = Some v /\ alias_of al v = None) \/ (exists p0 u, wget nss p0 = Some u /\ alias_of al u = Some (v, p)).
Proof. intros al nss k H1 H2 H3 H4 p v. rewrite (fix_again al nss H1 H2 H3 H4 k). now apply fix_once. Qed.
Print Assumptions C68_declarations_partial.

(** ** The declarations copied *)
Lemma scopes_snoc : forall path st s, scopes st (path ++ [s]) = do st' <- scopes st path ; scope_down st' s.
Proof.
  induction path as [|x path IH]; intros st s; cbn [app scopes bind].
  - destruct (scope_down st s); reflexivity.
  - destruct (scope_down st x) as [st'|e]; cbn [bind]; [apply IH|reflexivity].
Qed.
Lemma nearest_snoc : forall p path s, nearest p (path ++ [s]) =
  match wget (sc_decls s) p with Some u => Some (u, [s]) | None => match nearest p path with Some (u, st) => Some (u, st ++ [s]) | None => None end end.
Proof.
  intros p path s. induction path as [|x path IH]; cbn [app nearest]; [destruct (wget (sc_decls s) p); reflexivity|]. rewrite IH.
  destruct (wget (sc_decls s) p); [reflexivity|]. destruct (nearest p path) as [[u st]|]; [reflexivity|]. destruct (wget (sc_decls x) p); reflexivity.
Qed.
Lemma nearest_suffix : forall p path u st, nearest p path = Some (u, st) -> exists before, path = before ++ st.
Proof.
  intros p path u st. revert u st. induction path as [|x path IH]; intros u st H; [discriminate|]. cbn [nearest] in H. destruct (nearest p path) as [r|].
  - injection H as ->. destruct (IH _ _ eq_refl) as [b ->]. now exists (x :: b).
  - destruct (wget (sc_decls x) p); [|discriminate]. injection H as _ <-. now exists [].
Qed.
Lemma nearest_declared : forall p path u st, nearest p path = Some (u, st) -> exists s, In s path /\ wget (sc_decls s) p = Some u.
Proof.
  intros p path. induction path as [|x path IH]; intros u st H; [discriminate|]. cbn [nearest] in H. destruct (nearest p path) as [r|].
  - injection H as ->. destruct (IH _ _ eq_refl) as (s & Hs & E). exists s. split; [now right|exact E].
  - destruct (wget (sc_decls x) p) eqn:E; [|discriminate]. injection H as -> _. exists x. split; [now left|exact E].
Qed.
Definition start_scope : wdict := [(Some (lit "xml"), Some XML_NAMESPACE); (None, None)].
(** Excluded by an element [s] below [before]. *)
Definition excludes (before : list scope_step) (s : scope_step) (u : option str) : Prop :=
  exists p, In p (sc_excluded s) /\ match nearest p (before ++ [s]) with Some (v, _) => v = u | None => (p = None /\ u = None) \/ (p = Some (lit "xml") /\ u = Some XML_NAMESPACE) end.
Lemma excluded_snoc : forall steps before s u, excluded_in before (steps ++ [s]) u <-> excluded_in before steps u \/ excludes (before ++ steps) s u.
Proof.
  induction steps as [|x steps IH]; intros before s u; cbn [app excluded_in].
  - rewrite app_nil_r. unfold excludes. tauto.
  - rewrite IH. rewrite <- app_assoc. cbn [app]. tauto.
Qed.
Lemma wget_filter : forall f (d : wdict) p, NoDup (map fst d) -> wget (filter f d) p = match wget d p with Some v => if f (p, v) then Some v else None | None => None end.
Proof.
  induction d as [|[a b] d IH]; intros p H; [reflexivity|]. inversion H as [|? ? Ha Hd]; subst. cbn [filter wget]. destruct (okey_eqb_spec a p) as [->|E].
  - destruct (f (p, b)); cbn [wget]; [now rewrite okey_refl|]. rewrite (IH p Hd). replace (wget d p) with (@None (option str)) by (symmetry; now apply wget_None). reflexivity.
  - destruct (f (a, b)); cbn [wget]; [destruct (okey_eqb_spec a p); [contradiction|]|]; now apply IH.
Qed.
Lemma filter_nodup : forall f (d : wdict), NoDup (map fst d) -> NoDup (map fst (filter f d)).
Proof.
  induction d as [|[a b] d IH]; intro H; [constructor|]. inversion H as [|? ? Ha Hd]; subst. cbn [filter]. destruct (f (a, b)); [|now apply IH]. cbn [map fst]. constructor; [|now apply IH].
  intro Hx. apply Ha. apply in_map_iff in Hx as (kv & E & Hx). apply filter_In in Hx as [Hx _]. apply in_map_iff. eauto.
Qed.
Lemma exclude_all_spec : forall cur excl out, NoDup (map fst out) ->
  match exclude_all cur excl out with
  | Ok out' => NoDup (map fst out') /\ (forall p, In p excl -> wget cur p <> None) /\ forall p u, wget out' p = Some u <-> wget out p = Some u /\ forall q, In q excl -> wget cur q <> Some u
  | Err x => x = UndefinedPrefixErr /\ exists p, In p excl /\ wget cur p = None
  end.
Proof.
  induction excl as [|q excl IH]; intros out H; cbn [exclude_all].
  - split; [exact H|]. split; [intros ? []|]. intros p u. split; [intro E; split; [exact E|intros ? []]|tauto].
  - destruct (wget cur q) as [v|] eqn:E; [|split; [reflexivity|exists q; split; [now left|exact E]]].
    specialize (IH (drop_uri v out) (filter_nodup _ _ H)). destruct (exclude_all cur excl (drop_uri v out)) as [out'|x].
    + destruct IH as (H1 & H2 & H3). split; [exact H1|]. split; [intros p [<-|Hp]; [congruence|auto]|]. intros p u. rewrite H3. unfold drop_uri. rewrite wget_filter by exact H.
      destruct (wget out p) as [w|]; [|split; intros [? _]; discriminate]. cbn [snd]. destruct (okey_eqb_spec w v) as [->|Hw]; cbn [negb].
      * split; [intros [? _]; discriminate|]. intros [[= ->] HX]. exfalso. apply (HX q); [now left|exact E].
      * split; intros [[= ->] HX]; (split; [reflexivity|]); [intros r [<-|Hr]; [congruence|auto]|intros r Hr; apply HX; now right].
    + destruct IH as (-> & p & Hp & Hc). split; [reflexivity|]. exists p. split; [now right|exact Hc].
Qed.
Lemma copied_gen : forall path, Forall (fun s => NoDup (map fst (sc_decls s))) path ->
  (forall p s1 s2 u1 u2, In s1 path -> In s2 path -> wget (sc_decls s1) p = Some u1 -> wget (sc_decls s2) p = Some u2 -> special_uri u1 = true -> special_uri u2 = true) ->
  match output_namespaces path with
  | Ok out => forall p u, wget out p = Some u <->
      exists before steps, path = before ++ steps /\ nearest p path = Some (u, steps) /\ special_uri u = false /\ ~ excluded_in before steps u
  | Err x => x = UndefinedPrefixErr /\ exists before s rest p, path = before ++ s :: rest /\ In p (sc_excluded s) /\ nearest p (before ++ [s]) = None /\ p <> None /\ p <> Some (lit "xml")
  end.
Proof.
  intros path HN HS.
  enough (H : match scopes (start_scope, []) path with
    | Ok (cur, out) => (forall p, wget cur p = match nearest p path with Some (u, _) => Some u | None => wget start_scope p end) /\ NoDup (map fst out) /\
        forall p u, wget out p = Some u <-> exists before steps, path = before ++ steps /\ nearest p path = Some (u, steps) /\ special_uri u = false /\ ~ excluded_in before steps u
    | Err x => x = UndefinedPrefixErr /\ exists before s rest p, path = before ++ s :: rest /\ In p (sc_excluded s) /\ nearest p (before ++ [s]) = None /\ p <> None /\ p <> Some (lit "xml")
    end).
  { change (output_namespaces path) with (rmap snd (scopes (start_scope, []) path)). destruct (scopes (start_scope, []) path) as [[cur out]|x]; cbn [rmap snd]; [apply H|exact H]. }
  induction path as [|s path IH] using rev_ind.
  - cbn [scopes nearest]. split; [reflexivity|]. split; [constructor|]. intros p u. cbn [wget]. split; [discriminate|]. intros (? & ? & _ & ? & _). discriminate.
  - apply Forall_app in HN as [HN HNs]. inversion HNs as [|? ? Hs _]; subst. rewrite scopes_snoc.
    assert (IH' := IH HN (fun p s1 s2 u1 u2 H1 H2 => HS p s1 s2 u1 u2 (in_or_app _ _ _ (or_introl H1)) (in_or_app _ _ _ (or_introl H2)))). clear IH.
    destruct (scopes (start_scope, []) path) as [[cur out]|x]; cbn [bind].
    2:{ destruct IH' as (-> & before & s' & rest & p & -> & H). split; [reflexivity|]. exists before, s', (rest ++ [s]), p. rewrite <- app_assoc. split; [reflexivity|exact H]. }
    destruct IH' as (HC & HO & HR). unfold scope_down. cbn [fst snd]. set (cur' := wupdate cur (sc_decls s)). set (out1 := wupdate out (filter (fun kv => negb (special_uri (snd kv))) (sc_decls s))).
    assert (HC' : forall p, wget cur' p = match nearest p (path ++ [s]) with Some (u, _) => Some u | None => wget start_scope p end).
    { intro p. unfold cur'. rewrite wget_wupdate, nearest_snoc, HC by exact Hs. destruct (wget (sc_decls s) p); [reflexivity|]. destruct (nearest p path) as [[? ?]|]; reflexivity. }
    assert (HE : forall u, (exists q, In q (sc_excluded s) /\ wget cur' q = Some u) <-> excludes path s u).
    { intro u. unfold excludes. split; intros (q & Hq & E); exists q; (split; [exact Hq|]).
      - rewrite HC' in E. destruct (nearest q (path ++ [s])) as [[v ?]|]; [congruence|]. unfold start_scope in E. cbn [wget] in E.
        destruct (okey_eqb_spec (Some (lit "xml")) q) as [<-|]; [right; split; [reflexivity|congruence]|]. destruct (okey_eqb_spec None q) as [<-|]; [left; split; [reflexivity|congruence]|discriminate].
      - rewrite HC'. destruct (nearest q (path ++ [s])) as [[v ?]|]; [congruence|]. destruct E as [[-> ->]|[-> ->]]; reflexivity. }
    assert (HO1 : NoDup (map fst out1)) by (apply wupdate_nodup; exact HO).
    assert (G1 : forall p, wget out1 p = match wget (sc_decls s) p with Some v => if special_uri v then wget out p else Some v | None => wget out p end).
    { intro p. unfold out1. rewrite wget_wupdate by (now apply filter_nodup). rewrite wget_filter by exact Hs. destruct (wget (sc_decls s) p) as [v|]; [|reflexivity]. cbn [snd]. destruct (special_uri v); reflexivity. }
    pose proof (exclude_all_spec cur' (sc_excluded s) out1 HO1) as HX. destruct (exclude_all cur' (sc_excluded s) out1) as [out'|x]; cbn [bind].
    + destruct HX as (HO' & _ & HX). split; [exact HC'|]. split; [exact HO'|]. intros p u. rewrite HX, G1, nearest_snoc.
      assert (HQ : (forall q, In q (sc_excluded s) -> wget cur' q <> Some u) <-> ~ excludes path s u).
      { rewrite <- HE. split; [intros H (q & Hq & E); exact (H q Hq E)|intros H q Hq E; apply H; eauto]. }
      rewrite HQ. clear HX HQ. destruct (wget (sc_decls s) p) as [v|] eqn:Ev.
      * assert (EQ : (exists before steps, path ++ [s] = before ++ steps /\ Some (v, [s]) = Some (u, steps) /\ special_uri u = false /\ ~ excluded_in before steps u) <-> v = u /\ special_uri u = false /\ ~ excludes path s u).
        { split.
          - intros (before & steps & E & [= -> <-] & Hu & Hx). apply app_inj_tail in E as [<- _]. split; [reflexivity|]. split; [exact Hu|]. cbn [excluded_in] in Hx. unfold excludes. tauto.
          - intros (-> & Hu & Hx). exists path, [s]. repeat split; auto. cbn [excluded_in]. unfold excludes in Hx. tauto. }
        rewrite EQ. destruct (special_uri v) eqn:Sv.
        -- split; [|intros (-> & ? & _); congruence]. intros [Ho _]. exfalso. apply HR in Ho as (before & steps & _ & Hn & Hu & _). apply nearest_declared in Hn as (s' & Hs' & Es').
           assert (special_uri u = true); [|congruence]. apply (HS p s s' v u); [apply in_or_app; right; now left|apply in_or_app; now left|exact Ev|exact Es'|exact Sv].
        -- split; [intros [[= <-] Hx]; auto|intros (-> & _ & Hx); auto].
      * rewrite HR. split.
        -- intros [(before & steps & -> & Hn & Hu & Hx) Hs']. exists before, (steps ++ [s]). rewrite Hn. repeat split; [now rewrite app_assoc|exact Hu|]. rewrite excluded_snoc. tauto.
        -- intros (before & steps & E & Hn & Hu & Hx). destruct (nearest p path) as [[w st]|] eqn:En; [|discriminate]. injection Hn as -> <-.
           destruct (nearest_suffix _ _ _ _ En) as [b Eb]. assert (b = before) by (rewrite Eb, <- app_assoc in E; now apply app_inv_tail in E). subst b.
           rewrite excluded_snoc in Hx. rewrite <- Eb in Hx. split; [exists before, st; tauto|tauto].
    + destruct HX as (-> & p & Hp & Hc). split; [reflexivity|]. exists path, s, [], p. rewrite HC' in Hc. split; [reflexivity|]. split; [exact Hp|].
      destruct (nearest p (path ++ [s])) as [[? ?]|]; [discriminate|]. split; [reflexivity|]. split; intros ->; discriminate Hc.
Qed.
Lemma special_own : forall u, special_uri u = true <-> own u.
Proof.
  intro u. unfold special_uri, own. rewrite orb_true_iff. change (lit "http://www.w3.org/XML/1998/namespace") with XML_NAMESPACE. change (lit "http://www.w3.org/1999/XSL/Transform") with XSL_NAMESPACE.
  destruct (okey_eqb_spec u (Some XML_NAMESPACE)), (okey_eqb_spec u (Some XSL_NAMESPACE)); intuition discriminate.
Qed.
(** C68: a literal result element carries, for each prefix, its nearest declaration
    in the stylesheet, unless that is XSLT's or XML's own or is excluded on an
    element from the declaration down; an undeclared prefix cannot be excluded.  The
    prefixes of XSLT (and xml) are used for nothing else. *)
Theorem C68_copied_partial : forall path, Forall (fun s => NoDup (map fst (sc_decls s))) path ->
  (forall p s1 s2 u1 u2, In s1 path -> In s2 path -> wget (sc_decls s1) p = Some u1 -> wget (sc_decls s2) p = Some u2 -> own u1 -> own u2) ->
  match output_namespaces path with
  | Ok out => forall p u, wget out p = Some u <->
      exists before steps, path = before ++ steps /\ nearest p path = Some (u, steps) /\ ~ own u /\ ~ excluded_in before steps u
  | Err x => x = UndefinedPrefixErr /\ exists before s rest p, path = before ++ s :: rest /\ In p (sc_excluded s) /\ nearest p (before ++ [s]) = None /\ p <> None /\ p <> Some (lit "xml")
  end.
Proof.
  intros path HN HS. pose proof (copied_gen path HN) as H. 
  assert (HS' : forall p s1 s2 u1 u2, In s1 path -> In s2 path -> wget (sc_decls s1) p = Some u1 -> wget (sc_decls s2) p = Some u2 -> special_uri u1 = true -> special_uri u2 = true).
  { intros p s1 s2 u1 u2 I1 I2 E1 E2 O. apply special_own. apply (HS p s1 s2 u1 u2 I1 I2 E1 E2). now apply special_own. }
  specialize (H HS'). destruct (output_namespaces path) as [out|x].
  - intros p u. rewrite H.
    split; intros (before & steps & E & Hn & Hu & Hx); exists before, steps; (split; [exact E|split; [exact Hn|split; [|exact Hx]]]).
    + intro O. apply special_own in O. congruence.
    + destruct (special_uri u) eqn:S; [|reflexivity]. exfalso. apply Hu. now apply special_own.
  - exact H.
Qed.
Print Assumptions C68_copied_partial.

(** ** Cases of C68 *)
Definition ad (p : Z) (a b pr : string) : alias_decl := {| al_prec := p; al_ns := Some (lit a); al_to := Some (lit b); al_prefix := Some (lit pr) |}.
Definition decls1 : list alias_decl := [ad 0 "urn:a" "urn:old" "o"; ad 0 "urn:a" "urn:older" "oo"; ad 1 "urn:b" "urn:y" "y"; ad 2 "urn:a" "urn:x" "x"].
Example C68_case_aliases : precedence_order decls1 /\ ~ ambiguous decls1 /\
  collect_aliases decls1 = Ok [(Some (lit "urn:a"), (Some (lit "urn:x"), Some (lit "x"))); (Some (lit "urn:b"), (Some (lit "urn:y"), Some (lit "y")))] /\
  collect_aliases (decls1 ++ [ad 2 "urn:a" "urn:z" "z"]) = Err DuplicateAlias.
Proof.
  assert (HP : precedence_order decls1) by (repeat constructor; cbn; lia). split; [exact HP|]. split; [|split; vm_compute; reflexivity].
  pose proof (C68_aliases decls1 HP) as H. replace (collect_aliases decls1) with (Ok (A := aliases) [(Some (lit "urn:a"), (Some (lit "urn:x"), Some (lit "x"))); (Some (lit "urn:b"), (Some (lit "urn:y"), Some (lit "y")))]) in H by (vm_compute; reflexivity).
  exact (proj1 H).
Qed.
Definition al1 : aliases := [(Some (lit "urn:a"), (Some (lit "urn:x"), Some (lit "x"))); (Some (lit "urn:b"), (Some (lit "urn:y"), None))].
Definition nss1 : wdict := [(Some (lit "p"), Some (lit "urn:a")); (Some (lit "q"), Some (lit "urn:q")); (Some (lit "b"), Some (lit "urn:b")); (Some (lit "x"), Some (lit "urn:x"))].
Lemma al1_cases : forall ns u p, alias_of al1 ns = Some (u, p) -> (ns = Some (lit "urn:a") /\ u = Some (lit "urn:x") /\ p = Some (lit "x")) \/ (ns = Some (lit "urn:b") /\ u = Some (lit "urn:y") /\ p = None).
Proof.
  intros ns u p H. unfold al1 in H. cbn [alias_of] in H. destruct (okey_eqb_spec (Some (lit "urn:a")) ns) as [<-|]; [injection H as <- <-; left; auto|].
  destruct (okey_eqb_spec (Some (lit "urn:b")) ns) as [<-|]; [injection H as <- <-; right; auto|discriminate].
Qed.
Example C68_case_declarations : NoDup (map fst nss1) /\
  (forall ns u p, alias_of al1 ns = Some (u, p) -> alias_of al1 u = None) /\
  (forall p0 ns u p v, wget nss1 p0 = Some ns -> alias_of al1 ns = Some (u, p) -> wget nss1 p = Some v -> v = u) /\
  (forall n1 n2 u1 u2 p, alias_of al1 n1 = Some (u1, p) -> alias_of al1 n2 = Some (u2, p) -> u1 = u2) /\
  fix_shared 3 al1 nss1 = [(Some (lit "q"), Some (lit "urn:q")); (Some (lit "x"), Some (lit "urn:x")); (None, Some (lit "urn:y"))].
Proof.
  split; [repeat constructor; cbn; intuition discriminate|]. split; [|split; [|split; [|vm_compute; reflexivity]]].
  - intros ns u p H. apply al1_cases in H as [(_ & -> & _)|(_ & -> & _)]; vm_compute; reflexivity.
  - intros p0 ns u p v _ H W. apply al1_cases in H as [(_ & -> & ->)|(_ & -> & ->)].
    + change (wget nss1 (Some (lit "x"))) with (Some (Some (lit "urn:x"))) in W. congruence.
    + change (wget nss1 None) with (@None (option str)) in W. discriminate.
  - intros n1 n2 u1 u2 p H1 H2. apply al1_cases in H1 as [(_ & -> & ->)|(_ & -> & ->)]; apply al1_cases in H2 as [(_ & -> & E)|(_ & -> & E)]; try reflexivity; discriminate.
Qed.
Example C68_case_names : fix_name al1 (lit "p:e") (Some (lit "urn:a")) = (lit "x:e", Some (lit "urn:x")) /\ fix_name al1 (lit "b:e") (Some (lit "urn:b")) = (lit "e", Some (lit "urn:y")).
Proof. split; vm_compute; reflexivity. Qed.
Definition st (d : list (string * string)) (x : list string) : scope_step :=
  {| sc_decls := map (fun kv => (Some (lit (fst kv)), Some (lit (snd kv)))) d; sc_excluded := map (fun p => Some (lit p)) x |}.
Definition xsl : string := "http://www.w3.org/1999/XSL/Transform".
Definition path1 : list scope_step := [st [("xsl", xsl); ("a", "urn:a"); ("b", "urn:b"); ("c", "urn:c")]%string ["b"]%string; st [] []; st [("a", "urn:a2")]%string ["c"]%string].
Example C68_case_copied : Forall (fun s => NoDup (map fst (sc_decls s))) path1 /\
  (forall p s1 s2 u1 u2, In s1 path1 -> In s2 path1 -> wget (sc_decls s1) p = Some u1 -> wget (sc_decls s2) p = Some u2 -> own u1 -> own u2) /\
  output_namespaces path1 = Ok [(Some (lit "a"), Some (lit "urn:a2"))] /\
  output_namespaces (path1 ++ [st [] ["d"]%string]) = Err UndefinedPrefixErr.
Proof.
  split; [repeat constructor; cbn; intuition discriminate|]. split; [|split; vm_compute; reflexivity].
  intros p s1 s2 u1 u2 H1 H2 E1 E2 Sp. apply special_own. apply special_own in Sp.
  assert (HX : p = Some (lit "xsl")).
  { unfold path1 in H1. destruct H1 as [<-|[<-|[<-|[]]]]; unfold st in E1; cbn [sc_decls map fst snd wget] in E1;
    repeat match type of E1 with context [okey_eqb ?a ?b] => destruct (okey_eqb_spec a b) as [<-|]; [first [reflexivity|injection E1 as <-; exfalso; revert Sp; vm_compute; discriminate]|] end; discriminate. }
  subst p. unfold path1 in H2. destruct H2 as [<-|[<-|[<-|[]]]]; vm_compute in E2; try discriminate. injection E2 as <-. vm_compute; reflexivity.
Qed.

(** ** Where C68 fails *)
(** Two aliases that exchange their prefixes: a declaration is lost. *)
Theorem C68_exchange_refuted :
  let al := [(Some (lit "urn:a"), (Some (lit "urn:x"), Some (lit "b"))); (Some (lit "urn:b"), (Some (lit "urn:y"), Some (lit "a")))] in
  fix_shared 1 al [(Some (lit "a"), Some (lit "urn:a")); (Some (lit "b"), Some (lit "urn:b"))] = [(Some (lit "a"), Some (lit "urn:y"))].
Proof. vm_compute; reflexivity. Qed.
Print Assumptions C68_exchange_refuted.
(** An alias is to be applied once; with a chain a->b->c the declarations shared by
    two elements have it applied twice, while names have it once. *)
Theorem C68_chain_refuted :
  let al := [(Some (lit "urn:a"), (Some (lit "urn:b"), Some (lit "b"))); (Some (lit "urn:b"), (Some (lit "urn:c"), Some (lit "c")))] in
  fix_shared 1 al [(Some (lit "a"), Some (lit "urn:a"))] = [(Some (lit "b"), Some (lit "urn:b"))] /\
  fix_shared 2 al [(Some (lit "a"), Some (lit "urn:a"))] = [(Some (lit "c"), Some (lit "urn:c"))] /\
  fix_name al (lit "a:e") (Some (lit "urn:a")) = (lit "b:e", Some (lit "urn:b")).
Proof. repeat split; vm_compute; reflexivity. Qed.
Print Assumptions C68_chain_refuted.
(** An excluded namespace is to be excluded from the whole content of the element
    (XSLT 1.0, 7.1.1); declared again there it is copied. *)
Theorem C68_excluded_again_refuted :
  output_namespaces [st [("a", "urn:a")]%string ["a"]%string; st [("b", "urn:a")]%string []] = Ok [(Some (lit "b"), Some (lit "urn:a"))].
Proof. vm_compute; reflexivity. Qed.
Print Assumptions C68_excluded_again_refuted.
(** A prefix declared anew for XSLT keeps its old meaning in the result. *)
Theorem C68_redeclared_refuted :
  output_namespaces [st [("a", "urn:a")]%string []; st [("a", xsl)]%string []] = Ok [(Some (lit "a"), Some (lit "urn:a"))].
Proof. vm_compute; reflexivity. Qed.
Print Assumptions C68_redeclared_refuted.
