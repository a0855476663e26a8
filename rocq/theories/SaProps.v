(** * The attributes of a SAX event are a map *)
From Coq Require Import NArith String List Bool Lia Arith Permutation.
From Verif Require Import PyStr PyErr SaModel SaSpec.
Import ListNotations.

Lemma key_eqb_spec a b : reflect (a = b) (key_eqb a b).
Proof.
  destruct a as [[u|] l], b as [[w|] m]; unfold key_eqb; cbn [fst snd]; cbn [andb]; try (constructor; congruence);
  repeat match goal with |- context [str_eqb ?x ?y] => destruct (str_eqb_spec x y) end; cbn [andb]; constructor; congruence.
Qed.
(** The dictionary a list of attributes makes *)
Section Dict.
Variable f : attribute -> str.
Definition table (l : list attribute) : dict := map (fun a => (a_name a, f a)) l.
Lemma dset_new d k v : ~ In k (map fst d) -> dset d k v = d ++ [(k, v)].
Proof.
  induction d as [|[q w] d IH]; intro H; [reflexivity|]. cbn [dset app map fst In] in *. destruct (key_eqb_spec q k); [exfalso; tauto|]. rewrite IH; [reflexivity|tauto].
Qed.
Lemma table_names l : map fst (table l) = map a_name l.
Proof. unfold table. now rewrite map_map. Qed.
Lemma dget_some l k v : distinct l -> (dget (table l) k = Some v <-> exists a, In a l /\ a_name a = k /\ f a = v).
Proof.
  unfold distinct. induction l as [|a l IH]; intro D; cbn [table map dget].
  - split; [intro H; discriminate H|intros (a & [] & _)].
  - cbn [map] in D. inversion D as [|? ? N D']; subst. destruct (key_eqb_spec (a_name a) k) as [<-|NE].
    + split; [intro H; injection H as <-; exists a; cbn; auto|]. intros (b & [<-|I] & E & V); [now rewrite V|]. exfalso. apply N. rewrite <- E. now apply in_map.
    + fold (table l). rewrite (IH D'). split; intros (b & I & E & V); exists b; cbn [In]; [auto|]. destruct I as [<-|I]; [congruence|auto].
Qed.
Lemma dget_none l k : dget (table l) k = None <-> ~ In k (map a_name l).
Proof.
  induction l as [|a l IH]; cbn [table map dget In]; [tauto|]. fold (table l). destruct (key_eqb_spec (a_name a) k) as [E|NE]; [split; [intro H; discriminate H|tauto]|]. rewrite IH. tauto.
Qed.
Lemma ddel_one l1 a l2 : distinct (l1 ++ a :: l2) -> ddel (table (l1 ++ a :: l2)) (a_name a) = Ok (table (l1 ++ l2)).
Proof.
  unfold distinct. induction l1 as [|b l1 IH]; cbn [app table map ddel]; intro D.
  - destruct (key_eqb_spec (a_name a) (a_name a)); [reflexivity|congruence].
  - cbn [app map] in D. inversion D as [|? ? N D']; subst. destruct (key_eqb_spec (a_name b) (a_name a)) as [E|NE].
    + exfalso. apply N. rewrite E, map_app. apply in_or_app. right. now left.
    + fold (table (l1 ++ a :: l2)). rewrite (IH D'). reflexivity.
Qed.
Lemma ddel_none l k : ~ In k (map a_name l) -> ddel (table l) k = Err KeyError.
Proof.
  induction l as [|a l IH]; cbn [table map ddel In]; intro H; [reflexivity|]. destruct (key_eqb_spec (a_name a) k); [tauto|]. fold (table l). rewrite IH by tauto. reflexivity.
Qed.
End Dict.
Lemma fill_table : forall l l0, distinct (l0 ++ l) -> fill l (table a_value l0) (table a_qname l0) = (table a_value (l0 ++ l), table a_qname (l0 ++ l)).
Proof.
  unfold distinct. induction l as [|a l IH]; intros l0 D; cbn [fill]; [now rewrite app_nil_r|].
  assert (N : ~ In (a_name a) (map a_name l0)).
  { rewrite map_app in D. cbn [map] in D. apply NoDup_remove_2 in D. intro I. apply D. apply in_or_app. now left. }
  rewrite !dset_new by (rewrite table_names; exact N). replace (l0 ++ a :: l) with ((l0 ++ [a]) ++ l) in * by (now rewrite <- app_assoc).
  rewrite <- (IH _ D). unfold table. now rewrite !map_app.
Qed.
Definition mk (l : list attribute) (n : nat) : attributes := {| at_values := table a_value l; at_qnames := table a_qname l; at_length := n |}.
Lemma new_mk l : distinct l -> attributes_new l = mk l (length l).
Proof. intro D. unfold attributes_new, mk. pose proof (fill_table l [] D) as F. cbn [table map app] in F. now rewrite F. Qed.
Lemma found_ok o v : found o = Ok v <-> o = Some v.
Proof. destruct o; cbn; split; intro H; try discriminate H; injection H as <-; reflexivity. Qed.
Lemma found_err o : found o = Err KeyError <-> o = None.
Proof. destruct o; cbn; split; intro H; try discriminate H; reflexivity. Qed.
Lemma mk_shows l n : distinct l -> shows (mk l n) l.
Proof.
  intro D. constructor; unfold get_value, get_qname; cbn [mk at_values at_qnames].
  - intros k v. rewrite found_ok. now apply dget_some.
  - intro k. rewrite found_err. apply dget_none.
  - intros k q. rewrite found_ok. now apply dget_some.
  - intro k. rewrite found_err. apply dget_none.
  - intro k. unfold has_key. cbn [mk at_values]. destruct (dget (table a_value l) k) eqn:E.
    + split; [intros _|reflexivity]. destruct (in_dec (fun a b => reflect_dec _ _ (key_eqb_spec a b)) k (map a_name l)) as [I|N]; [exact I|]. apply (dget_none a_value) in N. congruence.
    + split; [intro H; discriminate H|]. apply (dget_none a_value) in E. tauto.
  - intros k alt. unfold get. cbn [mk at_values]. now destruct (dget (table a_value l) k).
  - intros order O. unfold items, keys, values. cbn [mk at_values]. split; [apply O|]. split.
    + induction (order (table a_value l)) as [|[x y] d IH]; [reflexivity|]. cbn [map combine fst snd]. now rewrite IH.
    + eapply Permutation_NoDup; [apply Permutation_map, Permutation_sym, O|]. rewrite table_names. exact D.
Qed.
Lemma distinct_remove l1 a l2 : distinct (l1 ++ a :: l2) -> distinct (l1 ++ l2).
Proof. unfold distinct. rewrite !map_app. cbn [map]. apply NoDup_remove_1. Qed.
Lemma apply_mk l n c : distinct l -> exists l' e, removes l c l' e /\ distinct l' /\ apply (mk l n) c = (mk l' n, e).
Proof.
  intro D. destruct c as [k|k v]; cbn [apply].
  - destruct (in_dec (fun a b => reflect_dec _ _ (key_eqb_spec a b)) k (map a_name l)) as [I|N].
    + apply in_map_iff in I. destruct I as (a & <- & I). apply in_split in I. destruct I as (l1 & l2 & ->). exists (l1 ++ l2), None.
      split; [apply removes_one|]. split; [now apply distinct_remove in D|]. unfold del_item. cbn [mk at_values at_qnames]. rewrite !ddel_one by exact D. reflexivity.
    + exists l, (Some KeyError). split; [now apply removes_none|]. split; [exact D|]. unfold del_item. cbn [mk at_values]. rewrite ddel_none by exact N. reflexivity.
  - exists l, (Some TypeError). split; [apply removes_set|]. split; [exact D|reflexivity].
Qed.
Lemma apply_all_mk : forall cs l n, distinct l -> exists l' es, removes_all l cs l' es /\ distinct l' /\ apply_all (mk l n) cs = (mk l' n, es).
Proof.
  induction cs as [|c cs IH]; intros l n D; cbn [apply_all]; [exists l, []; repeat split; auto; constructor|].
  destruct (apply_mk l n c D) as (l1 & e & R & D1 & ->). destruct (IH l1 n D1) as (l2 & es & R2 & D2 & ->). exists l2, (e :: es). split; [econstructor; eauto|]. auto.
Qed.
(** After any changes, the object answers from the attributes that are left; changes succeed and fail as they should. *)
Theorem C122_map : forall atts cs, distinct atts -> exists s left errors,
  apply_all (attributes_new atts) cs = (s, errors) /\ removes_all atts cs left errors /\ distinct left /\ shows s left.
Proof.
  intros atts cs D. rewrite new_mk by exact D. destruct (apply_all_mk cs atts (length atts) D) as (l & es & R & D' & E). exists (mk l (length atts)), l, es.
  split; [exact E|]. split; [exact R|]. split; [exact D'|]. now apply mk_shows.
Qed.
Print Assumptions C122_map.
Lemma removes_length l c l' e : removes l c l' e -> e <> None -> l' = l.
Proof. destruct 1; congruence. Qed.
(** The length is right as long as nothing has been removed. *)
Theorem C122_length_partial : forall atts cs s errors, distinct atts -> apply_all (attributes_new atts) cs = (s, errors) -> (forall e, In e errors -> e <> None) ->
  forall order, (forall d, Permutation (order d) d) -> len s = length (keys order s) /\ len s = length atts.
Proof.
  intros atts cs s errors D H NE order O. rewrite new_mk in H by exact D. destruct (apply_all_mk cs atts (length atts) D) as (l & es & R & D' & E).
  rewrite E in H. injection H as <- <-. assert (L : l = atts).
  { clear - R NE. induction R as [|l c l' e cs l'' es R1 R2 IH]; [reflexivity|]. rewrite IH by (intros x I; apply NE; now right).
    apply (removes_length _ _ _ _ R1). apply NE. now left. }
  subst l. split; [|reflexivity]. unfold keys, len. cbn [mk at_length at_values]. rewrite map_length, (Permutation_length (O _)). unfold table. now rewrite map_length.
Qed.
Print Assumptions C122_length_partial.
(** After a removal it is not. *)
Theorem C122_length_refuted : forall atts a, distinct (a :: atts) -> exists s,
  apply_all (attributes_new (a :: atts)) [Del (a_name a)] = (s, [None]) /\ len s = S (length atts) /\ forall order, (forall d, Permutation (order d) d) -> length (keys order s) = length atts.
Proof.
  intros atts a D. rewrite new_mk by exact D. cbn [apply_all apply]. unfold del_item. cbn [mk at_values at_qnames at_length].
  pose proof (ddel_one a_value [] a atts D) as V. pose proof (ddel_one a_qname [] a atts D) as Q. cbn [app] in V, Q. rewrite V, Q. eexists. split; [reflexivity|]. split; [reflexivity|].
  intros order O. unfold keys. cbn [at_values]. rewrite map_length, (Permutation_length (O _)). unfold table. now rewrite map_length.
Qed.
Print Assumptions C122_length_refuted.
(** Attributes added one by one are not counted, and counted if they were there before. *)
Theorem C122_added_refuted : forall a b, a_name a = a_name b ->
  let s := attributes_set_item (attributes_new []) a in let s' := attributes_set_item s b in
  (len s = 0 /\ length (items (fun d => d) s) = 1)%nat /\ (len s' = 1 /\ length (items (fun d => d) s') = 1)%nat /\ len (attributes_set_item s' b) = 2%nat.
Proof.
  intros a b E. unfold attributes_set_item, attributes_new, items, len. cbn [fill fst snd at_values at_qnames at_length dset dget length].
  rewrite <- E. destruct (key_eqb_spec (a_name a) (a_name a)); [|congruence]. cbn [dget length]. destruct (key_eqb_spec (a_name a) (a_name a)); [|congruence]. auto.
Qed.
Print Assumptions C122_added_refuted.
Definition case_atts : list attribute := [{| a_name := (None, lit "a"); a_qname := lit "a"; a_value := lit "1" |}; {| a_name := (Some (lit "u"), lit "a"); a_qname := lit "p:a"; a_value := lit "2" |}].
Example C122_case : distinct case_atts /\ get_qname (fst (apply_all (attributes_new case_atts) [Del (None, lit "a"); Del (None, lit "b")])) (Some (lit "u"), lit "a") = Ok (lit "p:a") /\
  snd (apply_all (attributes_new case_atts) [Del (None, lit "a"); Del (None, lit "b")]) = [None; Some KeyError].
Proof. split; [unfold distinct; cbn; repeat constructor; cbn; intuition discriminate|]. split; vm_compute; reflexivity. Qed.
