(** * C111: comparing two documents *)
From Coq Require Import NArith String List Bool Lia Arith Permutation.
From Verif Require Import PyStr PyErr SerModel TcModel TcSpec TcProofs.
Import ListNotations.
Open Scope N_scope.

(** What Expat reports for a source read as a document, or as an entity. *)
Definition contains (entity : bool) (x : source) (l : list item) : Prop :=
  exists es, (if entity then s_fragment x else s_document x) = Ok es /\ reports l es.

Lemma compare_lines : forall x y ws l l', (s_entity x = false -> ws = true) ->
  contains (s_entity x) x l -> contains (s_entity x) y l' ->
  exists b, xml_compare x y ws = Ok b /\ (same ws l l' -> b = true) /\ (Forall fine l -> Forall fine l' -> b = true -> same ws l l').
Proof.
  intros x y ws l l' Hw (es & E & R) (es' & E' & R').
  exists (lines_eqb (sequence ws es) (sequence ws es')). split; [|split].
  - unfold xml_compare, sequencer. destruct (s_entity x).
    + rewrite E, E'. reflexivity.
    + rewrite (Hw eq_refl), E, E'. reflexivity.
  - intro S. apply lines_eqb_spec. now apply (same_sequence ws l es l' es').
  - intros F F' H. apply lines_eqb_spec in H. now apply (sequence_same ws l es l' es' R R' F F').
Qed.

(** ** Two documents compare equal iff they are the same up to the order of
    attributes and declarations and the way text is cut in pieces.  _partial:
    what is asked of names ([fine]) is needed for "only if" (see the refutations). *)
Theorem C111_compare_partial : forall x y l l',
  s_entity x = false -> contains false x l -> contains false y l' -> Forall fine l -> Forall fine l' ->
  (same true l l' -> xml_compare x y true = Ok true) /\
  (~ same true l l' -> xml_compare x y true = Ok false).
Proof.
  intros x y l l' He C C' F F'. destruct (compare_lines x y true l l') as (b & E & H1 & H2); rewrite ?He; auto.
  rewrite E. split; intro S; [now rewrite H1|]. destruct b; [|reflexivity]. exfalso. auto.
Qed.
Print Assumptions C111_compare_partial.

(** ** The same for external parsed entities, with or without white space. *)
Theorem C111_entity_partial : forall x y l l' ws,
  s_entity x = true -> contains true x l -> contains true y l' -> Forall fine l -> Forall fine l' ->
  (same ws l l' -> xml_compare x y ws = Ok true) /\
  (~ same ws l l' -> xml_compare x y ws = Ok false).
Proof.
  intros x y l l' ws He C C' F F'. destruct (compare_lines x y ws l l') as (b & E & H1 & H2); rewrite ?He; auto.
  - discriminate.
  - rewrite E. split; intro S; [now rewrite H1|]. destruct b; [|reflexivity]. exfalso. auto.
Qed.
Print Assumptions C111_entity_partial.

(** ** Documents that are the same are never reported as different, whatever
    their names. *)
Theorem C111_no_false_alarm : forall x y l l', s_entity x = false -> contains false x l -> contains false y l' -> same true l l' ->
  xml_compare x y true = Ok true /\ check_xml x y = Ok tt.
Proof.
  intros x y l l' He C C' S. destruct (compare_lines x y true l l') as (b & E & H1 & H2); rewrite ?He; auto.
  assert (X : xml_compare x y true = Ok true) by (rewrite E; now rewrite H1).
  split; [assumption|]. unfold check_xml. rewrite X. reflexivity.
Qed.
Print Assumptions C111_no_false_alarm.

(** ** check_xml raises AssertionError iff the documents differ; errors of Expat
    are raised. *)
Theorem C111_check_partial : forall x y l l',
  s_entity x = false -> contains false x l -> contains false y l' -> Forall fine l -> Forall fine l' ->
  (check_xml x y = Ok tt <-> same true l l') /\ (check_xml x y = Err AssertionError <-> ~ same true l l').
Proof.
  intros x y l l' He C C' F F'. destruct (compare_lines x y true l l') as (b & E & H1 & H2); rewrite ?He; auto.
  unfold check_xml. rewrite E. destruct b; cbn [bind].
  - specialize (H2 F F' eq_refl). split; split; intro H; auto; [discriminate H|]. exfalso. auto.
  - assert (N : ~ same true l l') by (intro S; specialize (H1 S); discriminate H1).
    split; split; intro H; auto; [discriminate H|]. exfalso. auto.
Qed.
Print Assumptions C111_check_partial.
Theorem C111_errors : forall x y e, s_entity x = false -> s_document x = Err e \/ (exists es, s_document x = Ok es) /\ s_document y = Err e ->
  xml_compare x y true = Err e /\ check_xml x y = Err e.
Proof.
  intros x y e He H. assert (X : xml_compare x y true = Err e).
  { unfold xml_compare, sequencer. rewrite He. destruct H as [H|[[es H] H']]; rewrite H; [reflexivity|]. cbn [rmap bind]. rewrite H'. reflexivity. }
  split; [assumption|]. unfold check_xml. now rewrite X.
Qed.
Print Assumptions C111_errors.

(** ** A verdict on two documents may be turned round, and equality chained.
    _partial: an external parsed entity may not (see the refutation). *)
Theorem C111_symmetric_partial : forall x y l l', s_entity x = false -> s_entity y = false -> contains false x l -> contains false y l' ->
  xml_compare x y true = xml_compare y x true.
Proof.
  intros x y l l' Hx Hy (es & E & R) (es' & E' & R'). unfold xml_compare, sequencer. rewrite Hx, Hy, E, E'. cbn [rmap bind]. f_equal.
  destruct (lines_eqb (sequence true es) (sequence true es')) eqn:A; destruct (lines_eqb (sequence true es') (sequence true es)) eqn:B; try reflexivity.
  - apply lines_eqb_spec in A. rewrite A in B. rewrite (proj2 (lines_eqb_spec _ _) eq_refl) in B. discriminate B.
  - apply lines_eqb_spec in B. rewrite B in A. rewrite (proj2 (lines_eqb_spec _ _) eq_refl) in A. discriminate A.
Qed.
Print Assumptions C111_symmetric_partial.
Theorem C111_transitive : forall x y z l l' l'', s_entity x = false -> s_entity y = false ->
  contains false x l -> contains false y l' -> contains false z l'' ->
  xml_compare x y true = Ok true -> xml_compare y z true = Ok true -> xml_compare x z true = Ok true.
Proof.
  intros x y z l l' l'' Hx Hy (es & E & R) (es' & E' & R') (es2 & E2 & R2). unfold xml_compare, sequencer. rewrite Hx, Hy, E, E', E2. cbn [rmap bind].
  intros A B. injection A as A. injection B as B. apply lines_eqb_spec in A, B. f_equal. apply lines_eqb_spec. congruence.
Qed.
Print Assumptions C111_transitive.

(** ** A case: attributes in another order and text in other pieces; and one
    with another attribute value. *)
Definition docA : list item := [IComment (lit "c"); IElem [(None, lit "u"); (Some (lit "p"), lit "v")] (lit "u#a") [(lit "x", lit "1"); (lit "y", lit "it's")] [IText (lit "hello "); IElem [] (lit "u#b") [] []; ICdata (lit " ")]].
Definition docB : list item := [IComment (lit "c"); IElem [(Some (lit "p"), lit "v"); (None, lit "u")] (lit "u#a") [(lit "y", lit "it's"); (lit "x", lit "1")] [IText (lit "hel"); IText []; IText (lit "lo "); IElem [] (lit "u#b") [] []; ICdata (lit " ")]].
Definition docC : list item := [IComment (lit "c"); IElem [(None, lit "u"); (Some (lit "p"), lit "v")] (lit "u#a") [(lit "x", lit "1"); (lit "y", lit "its")] [IText (lit "hello "); IElem [] (lit "u#b") [] []; ICdata (lit " ")]].
Fixpoint evs (n : item) : list event :=
  match n with
  | IElem d q a k => map (fun d => ENs (fst d) (snd d)) d ++ EStart q (flat_map (fun a => [fst a; snd a]) a) :: flat_map evs k ++ [EEnd q]
  | IText s => [EChars s]
  | ICdata s => [EStartCdata; EChars s; EEndCdata]
  | IComment s => [EComment s]
  | IPI t d => [EPI t d]
  | IEntity n => [EEntity n]
  | IDoctype n sy pu b => [EDoctype n sy pu b]
  end.
Lemma evs_says : forall n, says n (evs n).
Proof.
  induction n as [d q a k IH|s|s|s|t d0|m|m sy pu b] using item_ind2; cbn [evs]; try constructor.
  - rewrite (flat_map_concat_map evs). constructor. induction IH; cbn [map]; constructor; auto.
  - pose proof (sy_text [s]) as H. cbn [concat map] in H. now rewrite app_nil_r in H.
  - pose proof (sy_cdata [s]) as H. cbn [concat map app] in H. now rewrite app_nil_r in H.
Qed.
Lemma evs_reports : forall l, reports l (flat_map evs l).
Proof. intro l. exists (map evs l). rewrite (flat_map_concat_map evs). split; [|reflexivity]. induction l; cbn [map]; constructor; [apply evs_says|assumption]. Qed.
Definition src (entity : bool) (l : list item) : source := {| s_entity := entity; s_document := Ok (flat_map evs l); s_fragment := Ok (flat_map evs l) |}.
Lemma src_contains : forall e e' l, contains e' (src e l) l.
Proof. intros e e' l. exists (flat_map evs l). split; [destruct e'; reflexivity|apply evs_reports]. Qed.
Lemma uni : forall s, forallb (fun c => c <? 1114112) s = true -> unicode s.
Proof. intros s H. apply Forall_forall. intros c Hc. apply N.ltb_lt. now apply (proj1 (forallb_forall _ _) H). Qed.
Ltac finely := repeat first [(apply uni; vm_compute; reflexivity) | apply Forall_nil | apply Forall_cons | apply fi_comment | apply fi_elem | apply fi_text | apply fi_cdata
  | (let p := fresh in let Hp := fresh in intros p Hp; cbn [fst] in Hp; first [discriminate Hp | injection Hp as <-]) | (let Hx := fresh in intro Hx; vm_compute in Hx; first [discriminate Hx | intuition discriminate]) | reflexivity | split].
Lemma docA_fine : Forall fine docA.
Proof. unfold docA, unquoted. finely. Qed.
Lemma docB_fine : Forall fine docB.
Proof. unfold docB, unquoted. finely. Qed.
Lemma docC_fine : Forall fine docC.
Proof. unfold docC, unquoted. finely. Qed.
Lemma docAB_same : same true docA docB.
Proof. vm_compute. repeat (constructor || apply perm_swap). Qed.
Example C111_case : Forall fine docA /\ Forall fine docB /\ same true docA docB /\ ~ same true docA docC /\
  xml_compare (src false docA) (src false docB) true = Ok true /\ xml_compare (src false docA) (src false docC) true = Ok false.
Proof.
  split; [exact docA_fine|]. split; [exact docB_fine|]. split; [exact docAB_same|].
  assert (N : ~ same true docA docC).
  { intro S. assert (xml_compare (src false docA) (src false docC) true = Ok true) as X.
    { apply (C111_no_false_alarm _ _ docA docC); [reflexivity|apply src_contains|apply src_contains|exact S]. }
    vm_compute in X. discriminate X. }
  split; [exact N|]. split; vm_compute; reflexivity.
Qed.

(** ** Refutations *)

(** White space cannot be ignored in a document: the comparison raises
    AttributeError even if both are well-formed and the same. *)
Theorem C111_whitespace_refuted : forall x y, s_entity x = false -> xml_compare x y false = Err AttributeError.
Proof. intros x y H. unfold xml_compare, sequencer. now rewrite H. Qed.
Print Assumptions C111_whitespace_refuted.

(** Different documents that compare equal: a namespace bound to no prefix and
    to the prefix None; two attributes and one in a namespace with quotes. *)
Theorem C111_names_refuted :
  (exists l l', ~ same true l l' /\ xml_compare (src false l) (src false l') true = Ok true /\
     exists u, l = [IElem [(None, u)] (lit "a") [] []] /\ l' = [IElem [(Some (lit "None"), u)] (lit "a") [] []]) /\
  (exists l l', ~ same true l l' /\ xml_compare (src false l) (src false l') true = Ok true /\
     exists q, l = [IElem [] (lit "a") [(lit "x", lit "1"); (lit "z#y", lit "2")] []] /\ l' = [IElem [] (lit "a") [(q, lit "2")] []]).
Proof.
  split.
  - eexists _, _. split; [|split; [|exists (lit "u"); split; reflexivity]].
    + intro S. inversion S as [|? ? ? ? A _]; subst. inversion A as [| | | | | |? ? ? ? ? ? ? P]; subst. apply Permutation_length_1 in P. discriminate P.
    + vm_compute. reflexivity.
  - eexists _, _. split; [|split; [|exists (lit "x=u'1', z#y"); split; reflexivity]].
    + intro S. inversion S as [|? ? ? ? A _]; subst. inversion A as [| | | | | |? ? ? ? ? ? ? P P2]; subst. apply Permutation_length in P2. discriminate P2.
    + vm_compute. reflexivity.
Qed.
Print Assumptions C111_names_refuted.

(** The first argument decides how both are read: with a text declaration in
    one only, one order of the arguments is an error of Expat and the other is not. *)
Theorem C111_symmetric_refuted : forall es es' e,
  let x := {| s_entity := true; s_document := Ok es; s_fragment := Ok es |} in
  let y := {| s_entity := false; s_document := Ok es'; s_fragment := Err e |} in
  xml_compare x y true = Err e /\ exists b, xml_compare y x true = Ok b.
Proof. intros es es' e x y. split; [reflexivity|]. eexists. reflexivity. Qed.
Print Assumptions C111_symmetric_refuted.
