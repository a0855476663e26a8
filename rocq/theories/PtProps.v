(** * Property C38: the streaming matcher *)
From Coq Require Import NArith ZArith String List Bool Lia Arith Sorted Permutation.
From Verif Require Import PyStr PyErr PtModel PtSpec PtTree PtDfa PtRun PtNfa PtPath PtDecide.
Import ListNotations.
Open Scope nat_scope.

Lemma covered_steps : forall n l s, covered n l -> In s (all_steps l) -> covered_step n s /\ ax s <> OtherAxis.
Proof.
  intros n l s [_ C] H. unfold all_steps in H. apply in_flat_map in H. destruct H as (e & He & H). apply in_flat_map in H. destruct H as (p & Hp & H).
  destruct (C e He) as [_ C']. specialize (C' p Hp). destruct p as [r|r|r|]; cbn [path_steps] in H; [| | |destruct H]; cbn [covered_path] in C'.
  - destruct r as [|s0 r]; [destruct H|]. destruct C' as (A & _ & B & F). rewrite Forall_forall in F. destruct H as [<-|H].
    + split; [exact B|destruct A as [-> | ->]; discriminate].
    + destruct (F s H) as [A' B']. split; [exact B'|destruct A' as [-> | ->]; discriminate].
  - rewrite Forall_forall in C'. destruct (C' s H) as [A B]. split; [exact B|destruct A as [-> | [-> _]]; discriminate].
  - destruct r as [|s0 r]; [destruct H|]. destruct C' as (A & _ & B & F). rewrite Forall_forall in F. destruct H as [<-|H].
    + split; [exact B|rewrite A; discriminate].
    + destruct (F s H) as [A' B']. split; [exact B'|destruct A' as [-> | ->]; discriminate].
Qed.

Lemma test_name_local : forall l nm, fst nm = None \/ l <> snd nm -> (test_name None (Some l) nm = true <-> nm = (None, l)).
Proof.
  intros l [ns x] H. unfold test_name. cbn [fst snd] in *. rewrite andb_true_l, str_eqb_eq. split; [intros ->; destruct H as [->|H]; [reflexivity|congruence]|intros [= -> ->]; reflexivity].
Qed.
Lemma test_name_qname : forall u l nm, test_name (Some u) (Some l) nm = true <-> nm = (Some u, l).
Proof.
  intros u l [ns x]. unfold test_name. cbn [fst snd]. rewrite andb_true_iff, str_eqb_eq, opt_eqb_eq. split; [intros [<- ->]; reflexivity|intros [= -> ->]; split; reflexivity].
Qed.
Lemma test_name_ns : forall u nm, test_name (Some u) None nm = true <-> fst nm = Some u.
Proof. intros u [ns x]. unfold test_name. cbn [fst snd]. rewrite andb_true_iff, opt_eqb_eq. split; [intros [<- _]; reflexivity|intros ->; split; reflexivity]. Qed.

Lemma step_faithful : forall n l doc k, covered n l -> unprefixed_in_no_namespace l doc -> In k (doc_kinds doc) -> faithful n (all_steps l) k.
Proof.
  intros n l doc k C U Hk s t Hs Et. destruct (covered_steps n l s C Hs) as [(P & E & NP & AN) OA].
  assert (forall x nm, nt s = LocalName x -> k = KElem nm \/ k = KAttr nm -> fst nm = None \/ x <> snd nm) as UN.
  { intros x nm Ex Ek. destruct (str_eqb x (snd nm)) eqn:Q; [apply str_eqb_eq in Q; left; apply (U s nm Hs); [congruence|destruct Ek as [<- | <-]; auto]|].
    right. intros K. apply str_eqb_eq in K. congruence. }
  unfold step_test, step_selects, name_step in *. destruct (nt s) as [x|p x|p| |t0|] eqn:N; cbn [expand] in *.
  - unfold klass in Et. rewrite P in Et. destruct (ax s); try congruence; injection Et as <-; destruct k as [nm|nm|t']; cbn [tmatch name_holds is_attribute];
      try (apply test_name_local; apply (UN x nm eq_refl); auto; fail); split; try discriminate; try (intros []; fail).
  - destruct (ns_lookup n p) as [u|e]; [|congruence]. cbn [bind] in Et. unfold klass in Et. rewrite P in Et. destruct (ax s); try congruence; injection Et as <-; destruct k as [nm|nm|t']; cbn [tmatch name_holds];
      try apply test_name_qname; split; try discriminate; try (intros []; fail).
  - destruct (ns_lookup n p) as [u|e]; [|congruence]. cbn [bind] in Et. unfold klass in Et. rewrite P in Et. destruct (ax s); try congruence; injection Et as <-; destruct k as [nm|nm|t']; cbn [tmatch name_holds];
      try apply test_name_ns; split; try discriminate; try (intros []; fail).
  - unfold klass in Et. destruct (ax s); try congruence; injection Et as <-; destruct k as [nm|nm|t']; cbn [tmatch name_holds]; unfold test_name; split; try discriminate; try (intros []; fail); auto.
  - injection Et as <-. destruct t0 as [t0|]; [|congruence]. destruct (ax s); try congruence; try (destruct (AN eq_refl)); destruct k as [nm|nm|t']; cbn [tmatch name_holds]; try (split; [discriminate|intros []]; fail);
      rewrite opt_eqb_eq; split; congruence.
  - congruence.
Qed.

Lemma same_test : forall n s s' t t' k, covered_step n s -> covered_step n s' -> step_test n s = Ok t -> step_test n s' = Ok t' ->
  step_selects n s k -> step_selects n s' k -> expand n (nt s) = expand n (nt s') -> t = t'.
Proof.
  intros n s s' t t' k (P & E & _) (P' & E' & _) Et Et' A A' X.
  assert (is_attribute (ax s) = is_attribute (ax s')) as IA.
  { unfold step_selects in *. destruct (expand n (nt s)) as [[|u|ns x|[y|]]|], (expand n (nt s')) as [[|u'|ns' x'|[y'|]]|]; try discriminate X; destruct (ax s), (ax s'), k; try reflexivity; try destruct A; try destruct A'. }
  unfold step_test, klass in *. rewrite P, P', IA in *.
  destruct (nt s) as [x|p x|p| |t0|], (nt s') as [x'|p' x'|p'| |t0'|]; cbn [expand] in *;
    repeat match goal with H : context[ns_lookup n ?p] |- _ => destruct (ns_lookup n p); cbn [bind] in * end; try congruence; try discriminate X;
    try (injection X as ->); try (injection X as -> ->); destruct (is_attribute (ax s')); congruence.
Qed.

Lemma start_good_of : forall n l lo hi m f, labelled_ok n (all_steps l) lo hi m f ->
  (forall id t, In (id, t) (start_edges m) -> good_test t /\ id < hi) /\ (forall i id t, In (id, t) (edges m i) -> good_test t /\ id < hi).
Proof.
  intros n l lo hi m f [_ W _].
  assert (forall t, stepped n (all_steps l) t -> good_test t) as G.
  { intros t [->|(s & Hs & Cs & As & Et)]; [exact I|]. destruct (step_test_total n s Cs) as (t' & Et' & Gt & _). congruence. }
  split.
  - intros id t H. destruct (w_start _ _ _ _ W id t H) as (A & _ & B). split; [apply G; exact B|apply (w_ids _ _ _ _ W); exact A].
  - intros i id t H. destruct (w_edges _ _ _ _ W i id t H) as (_ & A & _ & B). split; [apply G; exact B|apply (w_ids _ _ _ _ W); exact A].
Qed.

(** ** C38 *)

(** For patterns of PtSpec.covered -- unions of paths of steps on the child, descendant
    and attribute axes, with names, prefixed names, wildcards and processing
    instruction targets for tests -- compiling succeeds and the calls made while
    reading any document are exactly the expected ones: for each element in document
    order, each pattern that selects it gets its start call, then the calls for the
    element's attributes, then those for what it contains, then its end call.  The
    theorem holds whatever the order in which the code iterates over its sets.

    Missing, because the program is wrong there: documents with a node that two
    different tests of the patterns select; documents with a namespaced node whose
    local name is that of an unprefixed test; '//' inside a relative path or one that
    starts with '//'; patterns for attributes alone; processing-instruction() without
    a target; predicates. *)
Theorem C38_calls_partial : forall io so n l c, (forall s, Permutation (io s) s) -> (forall q x, Permutation (so q x) x) -> covered n l ->
  exists bound, forall fuel, bound <= fuel ->
    forall doc, unambiguous n l doc -> unprefixed_in_no_namespace l doc ->
    forall sel, decides n l sel -> pushtree io so n l c fuel doc = Ok (expected_calls sel (List.length l) doc).
Proof.
  intros io so n l c IO SO C. destruct (machine_nfa_ok n l c C) as (m & hi & Em & O). destruct (start_good_of _ _ _ _ _ _ O) as [SG EG].
  destruct (nfa_to_dfa_ok io so m hi IO SO SG EG) as (bound & B). exists bound. intros fuel Hf doc Un Up sel De.
  destruct (B fuel Hf) as (d & Ed & D). destruct O as [O1 W O3].
  assert (forall id t, In (id, t) (start_edges m) -> match_types m id = match_type t) as ST by (intros id t H; apply (w_start _ _ _ _ W id t H)).
  assert (forall i id t, In (id, t) (edges m i) -> match_types m id = match_type t) as ET by (intros i id t H; apply (w_edges _ _ _ _ W i id t H)).
  pose proof (w_lstart _ _ _ _ W) as LS. pose proof (w_ledges _ _ _ _ W) as LE.
  destruct (build_states_total io m hi d IO SG EG LS LE D d (incl_refl _)) as (ms & Ems & MS).
  unfold pushtree, build_machine. rewrite Em. cbn [bind]. rewrite Ed. cbn [bind]. rewrite Ems. cbn [bind].
  apply (run_spec io m hi d ms IO SG EG ST ET LS LE D MS sel (List.length l) (fun k => In k (doc_kinds doc))).
  - intros k Hk t u It Iu Nt Nu Mt Mu.
    assert (forall t, is_test m t -> t <> TAny -> exists s, In s (all_steps l) /\ covered_step n s /\ step_test n s = Ok t) as IS.
    { intros v Iv Nv. assert (stepped n (all_steps l) v) as [K|(s & A & B' & _ & E)]; [|congruence|exists s; auto].
      destruct Iv as [(id & H)|(i & id & H)]; [apply (w_start _ _ _ _ W id v H)|apply (w_edges _ _ _ _ W i id v H)]. }
    destruct (IS t It Nt) as (s & Hs & Cs & Es). destruct (IS u Iu Nu) as (s' & Hs' & Cs' & Es').
    pose proof (step_faithful n l doc k C Up Hk) as F. apply (F s t Hs Es) in Mt. apply (F s' u Hs' Es') in Mu.
    apply (same_test n s s' t u k Cs Cs' Es Es' Mt Mu). apply (Un k s s' Hk Hs Hs' Mt Mu).
  - intros ch k j Ec Kc. rewrite (O3 ch k j Ec); [|intros x Hx; apply (step_faithful n l doc x C Up); apply Kc; exact Hx].
    rewrite (De j (ch ++ [k])). split; [intros [_ H]; exact H|]. intros (e & He & H). split; [|exists e; split; assumption]. apply nth_error_Some. congruence.
  - intros x Hx. exact Hx.
Qed.
Print Assumptions C38_calls_partial.

(** The specification is not empty: what the patterns select can always be decided. *)
Theorem C38_selection_decidable : forall n l, exists sel, decides n l sel.
Proof. intros n l. exists (selb n l). apply selb_decides. Qed.
Print Assumptions C38_selection_decidable.

Section item_rect.
  Variable P : item -> Prop.
  Hypothesis HE : forall id nm attrs kids, (forall k, In k kids -> P k) -> P (Elem id nm attrs kids).
  Hypothesis HP : forall id t, P (PI id t).
  Fixpoint item_rec' (i : item) : P i :=
    match i with
    | Elem id nm attrs kids => HE id nm attrs kids ((fix go (l : list item) : forall k, In k l -> P k :=
        match l with
        | [] => fun _ H => match H with end
        | x :: r => fun k H => match H with or_introl E => eq_ind x P (item_rec' x) k E | or_intror H => go r k H end
        end) kids)
    | PI id t => HP id t
    end.
End item_rect.

Lemma in_selecting : forall sel count c i, In i (selecting sel count c) <-> i < count /\ sel i c = true.
Proof. intros. unfold selecting. rewrite filter_In, in_seq. split; intros [A B]; (split; [lia|exact B]). Qed.
Lemma not_in_map : forall {A} (f : A -> call) l x, (forall a, f a <> x) -> ~ In x (map f l).
Proof. intros A f l x H K. apply in_map_iff in K. destruct K as (a & E & _). exact (H a E). Qed.

(** The calls that [expected] lists. *)
Lemma expected_start : forall sel count i above j id, In (CStart j id) (expected sel count above i) <->
  exists chain, located above [i] id chain /\ (exists nm, last chain (KPi []) = KElem nm) /\ j < count /\ sel j chain = true.
Proof.
  intros sel count. induction i as [i0 nm attrs kids IH|i0 t] using item_rec'; intros above j id; cbn [expected].
  - rewrite !in_app_iff, in_map_iff, !in_flat_map. split.
    + intros [(x & [= -> ->] & H)|[(a & Ha & H)|[(k & Hk & H)|H]]].
      * apply in_selecting in H. exists (above ++ [KElem nm]). split; [eapply loc_elem; left; reflexivity|]. rewrite last_last. split; [exists nm; reflexivity|exact H].
      * exfalso. revert H. apply not_in_map. discriminate.
      * apply (IH k Hk) in H. destruct H as (chain & Lc & X). exists chain. split; [|exact X]. eapply loc_kid; [left; reflexivity|].
        inversion Lc as [ab it id0 nm0 at0 kd0 Hin|ab it id0 t0 Hin|ab it i1 nm1 at1 kd1 id1 ch1 Hin Hl]; subst; destruct Hin as [->|[]].
        -- eapply loc_elem. exact Hk.
        -- apply loc_pi. exact Hk.
        -- eapply loc_kid; [exact Hk|exact Hl].
      * exfalso. revert H. apply not_in_map. discriminate.
    + intros (chain & Lc & (nm' & La) & X). inversion Lc as [ab it id0 nm0 at0 kd0 Hin|ab it id0 t0 Hin|ab it i1 nm1 at1 kd1 id1 ch1 Hin Hl]; subst; destruct Hin as [Hin|[]].
      * injection Hin as -> -> -> ->. left. exists j. split; [reflexivity|apply in_selecting; exact X].
      * discriminate Hin.
      * injection Hin as -> -> -> ->. right. right. left.
        assert (exists k, In k kd1 /\ located (above ++ [KElem nm1]) [k] id chain) as (k & Hk & Lk).
        { inversion Hl as [ab it id0 nm0 at0 kd0 Hin2|ab it id0 t0 Hin2|ab it i2 nm2 at2 kd2 id2 ch2 Hin2 Hl2]; subst.
          - eexists. split; [exact Hin2|]. eapply loc_elem. left. reflexivity.
          - eexists. split; [exact Hin2|]. apply loc_pi. left. reflexivity.
          - eexists. split; [exact Hin2|]. eapply loc_kid; [left; reflexivity|exact Hl2]. }
        exists k. split; [exact Hk|]. apply (IH k Hk). exists chain. split; [exact Lk|]. split; [exists nm'; exact La|exact X].
  - split; [intros H; exfalso; revert H; apply not_in_map; discriminate|].
    intros (chain & Lc & (nm' & La) & X). inversion Lc as [ab it id0 nm0 at0 kd0 Hin|ab it id0 t0 Hin|ab it i1 nm1 at1 kd1 id1 ch1 Hin Hl]; subst; destruct Hin as [Hin|[]]; try discriminate Hin.
    rewrite last_last in La. discriminate La.
Qed.
Lemma located_one : forall above items id chain, located above items id chain <-> exists i, In i items /\ located above [i] id chain.
Proof.
  intros above items id chain. split.
  - intros H. inversion H as [ab it id0 nm0 at0 kd0 Hin|ab it id0 t0 Hin|ab it i1 nm1 at1 kd1 id1 ch1 Hin Hl]; subst; eexists; (split; [exact Hin|]).
    + eapply loc_elem. left. reflexivity.
    + apply loc_pi. left. reflexivity.
    + eapply loc_kid; [left; reflexivity|exact Hl].
  - intros (i & Hi & H). inversion H as [ab it id0 nm0 at0 kd0 Hin|ab it id0 t0 Hin|ab it i1 nm1 at1 kd1 id1 ch1 Hin Hl]; subst; destruct Hin as [->|[]].
    + eapply loc_elem. exact Hi.
    + apply loc_pi. exact Hi.
    + eapply loc_kid; [exact Hi|exact Hl].
Qed.

(** In other words: a handler is called for an element iff its pattern selects it. *)
Theorem C38_iff_selected_partial : forall io so n l c, (forall s, Permutation (io s) s) -> (forall q x, Permutation (so q x) x) -> covered n l ->
  exists bound, forall fuel, bound <= fuel ->
    forall doc, unambiguous n l doc -> unprefixed_in_no_namespace l doc ->
    exists calls, pushtree io so n l c fuel doc = Ok calls /\
      forall j id, In (CStart j id) calls <->
        exists chain e, located [] doc id chain /\ (exists nm, last chain (KPi []) = KElem nm) /\ nth_error l j = Some e /\ pattern_selects n e chain.
Proof.
  intros io so n l c IO SO C. destruct (C38_calls_partial io so n l c IO SO C) as (bound & B). exists bound. intros fuel Hf doc Un Up.
  pose proof (selb_decides n l) as De. eexists. split; [apply (B fuel Hf doc Un Up (selb n l) De)|].
  intros j id. unfold expected_calls. rewrite in_flat_map. split.
  - intros (i & Hi & H). apply expected_start in H. destruct H as (chain & Lc & La & _ & S). apply De in S. destruct S as (e & He & Se). exists chain, e.
    split; [apply located_one; exists i; split; assumption|]. split; [exact La|]. split; assumption.
  - intros (chain & e & Lc & La & He & Se). apply located_one in Lc. destruct Lc as (i & Hi & Lc). exists i. split; [exact Hi|]. apply expected_start. exists chain.
    split; [exact Lc|]. split; [exact La|]. split; [apply nth_error_Some; congruence|]. apply De. exists e. split; assumption.
Qed.
Print Assumptions C38_iff_selected_partial.

(** ** Cases *)
Definition idn (s : list nat) : list nat := s.
Definition ids_ (q : dstate) (x : list (list nat)) : list (list nat) := x.
Lemma idn_perm : forall s, Permutation (idn s) s. Proof. intros. apply Permutation_refl. Qed.
Lemma ids_perm : forall q x, Permutation (ids_ q x) x. Proof. intros. apply Permutation_refl. Qed.
Definition st (a : axis) (t : nodetest) : step := {| ax := a; nt := t; preds := false |}.
Definition nsx : nsmap := [(lit "p", lit "urn:p")].
Definition el (id : nat) (nm : string) (attrs : list name) (kids : list item) : item := Elem id (None, lit nm) attrs kids.

(** Patterns "a/b", "//c/@x" and "/a//p:d | a/processing-instruction('go')". *)
Definition case_patterns : list pattern :=
  [ [Relative [st Child (LocalName (lit "a")); st Child (LocalName (lit "b"))]];
    [Anywhere [st Descendant (LocalName (lit "c")); st Attribute (LocalName (lit "x"))]];
    [Absolute [st Child (LocalName (lit "a")); st Descendant (QName (lit "p") (lit "d"))];
     Relative [st Child (LocalName (lit "a")); st Child (PiTest (Some (lit "go")))]] ].
(** <a><b><c x=''/></b><p:d/><?go?><c><p:d x=''/></c><a><b/></a></a> *)
Definition case_doc : list item :=
  [ el 1 "a" [] [ el 2 "b" [] [ el 3 "c" [(None, lit "x")] [] ];
                  Elem 4 (Some (lit "urn:p"), lit "d") [] [];
                  PI 5 (lit "go");
                  el 6 "c" [] [ Elem 7 (Some (lit "urn:p"), lit "d") [(None, lit "x")] [] ];
                  el 8 "a" [] [ el 9 "b" [] [] ] ] ].
Ltac cov := split; [reflexivity|split; [discriminate|split; [discriminate|intros K; first [exact I|discriminate K]]]].
Example C38_case :
  covered nsx case_patterns /\ unambiguous nsx case_patterns case_doc /\ unprefixed_in_no_namespace case_patterns case_doc /\
  pushtree idn ids_ nsx case_patterns 0 100 case_doc =
    Ok [CStart 0 2; CAttr 1 3 (None, lit "x"); CEnd 0 2; CStart 2 4; CEnd 2 4; CPi 2 5; CStart 2 7; CEnd 2 7; CStart 0 9; CEnd 0 9].
Proof.
  split; [|split; [apply unambiguousb_ok; vm_compute; reflexivity|split; [apply unprefixedb_ok; vm_compute; reflexivity|vm_compute; reflexivity]]].
  split; [discriminate|]. intros e [<-|[<-|[<-|[]]]]; (split; [discriminate|]); intros p Hp.
  - destruct Hp as [<-|[]]. split; [left; reflexivity|]. split; [exact I|]. split; [cov|]. constructor; [split; [left; reflexivity|cov]|constructor].
  - destruct Hp as [<-|[]]. split; [reflexivity|]. split; [exact I|]. split; [cov|]. constructor; [split; [right; reflexivity|cov]|constructor].
  - destruct Hp as [<-|[<-|[]]].
    + constructor; [split; [left; reflexivity|cov]|]. constructor; [split; [right; split; [reflexivity|exact I]|cov]|constructor].
    + split; [left; reflexivity|]. split; [exact I|]. split; [cov|]. constructor; [split; [left; reflexivity|cov]|constructor].
Qed.

(** ** Where the property fails of the program *)

(** A larger bound changes nothing once the loop has ended. *)
Lemma dfa_loop_more : forall io so m fuel todo seen done d, dfa_loop io so m fuel todo seen done = Ok d -> forall k, dfa_loop io so m (fuel + k) todo seen done = Ok d.
Proof.
  intros io so m. induction fuel as [|fuel IH]; intros todo seen done d H k.
  - destruct todo; [|discriminate H]. cbn in *. destruct k; exact H.
  - cbn [Nat.add]. destruct todo as [|q todo]; [exact H|]. cbn [dfa_loop] in *. destruct (table_of (all_transitions io m q) empty_table) as [tb|e]; [|discriminate H]. cbn [bind] in *.
    destruct (push_unseen (so q (final_nodes tb)) todo seen) as [t s]. apply IH. exact H.
Qed.
Lemma pushtree_more : forall io so n l c fuel doc, (exists d m, machine_nfa n l c = Ok m /\ nfa_to_dfa io so m fuel = Ok d) -> forall k, pushtree io so n l c (fuel + k) doc = pushtree io so n l c fuel doc.
Proof.
  intros io so n l c fuel doc (d & m & Em & Ed) k. unfold pushtree, build_machine. rewrite Em. cbn [bind]. rewrite Ed. unfold nfa_to_dfa in *. rewrite (dfa_loop_more _ _ _ _ _ _ _ _ Ed k). reflexivity.
Qed.
Ltac more := rewrite pushtree_more; [|eexists; eexists; split; [vm_compute; reflexivity|vm_compute; reflexivity]].

(** A pattern without prefix selects only elements in no namespace, but "a" is also
    reported for p:a (test_name ignores the namespace). *)
Definition only (s : list step) : list pattern := [[Relative s]].
Theorem C38_unprefixed_refuted : forall fuel,
  pushtree idn ids_ nsx (only [st Child (LocalName (lit "a"))]) 0 (100 + fuel) [Elem 1 (Some (lit "urn:p"), lit "a") [] []] = Ok [CStart 0 1; CEnd 0 1] /\
  ~ pattern_selects nsx [Relative [st Child (LocalName (lit "a"))]] [KElem (Some (lit "urn:p"), lit "a")].
Proof.
  intros fuel. split; [more; vm_compute; reflexivity|]. intros H. apply pattern_selectsb_ok in H. vm_compute in H. discriminate H.
Qed.
Print Assumptions C38_unprefixed_refuted.
(** "*/b": for <a><b/></a>, the b below a is not reported when "a" is also a test:
    patterns "a" and "*/b". *)
Theorem C38_wildcard_refuted : forall fuel,
  let l := [[Relative [st Child (LocalName (lit "a"))]]; [Relative [st Child Wild; st Child (LocalName (lit "b"))]]] in
  let doc := [el 1 "a" [] [el 2 "b" [] []]] in
  pushtree idn ids_ nsx l 0 (100 + fuel) doc = Ok [CStart 0 1; CEnd 0 1] /\
  pattern_selects nsx [Relative [st Child Wild; st Child (LocalName (lit "b"))]] [KElem (None, lit "a"); KElem (None, lit "b")].
Proof.
  intros fuel l doc. split; [unfold l, doc; more; vm_compute; reflexivity|]. apply pattern_selectsb_ok. vm_compute. reflexivity.
Qed.
Print Assumptions C38_wildcard_refuted.
(** "//a//b" does not report a b that is not a child of the a. *)
Theorem C38_descendant_refuted : forall fuel,
  let p := Anywhere [st Descendant (LocalName (lit "a")); st Descendant (LocalName (lit "b"))] in
  let doc := [el 1 "a" [] [el 2 "c" [] [el 3 "b" [] []]]] in
  pushtree idn ids_ nsx [[p]] 0 (100 + fuel) doc = Ok [] /\ pattern_selects nsx [p] [KElem (None, lit "a"); KElem (None, lit "c"); KElem (None, lit "b")].
Proof.
  intros fuel p doc. split; [unfold p, doc; more; vm_compute; reflexivity|]. apply pattern_selectsb_ok. vm_compute. reflexivity.
Qed.
Print Assumptions C38_descendant_refuted.
(** "@x" alone: the first element raises ValueError. *)
Theorem C38_attribute_refuted : forall fuel,
  pushtree idn ids_ nsx (only [st Attribute (LocalName (lit "x"))]) 0 (100 + fuel) [el 1 "a" [(None, lit "x")] []] = Err ValueError.
Proof. intros fuel. more. vm_compute. reflexivity. Qed.
Print Assumptions C38_attribute_refuted.
(** processing-instruction() is never reported. *)
Theorem C38_pi_refuted : forall fuel,
  let p := Relative [st Child (LocalName (lit "a")); st Child (PiTest None)] in
  pushtree idn ids_ nsx [[p]] 0 (100 + fuel) [el 1 "a" [] [PI 2 (lit "go")]] = Ok [] /\ pattern_selects nsx [p] [KElem (None, lit "a"); KPi (lit "go")].
Proof.
  intros fuel p. split; [unfold p; more; vm_compute; reflexivity|]. apply pattern_selectsb_ok. vm_compute. reflexivity.
Qed.
Print Assumptions C38_pi_refuted.
