(** * C119: SAX parsers as generators *)
From Coq Require Import NArith String List Bool Lia.
From Verif Require Import PyStr PyErr SgModel SgSpec.
Import ListNotations.
Open Scope N_scope.

Notation mk s y l g := {| r_status := s; r_yield := y; r_log := l; r_rest := g |}.
Lemma do_quiet : forall g s y log x, values g = [] -> do_group g (mk s y log x) = (mk s y (log ++ map c_name g) x, None).
Proof.
  induction g as [|c g IH]; intros s y log x H; [now rewrite app_nil_r|].
  unfold values in H. cbn [flat_map] in H. apply app_eq_nil in H as [H1 H2]. cbn [do_group]. unfold do_call.
  rewrite H1. cbn [set_yields r_status r_yield r_log r_rest]. rewrite IH by exact H2. cbn [map]. now rewrite <- app_assoc.
Qed.
Lemma do_suspended : forall g y log x v vs, values g = v :: vs -> exists q, do_group g (mk Suspended y log x) = (q, Some system_error) /\
  r_yield q = Some v /\ r_status q = Finished.
Proof.
  induction g as [|c g IH]; intros y log x v vs H; [discriminate H|]. unfold values in H. cbn [flat_map] in H.
  cbn [do_group]. unfold do_call. destruct (c_yields c) as [|w ws] eqn:E; cbn [set_yields].
  - cbn [app] in H. cbn [r_status r_yield r_log r_rest]. eapply IH. exact H.
  - cbn [app] in H. injection H as -> H. eexists. repeat split.
Qed.
Lemma do_one : forall g y log x v, values g = [v] -> do_group g (mk Parsing y log x) = (mk Suspended (Some v) (log ++ map c_name g) x, None).
Proof.
  induction g as [|c g IH]; intros y log x v H; [discriminate H|]. unfold values in H. cbn [flat_map] in H.
  cbn [do_group]. unfold do_call. destruct (c_yields c) as [|w ws] eqn:E.
  - cbn [set_yields r_status r_yield r_log r_rest]. rewrite (IH _ _ _ v) by exact H. cbn [map]. now rewrite <- app_assoc.
  - cbn [app] in H. injection H as -> H. apply app_eq_nil in H as [-> H].
    cbn [set_yields set_yield stop_resumable r_status r_yield r_log r_rest]. unfold set_yield. cbn [stop_resumable r_status r_yield r_log r_rest].
    rewrite do_quiet by exact H. cbn [map]. now rewrite <- app_assoc.
Qed.
Lemma do_two : forall g y log x v w vs, values g = v :: w :: vs -> exists q, do_group g (mk Parsing y log x) = (q, Some system_error) /\
  r_yield q = Some w /\ r_status q = Finished.
Proof.
  induction g as [|c g IH]; intros y log x v w vs H; [discriminate H|]. unfold values in H. cbn [flat_map] in H.
  cbn [do_group]. unfold do_call. destruct (c_yields c) as [|a [|b ws]] eqn:E.
  - cbn [set_yields r_status r_yield r_log r_rest]. eapply IH. exact H.
  - cbn [app] in H. injection H as -> H.
    cbn [set_yields]. unfold set_yield. cbn [stop_resumable r_status r_yield r_log r_rest]. eapply do_suspended. exact H.
  - cbn [app] in H. injection H as -> -> H. cbn [set_yields]. unfold set_yield. cbn [stop_resumable r_status r_yield r_log r_rest].
    eexists. repeat split.
Qed.
Lemma run_quiet : forall pre gs log x, all_values pre = [] -> exists x', run (pre ++ gs) (mk Parsing None log x) = run gs (mk Parsing None (log ++ names pre) x').
Proof.
  induction pre as [|g pre IH]; intros gs log x H; [exists x; now rewrite app_nil_r|].
  unfold all_values in H. cbn [flat_map] in H. apply app_eq_nil in H as [H1 H2]. cbn [app run r_status r_yield r_log r_rest].
  rewrite do_quiet by exact H1. cbn [r_status]. destruct (IH gs (log ++ map c_name g) (pre ++ gs) H2) as [x' ->]. exists x'.
  unfold names. cbn [flat_map]. now rewrite <- app_assoc.
Qed.
Lemma next_suspended : forall v log gs, next (mk Suspended (Some v) log gs) = (mk Suspended None log gs, Ok (Some v)).
Proof. reflexivity. Qed.
Lemma next_resume : forall log gs r, run gs (mk Parsing None log gs) = (r, None) -> r_yield r <> None \/ r_status r = Finished ->
  next (mk Suspended None log gs) = next r.
Proof.
  intros log gs r E H. unfold next at 1. cbn [parsing r_status r_yield]. unfold resume. cbn [r_rest r_yield r_log]. rewrite E.
  unfold next. destruct r as [s y l x]. cbn in H |- *. destruct H as [H|H].
  - destruct y as [y|]; [|congruence]. destruct s; reflexivity.
  - subst s. reflexivity.
Qed.
Lemma next_finished : forall log gs, next (mk Finished None log gs) = (mk Finished None log gs, Ok None).
Proof. reflexivity. Qed.
(** What is taken from a run that is [pre ++ post]. *)
Lemma run_takes : forall pre post log x, Forall single pre -> all_values pre <> [] ->
  exists r log', run (pre ++ post) (mk Parsing None log x) = (r, None) /\ r_status r = Suspended /\ r_yield r <> None /\
  exists mid quiet, takes r (all_values pre) (mk Suspended None log' (quiet ++ post)) /\ pre = mid ++ quiet /\ all_values quiet = [] /\
  log' = log ++ names mid.
Proof.
  induction pre as [|g pre IH]; intros post log x HS HV; [now elim HV|].
  inversion HS as [|? ? S1 S2]; subst. cbn [app run r_status r_yield r_log r_rest].
  unfold all_values in HV. cbn [flat_map] in HV. unfold single in S1. destruct (values g) as [|v [|w vs]] eqn:E.
  - cbn [app] in HV. rewrite do_quiet by exact E. cbn [r_status].
    destruct (IH post (log ++ map c_name g) (pre ++ post) S2 HV) as (r & log' & R & St & Y & mid & quiet & T & P & Q & L).
    exists r, log'. repeat split; [exact R|exact St|exact Y|]. exists (g :: mid), quiet. unfold all_values in T |- *. cbn [flat_map]. rewrite E. cbn [app].
    repeat split; [exact T|now rewrite P|exact Q|]. rewrite L. unfold names. cbn [flat_map]. now rewrite <- app_assoc.
  - rewrite (do_one g None log (pre ++ post) v E). cbn [r_status].
    destruct (all_values pre) as [|u us] eqn:EV.
    + exists (mk Suspended (Some v) (log ++ map c_name g) (pre ++ post)), (log ++ map c_name g).
      repeat split; [discriminate|]. exists [g], pre. unfold all_values. cbn [flat_map]. rewrite E. fold (all_values pre). rewrite EV. cbn [app].
      repeat split; [|unfold names; cbn [flat_map]; now rewrite app_nil_r].
      eapply takes_one; [apply next_suspended|apply takes_none].
    + destruct (IH post (log ++ map c_name g) (pre ++ post) S2) as (r & log' & R & St & Y & mid & quiet & T & P & Q & L); [congruence|].
      exists (mk Suspended (Some v) (log ++ map c_name g) (pre ++ post)), log'.
      repeat split; [discriminate|]. exists (g :: mid), quiet. unfold all_values. cbn [flat_map]. rewrite E. fold (all_values pre). rewrite EV. cbn [app].
      repeat split; [|now rewrite P|exact Q|rewrite L; unfold names; cbn [flat_map]; now rewrite <- app_assoc].
      eapply takes_one; [apply next_suspended|]. pose proof (next_resume _ _ _ R (or_introl Y)) as N.
      inversion T as [|? ? ? ? ? N1 T1]; subst. eapply takes_one; [rewrite N; exact N1|exact T1].
  - cbn in S1. lia.
Qed.
Lemma run_all : forall gs log x, all_values gs = [] -> run gs (mk Parsing None log x) = (mk Finished None (log ++ names gs) [], None).
Proof.
  intros gs log x H. destruct (run_quiet gs [] log x H) as [x' E]. rewrite app_nil_r in E. rewrite E. reflexivity.
Qed.
Lemma takes_app : forall r vs q ws s, takes r vs q -> takes q ws s -> takes r (vs ++ ws) s.
Proof. intros r vs q ws s H K. induction H; [exact K|]. eapply takes_one; [eassumption|auto]. Qed.
Lemma parse_start : forall d, c_yields (d_start d) = [] ->
  parse d = match run (d_groups d) (mk Parsing None [c_name (d_start d)] (d_groups d)) with
            | (_, Some e) => Err e
            | (r, None) => match r_status r with Suspended => Ok r | _ => match do_call (d_end d) r with (_, Some e) => Err e | (r, None) => Ok r end end
            end.
Proof. intros d H. unfold parse. unfold do_call at 1. rewrite H. cbn [set_yields r_status r_yield r_log r_rest app]. reflexivity. Qed.
(** The values come in the order in which they were set, each once, and the handlers are called in the order of the document. *)
Theorem C119_values_partial : forall d, c_yields (d_start d) = [] -> Forall single (d_groups d) -> c_yields (d_end d) = [] ->
  exists r r', parse d = Ok r /\ iterates r (all_values (d_groups d)) r' /\
    (all_values (d_groups d) = [] -> r_log r' = [c_name (d_start d)] ++ names (d_groups d) ++ [c_name (d_end d)]) /\
    (all_values (d_groups d) <> [] -> r_log r' = [c_name (d_start d)] ++ names (d_groups d)).
Proof.
  intros d H1 H2 H3. rewrite parse_start by exact H1. destruct (all_values (d_groups d)) as [|v vs] eqn:E.
  - rewrite run_all by exact E. cbn [r_status]. unfold do_call. rewrite H3. cbn [set_yields r_status r_yield r_log r_rest].
    eexists _, _. split; [reflexivity|]. split; [eexists; split; [apply takes_none|split; reflexivity]|].
    cbn [r_log]. split; [|congruence]. intros _. reflexivity.
  - destruct (run_takes (d_groups d) [] [c_name (d_start d)] (d_groups d) H2) as (r & log' & R & St & Y & mid & quiet & T & P & Q & L); [congruence|].
    rewrite app_nil_r in R, T. rewrite R, St. eexists _, _. split; [reflexivity|]. rewrite <- E.
    split; [|split; [congruence|intros _]].
    + eexists. split; [exact T|].
      pose proof (next_resume log' quiet _ (run_all quiet log' quiet Q) (or_intror eq_refl)) as N. rewrite N. split; apply next_finished.
    + cbn [r_log]. rewrite L, P. unfold names. rewrite flat_map_app. reflexivity.
Qed.
Print Assumptions C119_values_partial.
(** No more of the document is parsed than is needed for the values asked for. *)
Theorem C119_lazy_partial : forall d pre g post v, c_yields (d_start d) = [] -> d_groups d = pre ++ g :: post -> Forall single pre -> values g = [v] ->
  exists r r1 r2, parse d = Ok r /\ takes r (all_values pre) r1 /\ next r1 = (r2, Ok (Some v)) /\
    r_log r2 = [c_name (d_start d)] ++ names (pre ++ [g]).
Proof.
  intros d pre g post v H1 H2 H3 H4. rewrite parse_start by exact H1. rewrite H2.
  assert (Z : forall pre log x, all_values pre = [] -> run (pre ++ g :: post) (mk Parsing None log x) = (mk Suspended (Some v) (log ++ names (pre ++ [g])) post, None)).
  { clear - H4. intros pre log x Q. destruct (run_quiet pre (g :: post) log x Q) as [x' ->]. cbn [run r_status r_yield r_log r_rest].
    rewrite (do_one g None _ post v H4). cbn [r_status]. unfold names. rewrite flat_map_app. cbn [flat_map]. rewrite app_nil_r. now rewrite <- app_assoc. }
  destruct (all_values pre) as [|u us] eqn:E.
  - rewrite Z by exact E. cbn [r_status]. eexists _, _, _. split; [reflexivity|]. split; [apply takes_none|]. split; [apply next_suspended|reflexivity].
  - destruct (run_takes pre (g :: post) [c_name (d_start d)] (pre ++ g :: post) H3) as (r & log' & R & St & Y & mid & quiet & T & P & Q & L); [congruence|].
    rewrite R, St. eexists _, _, _. split; [reflexivity|]. rewrite <- E. split; [exact T|].
    split; [rewrite (next_resume log' _ _ (Z quiet log' _ Q)); [apply next_suspended|left; discriminate]|].
    cbn [r_log]. rewrite L, P. unfold names. rewrite <- (app_assoc mid). rewrite (flat_map_app _ mid). now rewrite <- app_assoc.
Qed.
Print Assumptions C119_lazy_partial.
(** A handler that sets a value at the start of the document makes parse fail. *)
Theorem C119_start_refuted : forall d, c_yields (d_start d) <> [] -> exists e, parse d = Err e.
Proof.
  intros d H. unfold parse, do_call. destruct (c_yields (d_start d)) as [|v [|w vs]]; [congruence| |]; eexists; reflexivity.
Qed.
Print Assumptions C119_start_refuted.
(** So does one that sets a value at the end, unless that end is not even reported. *)
Theorem C119_end_refuted : forall d, c_yields (d_start d) = [] -> all_values (d_groups d) = [] -> c_yields (d_end d) <> [] -> exists e, parse d = Err e.
Proof.
  intros d H1 H2 H3. rewrite parse_start by exact H1. rewrite run_all by exact H2. cbn [r_status]. unfold do_call.
  destruct (c_yields (d_end d)) as [|v vs]; [congruence|]. eexists; reflexivity.
Qed.
Print Assumptions C119_end_refuted.
(** If any value was set, the end of the document is never reported. *)
Theorem C119_no_end_refuted : forall d r vs r', c_yields (d_start d) = [] -> Forall single (d_groups d) -> all_values (d_groups d) <> [] ->
  parse d = Ok r -> takes r vs r' -> forall n, In n (r_log r') -> n = c_name (d_start d) \/ In n (names (d_groups d)).
Proof.
  intros d r vs r' H1 H2 H3 H4 HT. rewrite parse_start in H4 by exact H1.
  assert (G : forall g (q : reader), forall n, In n (r_log (fst (do_group g q))) -> In n (r_log q) \/ In n (map c_name g)).
  { assert (Y : forall ys q, r_log (fst (set_yields ys q)) = r_log q).
    { induction ys as [|y ys IH]; intro q; [reflexivity|]. cbn [set_yields]. unfold set_yield.
      destruct (stop_resumable (r_status q)); [rewrite IH|]; reflexivity. }
    induction g as [|c g IH]; intros q n Hn; [now left|]. cbn [do_group] in Hn.
    assert (C : r_log (fst (do_call c q)) = r_log q ++ [c_name c]) by (unfold do_call; now rewrite Y).
    destruct (do_call c q) as [q' [e|]]; cbn [fst] in C, Hn.
    - rewrite C in Hn. apply in_app_or in Hn as [Hn|[Hn|[]]]; [now left|right; now left].
    - apply IH in Hn as [Hn|Hn]; [|right; now right]. rewrite C in Hn. apply in_app_or in Hn as [Hn|[Hn|[]]]; [now left|right; now left]. }
  assert (U : forall gs q n, In n (r_log (fst (run gs q)) ++ names (r_rest (fst (run gs q)))) -> In n (r_log q) \/ In n (names gs)).
  { assert (R : forall g q, r_rest (fst (do_group g q)) = r_rest q).
    { assert (Y : forall ys q, r_rest (fst (set_yields ys q)) = r_rest q).
      { induction ys as [|y ys IH]; intro q; [reflexivity|]. cbn [set_yields]. unfold set_yield.
        destruct (stop_resumable (r_status q)); [rewrite IH|]; reflexivity. }
      induction g as [|c g IH]; intro q; [reflexivity|]. cbn [do_group]. pose proof (Y (c_yields c) (mk (r_status q) (r_yield q) (r_log q ++ [c_name c]) (r_rest q))) as C.
      fold (do_call c q) in C. destruct (do_call c q) as [q' [e|]]; cbn [fst r_rest] in C |- *; [exact C|now rewrite IH]. }
    induction gs as [|g gs IH]; intros q n Hn; [cbn in Hn; rewrite app_nil_r in Hn; now left|].
    cbn [run] in Hn. pose proof (G g (mk (r_status q) (r_yield q) (r_log q) gs) n) as Gn. pose proof (R g (mk (r_status q) (r_yield q) (r_log q) gs)) as Rn.
    destruct (do_group g _) as [q' e]. cbn [fst r_log r_rest] in Gn, Rn. unfold names. cbn [flat_map]. fold (names gs).
    assert (D : In n (r_log q' ++ names (r_rest q')) -> In n (r_log q) \/ In n (map c_name g ++ names gs)).
    { intro K. apply in_app_or in K as [K|K]; [apply Gn in K as [K|K]; [now left|right; apply in_or_app; now left]|rewrite Rn in K; right; apply in_or_app; now right]. }
    assert (D2 : In n (r_log (fst (run gs q')) ++ names (r_rest (fst (run gs q')))) -> In n (r_log q) \/ In n (map c_name g ++ names gs)).
    { intro K. apply IH in K as [K|K]; [apply Gn in K as [K|K]; [now left|right; apply in_or_app; now left]|right; apply in_or_app; now right]. }
    destruct e as [e|]; [exact (D Hn)|]. destruct (r_status q'); [exact (D2 Hn)|exact (D2 Hn)|exact (D Hn)|exact (D2 Hn)]. }
  assert (N : forall q n, In n (r_log (fst (next q)) ++ names (r_rest (fst (next q)))) -> In n (r_log q ++ names (r_rest q))).
  { intros q n Hn. unfold next in Hn. destruct (parsing q); [|exact Hn]. destruct (r_yield q) eqn:EY; [exact Hn|]. unfold resume in Hn. rewrite EY in Hn.
    pose proof (U (r_rest q) (mk Parsing None (r_log q) (r_rest q)) n) as K. destruct (run (r_rest q) _) as [q' [e|]]; cbn [fst r_log r_rest] in K, Hn; apply in_or_app; exact (K Hn). }
  assert (B : forall n, In n (r_log r ++ names (r_rest r)) -> n = c_name (d_start d) \/ In n (names (d_groups d))).
  { destruct (run_takes (d_groups d) [] [c_name (d_start d)] (d_groups d) H2 H3) as (r0 & log' & R & St & _).
    rewrite app_nil_r in R. intros n Hn. pose proof (U (d_groups d) (mk Parsing None [c_name (d_start d)] (d_groups d)) n) as K. rewrite R in H4, K.
    rewrite St in H4. injection H4 as <-. cbn [fst r_log] in K. destruct (K Hn) as [[X|[]]|X]; [left; now symmetry|now right]. }
  intros n Hn. apply B. assert (K : In n (r_log r' ++ names (r_rest r'))) by (apply in_or_app; now left). clear Hn B H4. revert K.
  induction HT as [r|r v r' vs r'' E HT IH]; [auto|]. intro K. apply IH in K. specialize (N r n). rewrite E in N. exact (N K).
Qed.
Print Assumptions C119_no_end_refuted.
(** Two values in one group: the iteration fails there, the first of the two is lost and the second comes after the failure. *)
Theorem C119_two_refuted : forall d pre g post v w vs, c_yields (d_start d) = [] -> d_groups d = pre ++ g :: post -> Forall single pre -> values g = v :: w :: vs ->
  (all_values pre = [] -> exists e, parse d = Err e) /\
  (all_values pre <> [] -> exists r r1 r2 r3 e, parse d = Ok r /\ takes r (all_values pre) r1 /\ next r1 = (r2, Err e) /\ next r2 = (r3, Ok (Some w)) /\ next r3 = (r3, Ok None)).
Proof.
  intros d pre g post v w vs H1 H2 H3 H4. rewrite parse_start by exact H1. rewrite H2.
  assert (Z : forall pre log x, all_values pre = [] -> exists q, run (pre ++ g :: post) (mk Parsing None log x) = (q, Some system_error) /\ r_yield q = Some w /\ r_status q = Finished).
  { clear - H4. intros pre log x Q. destruct (run_quiet pre (g :: post) log x Q) as [x' ->]. cbn [run r_status r_yield r_log r_rest].
    destruct (do_two g None (log ++ names pre) post v w vs H4) as (q & -> & Y & S). exists q. auto. }
  split; intro E.
  - destruct (Z pre [c_name (d_start d)] (pre ++ g :: post) E) as (q & -> & _). eexists; reflexivity.
  - destruct (run_takes pre (g :: post) [c_name (d_start d)] (pre ++ g :: post) H3 E) as (r & log' & R & St & Y & mid & quiet & T & P & Q & L).
    rewrite R, St. destruct (Z quiet log' (quiet ++ g :: post) Q) as (q & Rq & Yq & Sq).
    exists r, (mk Suspended None log' (quiet ++ g :: post)), q, (mk Finished None (r_log q) (r_rest q)), system_error.
    split; [reflexivity|]. split; [exact T|]. split; [unfold next; cbn [parsing r_status r_yield]; unfold resume; cbn [r_rest r_yield r_log]; now rewrite Rq|].
    destruct q as [s y l x]. cbn in Yq, Sq. subst. split; reflexivity.
Qed.
Print Assumptions C119_two_refuted.
Definition case_doc : document := {| d_start := {| c_name := 0; c_yields := [] |};
  d_groups := [[{| c_name := 1; c_yields := [] |}]; [{| c_name := 2; c_yields := [70] |}; {| c_name := 3; c_yields := [] |}]; []; [{| c_name := 4; c_yields := [71] |}]; [{| c_name := 5; c_yields := [] |}]];
  d_end := {| c_name := 9; c_yields := [] |} |}.
Example C119_case : c_yields (d_start case_doc) = [] /\ Forall single (d_groups case_doc) /\ c_yields (d_end case_doc) = [] /\ all_values (d_groups case_doc) = [70; 71].
Proof. repeat split. repeat constructor. Qed.
Example C119_case_lazy : exists r r1, parse case_doc = Ok r /\ next r = (r1, Ok (Some 70)) /\ r_log r1 = [0; 1; 2; 3].
Proof. eexists _, _. repeat split; vm_compute; reflexivity. Qed.
