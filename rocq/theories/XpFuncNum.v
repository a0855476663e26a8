(** * Proofs about the conversion of strings to numbers and comparisons *)
From Coq Require Import NArith ZArith QArith Qround Qabs String List Bool Lia Lqa.
From Verif Require Import PyStr PyErr XpNum XpNumSpec XpNumLemmas XpFuncs XpFuncSpec.
Import ListNotations.
Local Open Scope N_scope.

(** ** Characters *)
Lemma c_space_spec c : c_space c = true <-> space c.
Proof. unfold c_space, space. rewrite !orb_true_iff, !N.eqb_eq. cbn. intuition. Qed.
Lemma c_digit_spec c : c_digit c = true <-> digit c.
Proof. unfold c_digit, digit. rewrite andb_true_iff, !N.leb_le. reflexivity. Qed.
Lemma forallb_Forall {A} (p : A -> bool) (P : A -> Prop) l : (forall x, p x = true <-> P x) -> forallb p l = true <-> Forall P l.
Proof. intros H. rewrite forallb_forall, Forall_forall. split; intros K x I; apply H, K, I. Qed.
Lemma spaces l : forallb c_space l = true <-> Forall space l.
Proof. apply forallb_Forall, c_space_spec. Qed.
Lemma digits l : forallb c_digit l = true <-> Forall digit l.
Proof. apply forallb_Forall, c_digit_spec. Qed.
Lemma span_stop p a b : forallb p a = true -> (match b with [] => true | c :: _ => negb (p c) end) = true -> span p (a ++ b) = (a, b).
Proof.
  induction a as [|x a IH]; cbn; intros H K.
  - destruct b as [|c b]; [reflexivity|]. cbn. apply negb_true_iff in K. now rewrite K.
  - apply andb_true_iff in H. destruct H as [H1 H2]. rewrite H1, IH by assumption. reflexivity.
Qed.
Lemma span_parts p s : exists a b, span p s = (a, b) /\ s = a ++ b /\ forallb p a = true /\ (match b with [] => true | c :: _ => negb (p c) end) = true.
Proof.
  induction s as [|x s [a [b [E [-> [F K]]]]]]; cbn.
  - exists [], []. auto.
  - destruct (p x) eqn:P.
    + rewrite E. exists (x :: a), b. cbn. rewrite P. auto.
    + exists [], (x :: a ++ b). cbn. rewrite P. auto.
Qed.

(** ** The scan *)
(** What FROM_STRING skips, and what is left. *)
Record scanned := { sc_before : str; sc_neg : bool; sc_ip : str; sc_point : bool; sc_fp : str; sc_after : str; sc_rest : str }.
Definition scan_text (x : scanned) : str := sc_before x ++ figure (sc_neg x) (sc_ip x) (sc_point x) (sc_fp x) ++ sc_after x.
Definition scan_ok (s : str) (x : scanned) : Prop :=
  s = scan_text x ++ sc_rest x /\ Forall space (sc_before x) /\ Forall space (sc_after x) /\ figure_ok (sc_ip x) (sc_point x) (sc_fp x).
Definition scan_end (s : str) : str :=
  let p := skip c_space s in
  let p := match p with 45 :: r => r | _ => p end in
  let p := skip c_digit p in
  let p := match p with 46 :: r => skip c_digit r | _ => p end in
  skip c_space p.
Lemma minus_case (s : str) : (exists r, s = 45 :: r) \/ (match s with 45 :: r => r | _ => s end = s /\ match s with [] => true | c :: _ => negb (c =? 45) end = true).
Proof. destruct s as [|c s]; [right; auto|]. destruct (N.eqb_spec c 45) as [->|H]; [left; eauto|right]. split; [|reflexivity]. destruct c as [|p]; [reflexivity|]. repeat (destruct p as [p|p|]; try reflexivity). congruence. Qed.
Lemma point_case (s : str) (f : str -> str) : (exists r, s = 46 :: r) \/ (match s with 46 :: r => f r | _ => s end = s /\ match s with [] => true | c :: _ => negb (c =? 46) end = true).
Proof. destruct s as [|c s]; [right; auto|]. destruct (N.eqb_spec c 46) as [->|H]; [left; eauto|right]. split; [|reflexivity]. destruct c as [|p]; [reflexivity|]. repeat (destruct p as [p|p|]; try reflexivity). congruence. Qed.
Lemma scan_exists s : exists x, scan_ok s x /\ scan_end s = sc_rest x /\ match sc_rest x with [] => True | c :: _ => ~ space c end.
Proof.
  unfold scan_end, skip.
  destruct (span_parts c_space s) as [w1 [s1 [E1 [D1 [F1 _]]]]]. rewrite E1. cbn [snd].
  assert (exists ng s2, s1 = (if ng : bool then [45] else []) ++ s2 /\ match s1 with 45 :: r => r | _ => s1 end = s2) as [ng [s2 [D2 E2]]].
  { destruct (minus_case s1) as [[r ->]|[E _]]; [exists true, r; auto|]. exists false, s1. auto. }
  rewrite E2. destruct (span_parts c_digit s2) as [ip [s3 [E3 [D3 [F3 _]]]]]. rewrite E3. cbn [snd].
  assert (exists pt fp s4, s3 = (if pt : bool then 46 :: fp else []) ++ s4 /\ match s3 with 46 :: r => snd (span c_digit r) | _ => s3 end = s4 /\ forallb c_digit fp = true /\ (pt = false -> fp = [])) as [pt [fp [s4 [D4 [E4 [F4 G4]]]]]].
  { destruct (point_case s3 (fun r => snd (span c_digit r))) as [[r ->]|[E _]].
    - destruct (span_parts c_digit r) as [fp [s4 [E4 [-> [F4 _]]]]]. rewrite E4. exists true, fp, s4. repeat split; auto. discriminate.
    - exists false, [], s3. auto. }
  rewrite E4. destruct (span_parts c_space s4) as [w2 [s5 [E5 [D5 [F5 K5]]]]]. rewrite E5. cbn [snd].
  exists {| sc_before := w1; sc_neg := ng; sc_ip := ip; sc_point := pt; sc_fp := fp; sc_after := w2; sc_rest := s5 |}. unfold scan_ok, scan_text, figure, figure_ok. cbn. subst. split; [|split].
  - split; [rewrite <- !app_assoc; reflexivity|]. split; [now apply spaces|]. split; [now apply spaces|]. split; [now apply digits|]. split; [now apply digits|assumption].
  - reflexivity.
  - destruct s5 as [|c s5]; [exact I|]. intros C. apply c_space_spec in C. rewrite C in K5. discriminate.
Qed.
(** The decomposition of a numeral is the one found by the scan. *)
Lemma digit_not c : digit c -> c_space c = false /\ c <> 45 /\ c <> 46 /\ c <> 43 /\ py_space c = false.
Proof. unfold digit, c_space, py_space. intros H. repeat split; try lia. - rewrite !orb_false_iff, !N.eqb_neq. lia. - rewrite orb_false_iff, andb_false_iff, N.eqb_neq, !N.leb_gt. lia. Qed.
Lemma space_not c : space c -> c_digit c = false /\ c <> 45 /\ c <> 46 /\ c <> 0.
Proof. unfold space, c_digit. cbn. intros H. repeat split; try lia. apply andb_false_iff. rewrite !N.leb_gt. lia. Qed.
Definition head_not (p : N -> bool) (s : str) : bool := match s with [] => true | c :: _ => negb (p c) end.
Lemma head_app_space p w s : (forall c, space c -> p c = false) -> Forall space w -> head_not p s = true -> head_not p (w ++ s) = true.
Proof. intros H F K. destruct w as [|c w]; [exact K|]. cbn. inversion F; subst. now rewrite H. Qed.
Definition stops (rest : str) : Prop := rest = [] \/ exists r, rest = 0 :: r.
Lemma stops_head p rest : p 0 = false -> stops rest -> head_not p rest = true.
Proof. intros P [->|[r ->]]; [reflexivity|]. cbn. now rewrite P. Qed.
Lemma after_head p after rest : (forall c, space c -> p c = false) -> p 0 = false -> Forall space after -> stops rest -> head_not p (after ++ rest) = true.
Proof. intros H P F K. apply head_app_space; [exact H|exact F|now apply stops_head]. Qed.
Lemma after_digit after rest : Forall space after -> stops rest -> head_not c_digit (after ++ rest) = true.
Proof. apply after_head; [|reflexivity]. intros c C. apply (space_not c C). Qed.
Lemma skip_after after rest : Forall space after -> stops rest -> snd (span c_space (after ++ rest)) = rest.
Proof. intros A R. rewrite span_stop; [reflexivity|apply spaces, A|]. now apply (stops_head c_space). Qed.
Lemma scan_end_spec before ng ip pt fp after rest : Forall space before -> Forall space after -> figure_ok ip pt fp -> stops rest -> scan_end ((before ++ figure ng ip pt fp ++ after) ++ rest) = rest.
Proof.
  intros B A [I [F P]] R. unfold scan_end, skip, figure. rewrite <- !app_assoc.
  set (tail := ip ++ (if pt then 46 :: fp else []) ++ after ++ rest).
  assert (snd (span c_space (match snd (span c_digit tail) with 46 :: r => snd (span c_digit r) | _ => snd (span c_digit tail) end)) = rest) as T.
  { unfold tail. rewrite (span_stop c_digit ip); [|apply digits, I|destruct pt; [reflexivity|exact (after_digit after rest A R)]]. cbn [snd]. destruct pt; cbn [app].
    - rewrite (span_stop c_digit fp); [|apply digits, F|exact (after_digit after rest A R)]. cbn [snd]. now apply skip_after.
    - assert (match after ++ rest with 46 :: r => snd (span c_digit r) | _ => after ++ rest end = after ++ rest) as E.
      { destruct (point_case (after ++ rest) (fun r => snd (span c_digit r))) as [[r C]|[C _]]; [|exact C]. exfalso. pose proof (after_head (N.eqb 46) after rest) as Hd. rewrite C in Hd. cbn in Hd. enough (false = true) by discriminate. apply Hd; [|reflexivity|assumption|assumption]. intros c [<-|[<-|[<-|[<-|[]]]]]; reflexivity. }
      rewrite E. now apply skip_after. }
  destruct ng.
  - rewrite (span_stop c_space before); [|apply spaces, B|reflexivity]. cbn [snd app]. exact T.
  - cbn [app]. destruct ip as [|c ip].
    + destruct pt.
      * rewrite (span_stop c_space before); [|apply spaces, B|reflexivity]. cbn [snd]. exact T.
      * specialize (P eq_refl). subst fp. unfold tail in *. cbn [app] in *. rewrite app_assoc, span_stop; [|apply spaces, Forall_app; auto|now apply (stops_head c_space)]. cbn [snd].
        destruct R as [->|[r ->]]; reflexivity.
    + destruct (digit_not c (Forall_inv I)) as [X [Y _]]. rewrite (span_stop c_space before); [|apply spaces, B|unfold tail; cbn; now rewrite X]. cbn [snd].
      destruct (minus_case tail) as [[r C]|[C _]]; [unfold tail in C; cbn in C; congruence|]. rewrite C. exact T.
Qed.

(** ** Python's float() *)
Lemma digits_decimal s : Forall digit s -> forall a, fold_left (fun a c => (10 * a + (Z.of_N c - 48))%Z) s a = (a * 10 ^ Z.of_nat (List.length s) + decimal s)%Z.
Proof.
  induction 1 as [|c s D F IH]; intros a; cbn [fold_left decimal List.length]; [rewrite Z.mul_1_r; lia|]. rewrite IH, Nat2Z.inj_succ, Z.pow_succ_r by lia. ring.
Qed.
Lemma digits_value_eq s : Forall digit s -> digits_value s = decimal s.
Proof. intros F. unfold digits_value. rewrite digits_decimal by assumption. lia. Qed.
Definition figure_value (ng : bool) (ip fp : str) : Q :=
  let v := (inject_Z (decimal (ip ++ fp)) / inject_Z (10 ^ Z.of_nat (List.length fp)))%Q in if ng then (- v)%Q else v.
Lemma py_parse_figure ng ip pt fp : figure_ok ip pt fp -> py_parse (figure ng ip pt fp) = match ip ++ fp with [] => Err ValueError | _ => Ok (rnd (figure_value ng ip fp)) end.
Proof.
  intros [I [F P]]. unfold py_parse, figure. set (core := ip ++ (if pt then 46 :: fp else [])).
  assert (exists x, (let (n, s) := match (if ng then [45] else []) ++ core with 45 :: r => (true, r) | 43 :: r => (false, r) | _ => (false, (if ng then [45] else []) ++ core) end in (n, s)) = x /\ x = (ng, core)) as [x [Ex ->]].
  { eexists. split; [reflexivity|]. destruct ng; [reflexivity|]. cbn [app]. unfold core. destruct ip as [|c ip]; [destruct pt; reflexivity|]. inversion I as [|? ? Dc]; subst. destruct (digit_not c Dc) as [_ [X [_ [Y _]]]]. cbn. destruct c as [|q]; [reflexivity|]. repeat (destruct q as [q|q|]; try reflexivity); congruence. }
  assert (match (if ng then [45] else []) ++ core with 45 :: r => (true, r) | 43 :: r => (false, r) | _ => (false, (if ng then [45] else []) ++ core) end = (ng, core)) as ->.
  { rewrite <- Ex. now destruct (match (if ng then [45] else []) ++ core with 45 :: r => (true, r) | 43 :: r => (false, r) | _ => (false, (if ng then [45] else []) ++ core) end). }
  unfold core. rewrite (span_stop c_digit ip) by (apply digits, I || destruct pt; reflexivity).
  destruct pt.
  - rewrite <- (app_nil_r fp) at 1. rewrite (span_stop c_digit fp) by (apply digits, F || reflexivity). destruct (ip ++ fp) as [|c r] eqn:E; [reflexivity|]. rewrite <- E. rewrite digits_value_eq by (apply Forall_app; auto). reflexivity.
  - specialize (P eq_refl). subst fp. destruct (ip ++ []) as [|c r] eqn:E; [reflexivity|]. rewrite <- E. rewrite digits_value_eq by (apply Forall_app; auto). reflexivity.
Qed.
Lemma no_nul_digits l : forallb c_digit l = true -> ~ In 0 l.
Proof. intros F I. rewrite forallb_forall in F. apply F in I. discriminate. Qed.
Lemma py_parse_nul s n : py_parse s = Ok n -> ~ In 0 s.
Proof.
  unfold py_parse. intros H.
  assert (exists ng t, match s with 45 :: r => (true, r) | 43 :: r => (false, r) | _ => (false, s) end = (ng, t) /\ (In 0 s -> In 0 t)) as [ng [t [E K]]].
  { destruct s as [|c s]; [exists false, []; auto|]. destruct (N.eqb_spec c 45) as [->|C]; [exists true, s; split; [reflexivity|intros [X|X]; [discriminate|exact X]]|]. destruct (N.eqb_spec c 43) as [->|C']; [exists false, s; split; [reflexivity|intros [X|X]; [discriminate|exact X]]|].
    exists false, (c :: s). split; [|auto]. destruct c as [|q]; [reflexivity|]. repeat (destruct q as [q|q|]; try reflexivity); congruence. }
  rewrite E in H. intros I. apply K in I. destruct (span_parts c_digit t) as [ip [u [E2 [-> [F2 _]]]]]. rewrite E2 in H. apply in_app_iff in I. destruct I as [I|I]; [now apply no_nul_digits in I|].
  destruct (point_case u (fun x => x)) as [[r ->]|[_ C]].
  - destruct I as [I|I]; [discriminate|]. destruct (span_parts c_digit r) as [fp [v [E3 [-> [F3 _]]]]]. rewrite E3 in H. apply in_app_iff in I. destruct I as [I|I]; [now apply no_nul_digits in I|]. destruct v; [destruct I|]. discriminate.
  - assert (match u with 46 :: r => span c_digit r | _ => ([], u) end = ([], u)) as X. { destruct u as [|c u]; [reflexivity|]. destruct c as [|q]; [reflexivity|]. repeat (destruct q as [q|q|]; try reflexivity). discriminate. }
    rewrite X in H. destruct u; [destruct I|]. discriminate.
Qed.
Lemma skip_keeps p s c : p c = false -> In c s -> In c (skip p s).
Proof.
  intros P I. unfold skip. destruct (span_parts p s) as [a [b [E [-> [F _]]]]]. rewrite E. cbn. apply in_app_iff in I. destruct I as [I|I]; [|exact I]. rewrite forallb_forall in F. apply F in I. congruence.
Qed.
Lemma strip_keeps s c : py_space c = false -> In c s -> In c (py_strip s).
Proof. intros P I. unfold py_strip. apply in_rev. rewrite rev_involutive. apply skip_keeps; [exact P|]. apply in_rev. rewrite rev_involutive. now apply skip_keeps. Qed.
Lemma space_py c : space c -> py_space c = true.
Proof. unfold space. cbn. intros [<-|[<-|[<-|[<-|[]]]]]; reflexivity. Qed.
Lemma spaces_py l : Forall space l -> forallb py_space l = true.
Proof. intros F. rewrite forallb_forall. intros x I. rewrite Forall_forall in F. apply space_py, F, I. Qed.
Lemma skip_all p s : forallb p s = true -> skip p s = [].
Proof. intros H. unfold skip. rewrite <- (app_nil_r s), span_stop by (assumption || reflexivity). reflexivity. Qed.
Lemma skip_stop p a b : forallb p a = true -> head_not p b = true -> skip p (a ++ b) = b.
Proof. intros H K. unfold skip. now rewrite span_stop. Qed.
Lemma forallb_rev p (l : str) : forallb p l = true -> forallb p (rev l) = true.
Proof. rewrite !forallb_forall. intros H x I. apply H, in_rev, I. Qed.
Definition last_not (p : N -> bool) (s : str) : bool := head_not p (rev s).
Lemma py_strip_core a t b : Forall space a -> Forall space b -> head_not py_space t = true -> last_not py_space t = true -> py_strip (a ++ t ++ b) = t.
Proof.
  intros A B H L. unfold py_strip. destruct t as [|c t].
  - cbn [app]. rewrite (skip_all py_space (a ++ b)) by (rewrite forallb_app, !spaces_py by assumption; reflexivity). reflexivity.
  - rewrite (skip_stop py_space a); [|apply spaces_py, A|exact H]. rewrite rev_app_distr, skip_stop; [|apply forallb_rev, spaces_py, B|exact L]. now rewrite rev_involutive.
Qed.
Lemma figure_ends ng ip pt fp : figure_ok ip pt fp -> head_not py_space (figure ng ip pt fp) = true /\ last_not py_space (figure ng ip pt fp) = true.
Proof.
  intros [I [F P]].
  assert (forall c, In c (figure ng ip pt fp) -> py_space c = false) as K.
  { intros c X. unfold figure in X. rewrite !in_app_iff in X. destruct X as [X|[X|X]].
    - destruct ng; [destruct X as [<-|[]]; reflexivity|destruct X].
    - rewrite Forall_forall in I. now apply digit_not, I.
    - destruct pt; [|destruct X]. destruct X as [<-|X]; [reflexivity|]. rewrite Forall_forall in F. now apply digit_not, F. }
  split.
  - destruct (figure ng ip pt fp) as [|c t]; [reflexivity|]. cbn. rewrite K by now left. reflexivity.
  - unfold last_not. destruct (rev (figure ng ip pt fp)) as [|c t] eqn:E; [reflexivity|]. cbn. rewrite K; [reflexivity|]. apply in_rev. rewrite E. now left.
Qed.

(** ** number() of a string *)
Lemma rounds_collapse q n : rounds_to q n -> rounds_to q (number_new n).
Proof.
  unfold number_new. destruct (is_zero n) eqn:Z; [|auto]. destruct n as [| | | |r]; try discriminate; cbn [rounds_to]; intros [A B].
  - split; [|exact B]. pose proof (rounds_unique q q NNegZero (rnd q) ltac:(reflexivity) (conj A B) (rnd_rounds q)) as Sm. pose proof (rnd_rounds q) as R. destruct (rnd q); cbn in Sm; try contradiction; cbn in R.
    + destruct B as [_ [N _]]. pose proof (N (- (1))%Q ltac:(exists (-1)%Z, 0%Z; split; [reflexivity|split; [reflexivity|lia]])) as N1. pose proof (representable_small 1%Q ltac:(exists 1%Z, 0%Z; split; [reflexivity|split; [reflexivity|lia]])) as L1. rewrite (Qabs_pos 1%Q) in L1 by discriminate. qabs (q - 0)%Q; qabs (q - - (1))%Q; qabs q; lra.
    + apply R.
  - cbn in Z. apply Qeq_bool_iff in Z. split; [exact A|]. apply (nearest_comp q q r 0); [reflexivity|exact Z|exact B].
Qed.
Lemma scan_end_numeral s q : numeral s q -> scan_end s = [].
Proof. intros [b [ng [ip [pt [fp [a [-> [B [A [F [NE _]]]]]]]]]]]. rewrite <- (app_nil_r (b ++ _)). apply scan_end_spec; auto. now left. Qed.
Lemma from_string_eq s : from_string s =
  if negb (match scan_end s with [] => true | c :: _ => c =? 0 end) || Nat.eqb (List.length (scan_end s)) (List.length s) then Ok NNaN
  else do d <- py_float s ; Ok (number_new d).
Proof. reflexivity. Qed.
Lemma py_parse_err s e : py_parse s = Err e -> e = ValueError.
Proof.
  unfold py_parse. destruct (match s with 45 :: r => (true, r) | 43 :: r => (false, r) | _ => (false, s) end) as [ng t]. destruct (span c_digit t) as [ip u]. destruct (match u with 46 :: r => span c_digit r | _ => ([], u) end) as [fp v].
  destruct v; [destruct (ip ++ fp)|]; intros [= <-] || discriminate; reflexivity.
Qed.
Lemma py_float_figure b ng ip pt fp a : Forall space b -> Forall space a -> figure_ok ip pt fp -> py_float (b ++ figure ng ip pt fp ++ a) = match ip ++ fp with [] => Err ValueError | _ => Ok (rnd (figure_value ng ip fp)) end.
Proof. intros B A F. unfold py_float. destruct (figure_ends ng ip pt fp F) as [H L]. rewrite py_strip_core by assumption. now apply py_parse_figure. Qed.
Lemma py_float_nul s : In 0 s -> py_float s = Err ValueError.
Proof.
  intros I. unfold py_float. destruct (py_parse (py_strip s)) as [n|e] eqn:E; [|now rewrite (py_parse_err _ _ E)]. exfalso. apply py_parse_nul in E. apply E, strip_keeps; [reflexivity|exact I].
Qed.
Theorem from_string_ok s n : from_string s = Ok n -> string_number s n.
Proof.
  rewrite from_string_eq. destruct (scan_exists s) as [x [[D [B [A F]]] [E K]]]. rewrite E. intros H.
  assert (sc_rest x <> [] -> forall q, ~ numeral s q) as NN by (intros R q Q; apply scan_end_numeral in Q; congruence).
  destruct (sc_rest x) as [|c r] eqn:R.
  - cbn [negb orb List.length] in H. destruct (Nat.eqb 0 (List.length s)) eqn:L.
    + injection H as <-. right. split; [|reflexivity]. apply Nat.eqb_eq in L. destruct s; [|discriminate]. intros q [b [ng [ip [pt [fp [a [Q [_ [_ [[_ [_ P]] [NE _]]]]]]]]]]]. symmetry in Q. apply app_eq_nil in Q. destruct Q as [_ Q]. apply app_eq_nil in Q. destruct Q as [Q _]. unfold figure in Q. apply app_eq_nil in Q. destruct Q as [_ Q]. apply app_eq_nil in Q. destruct Q as [Q1 Q2]. destruct pt; [discriminate|]. apply NE. now rewrite Q1, P.
    + rewrite app_nil_r in D. rewrite D in H. unfold scan_text in H. rewrite py_float_figure in H by assumption. destruct (sc_ip x ++ sc_fp x) as [|d l] eqn:NE; [discriminate|]. cbn [bind] in H. injection H as <-. left. exists (figure_value (sc_neg x) (sc_ip x) (sc_fp x)). split; [|apply rounds_collapse, rnd_rounds].
      exists (sc_before x), (sc_neg x), (sc_ip x), (sc_point x), (sc_fp x), (sc_after x). repeat split; try assumption; try apply F. rewrite NE; discriminate.
  - specialize (NN ltac:(discriminate)). right. split; [exact NN|]. destruct (c =? 0) eqn:C; cbn [negb orb] in H.
    + apply N.eqb_eq in C. subst c. destruct (Nat.eqb (List.length (0 :: r)) (List.length s)); [now injection H as <-|]. rewrite py_float_nul in H; [discriminate|]. rewrite D. apply in_app_iff. right. now left.
    + now injection H as <-.
Qed.
Theorem from_string_err s e : from_string s = Err e -> e = ValueError /\ unconvertible s.
Proof.
  rewrite from_string_eq. destruct (scan_exists s) as [x [[D [B [A F]]] [E K]]]. rewrite E. intros H.
  destruct (negb _ || _) eqn:G; [discriminate|]. apply orb_false_iff in G. destruct G as [G1 G2]. apply negb_false_iff in G1. apply Nat.eqb_neq in G2.
  assert (scan_text x <> []) as T. { intros T. apply G2. rewrite D, T. reflexivity. }
  assert (e = ValueError /\ ((sc_rest x = [] /\ sc_ip x ++ sc_fp x = []) \/ exists r, sc_rest x = 0 :: r)) as [-> Q].
  { destruct (sc_rest x) as [|c r] eqn:R.
    - rewrite app_nil_r in D. rewrite D in H. unfold scan_text in H. rewrite py_float_figure in H by assumption. destruct (sc_ip x ++ sc_fp x) as [|d l] eqn:NE; [|discriminate]. injection H as <-. auto.
    - apply N.eqb_eq in G1. subst c. rewrite py_float_nul in H; [injection H as <-; eauto|]. rewrite D. apply in_app_iff. right. now left. }
  split; [reflexivity|]. exists (sc_before x), (sc_neg x), (sc_ip x), (sc_point x), (sc_fp x), (sc_after x), (sc_rest x). auto 10.
Qed.
Theorem from_string_unconvertible s : unconvertible s -> from_string s = Err ValueError.
Proof.
  intros [b [ng [ip [pt [fp [a [rest [D [B [A [F [T Q]]]]]]]]]]]]. rewrite from_string_eq.
  assert (stops rest) as R by (destruct Q as [[-> _]|[r ->]]; [now left|right; eauto]).
  assert (scan_end s = rest) as -> by (rewrite D; now apply scan_end_spec).
  assert (Nat.eqb (List.length rest) (List.length s) = false) as ->. { apply Nat.eqb_neq. rewrite D, app_length. destruct (b ++ figure ng ip pt fp ++ a); [congruence|]. cbn. lia. }
  destruct Q as [[-> E]|[r ->]]; cbn [negb orb N.eqb].
  - rewrite D, app_nil_r, py_float_figure by assumption. now rewrite E.
  - rewrite py_float_nul; [reflexivity|]. rewrite D. apply in_app_iff. right. now left.
Qed.
