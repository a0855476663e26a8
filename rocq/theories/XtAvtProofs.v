(** * Attribute value templates: proofs *)
From Coq Require Import NArith String List Bool Lia Arith.
From Verif Require Import PyStr PyErr XsModel XtAvt XtAvtSpec.
Import ListNotations.
Local Open Scope N_scope.

(** ** The text of an expression *)
Lemma cut_in_literal (q : N) (s t : str) : ~ In q s ->
  cut_expr (Some q) (s ++ q :: t) = match cut_expr None t with Some (x, r) => Some (s ++ q :: x, r) | None => None end.
Proof.
  induction s as [|c s IH]; intros H; cbn [app cut_expr].
  - rewrite N.eqb_refl. destruct (cut_expr None t) as [[? ?]|]; reflexivity.
  - destruct (N.eqb_spec c q) as [->|]; [exfalso; apply H; now left|]. rewrite IH by (intros K; apply H; now right).
    destruct (cut_expr None t) as [[? ?]|]; reflexivity.
Qed.
Lemma cut_closed (t r : str) : closed t -> cut_expr None (t ++ 125 :: r) = Some (t, r).
Proof.
  induction 1 as [|c t A B D _ IH|q s t Q S _ IH].
  - reflexivity.
  - cbn [app cut_expr]. destruct (N.eqb_spec c 125); [contradiction|]. destruct (N.eqb_spec c 39); [contradiction|]. destruct (N.eqb_spec c 34); [contradiction|].
    cbn [orb]. now rewrite IH.
  - cbn [app]. rewrite <- app_assoc. cbn [app cut_expr]. destruct (N.eqb_spec q 125) as [->|]; [destruct Q; discriminate|].
    assert ((q =? 39) || (q =? 34) = true) as -> by (destruct Q as [->| ->]; reflexivity).
    rewrite cut_in_literal by assumption. now rewrite IH.
Qed.
Lemma cut_inv (s : str) : forall (o : option N) (t r : str), cut_expr o s = Some (t, r) ->
  s = t ++ 125 :: r /\ match o with None => closed t | Some q => exists a t', t = a ++ q :: t' /\ ~ In q a /\ closed t' end.
Proof.
  induction s as [|c s IH]; intros o t r; [discriminate|]. cbn [cut_expr].
  assert (forall o' t r, (match cut_expr o' s with Some (t, rest) => Some (c :: t, rest) | None => None end) = Some (t, r) ->
    exists t', t = c :: t' /\ cut_expr o' s = Some (t', r)) as Go.
  { intros o' t0 r0. destruct (cut_expr o' s) as [[x y]|]; intros [= <- <-]. eauto. }
  destruct o as [q|].
  - destruct (N.eqb_spec c q) as [->|Nq]; intros H; apply Go in H; destruct H as (t' & -> & H); apply IH in H; destruct H as [-> H]; split; try reflexivity.
    + exists [], t'. repeat split; [intros []|exact H].
    + destruct H as (a & t2 & -> & Na & Cl). exists (c :: a), t2. repeat split; [|exact Cl]. intros [K|K]; [congruence|auto].
  - destruct (N.eqb_spec c 125) as [->|N1]; [intros [= <- <-]; split; [reflexivity|constructor]|].
    destruct (N.eqb_spec c 39) as [->|N2]; cbn [orb].
    { intros H; apply Go in H; destruct H as (t' & -> & H); apply IH in H; destruct H as [-> (a & t2 & -> & Na & Cl)]. split; [reflexivity|]. now constructor; [left| |]. }
    destruct (N.eqb_spec c 34) as [->|N3].
    { intros H; apply Go in H; destruct H as (t' & -> & H); apply IH in H; destruct H as [-> (a & t2 & -> & Na & Cl)]. split; [reflexivity|]. now constructor; [right| |]. }
    intros H; apply Go in H; destruct H as (t' & -> & H); apply IH in H; destruct H as [-> H]. split; [reflexivity|]. now constructor.
Qed.

Section Proofs.
Context {E C : Type}.
Variable parse : str -> option E.
Variable ev : E -> C -> result str.
Notation parse_avt := (parse_avt parse).
Notation parse_single := (parse_single parse).

Lemma parse_avt_S (f : nat) (s : str) : parse_avt (S f) s =
  match s with
  | [] => Ok []
  | c :: r =>
      if is_brace c then
        match r with
        | d :: r2 => if d =? c then rmap (cons (Plain [c])) (parse_avt f r2) else parse_single f c r
        | [] => parse_single f c r
        end
      else let (run, rest) := span (fun x => negb (is_brace x)) s in rmap (cons (Plain run)) (parse_avt f rest)
  end.
Proof. reflexivity. Qed.
Lemma parse_single_S (f : nat) (c : N) (r : str) : parse_single (S f) c r =
  if c =? 125 then Err AvtSyntax
  else match cut_expr None r with
       | None => Err AvtSyntax
       | Some (t, rest) => match parse t with None => Err AvtSyntax | Some e => rmap (cons (Parsed e)) (parse_avt f rest) end
       end.
Proof. reflexivity. Qed.

(** ** What the parser accepts is a template *)
Lemma chars_run (s : str) : Forall (fun x => is_brace x = false) s -> write1 (Chars s) = s.
Proof.
  induction 1 as [|c s H _ IH]; [reflexivity|]. cbn [write1 flat_map] in *. unfold is_brace in H. rewrite H. cbn [app]. now f_equal.
Qed.
Lemma span_all (p : N -> bool) (s : str) : Forall (fun x => p x = true) (fst (span p s)) /\ s = fst (span p s) ++ snd (span p s).
Proof.
  induction s as [|c s [IH1 IH2]]; [split; [constructor|reflexivity]|]. cbn [span]. destruct (p c) eqn:Ep; [|split; [constructor|reflexivity]].
  destruct (span p s) as [a b]. cbn [fst snd] in *. split; [now constructor|]. cbn. now f_equal.
Qed.

Lemma accepted (fuel : nat) : forall (s : str) (qs : list (part E)), parse_avt fuel s = Ok qs -> exists ps, template parse ps /\ write ps = s.
Proof.
  induction fuel as [fuel IH] using lt_wf_ind. intros s qs. destruct fuel as [|f]; [discriminate|]. rewrite parse_avt_S.
  destruct s as [|c r]; [intros _; exists []; split; [constructor|reflexivity]|].
  assert (forall r0 qs, is_brace c = true -> hd 0 r0 <> c -> parse_single f c r0 = Ok qs -> exists ps, template parse ps /\ write ps = c :: r0) as Single.
  { intros r0 qs0 Bc Hd. destruct f as [|f]; [discriminate|]. rewrite parse_single_S. destruct (N.eqb_spec c 125) as [->|N1]; [discriminate|].
    assert (c = 123) as -> by (unfold is_brace in Bc; destruct (N.eqb_spec c 123); [assumption|]; destruct (N.eqb_spec c 125); [contradiction|discriminate]).
    destruct (cut_expr None r0) as [[t rest]|] eqn:Ec; [|discriminate]. destruct (parse t) as [e|] eqn:Ep; [|discriminate].
    destruct (parse_avt f rest) as [q2|] eqn:Eq; [|discriminate]. intros _. apply IH in Eq; [|lia]. destruct Eq as (ps & Hps & Hw).
    apply cut_inv in Ec. destruct Ec as [-> Cl]. exists (Expr t :: ps). split.
    - constructor; [|exact Hps]. split; [exact Cl|]. split; [|eauto]. destruct t; cbn in *; [discriminate|exact Hd].
    - unfold write in *. cbn [flat_map write1 app]. rewrite Hw, <- app_assoc. reflexivity. }
  destruct (is_brace c) eqn:Bc.
  - destruct r as [|d r2].
    + apply Single; [reflexivity|]. cbn. unfold is_brace in Bc. intros <-. discriminate.
    + destruct (N.eqb_spec d c) as [->|Nd]; [|apply Single; [reflexivity|exact Nd]].
      destruct (parse_avt f r2) as [q2|] eqn:Eq; [|discriminate]. intros _. apply IH in Eq; [|lia]. destruct Eq as (ps & Hps & Hw).
      exists (Chars [c] :: ps). split; [constructor; [exact I|exact Hps]|]. unfold write in *. cbn [flat_map write1]. unfold is_brace in Bc. rewrite Bc, Hw. reflexivity.
  - pose proof (span_all (fun x => negb (is_brace x)) (c :: r)) as [H1 H2]. destruct (span (fun x => negb (is_brace x)) (c :: r)) as [run rest]. cbn [fst snd] in *.
    destruct (parse_avt f rest) as [q2|] eqn:Eq; [|discriminate]. intros _. apply IH in Eq; [|lia]. destruct Eq as (ps & Hps & Hw).
    exists (Chars run :: ps). split; [constructor; [exact I|exact Hps]|]. unfold write in *. cbn [flat_map]. rewrite chars_run, Hw; [congruence|].
    eapply Forall_impl; [|exact H1]. cbn. intros a Ha. now destruct (is_brace a).
Qed.

(** ** A template is accepted, and its parts are known *)
Inductive atom := AC (c : N) | AX (t : str).
Definition atoms1 (p : piece) : list atom := match p with Chars s => map AC s | Expr t => [AX t] end.
Definition write_atom (a : atom) : str :=
  match a with AC c => if (c =? 123) || (c =? 125) then [c; c] else [c] | AX t => [123] ++ t ++ [125] end.
Lemma write_atoms (ps : list piece) : write ps = flat_map write_atom (flat_map atoms1 ps).
Proof.
  unfold write. induction ps as [|p ps IH]; [reflexivity|]. cbn [flat_map]. rewrite flat_map_app, <- IH. f_equal.
  destruct p as [s|t]; cbn [write1 atoms1]; [|cbn; now rewrite app_nil_r]. induction s as [|c s IHs]; [reflexivity|]. cbn [flat_map map write_atom]. now rewrite IHs.
Qed.
Definition good_atom (a : atom) : Prop := match a with AC _ => True | AX t => closed t /\ hd 0 t <> 123 /\ exists e, parse t = Some e end.
Lemma good_atoms (ps : list piece) : template parse ps -> Forall good_atom (flat_map atoms1 ps).
Proof.
  induction 1 as [|p ps H _ IH]; [constructor|]. cbn [flat_map]. apply Forall_app. split; [|exact IH]. destruct p as [s|t]; cbn; [|constructor; [exact H|constructor]].
  apply Forall_forall. intros a Ha. apply in_map_iff in Ha. destruct Ha as (c & <- & _). exact I.
Qed.
Definition flat1 (q : part E) : list (N + E) := match q with Plain s => map inl s | Parsed e => [inr e] end.
Definition same (a : atom) (x : N + E) : Prop := match a, x with AC c, inl d => c = d | AX t, inr e => parse t = Some e | _, _ => False end.

Lemma split_run (l : list atom) : exists run rest, l = map AC run ++ rest /\ Forall (fun x => is_brace x = false) run /\
  match rest with AC c :: _ => is_brace c = true | _ => True end.
Proof.
  induction l as [|[c|t] l IH].
  - exists [], []. repeat constructor.
  - destruct (is_brace c) eqn:Bc.
    + exists [], (AC c :: l). repeat split; [constructor|exact Bc].
    + destruct IH as (run & rest & -> & H1 & H2). exists (c :: run), rest. repeat split; [now constructor|exact H2].
  - exists [], (AX t :: l). repeat split. constructor.
Qed.
Lemma span_run (run w : str) : Forall (fun x => is_brace x = false) run -> match w with [] => True | c :: _ => is_brace c = true end ->
  span (fun x => negb (is_brace x)) (run ++ w) = (run, w).
Proof.
  induction 1 as [|c run H _ IH]; intros Hw; cbn [app].
  - destruct w as [|c w]; [reflexivity|]. cbn [span]. now rewrite Hw.
  - cbn [span]. rewrite H. cbn [negb]. now rewrite IH.
Qed.
Lemma write_run (run : str) : Forall (fun x => is_brace x = false) run -> flat_map write_atom (map AC run) = run.
Proof. induction 1 as [|c run H _ IH]; [reflexivity|]. cbn [map flat_map write_atom]. unfold is_brace in H. rewrite H. cbn [app]. now f_equal. Qed.
Lemma same_run (run : str) : Forall2 same (map AC run) (map inl run).
Proof. induction run; constructor; [reflexivity|assumption]. Qed.
Lemma write_first (rest : list atom) : match rest with AC c :: _ => is_brace c = true | _ => True end ->
  match flat_map write_atom rest with [] => True | c :: _ => is_brace c = true end.
Proof.
  destruct rest as [|[c|t] rest]; intros H; [exact I| |reflexivity]. cbn [flat_map write_atom]. unfold is_brace in H. rewrite H. exact H.
Qed.

Lemma parse_template (n : nat) : forall (l : list atom) (fuel : nat), (length l < n)%nat -> Forall good_atom l -> (2 * S (length (flat_map write_atom l)) <= fuel)%nat ->
  exists qs, parse_avt fuel (flat_map write_atom l) = Ok qs /\ Forall2 same l (flat_map flat1 qs).
Proof.
  induction n as [|n IH]; intros l fuel Hn G Hf; [lia|]. destruct fuel as [|f]; [lia|]. rewrite parse_avt_S. destruct l as [|[c|t] l].
  - exists []. split; [reflexivity|constructor].
  - destruct (is_brace c) eqn:Bc.
    + inversion G; subst. cbn [flat_map write_atom] in *. unfold is_brace in Bc. rewrite Bc in *. cbn [app length] in *.
      assert (is_brace c = true) as -> by exact Bc. rewrite N.eqb_refl.
      destruct (IH l f) as (qs & E1 & E2); [lia|assumption|lia|]. rewrite E1. exists (Plain [c] :: qs). split; [reflexivity|]. cbn. now constructor.
    + inversion G; subst. destruct (split_run l) as (run & rest & -> & H1' & H2').
      assert (Forall (fun x => is_brace x = false) (c :: run)) as Hr by now constructor.
      assert (flat_map write_atom (AC c :: map AC run ++ rest) = (c :: run) ++ flat_map write_atom rest) as Ew.
      { change (AC c :: map AC run ++ rest) with (map AC (c :: run) ++ rest). now rewrite flat_map_app, write_run. }
      rewrite Ew in *. change ((c :: run) ++ flat_map write_atom rest) with (c :: (run ++ flat_map write_atom rest)) at 1. cbv iota beta. rewrite Bc.
      rewrite span_run; [|exact Hr|now apply write_first].
      rewrite app_length in Hf. cbn [length] in Hf, Hn. rewrite app_length, map_length in Hn. apply Forall_app in H2.
      destruct (IH rest f) as (qs & E1 & E2); [lia|tauto|lia|]. rewrite E1. exists (Plain (c :: run) :: qs). split; [reflexivity|].
      cbn [flat_map flat1]. change (AC c :: map AC run ++ rest) with (map AC (c :: run) ++ rest). apply Forall2_app; [apply same_run|exact E2].
  - inversion G as [|? ? Ga G']; subst. destruct Ga as [Cl [Hd [e He]]]. cbn [flat_map write_atom app] in *. rewrite <- !app_assoc in *. cbn [app] in *.
    assert (is_brace 123 = true) as -> by reflexivity.
    assert (exists qs, parse_single f 123 (t ++ 125 :: flat_map write_atom l) = Ok qs /\ Forall2 same (AX t :: l) (flat_map flat1 qs)) as Q.
    { cbn [length] in Hf. rewrite app_length in Hf. cbn [length] in Hf, Hn. destruct f as [|f]; [lia|]. rewrite parse_single_S. change (123 =? 125) with false. cbv iota. rewrite cut_closed by assumption. rewrite He.
      destruct (IH l f) as (qs & E1 & E2); [lia|assumption|lia|]. rewrite E1. exists (Parsed e :: qs). split; [reflexivity|]. cbn. constructor; [exact He|exact E2]. }
    destruct t as [|d t]; cbn [app] in *; [exact Q|]. cbn [hd] in Hd. destruct (N.eqb_spec d 123); [contradiction|exact Q].
Qed.

(** Errors of the parser are syntax errors. *)
Lemma parse_errors (fuel : nat) : forall (s : str) (x : exn), (2 * S (length s) <= fuel)%nat -> parse_avt fuel s = Err x -> x = AvtSyntax.
Proof.
  induction fuel as [fuel IH] using lt_wf_ind. intros s x Hf. destruct fuel as [|f]; [lia|]. rewrite parse_avt_S. destruct s as [|c r]; [discriminate|].
  assert (forall r0, (length r0 <= length r)%nat -> parse_single f c r0 = Err x -> x = AvtSyntax) as Single.
  { intros r0 Hl. cbn [length] in Hf. destruct f as [|f]; [lia|]. rewrite parse_single_S. destruct (c =? 125); [now intros [= <-]|].
    destruct (cut_expr None r0) as [[t rest]|] eqn:Ec; [|now intros [= <-]]. destruct (parse t); [|now intros [= <-]].
    apply cut_inv in Ec. destruct Ec as [-> _]. rewrite app_length in Hl. cbn [length] in Hl.
    destruct (parse_avt f rest) eqn:Eq; [discriminate|]. intros [= <-]. apply IH in Eq; [exact Eq|lia|lia]. }
  cbn [length] in Hf. destruct (is_brace c) eqn:Bc.
  - destruct r as [|d r2]; [apply Single; reflexivity|]. destruct (d =? c); [|apply Single; reflexivity].
    destruct (parse_avt f r2) eqn:Eq; [discriminate|]. intros [= <-]. cbn [length] in Hf. apply IH in Eq; [exact Eq|lia|lia].
  - pose proof (span_all (fun x => negb (is_brace x)) r) as [_ H2]. cbn [span]. rewrite Bc. cbn [negb]. destruct (span (fun x => negb (is_brace x)) r) as [run rest]. cbn [fst snd] in H2. subst r.
    rewrite app_length in Hf. destruct (parse_avt f rest) eqn:Eq; [discriminate|]. intros [= <-]. apply IH in Eq; [exact Eq|lia|lia].
Qed.

(** ** The value *)
Fixpoint eval_flat (c : C) (l : list (N + E)) : result str :=
  match l with
  | [] => Ok []
  | inl x :: r => rmap (cons x) (eval_flat c r)
  | inr e :: r => do v <- ev e c ; rmap (app v) (eval_flat c r)
  end.
Lemma eval_flat_run (c : C) (s : str) (l : list (N + E)) : eval_flat c (map inl s ++ l) = rmap (app s) (eval_flat c l).
Proof. induction s as [|x s IH]; cbn [map app eval_flat]; [now destruct (eval_flat c l)|]. rewrite IH. now destruct (eval_flat c l). Qed.

Lemma format_plain (s rest : str) (vs : list str) : py_format (replace1 37 [37; 37] s ++ rest) vs = rmap (app s) (py_format rest vs).
Proof.
  unfold replace1. induction s as [|c s IH]; cbn [flat_map app]; [now destruct (py_format rest vs)|].
  destruct (N.eqb_spec c 37) as [->|Nc].
  - cbn [app py_format]. change (37 =? 37) with true. cbv iota. rewrite IH. now destruct (py_format rest vs).
  - cbn [app py_format]. destruct (N.eqb_spec c 37); [contradiction|]. rewrite IH. now destruct (py_format rest vs).
Qed.
Lemma format_parts (c : C) (qs : list (part E)) :
  (do vs <- eval_args ev (args_of qs) c ; py_format (concat (map fmt_part qs)) vs) = eval_flat c (flat_map flat1 qs).
Proof.
  induction qs as [|[s|e] qs IH].
  - reflexivity.
  - cbn [map concat fmt_part flat_map flat1]. unfold args_of in *. cbn [flat_map app]. rewrite eval_flat_run, <- IH. destruct (eval_args ev _ c) as [vs|]; [|reflexivity]. cbn [bind]. apply format_plain.
  - cbn [map concat fmt_part flat_map flat1]. unfold args_of in *. cbn [flat_map app eval_args eval_flat]. rewrite <- IH. destruct (ev e c) as [v|]; [|reflexivity]. cbn [bind].
    destruct (eval_args ev _ c) as [vs|]; [|reflexivity]. cbn [bind]. reflexivity.
Qed.
Lemma format_none (qs : list (part E)) (c : C) : args_of qs = [] -> py_format (concat (map fmt_part qs)) [] = eval_flat c (flat_map flat1 qs).
Proof. intros H. rewrite <- format_parts, H. reflexivity. Qed.

Lemma args_none_ok (qs : list (part E)) : args_of qs = [] -> exists f, py_format (concat (map fmt_part qs)) [] = Ok f.
Proof.
  induction qs as [|[s|e] qs IH]; intros H; [now exists []| |discriminate]. cbn [map concat fmt_part]. rewrite format_plain. destruct (IH H) as [f ->]. eexists; reflexivity.
Qed.

Lemma init_eval (v : str) (qs : list (part E)) : parse_avt (2 * S (length v)) v = Ok qs ->
  exists a, avt_init parse v = Ok a /\ forall c, avt_eval ev a c = eval_flat c (flat_map flat1 qs).
Proof.
  intros H. unfold avt_init. rewrite H. cbn [bind]. destruct (args_of qs) as [|e args] eqn:Ea.
  - destruct (args_none_ok qs Ea) as [f Ef]. rewrite Ef. cbn [bind]. eexists; split; [reflexivity|]. intros c. cbn [avt_eval a_args a_format]. now rewrite <- (format_none qs c Ea), Ef.
  - eexists; split; [reflexivity|]. intros c. cbn [avt_eval a_args a_format]. rewrite <- format_parts, Ea. reflexivity.
Qed.

(** The specification in terms of the atoms. *)
Lemma stands_flat (c : C) (ps : list piece) (v : str) : stands_for parse ev c ps v -> forall l, Forall2 same (flat_map atoms1 ps) l -> eval_flat c l = Ok v.
Proof.
  induction 1 as [|s ps v _ IH|t e ps x v Ht Hx _ IH]; intros l F.
  - inversion F. reflexivity.
  - cbn [flat_map atoms1] in F. apply Forall2_app_inv_l in F. destruct F as (l1 & l2 & F1 & F2 & ->).
    assert (l1 = map inl s) as ->. { clear - F1. revert l1 F1. induction s as [|y s IH]; intros l1 F; inversion F as [|? b ? ? Hs]; subst; [reflexivity|]. destruct b as [b|]; [|contradiction]. cbn in Hs. subst b. cbn. f_equal. now apply IH. }
    rewrite eval_flat_run, (IH _ F2). reflexivity.
  - cbn [flat_map atoms1 app] in F. inversion F as [|? b ? l' Hs F']; subst. destruct b as [|b]; [contradiction|]. cbn [same] in Hs. rewrite Ht in Hs. injection Hs as <-.
    cbn [eval_flat]. rewrite Hx. cbn [bind]. now rewrite (IH _ F').
Qed.
Lemma fails_flat (c : C) (ps : list piece) (x : exn) : fails parse ev c ps x -> forall l, Forall2 same (flat_map atoms1 ps) l -> eval_flat c l = Err x.
Proof.
  induction 1 as [s ps x _ IH|t e ps x Ht Hx|t e ps v x Ht Hx _ IH]; intros l F.
  - cbn [flat_map atoms1] in F. apply Forall2_app_inv_l in F. destruct F as (l1 & l2 & F1 & F2 & ->).
    assert (l1 = map inl s) as ->. { clear - F1. revert l1 F1. induction s as [|y s IH]; intros l1 F; inversion F as [|? b ? ? Hs]; subst; [reflexivity|]. destruct b as [b|]; [|contradiction]. cbn in Hs. subst b. cbn. f_equal. now apply IH. }
    rewrite eval_flat_run, (IH _ F2). reflexivity.
  - cbn [flat_map atoms1 app] in F. inversion F as [|? b ? l' Hs F']; subst. destruct b as [|b]; [contradiction|]. cbn [same] in Hs. rewrite Ht in Hs. injection Hs as <-.
    cbn [eval_flat]. now rewrite Hx.
  - cbn [flat_map atoms1 app] in F. inversion F as [|? b ? l' Hs F']; subst. destruct b as [|b]; [contradiction|]. cbn [same] in Hs. rewrite Ht in Hs. injection Hs as <-.
    cbn [eval_flat]. rewrite Hx. cbn [bind]. now rewrite (IH _ F').
Qed.

(** A template either has a value or a first failure. *)
Lemma value_or_failure (c : C) (ps : list piece) : template parse ps -> (exists v, stands_for parse ev c ps v) \/ (exists x, fails parse ev c ps x).
Proof.
  induction 1 as [|p ps H _ IH]; [left; exists []; constructor|]. destruct p as [s|t].
  - destruct IH as [[v IH]|[x IH]]; [left|right]; eexists; constructor; exact IH.
  - destruct H as (_ & _ & e & He). destruct (ev e c) as [v|x] eqn:Ev; [|right; exists x; now apply F_here with e].
    destruct IH as [[w IH]|[x IH]]; [left; eexists; eapply SF_expr; eassumption|right; eexists; eapply F_later; eassumption].
Qed.

Lemma template_init (ps : list piece) : template parse ps ->
  exists a, avt_init parse (write ps) = Ok a /\
    (forall c v, stands_for parse ev c ps v -> avt_eval ev a c = Ok v) /\ (forall c x, fails parse ev c ps x -> avt_eval ev a c = Err x).
Proof.
  intros T. destruct (parse_template (S (length (flat_map atoms1 ps))) (flat_map atoms1 ps) (2 * S (length (write ps))) (Nat.lt_succ_diag_r _) (good_atoms ps T)) as (qs & E1 & E2).
  - rewrite <- write_atoms. reflexivity.
  - rewrite <- write_atoms in E1. destruct (init_eval (write ps) qs E1) as (a & Ea & Ev). exists a. split; [exact Ea|]. split; intros c v H; rewrite Ev.
    + exact (stands_flat c ps v H _ E2).
    + exact (fails_flat c ps v H _ E2).
Qed.
Lemma init_errors (v : str) (x : exn) : avt_init parse v = Err x -> x = AvtSyntax /\ ~ exists ps, template parse ps /\ write ps = v.
Proof.
  intros H. split.
  - unfold avt_init in H. destruct (parse_avt (2 * S (length v)) v) as [qs|] eqn:Eq; cbn [bind] in H.
    + destruct (args_of qs) eqn:Ea; [|discriminate]. destruct (args_none_ok qs Ea) as [f Ef]. rewrite Ef in H. discriminate.
    + injection H as <-. now apply parse_errors in Eq.
  - intros (ps & T & <-). destruct (template_init ps T) as (a & Ea & _). rewrite Ea in H. discriminate.
Qed.
Lemma init_template (v : str) (a : avt E) : avt_init parse v = Ok a -> exists ps, template parse ps /\ write ps = v.
Proof.
  unfold avt_init. destruct (parse_avt (2 * S (length v)) v) as [qs|] eqn:Eq; [|discriminate]. intros _. now apply accepted in Eq.
Qed.
End Proofs.
