(** * C58 and C59: variables and parameters of XSLT *)
From Coq Require Import NArith String List Bool Lia Arith Permutation.
From Verif Require Import PyStr PyErr XtVars XtVarsSpec XtVarsProofs XtGlobalsProofs.
Import ListNotations.
Local Open Scope nat_scope.

(** ** C58 *)

(** The global variables get the values that follow from their definitions, or else some
    variable has no value and the error says so.  Partial: only for definitions whose content
    calls no template, visits no other node and declares no variable. *)
Theorem C58_globals_partial : forall V Nd (w : world V Nd) fuel elements init f0 rec passes,
  Forall simple_global elements -> NoDup (map fst elements) -> List.length elements < passes ->
  (exists s, prime (instantiate_global w fuel) passes elements (State f0 init false init rec) = Ok s /\
     s_vars s = s_global s /\ s_focus s = f0 /\
     (forall n v, lookup (s_global s) n = Some v <-> derives (global_value w f0) elements init n v) /\
     forall g, In g elements -> exists v, lookup (s_global s) (fst g) = Some v) \/
  (prime (instantiate_global w fuel) passes elements (State f0 init false init rec) = Err CircularVariable /\
     exists g, In g elements /\ forall v, ~ derives (global_value w f0) elements init (fst g) v).
Proof.
  intros V Nd w fuel elements init f0 rec passes Hs Hn Hp.
  destruct (prime_facts V Nd w fuel f0 elements init Hs Hn passes elements (State f0 init false init rec)) as [(s & H1 & H2 & H3 & H4)|H]; auto.
  - intros x; auto.
  - repeat split.
  - apply start_sound.
  - left. exists s. split; [exact H1|]. destruct H2 as (R1 & R2 & R3). split; [exact R3|]. split; [exact R1|]. split; [|exact H4].
    intros n v. split; [apply (proj2 H3)|]. intros Hd. destruct (derives_member _ _ _ _ _ _ _ _ Hd) as [Hl|(g & Hg & <-)].
    + apply (proj1 H3). exact Hl.
    + destruct (H4 g Hg) as (u & Hu). rewrite Hu. f_equal. symmetry. eapply derives_one; eauto. apply (proj2 H3). exact Hu.
Qed.
Print Assumptions C58_globals_partial.

(** The order of the definitions is of no importance. *)
Theorem C58_order_partial : forall V Nd (w : world V Nd) fuel elements elements' init f0 rec passes,
  Forall simple_global elements -> NoDup (map fst elements) -> Permutation elements elements' -> List.length elements < passes ->
  match prime (instantiate_global w fuel) passes elements (State f0 init false init rec),
        prime (instantiate_global w fuel) passes elements' (State f0 init false init rec) with
  | Ok s, Ok s' => forall n, lookup (s_global s) n = lookup (s_global s') n
  | Err e, Err e' => e = CircularVariable /\ e' = CircularVariable
  | _, _ => False
  end.
Proof.
  intros V Nd w fuel elements elements' init f0 rec passes Hs Hn Hperm Hp.
  assert (Hs' : Forall simple_global elements') by (eapply Permutation_Forall; eauto).
  assert (Hn' : NoDup (map fst elements')) by (eapply Permutation_NoDup; [apply Permutation_map; exact Hperm|exact Hn]).
  assert (Hp' : List.length elements' < passes) by (rewrite <- (Permutation_length Hperm); exact Hp).
  pose proof (derives_permutation V Nd w f0 elements elements' init Hperm) as D1.
  pose proof (derives_permutation V Nd w f0 elements' elements init (Permutation_sym Hperm)) as D2.
  destruct (C58_globals_partial V Nd w fuel elements init f0 rec passes Hs Hn Hp) as [(s & -> & _ & _ & H1 & H2)|(-> & g & Hg & H1)];
  destruct (C58_globals_partial V Nd w fuel elements' init f0 rec passes Hs' Hn' Hp') as [(s' & -> & _ & _ & H3 & H4)|(-> & g' & Hg' & H3)]; auto.
  - intros n. destruct (lookup (s_global s) n) as [v|] eqn:E.
    + symmetry. apply H3. apply D1. apply H1. exact E.
    + destruct (lookup (s_global s') n) as [v|] eqn:E'; auto. apply H3, D2, H1 in E'. congruence.
  - destruct (H2 g' (Permutation_in _ (Permutation_sym Hperm) Hg')) as (v & Hv). apply (H3 v). apply D1, H1. exact Hv.
  - destruct (H4 g (Permutation_in _ Hperm Hg)) as (v & Hv). apply (H1 v). apply D2, H3. exact Hv.
Qed.
Print Assumptions C58_order_partial.

(** A stylesheet over numbers: nodes are numbers, the value n is the node-set 1 .. n. *)
Definition world0 (names : str -> option (template nat nat)) (rules : nat -> option (template nat nat)) : world nat nat :=
  World (fun v => negb (v =? 0)) (fun v => seq 1 v) (fold_right plus 0) 0 (fun n => [n]) (fun _ => []) rules names.
Definition no_names : str -> option (template nat nat) := fun _ => None.
Definition no_rules : nat -> option (template nat nat) := fun _ => None.
Definition const (v : nat) : expr nat nat := Expr [] (fun _ _ => v).
Definition ref (n : string) : expr nat nat := Expr [lit n] (fun _ l => hd 0 l).
Definition twice_ref (n : string) : expr nat nat := Expr [lit n] (fun _ l => 2 * hd 0 l).
Definition here : expr nat nat := Expr [] (fun f _ => f_node f).
Definition current : expr nat nat := Expr [] (fun f _ => f_current f).
Definition root_focus : focus nat := Focus 100 1 1 100.
Definition start : state nat nat := State root_focus [] false [] None.
Definition globals_of (l : list (global nat nat)) : result (list (str * nat)) :=
  rmap (fun s => s_global s) (prime (instantiate_global (world0 no_names no_rules) 9) 9 l start).
Example C58_case :
  let l := [(lit "a", Select (twice_ref "b")); (lit "b", Content [Text 1; If (ref "c") [Value (ref "c")]]); (lit "c", Select (const 3))] in
  globals_of l = Ok [(lit "a", 8); (lit "b", 4); (lit "c", 3)] /\
  Forall simple_global l /\ NoDup (map fst l) /\
  globals_of [(lit "a", Select (twice_ref "b")); (lit "b", Select (ref "a"))] = Err CircularVariable.
Proof.
  cbn zeta. split; [vm_compute; reflexivity|]. split; [|split; [|vm_compute; reflexivity]].
  - repeat (apply Forall_cons; [cbn; auto|]). apply Forall_nil.
  - repeat apply NoDup_cons; try apply NoDup_nil; intros H; cbn in H; repeat (destruct H as [H|H]; [discriminate|]); exact H.
Qed.
(** The order matters when a variable that was met too early visits other nodes: the next
    variable is then computed at one of these nodes. *)
Theorem C58_focus_refuted :
  let early := (lit "a", Content [ForEach (const 2) [Value (ref "b")]]) in
  let place := (lit "c", Select here) in
  let b := (lit "b", Select (const 5)) in
  (exists l, globals_of [place; early; b] = Ok l /\ lookup l (lit "c") = Some 100) /\
  (exists l, globals_of [early; place; b] = Ok l /\ lookup l (lit "c") = Some 1).
Proof. cbn zeta. split; eexists; (split; [vm_compute; reflexivity|vm_compute; reflexivity]). Qed.
Print Assumptions C58_focus_refuted.
(** And when it declares variables: what is computed later is not seen by the templates. *)
Theorem C58_lost_refuted :
  let early := (lit "a", Content [Element [Var (lit "x") (Select (const 7)); Value (ref "b")]]) in
  let b := (lit "b", Select (const 5)) in
  (exists l, globals_of [b; early] = Ok l /\ lookup l (lit "b") = Some 5 /\ lookup l (lit "a") = Some 5) /\
  globals_of [early; b] = Ok [] /\
  (exists s, prime (instantiate_global (world0 no_names no_rules) 9) 9 [early; b] start = Ok s /\
     lookup (s_vars s) (lit "x") = Some 7).
Proof.
  cbn zeta. split; [eexists; split; [vm_compute; reflexivity|split; vm_compute; reflexivity]|]. split; [vm_compute; reflexivity|].
  eexists; split; [vm_compute; reflexivity|vm_compute; reflexivity].
Qed.
Print Assumptions C58_lost_refuted.

(** ** C59 *)

(** Calling a template writes what lexical scoping says, and leaves the variables of the
    caller and its focus as they were.  Partial: no local variable has the name of a global
    one, current() is not used, and calls marked as tail calls name their own template. *)
Theorem C59_scoping_partial : forall V Nd (w : world V Nd) G GN, good_stylesheet w GN ->
  forall fuel t given s, good_template w GN t -> s_global s = G -> (forall n, In n GN -> lookup (s_vars s) n = lookup G n) -> s_rec s = None ->
  match instantiate w fuel t given s with
  | Done s' out => calls w G fuel t given (s_focus s) = Ok out /\
      s_vars s' = s_vars s /\ s_global s' = s_global s /\ s_copied s' = s_copied s /\ s_rec s' = None /\
      f_node (s_focus s') = f_node (s_focus s) /\ f_position (s_focus s') = f_position (s_focus s) /\ f_size (s_focus s') = f_size (s_focus s)
  | Fail e _ => calls w G fuel t given (s_focus s) = Err e
  end.
Proof.
  intros V Nd w G GN Hg fuel t given s Ht Hs1 Hs2 Hr. unfold instantiate, enter.
  destruct (calls_simulate V Nd w G GN Hg fuel) as [Hc _]. destruct (t_params t) as [|x y] eqn:Et.
  - destruct (Hc t given s (s_focus s) Ht (conj Hs1 Hs2) (near_refl _ _)) as [(e & s' & H1 & H2)|(s' & out & H1 & H2 & ((F1 & F2 & F3) & K2 & K3) & H4 & H5 & H6)].
    + rewrite H1. exact H2.
    + rewrite H1. repeat split; auto.
  - destruct (Hc t given (set_vars s (s_vars s) true) (s_focus s) Ht (conj Hs1 Hs2) (near_refl _ _)) as [(e & s' & H1 & H2)|(s' & out & H1 & H2 & ((F1 & F2 & F3) & K2 & K3) & H4 & H5 & H6)].
    + rewrite H1. exact H2.
    + rewrite H1. cbn in *. repeat split; auto.
Qed.
Print Assumptions C59_scoping_partial.
(** Applying templates to nodes, likewise. *)
Theorem C59_apply_partial : forall V Nd (w : world V Nd) G GN, good_stylesheet w GN ->
  forall fuel nodes given s, s_global s = G -> (forall n, In n GN -> lookup (s_vars s) n = lookup G n) -> s_rec s = None ->
  match apply_templates w fuel nodes given s with
  | Done s' out => applies w G fuel nodes given (s_focus s) = Ok out /\
      s_vars s' = s_vars s /\ s_global s' = s_global s /\ s_copied s' = s_copied s /\ s_rec s' = None /\
      f_node (s_focus s') = f_node (s_focus s) /\ f_position (s_focus s') = f_position (s_focus s) /\ f_size (s_focus s') = f_size (s_focus s)
  | Fail e _ => applies w G fuel nodes given (s_focus s) = Err e
  end.
Proof.
  intros V Nd w G GN Hg fuel nodes given s Hs1 Hs2 Hr. destruct (calls_simulate V Nd w G GN Hg fuel) as [_ Ha].
  destruct (Ha nodes given s (s_focus s) (conj Hs1 Hs2) (near_refl _ _) Hr) as [(e & s' & H1 & H2)|(s' & out & H1 & H2 & ((F1 & F2 & F3) & K2 & K3) & H4 & H5)].
  - rewrite H1. exact H2.
  - rewrite H1. repeat split; auto.
Qed.
Print Assumptions C59_apply_partial.
(** The depth given to the meaning does not change what it says. *)
Theorem C59_depth : forall V Nd (w : world V Nd) G fuel fuel' t given f out, fuel <= fuel' ->
  calls w G fuel t given f = Ok out -> calls w G fuel' t given f = Ok out.
Proof. intros V Nd w G fuel fuel' t given f out H. apply (proj1 (calls_more V Nd w G fuel fuel' H)). Qed.
Print Assumptions C59_depth.

(** Counting down by a tail call, with a default that reads a global variable and a variable
    of the caller with the name of one of the callee. *)
Definition minus_one (n : string) : expr nat nat := Expr [lit n] (fun _ l => Nat.pred (hd 0 l)).
Definition countdown : template nat nat :=
  Template [(lit "n", Select (ref "g")); (lit "k", Select (twice_ref "n"))]
    [Value (ref "n"); Value (ref "k"); If (ref "n") [Call true (lit "down") [(lit "n", minus_one "n")]]].
Definition caller : template nat nat :=
  Template [] [Var (lit "n") (Select (const 50)); Element [Var (lit "k") Empty; Call false (lit "down") []]; Value (ref "n"); Apply (const 2) [(lit "n", const 9)]].
Definition rule1 : template nat nat := Template [(lit "n", Empty)] [ForEach (const 2) [Value here]; Value here; Value (ref "n")].
Definition names1 (n : str) := if str_eqb n (lit "down") then Some countdown else None.
Definition rules1 (n : nat) := if n =? 1 then Some rule1 else None.
Definition state1 : state nat nat := State root_focus [(lit "g", 2)] false [(lit "g", 2)] None.
Definition written (o : outcome nat nat) : result (list nat) := match o with Done _ out => Ok out | Fail e _ => Err e end.
Lemma good_const : forall scope v, good_expr scope (const v).
Proof. intros. split; [intros x []|reflexivity]. Qed.
Lemma good_here : forall scope, good_expr scope here.
Proof. intros. split; [intros x []|reflexivity]. Qed.
Ltac read := split; [intros ? [<-|[]]; cbn; auto 10|reflexivity].
Ltac unused := let H := fresh in intros H; destruct H as [H|[]]; discriminate.
Example C59_good : good_stylesheet (world0 names1 rules1) [lit "g"] /\ good_template (world0 names1 rules1) [lit "g"] caller.
Proof.
  split; [split|].
  - intros n t. cbn [rule world0]. unfold rules1. destruct (n =? 1); [|discriminate]. intros H. injection H as <-. split.
    + cbn [good_defaults rule1 t_params good]. split; [|exact I]. split; [unused|exact I].
    + cbn [good_all rule1 t_body good declared app t_params map fst rev]. split; [|split; [|split; [|exact I]]].
      * split; [apply good_const|]. split; [apply good_here|exact I].
      * apply good_here.
      * read.
  - intros n t. cbn [named world0]. unfold names1. destruct (str_eqb n (lit "down")); [|discriminate]. intros H. injection H as <-. split.
    + cbn [good_defaults countdown t_params good]. split; [|split; [|exact I]]; (split; [unused|]); read.
    + cbn [good_all countdown t_body good declared app t_params map fst rev]. split; [read|]. split; [read|]. split; [|exact I]. split; [read|]. split; [|exact I].
      split. { apply Forall_cons; [read|apply Forall_nil]. }
      intros _. exists countdown. split; [reflexivity|]. vm_compute. reflexivity.
  - split; [exact I|]. cbn [good_all caller t_body good declared app t_params map fst rev].
    split; [split; [unused|apply good_const]|]. split; [split; [split; [unused|exact I]|]|].
    + split; [|exact I]. split; [apply Forall_nil|discriminate].
    + split; [read|]. split; [|exact I]. split; [apply Forall_cons; [apply good_const|apply Forall_nil]|apply good_const].
Qed.
Example C59_case :
  written (instantiate (world0 names1 rules1) 9 caller [] state1) = Ok [2; 4; 1; 2; 0; 0; 50; 1; 2; 1; 9; 2] /\
  calls (world0 names1 rules1) [(lit "g", 2)] 9 caller [] root_focus = Ok [2; 4; 1; 2; 0; 0; 50; 1; 2; 1; 9; 2].
Proof. vm_compute. split; reflexivity. Qed.

(** Without the restrictions scoping is not lexical.  A called template sees the variables
    of its caller instead of the global ones. *)
Theorem C59_dynamic_refuted :
  let callee := Template [] [Value (ref "g")] in
  let main := Template [] [Var (lit "g") (Select (const 7)); Call false (lit "t") []] in
  let w := world0 (fun _ => Some callee) no_rules in
  written (instantiate w 9 main [] state1) = Ok [7] /\ calls w [(lit "g", 2)] 9 main [] root_focus = Ok [2].
Proof. vm_compute. split; reflexivity. Qed.
Print Assumptions C59_dynamic_refuted.
(** It also sees variables that are not in its scope at all. *)
Theorem C59_undefined_refuted :
  let callee := Template [] [Value (ref "x")] in
  let main := Template [] [Var (lit "x") (Select (const 7)); Call false (lit "t") []] in
  let w := world0 (fun _ => Some callee) no_rules in
  written (instantiate w 9 main [] state1) = Ok [7] /\ calls w [(lit "g", 2)] 9 main [] root_focus = Err UndefinedVariable.
Proof. vm_compute. split; reflexivity. Qed.
Print Assumptions C59_undefined_refuted.
(** In a tail call the default of a parameter is computed with the variables of the round
    before. *)
Theorem C59_tail_refuted :
  let t := Template [(lit "n", Select (const 1)); (lit "m", Select (ref "g"))]
             [Value (ref "m"); Var (lit "g") (Select (const 40)); If (ref "n") [Call true (lit "t") [(lit "n", const 0)]]] in
  let w := world0 (fun _ => Some t) no_rules in
  written (instantiate w 9 t [] state1) = Ok [2; 40] /\ calls w [(lit "g", 2)] 9 t [] root_focus = Ok [2; 2].
Proof. vm_compute. split; reflexivity. Qed.
Print Assumptions C59_tail_refuted.
(** A tail call in a template that an importing stylesheet overrides repeats the template
    itself, not the one that overrides it. *)
Theorem C59_override_refuted :
  let over := Template [] [Text 99] in
  let t := Template [(lit "n", Select (const 1))] [Value (ref "n"); If (ref "n") [Call true (lit "t") [(lit "n", const 0)]]] in
  let w := world0 (fun _ => Some over) no_rules in
  written (instantiate w 9 t [] state1) = Ok [1; 0] /\ calls w [(lit "g", 2)] 9 t [] root_focus = Ok [1; 99].
Proof. vm_compute. split; reflexivity. Qed.
Print Assumptions C59_override_refuted.
(** After xsl:apply-templates current() is the last node they were applied to. *)
Theorem C59_current_refuted :
  let t := Template [] [Value current; Apply (const 2) []; Value current] in
  let w := world0 no_names no_rules in
  written (instantiate w 9 t [] state1) = Ok [100; 1; 2; 2] /\ calls w [(lit "g", 2)] 9 t [] root_focus = Ok [100; 1; 2; 100].
Proof. vm_compute. split; reflexivity. Qed.
Print Assumptions C59_current_refuted.
