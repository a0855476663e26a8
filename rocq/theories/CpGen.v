(** * The compile methods emit code that computes the meaning: the expressions *)
From Coq Require Import NArith ZArith String List Bool Lia Arith.
From Verif Require Import PyStr PyErr CpModel CpSpec CpCode.
Import ListNotations.
Local Open Scope nat_scope.

Ltac tl :=
  match goal with
  | H : tail_of ?P _ |- tail_of ?P _ =>
    let H' := fresh in pose proof H as H';
    solve [repeat first [exact H' | apply tail_cons in H' | apply tail_app in H']]
  end.

Section Gen.
Context {w : world}.
Local Notation V := (V w).
Local Notation K := (K w).
Local Notation St := (St w).

Lemma does_mono : forall n n' f pre a, n <= n' -> @does w n' f pre a -> does n f pre a.
Proof.
  intros n n' f pre a Hn D P Q c s l st o HP Hc H. eapply D; [exact HP|exact Hc|].
  eapply after_mono; [|exact H]. intros vs st' H' l' [E1 E2]. apply H'. split; [exact E1|].
  intros k Hk. apply E2. lia.
Qed.
Lemma first_none : forall a, first a None = a.
Proof. intros [x|]; reflexivity. Qed.

(** The code of a value, and of the nodes reached from given ones *)
Definition val (a : V -> @action w V) (n : nat) (f : list item) : Prop := does n f [] (one a).
Definition itr (a : V -> V -> @action w V) (n : nat) (f : list item) : Prop :=
  forall x, does n f [x] (one (fun c => a c x)).

Lemma val_mono : forall a n n' f, n <= n' -> val a n' f -> val a n f.
Proof. intros a n n' f. unfold val. apply does_mono. Qed.
Lemma itr_mono : forall a n n' f, n <= n' -> itr a n' f -> itr a n f.
Proof. intros a n n' f Hn H x. eapply does_mono; [exact Hn|apply H]. Qed.
Lemma val_ext : forall a a' n f, (forall c st, a c st = a' c st) -> val a n f -> val a' n f.
Proof.
  intros a a' n f E. apply does_ext. intros c st. unfold one, andthen. rewrite E. reflexivity.
Qed.

(** How the code of a value is used *)
Lemma val_use : forall a n f P Q c s l st o,
  val a n f -> tail_of P (f ++ Q) -> l Context = Some c ->
  after (a c st) (fun v st' => forall l', agree n l l' -> sexec P Q (v :: s) l' st' o) o ->
  sexec P (f ++ Q) s l st o.
Proof.
  intros a n f P Q c s l st o D HP Hc H. apply (D P Q c s l st o HP Hc).
  unfold one. apply after_bind. eapply after_mono; [|exact H].
  intros v st' H' l' Hl'. cbn [after ret] in *. exact (H' l' Hl').
Qed.
Lemma val_intro : forall a n f,
  (forall P Q c s l st o, tail_of P (f ++ Q) -> l Context = Some c ->
     after (a c st) (fun v st' => forall l', agree n l l' -> sexec P Q (v :: s) l' st' o) o ->
     sexec P (f ++ Q) s l st o) ->
  val a n f.
Proof.
  intros a n f D P Q c s l st o HP Hc H. apply (D P Q c s l st o HP Hc).
  unfold one in H. apply after_bind in H. eapply after_mono; [|exact H].
  intros v st' H' l' Hl'. cbn [after ret] in *. exact (H' l' Hl').
Qed.
Lemma itr_use : forall a n f P Q c x s l st o,
  itr a n f -> tail_of P (f ++ Q) -> l Context = Some c ->
  after (a c x st) (fun v st' => forall l', agree n l l' -> sexec P Q (v :: s) l' st' o) o ->
  sexec P (f ++ Q) (x :: s) l st o.
Proof.
  intros a n f P Q c x s l st o D HP Hc H. apply (D x P Q c s l st o HP Hc).
  unfold one. apply after_bind. eapply after_mono; [|exact H].
  intros v st' H' l' Hl'. cbn [after ret] in *. exact (H' l' Hl').
Qed.
Lemma itr_intro : forall a n f,
  (forall P Q c x s l st o, tail_of P (f ++ Q) -> l Context = Some c ->
     after (a c x st) (fun v st' => forall l', agree n l l' -> sexec P Q (v :: s) l' st' o) o ->
     sexec P (f ++ Q) (x :: s) l st o) ->
  itr a n f.
Proof.
  intros a n f D x P Q c s l st o HP Hc H. apply (D P Q c x s l st o HP Hc).
  unfold one in H. apply after_bind in H. eapply after_mono; [|exact H].
  intros v st' H' l' Hl'. cbn [after ret] in *. exact (H' l' Hl').
Qed.

(** Emitted instructions, exactly *)
Definition exactly (is : list (instr w)) (n : nat) (f : list item) : Prop := f = map Ins is.
Lemma gen_emits : forall is, Forall ok_instr is -> Forall (fun i => target i = None) is ->
  compiles (emits is) None (List.length is) (exactly is).
Proof. intros is H1 H2. apply compiles_emits; [exact H1|exact H2|]. intros n. reflexivity. Qed.

Ltac oks := repeat (apply Forall_cons || apply Forall_nil); cbn; try exact Logic.I; try reflexivity; try lia.
Ltac norm := repeat (progress (rewrite <- ?app_assoc in *; cbn [map app] in * )).
Ltac bnd := match goal with H : after (andthen _ _ _) _ _ |- _ => apply after_bind in H end.

Lemma gen_const : forall k, compiles (emits [load_const k]) None 1 (val (fun _ => ret (kval w k))).
Proof.
  intros k. eapply compiles_weaken; [apply gen_emits; oks|reflexivity|].
  intros n f ->. apply val_intro. intros P Q c s l st o HP Hc H. norm. apply x_const.
  cbn [after ret] in H. apply H. apply agree_refl.
Qed.
Lemma gen_converted : forall k value flt b a, compiles value flt b (val a) ->
  compiles (converted k value) flt (b + 2) (val (fun c => convert k (a c))).
Proof.
  intros k value flt b a H. unfold converted.
  rewrite <- (first_none flt). change (first flt None) with (first None (first flt None)).
  eapply compiles_weaken.
  - eapply compiles_seq; [apply (gen_emits [load_const k]); oks| |].
    + eapply compiles_seq; [exact H|apply (gen_emits [call_function 1]); oks|].
      intros n n' f g Hn Hf Hg. instantiate (1 := fun n f => exists fv, f = fv ++ map Ins [call_function 1] /\ val a n fv).
      exists f. rewrite Hg. split; [reflexivity|exact Hf].
    + intros n n' f g Hn Hf (fv & -> & Hv). rewrite Hf. instantiate (1 := val (fun c => convert k (a c))).
      apply (val_mono a n) in Hv; [|exact Hn].
      apply val_intro. intros P Q c s l st o HP Hc HH. norm. apply x_const.
      eapply val_use; [exact Hv|tl|exact Hc|]. unfold convert in HH. bnd.
      eapply after_mono; [|exact HH]. intros v st' H' l' Hl'. cbn beta in H'.
      apply (x_call _ _ [v]). eapply after_mono; [|exact H']. intros v' st'' H''. apply H''. exact Hl'.
  - cbn. lia.
  - intros n f Hf. exact Hf.
Qed.
Lemma gen_plain : forall own value flt b a m, compiles value flt b (val a) ->
  (own = Value \/ own = Boolean \/ own = Number) ->
  m <> Iterable ->
  compiles (match own with Boolean => boolean_modes | Number => number_modes | _ => converted_modes end value m)
           (not_nodeset m flt) (b + 2) (val (wanted (plain own a) m)).
Proof.
  intros own value flt b a m H Ho Hm.
  assert (Hv : compiles value flt (b + 2) (val a)).
  { eapply compiles_weaken; [exact H|lia|]. intros n f Hf. exact Hf. }
  destruct Ho as [-> | [-> | -> ]]; destruct m; cbn [boolean_modes number_modes converted_modes not_nodeset plain wanted];
    try (exact Hv); try (apply gen_converted; exact H); try (apply compiles_fails);
    (contradiction Hm; reflexivity).
Qed.
Lemma gen_no_iterable : forall D b, compiles (fails TypeError : compiler w) (Some TypeError) b D.
Proof. intros. apply compiles_fails. Qed.

(** Literals *)
Lemma gen_conversion : forall (r : result K) (k0 : K),
  compiles (match r with Ok k => emits [load_const k] | Err ValueError => emits [load_const k0] | Err x => fails x end)
    (conversion_fault r) 1 (val (fun _ => constant r k0)).
Proof.
  intros [k|x] k0.
  - exact (gen_const k).
  - destruct x; try apply compiles_fails. exact (gen_const k0).
Qed.

(** Variables *)
Lemma gen_variable : forall en p l, compiles (variable_value en p l) (variable_fault en p l) 6 (val (variable en p l)).
Proof.
  intros en p l. unfold variable_value, variable_fault, variable.
  assert (G : forall ns, compiles (if e_variables en ns l then
      emits [load_context; load_attr (lit "variables");
             load_const (match ns with Some n => k_text w n | None => k_none w end);
             load_const (k_text w l); build_tuple 2; i0 BINARY_SUBSCR] else fails UndefinedVariable)
      (if e_variables en ns l then None else Some UndefinedVariable) 6
      (val (fun c => vs <- w_attr w c (lit "variables") ;;
        w_subscr w vs (w_tuple w [kval w (match ns with Some n => k_text w n | None => k_none w end);
                                  kval w (k_text w l)])))).
  { intros ns. destruct (e_variables en ns l); [|apply compiles_fails].
    eapply compiles_weaken; [apply gen_emits; oks|reflexivity|].
    intros n f ->. apply val_intro. intros P Q c s lo st o HP Hc H. norm.
    eapply x_context; [exact Hc|]. bnd. apply x_attr. eapply after_mono; [|exact H].
    intros v st' H'. apply x_const, x_const. apply (x_tuple _ _ [_; _]). eapply x_push; [reflexivity|].
    eapply after_mono; [|exact H']. intros v' st'' H''. apply H''. apply agree_refl. }
  destruct p as [p|]; cbn [prefix_fault namespace_of first].
  - destruct (e_namespaces en p) as [n|]; cbn [first]; [apply (G (Some n))|apply compiles_fails].
  - apply (G None).
Qed.

(** and, or *)
Lemma ext_next : forall base g ids, wf g ids -> base <= List.length (g_blocks g) ->
  @ext w base g ids (next_block g) [Lab (List.length (g_blocks g))].
Proof.
  intros base g ids W Hb. unfold next_block. cbn [new_block fst snd].
  change [Lab (List.length (g_blocks g))] with ([] ++ [@Lab w (List.length (g_blocks g))]).
  eapply ext_trans; [apply (wf_new_block base g ids W)|]. cbn [labels]. rewrite app_nil_r.
  pose proof (x_wf _ _ _ _ _ (wf_new_block base g ids W)) as W1. cbn [labels] in W1. rewrite app_nil_r in W1.
  apply ext_next_to.
  - exact W1.
  - cbn [new_block snd g_blocks]. rewrite app_length. cbn. lia.
  - apply wf_below. exact W.
  - exact Hb.
Qed.
Lemma gen_logical : forall o l r fl fr bl br a b act,
  compiles l fl bl (val a) -> compiles r fr br (val b) ->
  (o = JUMP_IF_TRUE \/ o = JUMP_IF_FALSE) ->
  (forall c, act c = (x <- a c ;; t <- w_truth w x ;;
                      if (match o with JUMP_IF_TRUE => t | _ => negb t end : bool) then ret x else b c)) ->
  compiles (logical o l r) (first fl fr) (bl + br + 4) (val act).
Proof.
  intros o l r fl fr bl br a b act Hl Hr Ho Hact g ids W. unfold logical.
  set (e := List.length (g_blocks g)).
  pose proof (wf_new_block e g ids W) as X0. destruct (new_block g) as [e' g0] eqn:E0.
  injection E0 as <- Eg0. cbn [snd] in X0. fold e.
  pose proof (x_wf _ _ _ _ _ X0) as W0. cbn [labels] in W0. rewrite app_nil_r in W0.
  assert (L0 : List.length (g_blocks g0) = S e).
  { rewrite <- Eg0. cbn [g_blocks]. rewrite app_length. cbn. lia. }
  specialize (Hl g0 ids W0). destruct (l g0) as [g1|x]; cbn [bind]; [|subst fl; reflexivity].
  destruct Hl as (-> & f1 & X1 & Y1 & Z1 & B1 & D1). cbn [first].
  set (g2 := emit [I o (AJump e)] g1).
  pose proof (ext_emit e g1 (ids ++ labels f1) [I o (AJump e)] (x_wf _ _ _ _ _ X1)) as X2. fold g2 in X2.
  set (g3 := next_block g2).
  pose proof (x_wf _ _ _ _ _ X2) as W2. rewrite labels_ins, app_nil_r in W2.
  assert (C2 : e <= List.length (g_blocks g2)).
  { pose proof (x_count _ _ _ _ _ X2). pose proof (x_count _ _ _ _ _ X1). lia. }
  pose proof (ext_next e g2 (ids ++ labels f1) W2 C2) as X3. fold g3 in X3.
  set (n := List.length (g_blocks g2)) in *.
  set (g4 := emit [i0 POP_TOP] g3).
  pose proof (ext_emit e g3 _ [i0 POP_TOP] (x_wf _ _ _ _ _ X3)) as X4. fold g4 in X4.
  pose proof (x_wf _ _ _ _ _ X4) as W4. rewrite labels_ins, app_nil_r in W4.
  specialize (Hr g4 _ W4). destruct (r g4) as [g5|x]; cbn [bind]; [|subst fr; reflexivity].
  destruct Hr as (-> & f5 & X5 & Y5 & Z5 & B5 & D5). split; [reflexivity|].
  assert (N1 : g_nlocals g <= g_nlocals g0) by (apply (x_nlocals _ _ _ _ _ X0)).
  assert (N4 : g_nlocals g0 <= g_nlocals g4).
  { pose proof (x_nlocals _ _ _ _ _ X1). pose proof (x_nlocals _ _ _ _ _ X2).
    pose proof (x_nlocals _ _ _ _ _ X3). pose proof (x_nlocals _ _ _ _ _ X4). lia. }
  assert (C5 : S e <= List.length (g_blocks g5)).
  { pose proof (x_count _ _ _ _ _ X5). pose proof (x_count _ _ _ _ _ X1). pose proof (x_count _ _ _ _ _ X2).
    pose proof (x_count _ _ _ _ _ X3). pose proof (x_count _ _ _ _ _ X4). lia. }
  assert (C2' : S e <= n).
  { pose proof (x_count _ _ _ _ _ X1). pose proof (x_count _ _ _ _ _ X2). unfold n. lia. }
  assert (C4 : S e <= List.length (g_blocks g4)).
  { pose proof (x_count _ _ _ _ _ X3). pose proof (x_count _ _ _ _ _ X4). unfold n in *. lia. }
  exists (f1 ++ Ins (I o (AJump e)) :: Lab n :: Ins (i0 POP_TOP) :: f5 ++ [Lab e]).
  split; [|split; [|split; [|split]]].
  - (* the graph *)
    change (f1 ++ Ins (I o (AJump e)) :: Lab n :: Ins (i0 POP_TOP) :: f5 ++ [Lab e])
      with ([] ++ (f1 ++ (map Ins [I o (AJump e)] ++ ([Lab n] ++ (map Ins [i0 POP_TOP] ++ (f5 ++ [Lab e])))))).
    eapply ext_trans; [exact X0|]. cbn [labels]. rewrite app_nil_r.
    eapply ext_trans; [eapply ext_base; [|exact X1]; lia|].
    eapply ext_trans; [exact X2|]. rewrite labels_ins, app_nil_r.
    eapply ext_trans; [exact X3|].
    eapply ext_trans; [exact X4|]. rewrite labels_ins, app_nil_r.
    eapply ext_trans; [eapply ext_base; [|exact X5]; lia|].
    apply ext_next_to.
    + apply (x_wf _ _ _ _ _ X5).
    + lia.
    + rewrite !in_app_iff. intros [[[H|H]|H]|H].
      * pose proof (wf_lt _ _ W) as F. rewrite Forall_forall in F. specialize (F _ H). cbn beta in F. unfold e in F. lia.
      * pose proof (x_range _ _ _ _ _ X1) as F. rewrite Forall_forall in F. specialize (F _ H). cbn beta in F. lia.
      * cbn [labels] in H. destruct H as [H|[]]. lia.
      * pose proof (x_range _ _ _ _ _ X5) as F. rewrite Forall_forall in F. specialize (F _ H). cbn beta in F. lia.
    + lia.
  - (* jumps *)
    eapply fwd_jump with (b := e); [exact Y1| |reflexivity|].
    + cbn [fwd]. split; [exact Logic.I|]. apply fwd_app; [exact Y5|exact Logic.I].
    + cbn [labels]. right. rewrite labels_app. apply in_or_app. right. left. reflexivity.
  - apply Forall_app. split; [exact Z1|]. constructor; [destruct Ho as [-> | ->]; exact Logic.I|].
    constructor; [exact Logic.I|]. constructor; [exact Logic.I|]. apply Forall_app. split; [exact Z5|].
    constructor; [exact Logic.I|constructor].
  - rewrite app_length. cbn [List.length]. rewrite app_length. cbn [List.length]. lia.
  - apply (val_mono a _ _ _ N1) in D1. apply (val_mono b (g_nlocals g)) in D5; [|lia].
    apply val_intro. intros P Q c s lo st ou HP Hc H. rewrite Hact in H. norm.
    eapply val_use; [exact D1|exact HP|exact Hc|]. bnd. eapply after_mono; [|exact H].
    intros v st' H' l' Hl'. cbn beta in H'.
    assert (Hc' : l' Context = Some c) by (destruct Hl' as [E _]; rewrite E; exact Hc).
    apply after_bind in H'.
    assert (T : tail_of P (Lab e :: Q)) by tl.
    assert (K1 : forall st1, after (b c st1) (fun v st' => forall l'', agree (g_nlocals g) lo l'' -> sexec P Q (v :: s) l'' st' ou) ou ->
               sexec P (Lab n :: Ins (i0 POP_TOP) :: f5 ++ Lab e :: Q) (v :: s) l' st1 ou).
    { intros st1 HH. apply sx_lab. eapply x_next; [reflexivity|].
      eapply val_use; [exact D5|tl|exact Hc'|]. eapply after_mono; [|exact HH].
      intros v2 st2 H2 l2 Hl2. cbn [app]. apply sx_lab. apply H2. eapply agree_trans; [|exact Hl'|exact Hl2]. lia. }
    destruct Ho as [-> | ->].
    + eapply x_jump_true; [exact T|]. eapply after_mono; [|exact H']. intros [|] st'' H''.
      * cbn [after ret] in H''. apply H''. exact Hl'.
      * apply K1. exact H''.
    + eapply x_jump_false; [exact T|]. eapply after_mono; [|exact H']. intros [|] st'' H''; cbn [negb] in H''.
      * apply K1. exact H''.
      * cbn [after ret] in H''. apply H''. exact Hl'.
Qed.

(** Instructions before and after *)
Lemma gen_around : forall is1 is2 (c : compiler w) flt b (D D' : nat -> list item -> Prop),
  compiles c flt b D ->
  Forall ok_instr is1 -> Forall (fun i => target i = None) is1 ->
  Forall ok_instr is2 -> Forall (fun i => target i = None) is2 ->
  (forall n n' f, n <= n' -> D n' f -> D n f) ->
  (forall n f, D n f -> D' n (map Ins is1 ++ f ++ map Ins is2)) ->
  compiles (seq (emits is1) (seq c (emits is2))) flt (List.length is1 + (b + List.length is2)) D'.
Proof.
  intros is1 is2 c flt b D D' H O1 T1 O2 T2 M HD.
  rewrite <- (first_none flt). change (first flt None) with (first None (first flt None)).
  eapply compiles_seq; [apply (gen_emits is1); assumption| |].
  - eapply compiles_seq; [exact H|apply (gen_emits is2); assumption|].
    intros n n' f g Hn Hf Hg. instantiate (1 := fun n f => exists fv, f = fv ++ map Ins is2 /\ D n fv).
    exists f. rewrite Hg. split; [reflexivity|exact Hf].
  - intros n n' f g Hn Hf (fv & -> & Hv). rewrite Hf. apply HD. eapply M; eassumption.
Qed.
Lemma gen_then : forall is2 (c : compiler w) flt b (D D' : nat -> list item -> Prop),
  compiles c flt b D ->
  Forall ok_instr is2 -> Forall (fun i => target i = None) is2 ->
  (forall n f, D n f -> D' n (f ++ map Ins is2)) ->
  compiles (seq c (emits is2)) flt (b + List.length is2) D'.
Proof.
  intros is2 c flt b D D' H O2 T2 HD. rewrite <- (first_none flt).
  eapply compiles_seq; [exact H|apply (gen_emits is2); assumption|].
  intros n n' f g Hn Hf Hg. rewrite Hg. apply HD. exact Hf.
Qed.
Lemma gen_before : forall is1 (c : compiler w) flt b (D D' : nat -> list item -> Prop),
  compiles c flt b D ->
  Forall ok_instr is1 -> Forall (fun i => target i = None) is1 ->
  (forall n n' f, n <= n' -> D n' f -> D n f) ->
  (forall n f, D n f -> D' n (map Ins is1 ++ f)) ->
  compiles (seq (emits is1) c) flt (List.length is1 + b) D'.
Proof.
  intros is1 c flt b D D' H O1 T1 M HD. change flt with (first None flt).
  eapply compiles_seq; [apply (gen_emits is1); assumption|exact H|].
  intros n n' f g Hn Hf Hg. rewrite Hf. apply HD. eapply M; eassumption.
Qed.

(** Two operands and an instruction *)
Lemma gen_binary : forall i (l r : compiler w) fl fr bl br a b (f : V -> V -> @action w V),
  compiles l fl bl (val a) -> compiles r fr br (val b) ->
  ok_instr i -> target i = None ->
  (forall x y s lo st, sstep i (y :: x :: s) lo st = spush (f x y st) s lo) ->
  compiles (seq l (seq r (emits [i]))) (first fl fr) (bl + (br + 1))
           (val (fun c => x <- a c ;; y <- b c ;; f x y)).
Proof.
  intros i l r fl fr bl br a b f Hl Hr O T E. eapply compiles_seq; [exact Hl| |].
  - eapply (gen_then [i]); [exact Hr|oks; exact O|oks; exact T|]. intros n g Hg.
    instantiate (1 := fun n g => exists fv, g = fv ++ [Ins i] /\ val b n fv).
    exists g. split; [reflexivity|exact Hg].
  - intros n n' f1 g Hn H1 (f2 & -> & H2). apply (val_mono b n) in H2; [|exact Hn].
    apply val_intro. intros P Q c s lo st o HP Hc HH. norm.
    eapply val_use; [exact H1|exact HP|exact Hc|]. bnd. eapply after_mono; [|exact HH].
    intros x st1 K1 l1 A1. apply after_bind in K1.
    eapply val_use; [exact H2|tl|destruct A1 as [A1 _]; rewrite A1; exact Hc|].
    eapply after_mono; [|exact K1]. intros y st2 K2 l2 A2. eapply x_push; [apply E|].
    eapply after_mono; [|exact K2]. intros v st3 K3. apply K3. eapply agree_trans; [|exact A1|exact A2]. lia.
Qed.
Lemma gen_unary : forall i (l : compiler w) fl bl a (f : V -> @action w V),
  compiles l fl bl (val a) -> ok_instr i -> target i = None ->
  (forall x s lo st, sstep i (x :: s) lo st = spush (f x st) s lo) ->
  compiles (seq l (emits [i])) fl (bl + 1) (val (fun c => x <- a c ;; f x)).
Proof.
  intros i l fl bl a f Hl O T E. eapply (gen_then [i]); [exact Hl|oks; exact O|oks; exact T|].
  intros n f1 H1. apply val_intro. intros P Q c s lo st o HP Hc HH. norm.
  eapply val_use; [exact H1|exact HP|exact Hc|]. bnd. eapply after_mono; [|exact HH].
  intros x st1 K1 l1 A1. eapply x_push; [apply E|]. eapply after_mono; [|exact K1].
  intros v st3 K3. apply K3. exact A1.
Qed.
Lemma gen_arith : forall o (l r : compiler w) fl fr bl br a b,
  compiles l fl bl (val a) -> compiles r fr br (val b) ->
  compiles (seq l (seq r (emits [i0 (binary_opcode o)]))) (first fl fr) (bl + (br + 1))
           (val (fun c => x <- a c ;; y <- b c ;; w_arith w o x y)).
Proof.
  intros o l r fl fr bl br a b Hl Hr. apply gen_binary; [exact Hl|exact Hr|destruct o; exact Logic.I|reflexivity|].
  intros x y s lo st. destruct o; reflexivity.
Qed.
Lemma gen_comparison : forall o (l r : compiler w) fl fr bl br a b,
  compiles l fl bl (val a) -> compiles r fr br (val b) ->
  compiles (comparison o l r) (first fl fr) (bl + (br + 1))
           (val (fun c => x <- a c ;; y <- b c ;; w_compare w (python_operator o) x y)).
Proof.
  intros o l r fl fr bl br a b Hl Hr. unfold comparison.
  replace (if str_eqb (relop_text o) (lit "=") then lit "==" else relop_text o) with (python_operator o)
    by (destruct o; reflexivity).
  apply gen_binary; [exact Hl|exact Hr| |reflexivity|].
  - destruct o; cbn; tauto.
  - intros x y s lo st. reflexivity.
Qed.

(** Functions *)
Lemma gen_ask : forall self name, compiles (method_call self name) None 4 (val (ask self name)).
Proof.
  intros self name. eapply compiles_weaken; [apply gen_emits; oks|reflexivity|].
  intros n f ->. apply val_intro. intros P Q c s l st o HP Hc H. norm. apply x_const.
  unfold ask in H. bnd. apply x_attr. eapply after_mono; [|exact H]. intros v st' H'.
  eapply x_context; [exact Hc|]. apply (x_call _ _ [c]). eapply after_mono; [|exact H'].
  intros y st'' H''. apply H''. apply agree_refl.
Qed.
Lemma gen_function : forall self m, m <> Iterable ->
  compiles (function_modes self m) None 4 (val (asked self m)).
Proof. intros self m H. destruct m; try apply gen_ask. contradiction H. reflexivity. Qed.
Lemma check_arguments_fault : forall s n, check_arguments s n = argument_fault s n.
Proof.
  intros [[p v] d] n. unfold check_arguments, argument_fault. rewrite andb_comm.
  assert (E1 : (Z.of_nat p - 1 <? Z.of_nat n)%Z = (p <? S n)).
  { destruct (Nat.ltb_spec p (S n)); [apply Z.ltb_lt|apply Z.ltb_ge]; lia. }
  assert (E2 : (Z.of_nat n <? Z.of_nat p - 1 - Z.of_nat d)%Z = (S n + d <? p)).
  { destruct (Nat.ltb_spec (S n + d) p); [apply Z.ltb_lt|apply Z.ltb_ge]; lia. }
  rewrite E1, E2. destruct (negb v && (p <? S n)).
  - destruct p as [|[|p]]; destruct d; cbn [Nat.eqb]; try reflexivity;
      (destruct (Z.eqb_spec (Z.of_nat (S (S p)) - 1) 0); [lia|reflexivity]).
  - destruct (S n + d <? p); [|reflexivity]. destruct v, d; reflexivity.
Qed.
Lemma x_consts : forall ks P Q s l st o,
  sexec P Q (rev (map (kval w) ks) ++ s) l st o -> sexec P (map Ins (map load_const ks) ++ Q) s l st o.
Proof.
  induction ks as [|k ks IH]; intros P Q s l st o H; cbn [map app rev] in *; [exact H|].
  apply x_const. apply IH. rewrite <- app_assoc in H. exact H.
Qed.
Lemma gen_extension : forall en p l args, e_debug en = true -> List.length args < 255 ->
  compiles (extension_value en p l args) (extension_fault en p l (List.length args))
           (5 + List.length args) (val (extension en p l args)).
Proof.
  intros en p l args Hd Hl. unfold extension_value, extension_fault, extension.
  destruct (e_namespaces en p) as [u|]; [|apply compiles_fails].
  destruct (e_functions en u l) as [f|]; [|apply compiles_fails].
  assert (E : match f_sig f with Some s => check_arguments s (List.length args) | None => None end
              = match f_sig f with Some s => argument_fault s (List.length args) | None => None end)
    by (destruct (f_sig f); [apply check_arguments_fault|reflexivity]).
  rewrite E. destruct (match f_sig f with Some s => argument_fault s (List.length args) | None => None end);
    [apply compiles_fails|].
  rewrite Hd. change None with (first None None).
  assert (O2 : Forall (@ok_instr w) (load_context :: map load_const args ++ [call_function (1 + List.length args)])).
  { constructor; [exact Logic.I|]. apply Forall_app. split.
    - apply Forall_forall. intros i Hi. apply in_map_iff in Hi. destruct Hi as (k & <- & _). exact Logic.I.
    - constructor; [cbn; lia|constructor]. }
  assert (T2 : Forall (fun i => @target w i = None) (load_context :: map load_const args ++ [call_function (1 + List.length args)])).
  { constructor; [reflexivity|]. apply Forall_app. split.
    - apply Forall_forall. intros i Hi. apply in_map_iff in Hi. destruct Hi as (k & <- & _). reflexivity.
    - constructor; [reflexivity|constructor]. }
  eapply compiles_weaken.
  - eapply compiles_seq; [|apply (gen_emits _ O2 T2)|].
    + instantiate (1 := fun n g => val (fun c => if f_nocache f then w_call w (kval w (k_dynamic w u l)) [c]
                                              else ret (kval w (f_obj f))) n g).
      instantiate (1 := 3). destruct (f_nocache f).
      * eapply compiles_weaken; [apply gen_emits; oks|reflexivity|].
        intros n g ->. apply val_intro. intros P Q c s lo st o HP Hc H. norm. apply x_const.
        eapply x_context; [exact Hc|]. apply (x_call _ _ [c]). eapply after_mono; [|exact H].
        intros y st'' H''. apply H''. apply agree_refl.
      * eapply compiles_weaken; [apply gen_const|lia|]. intros n g Hg. exact Hg.
    + intros n n' g1 g2 Hn H1 H2. rewrite H2.
      instantiate (1 := val (fun c => g <- (if f_nocache f then w_call w (kval w (k_dynamic w u l)) [c]
                                         else ret (kval w (f_obj f))) ;; w_call w g (c :: map (kval w) args))).
      apply val_intro. intros P Q c s lo st o HP Hc H. cbn [map] in *. rewrite map_app in HP |- *. norm. bnd.
      eapply val_use; [exact H1|exact HP|exact Hc|]. eapply after_mono; [|exact H].
      intros v st' H' l' A'. eapply x_context; [destruct A' as [A' _]; rewrite A'; exact Hc|].
      apply x_consts.
      assert (EL : call_function (1 + List.length args) = @call_function w (List.length (c :: map (kval w) args)))
        by (cbn [List.length]; rewrite map_length; reflexivity).
      cbn [map app]. rewrite EL.
      replace (rev (map (kval w) args) ++ c :: v :: s) with (rev (c :: map (kval w) args) ++ v :: s)
        by (cbn [rev]; rewrite <- app_assoc; reflexivity).
      apply x_call. eapply after_mono; [|exact H']. intros y st'' H''. apply H''. exact A'.
  - cbn [List.length]. rewrite app_length, map_length. cbn. lia.
  - intros n g Hg. exact Hg.
Qed.

(** ** Blocks set aside for later *)

Definition aside (ids : list nat) (f : list (@item w)) (g : graph w) (b : nat) : Prop :=
  b < List.length (g_blocks g) /\ ~ In b (ids ++ labels f).
Lemma step_emit : forall base g ids g1 f1 is, @ext w base g ids g1 f1 ->
  ext base g ids (emit is g1) (f1 ++ map Ins is).
Proof. intros base g ids g1 f1 is X. eapply ext_trans; [exact X|]. apply ext_emit. apply (x_wf _ _ _ _ _ X). Qed.
Lemma step_new : forall base g ids g1 f1, @ext w base g ids g1 f1 -> ext base g ids (snd (new_block g1)) f1.
Proof.
  intros base g ids g1 f1 X. rewrite <- (app_nil_r f1). eapply ext_trans; [exact X|].
  apply wf_new_block. apply (x_wf _ _ _ _ _ X).
Qed.
Lemma step_next_to : forall base g ids g1 f1 b, @ext w base g ids g1 f1 -> aside ids f1 g1 b -> base <= b ->
  ext base g ids (next_block_to b g1) (f1 ++ [Lab b]).
Proof.
  intros base g ids g1 f1 b X [A1 A2] Hb. eapply ext_trans; [exact X|].
  apply ext_next_to; [apply (x_wf _ _ _ _ _ X)|exact A1|exact A2|exact Hb].
Qed.
Lemma step_next : forall base g ids g1 f1, @ext w base g ids g1 f1 -> base <= List.length (g_blocks g1) ->
  ext base g ids (next_block g1) (f1 ++ [Lab (List.length (g_blocks g1))]).
Proof.
  intros base g ids g1 f1 X Hb. eapply ext_trans; [exact X|]. apply ext_next; [apply (x_wf _ _ _ _ _ X)|exact Hb].
Qed.
Lemma step_sub : forall base g ids g1 f1 g2 f2, @ext w base g ids g1 f1 ->
  ext (List.length (g_blocks g1)) g1 (ids ++ labels f1) g2 f2 -> base <= List.length (g_blocks g1) ->
  ext base g ids g2 (f1 ++ f2).
Proof. intros base g ids g1 f1 g2 f2 X Y H. eapply ext_trans; [exact X|]. eapply ext_base; [exact H|exact Y]. Qed.

Lemma aside_emit : forall ids f g b is, aside ids f g b -> aside ids (f ++ map Ins is) (@emit w is g) b.
Proof.
  intros ids f g b is [H1 H2]. split.
  - cbn [emit g_blocks]. rewrite set_block_length. exact H1.
  - rewrite labels_app, labels_ins, app_nil_r. exact H2.
Qed.
Lemma aside_new : forall ids f g b, aside ids f g b -> aside ids f (snd (@new_block w g)) b.
Proof.
  intros ids f g b [H1 H2]. split; [|exact H2]. cbn [new_block snd g_blocks]. rewrite app_length. lia.
Qed.
Lemma aside_fresh : forall base g ids g1 f1, @ext w base g ids g1 f1 ->
  aside ids f1 (snd (new_block g1)) (List.length (g_blocks g1)).
Proof.
  intros base g ids g1 f1 X. split.
  - cbn [new_block snd g_blocks]. rewrite app_length. cbn. lia.
  - apply wf_below. apply (x_wf _ _ _ _ _ X).
Qed.
Lemma aside_sub : forall ids f1 g1 g2 f2 b, aside ids f1 g1 b ->
  @ext w (List.length (g_blocks g1)) g1 (ids ++ labels f1) g2 f2 -> aside ids (f1 ++ f2) g2 b.
Proof.
  intros ids f1 g1 g2 f2 b [H1 H2] X. split.
  - pose proof (x_count _ _ _ _ _ X). lia.
  - rewrite labels_app, app_assoc, in_app_iff. intros [H|H]; [exact (H2 H)|].
    pose proof (x_range _ _ _ _ _ X) as R. rewrite Forall_forall in R. apply R in H. cbn beta in H. lia.
Qed.
Lemma aside_next_to : forall ids f g b c, aside ids f g b -> b <> c -> aside ids (f ++ [Lab c]) (@next_block_to w c g) b.
Proof.
  intros ids f g b c [H1 H2] E. split.
  - cbn [next_block_to g_blocks]. rewrite set_block_length. exact H1.
  - rewrite labels_app, app_assoc, in_app_iff. cbn [labels]. intros [H|[H|[]]]; [exact (H2 H)|]. exact (E (eq_sym H)).
Qed.
Lemma aside_next : forall ids f g b, aside ids f g b -> aside ids (f ++ [Lab (List.length (g_blocks g))]) (@next_block w g) b.
Proof.
  intros ids f g b H. unfold next_block. cbn [new_block].
  apply (aside_next_to ids f (snd (new_block g)) b); [apply aside_new; exact H|]. destruct H as [H _]. lia.
Qed.
Lemma sub_of : forall c flt bd D base g ids g1 f1, compiles c flt bd D -> @ext w base g ids g1 f1 ->
  match c g1 with
  | Ok g2 => flt = None /\ exists f2, ext (List.length (g_blocks g1)) g1 (ids ++ labels f1) g2 f2
             /\ fwd f2 /\ Forall ok_item f2 /\ List.length f2 <= bd /\ D (g_nlocals g1) f2
  | Err x => flt = Some x
  end.
Proof. intros c flt bd D base g ids g1 f1 H X. apply H. apply (x_wf _ _ _ _ _ X). Qed.

(** ** Paths *)

Lemma x_block_start : forall P Q c s l st o, l Context = Some c ->
  after ((n <- w_attr w c (lit "node") ;; p <- w_attr w c (lit "position") ;;
         z <- w_attr w c (lit "size") ;; ret (n, p, z)) st)
    (fun npz st' => sexec P Q (snd npz :: snd (fst npz) :: fst (fst npz) :: s) l st' o) o ->
  sexec P (map Ins block_start ++ Q) s l st o.
Proof.
  intros P Q c s l st o Hc H. unfold block_start. norm. bnd.
  eapply x_context; [exact Hc|]. apply x_attr. eapply after_mono; [|exact H]. clear H. intros n st1 H.
  apply after_bind in H. eapply x_context; [exact Hc|]. apply x_attr. eapply after_mono; [|exact H]. clear H.
  intros p st2 H. apply after_bind in H. eapply x_context; [exact Hc|]. apply x_attr.
  eapply after_mono; [|exact H]. clear H. intros z st3 H. exact H.
Qed.
Lemma x_block_end : forall P Q c v n p z s l st o, l Context = Some c ->
  after ((_ <- w_setattr w c (lit "size") z ;; _ <- w_setattr w c (lit "position") p ;;
          _ <- w_setattr w c (lit "node") n ;; ret v) st)
    (fun v st' => sexec P Q (v :: s) l st' o) o ->
  sexec P (map Ins block_end ++ Q) (v :: z :: p :: n :: s) l st o.
Proof.
  intros P Q c v n p z s l st o Hc H. unfold block_end. norm. bnd.
  eapply x_next; [reflexivity|].
  eapply x_context; [exact Hc|]. apply x_setattr. eapply after_mono; [|exact H]. clear H. intros u1 st1 H.
  apply after_bind in H. eapply x_context; [exact Hc|]. apply x_setattr. eapply after_mono; [|exact H]. clear H.
  intros u2 st2 H. apply after_bind in H. eapply x_context; [exact Hc|]. apply x_setattr.
  eapply after_mono; [|exact H]. clear H. intros z' st3 H. exact H.
Qed.
(** The code between them *)
Lemma val_restoring : forall a n f, val a n f ->
  val (fun c => restoring c (a c)) n (map Ins block_start ++ f ++ map Ins block_end).
Proof.
  intros a n f D. apply val_intro. intros P Q c s l st o HP Hc H. rewrite <- !app_assoc in *.
  eapply x_block_start; [exact Hc|]. unfold restoring in H. bnd. apply after_bind. eapply after_mono; [|exact H].
  clear H. intros vn st1 H. apply after_bind in H. apply after_bind. eapply after_mono; [|exact H].
  clear H. intros vp st2 H. apply after_bind in H. apply after_bind. eapply after_mono; [|exact H].
  clear H. intros vz st3 H. apply after_bind in H. cbn [after ret fst snd].
  eapply val_use; [exact D|exact (tail_app _ _ _ HP)|exact Hc|]. eapply after_mono; [|exact H].
  clear H. intros v st4 H l' A'. eapply x_block_end; [destruct A' as [A' _]; rewrite A'; exact Hc|].
  eapply after_mono; [|exact H]. intros v' st5 H'. apply H'. exact A'.
Qed.
Lemma x_context_node : forall P Q c s l st o, l Context = Some c ->
  after (context_node c st) (fun x st' => sexec P Q (x :: s) l st' o) o ->
  sexec P (map (@Ins w) [load_context; load_attr (lit "node"); build_tuple 1] ++ Q) s l st o.
Proof.
  intros P Q c s l st o Hc H. norm. unfold context_node in H. bnd. eapply x_context; [exact Hc|]. apply x_attr.
  eapply after_mono; [|exact H]. intros v st' H'. apply (x_tuple _ _ [v]). exact H'.
Qed.
Definition instructions_do (is : list (instr w)) (pre : list V) (a : @action w V) : Prop :=
  forall P Q s l st o, after (a st) (fun v st' => sexec P Q (v :: s) l st' o) o ->
    sexec P (map Ins is ++ Q) (pre ++ s) l st o.
Lemma gen_loop : forall iterable flt b reach fc ec found none,
  compiles iterable flt b (itr reach) ->
  Forall ok_instr fc -> Forall (fun i => target i = None) fc ->
  Forall ok_instr ec -> Forall (fun i => target i = None) ec ->
  (forall v, instructions_do fc [v] (found v)) -> instructions_do ec [] none ->
  compiles (make_loop iterable fc ec) flt (b + List.length fc + List.length ec + 23)
           (val (fun c => restoring c (first_of c reach found none))).
Proof.
  intros iterable flt b reach fc ec found none Hit Of Tf Oe Te Df De g ids W. unfold make_loop.
  set (base := List.length (g_blocks g)).
  assert (X0 : ext base g ids g []).
  { constructor; cbn [labels]; rewrite ?app_nil_r; [exact W|reflexivity|lia|constructor|lia]. }
  set (g1 := emit block_start g). pose proof (step_emit _ _ _ _ _ block_start X0) as X1. fold g1 in X1.
  set (e := List.length (g_blocks g1)).
  assert (Eb : base <= e) by (apply (x_count _ _ _ _ _ X1)).
  pose proof (step_new _ _ _ _ _ X1) as X2. pose proof (aside_fresh _ _ _ _ _ X1) as Ae. fold e in Ae.
  change (new_block g1) with (e, snd (new_block g1)). set (g2 := snd (new_block g1)) in *. cbn beta iota.
  set (x := List.length (g_blocks g2)).
  assert (Ex : x = S e) by (unfold x, e, g2; cbn [new_block snd g_blocks]; rewrite app_length; cbn; lia).
  pose proof (step_new _ _ _ _ _ X2) as X3. pose proof (aside_fresh _ _ _ _ _ X2) as Ax. fold x in Ax.
  apply aside_new in Ae.
  change (new_block g2) with (x, snd (new_block g2)). set (g3 := snd (new_block g2)) in *. cbn beta iota.
  set (i4 := [load_context; load_attr (lit "node"); build_tuple 1]).
  apply (step_emit _ _ _ _ _ i4) in X3. apply (aside_emit _ _ _ _ i4) in Ae. apply (aside_emit _ _ _ _ i4) in Ax.
  set (g4 := emit i4 g3) in *. set (f4 := ([] ++ map Ins block_start) ++ map Ins i4) in *.
  assert (L4 : S x <= List.length (g_blocks g4)) by (destruct Ax as [A _]; lia).
  pose proof (sub_of _ _ _ _ _ _ _ _ _ Hit X3) as S5. destruct (iterable g4) as [g5|xx]; cbn [bind]; [|exact S5].
  destruct S5 as (-> & f5 & X5 & Y5 & Z5 & B5 & D5). split; [reflexivity|].
  pose proof (x_nlocals _ _ _ _ _ X3) as N4.
  pose proof (aside_sub _ _ _ _ _ _ Ae X5) as Ae5. pose proof (aside_sub _ _ _ _ _ _ Ax X5) as Ax5.
  pose proof (step_sub _ _ _ _ _ _ _ X3 X5 ltac:(lia)) as X6.
  set (i6 := [i0 GET_ITER; I FOR_ITER (AJump x)]).
  apply (step_emit _ _ _ _ _ i6) in X6. apply (aside_emit _ _ _ _ i6) in Ae5. apply (aside_emit _ _ _ _ i6) in Ax5.
  apply (step_emit _ _ _ _ _ fc) in X6. apply (aside_emit _ _ _ _ fc) in Ae5. apply (aside_emit _ _ _ _ fc) in Ax5.
  set (i7 := [i0 ROT_TWO; i0 POP_TOP; I JUMP_FORWARD (AJump e)]).
  apply (step_emit _ _ _ _ _ i7) in X6. apply (aside_emit _ _ _ _ i7) in Ae5. apply (aside_emit _ _ _ _ i7) in Ax5.
  eapply step_next_to in X6; [|exact Ax5|lia].
  apply (aside_next_to _ _ _ _ x) in Ae5; [|lia].
  apply (step_emit _ _ _ _ _ ec) in X6. apply (aside_emit _ _ _ _ ec) in Ae5.
  eapply step_next_to in X6; [|exact Ae5|lia].
  apply (step_emit _ _ _ _ _ block_end) in X6.
  eexists. split; [exact X6|].
  clear X6 Ae5 Ax5 X5 X3 Ae Ax. subst f4. rewrite <- !app_assoc. cbn [app].
  split; [|split; [|split]].
  - apply fwd_app; [apply fwd_ins; oks|]. apply fwd_app; [apply fwd_ins; oks|]. apply fwd_app; [exact Y5|].
    cbn [map app i6 fwd target oparg i0]. split; [exact Logic.I|]. split.
    { rewrite !labels_app. apply in_or_app. right. apply in_or_app. right. left. reflexivity. }
    apply fwd_app; [apply fwd_ins; exact Tf|].
    cbn [map app i7 fwd target oparg i0]. split; [exact Logic.I|]. split; [exact Logic.I|]. split.
    { cbn [labels]. right. rewrite labels_app. apply in_or_app. right. left. reflexivity. }
    apply fwd_app; [apply fwd_ins; exact Te|]. cbn [fwd]. apply fwd_ins; oks.
  - assert (OI : forall is, Forall (@ok_instr w) is -> Forall ok_item (map Ins is)).
    { intros is H. apply Forall_forall. intros y Hy. apply in_map_iff in Hy. destruct Hy as (i & <- & Hi).
      rewrite Forall_forall in H. apply H. exact Hi. }
    repeat (apply Forall_app; split); try (apply OI; oks); try assumption; try (apply OI; assumption).
    constructor; [exact Logic.I|]. apply Forall_app. split; [apply OI; exact Oe|].
    constructor; [exact Logic.I|]. apply OI. oks.
  - repeat (rewrite ?app_length, ?map_length; cbn [List.length block_start block_end i4 i6 i7]). lia.
  - assert (EV : val (fun c => first_of c reach found none) (g_nlocals g)
        (map Ins i4 ++ f5 ++ map Ins i6 ++ map Ins fc ++ map Ins i7 ++ Lab x :: map Ins ec ++ [Lab e])).
    { apply (itr_mono reach (g_nlocals g)) in D5; [|lia].
      apply val_intro. intros P Q c s l st o HP Hc H. unfold first_of in H. bnd.
      assert (T1 : tail_of P (Lab e :: Q)).
      { clear - HP. norm. repeat first [exact HP | apply tail_cons in HP | apply tail_app in HP]. }
      assert (T2 : tail_of P (Lab x :: map Ins ec ++ Lab e :: Q)).
      { clear - HP. norm. repeat first [exact HP | apply tail_cons in HP | apply tail_app in HP]. }
      repeat (rewrite <- ?app_assoc in *; cbn [app] in * ).
      eapply x_context_node; [exact Hc|]. eapply after_mono; [|exact H]. clear H. intros v1 st1 H.
      apply after_bind in H.
      eapply itr_use; [exact D5|exact (tail_app _ _ _ HP)|exact Hc|]. eapply after_mono; [|exact H]. clear H.
      intros v2 st2 H l' A'. apply after_bind in H. unfold i6. cbn [map app].
      eapply x_push; [reflexivity|]. eapply after_mono; [|exact H]. clear H. intros v3 st3 H. apply after_bind in H.
      eapply x_for_iter; [exact T2|]. eapply after_mono; [|exact H]. clear H. intros [v4|] st4 H.
      - apply (Df v4 P _ (v3 :: s)). eapply after_mono; [|exact H]. clear H. intros v5 st5 H.
        unfold i7. cbn [map app]. eapply x_next; [reflexivity|]. eapply x_next; [reflexivity|].
        eapply x_forward; [exact T1|]. apply H. exact A'.
      - apply (De P _ s). eapply after_mono; [|exact H]. clear H. intros v5 st5 H. apply sx_lab. apply H. exact A'. }
    apply val_restoring in EV. repeat (rewrite <- ?app_assoc in EV; cbn [app] in EV). exact EV.
Qed.
End Gen.
