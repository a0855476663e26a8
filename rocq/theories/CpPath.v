(** * The compile methods emit code that computes the meaning: paths, and all expressions *)
From Coq Require Import NArith ZArith String List Bool Lia Arith.
From Verif Require Import PyStr PyErr CpModel CpSpec CpCode CpGen.
Import ListNotations.
Local Open Scope nat_scope.

Section Gen.
Context {w : world}.
Local Notation V := (V w).
Local Notation K := (K w).
Local Notation St := (St w).

Lemma after_split : forall A B (a : @action w A) (f : A -> @action w B) st k o,
  after (andthen a f st) k o -> after (a st) (fun v st' => after (f v st') k o) o.
Proof. intros A B a f st k o. apply after_bind. Qed.
Ltac oks := repeat (apply Forall_cons || apply Forall_nil); cbn; try exact Logic.I; try reflexivity; try lia.
Ltac norm := repeat (progress (rewrite <- ?app_assoc in *; cbn [map app] in * )).
Ltac bnd := cbn beta in *; match goal with H : after (andthen _ _ _) _ _ |- _ => apply after_split in H end.
Ltac ctx A Hc := destruct A as [A _]; rewrite A; exact Hc.

(** What an expression's code does when it is wanted as [m] *)
Definition does_mode (en : env w) (e : expr w) (m : mode) (n : nat) (f : list (@item w)) : Prop :=
  match m with
  | Iterable => itr (from (means en e)) n f
  | m => val (wanted (means en e) m) n f
  end.

Lemma gen_nodeset : forall (iterable : compiler w) flt b reach m, compiles iterable flt b (itr reach) ->
  compiles (nodeset_modes iterable m) flt (b + 28)
    (fun n f => match m with Iterable => itr reach n f | m => val (wanted (path reach) m) n f end).
Proof.
  intros iterable flt b reach m H.
  assert (NS : compiles
    (seq (emits block_start)
      (seq (emits [load_const (k_nodeset w); load_context; load_attr (lit "node"); build_tuple 1])
        (seq iterable (seq (emits [call_function 1]) (emits block_end))))) flt (b + 28)
    (val (fun c => restoring c (i <- context_node c ;; l <- reach c i ;; w_call w (kval w (k_nodeset w)) [l])))).
  { rewrite <- (first_none flt).
    change (first flt None) with (first None (first None (first flt (first None None)))).
    eapply compiles_weaken.
    - eapply compiles_seq; [apply (gen_emits block_start); oks| |].
      + eapply compiles_seq; [apply gen_emits; oks| |].
        * eapply compiles_seq; [exact H| |].
          { eapply compiles_seq; [apply (gen_emits [call_function 1]); oks|apply (gen_emits block_end); oks|].
            intros n n' f g Hn Hf Hg. instantiate (1 := fun n f => f = map Ins [call_function 1] ++ map Ins block_end).
            rewrite Hf, Hg. reflexivity. }
          intros n n' f g Hn Hf Hg.
          instantiate (1 := fun n g => exists f, g = f ++ map Ins [call_function 1] ++ map Ins block_end /\ itr reach n f).
          exists f. rewrite Hg. split; [reflexivity|exact Hf].
        * intros n n' f g Hn Hf (f1 & -> & D).
          instantiate (1 := fun n g => exists f, g = map Ins [load_const (k_nodeset w); load_context; load_attr (lit "node"); build_tuple 1] ++ f ++ map Ins [call_function 1] ++ map Ins block_end /\ itr reach n f).
          exists f1. rewrite Hf. split; [reflexivity|]. eapply itr_mono; [exact Hn|exact D].
      + intros n n' f g Hn Hf (f1 & -> & D). apply (itr_mono reach n) in D; [|exact Hn]. rewrite Hf.
        assert (E : val (fun c => i <- context_node c ;; l <- reach c i ;; w_call w (kval w (k_nodeset w)) [l]) n
          (map Ins [load_const (k_nodeset w); load_context; load_attr (lit "node"); build_tuple 1] ++ f1 ++ map Ins [call_function 1])).
        { apply val_intro. intros P Q c s l st o HP Hc HH. bnd. norm. apply x_const.
          change (Ins load_context :: Ins (load_attr (lit "node")) :: Ins (build_tuple 1) :: f1 ++ Ins (call_function 1) :: Q)
            with (map (@Ins w) [load_context; load_attr (lit "node"); build_tuple 1] ++ f1 ++ Ins (call_function 1) :: Q).
          eapply x_context_node; [exact Hc|]. eapply after_mono; [|exact HH]. clear HH. intros v1 st1 HH.
          apply after_split in HH. eapply itr_use; [exact D|tl|exact Hc|]. eapply after_mono; [|exact HH]. clear HH.
          intros v2 st2 HH l2 A2. apply (x_call _ _ [v2]). eapply after_mono; [|exact HH].
          intros v3 st3 H3. apply H3. exact A2. }
        apply val_restoring in E. rewrite <- !app_assoc in E. exact E.
    - cbn. lia.
    - intros n f Hf. exact Hf. }
  destruct m; cbn [nodeset_modes path wanted from].
  - exact NS.
  - eapply compiles_weaken; [eapply (gen_loop _ _ _ reach) with (found := fun _ => ret (kval w (k_true w))) (none := ret (kval w (k_false w)))| |].
    + exact H.
    + oks.
    + oks.
    + oks.
    + oks.
    + intros v P Q s l st o HH. norm. eapply x_next; [reflexivity|]. apply x_const. exact HH.
    + intros P Q s l st o HH. norm. apply x_const. exact HH.
    + cbn. lia.
    + intros n f Hf. exact Hf.
  - eapply compiles_weaken; [eapply (gen_loop _ _ _ reach) with (found := fun v => w_call w (kval w (k_number w)) [v])
        (none := w_attr w (kval w (k_number w)) (lit "NaN"))| |].
    + exact H.
    + oks.
    + oks.
    + oks.
    + oks.
    + intros v P Q s l st o HH. norm. apply x_const. eapply x_next; [reflexivity|]. apply (x_call _ _ [v]). exact HH.
    + intros P Q s l st o HH. norm. apply x_const. apply x_attr. exact HH.
    + cbn. lia.
    + intros n f Hf. exact Hf.
  - eapply compiles_weaken; [eapply (gen_loop _ _ _ reach) with (found := fun v => w_call w (kval w (k_string w)) [v])
        (none := ret (kval w (k_empty w)))| |].
    + exact H.
    + oks.
    + oks.
    + oks.
    + oks.
    + intros v P Q s l st o HH. norm. apply x_const. eapply x_next; [reflexivity|]. apply (x_call _ _ [v]). exact HH.
    + intros P Q s l st o HH. norm. apply x_const. exact HH.
    + cbn. lia.
    + intros n f Hf. exact Hf.
  - exact NS.
  - eapply compiles_weaken; [exact H|lia|]. intros n f Hf. exact Hf.
Qed.

(** Steps *)
Lemma x_select : forall P Q k x c s l st o, l Context = Some c ->
  after (w_call w (kval w k) [c; x] st) (fun v st' => sexec P Q (v :: s) l st' o) o ->
  sexec P (map Ins (select_call k) ++ Q) (x :: s) l st o.
Proof.
  intros P Q k x c s l st o Hc H. unfold select_call. norm. apply x_const. eapply x_context; [exact Hc|].
  eapply x_next; [reflexivity|]. eapply x_next; [reflexivity|]. apply (x_call _ _ [c; x]). exact H.
Qed.
Lemma gen_select : forall (en : env w) (s : step w) r flt b,
  compiles (steps_code en r) flt b (itr (stepping en r)) ->
  forall k, compiles (seq (emits (select_call k)) (steps_code en r)) flt (b + 5)
    (itr (fun c x => l <- w_call w (kval w k) [c; x] ;; stepping en r c l)).
Proof.
  intros en s r flt b H k. eapply compiles_weaken.
  - eapply (gen_before (select_call k)); [exact H|oks|oks|intros; eapply itr_mono; eassumption|].
    intros n f D. instantiate (1 := itr (fun c x => l <- w_call w (kval w k) [c; x] ;; stepping en r c l)).
    apply itr_intro. intros P Q c x s1 l st o HP Hc HH. bnd. rewrite <- app_assoc in *.
    eapply x_select; [exact Hc|]. eapply after_mono; [|exact HH]. intros v st1 H1.
    eapply itr_use; [exact D|exact (tail_app _ _ _ HP)|exact Hc|]. exact H1.
  - cbn. lia.
  - intros n f Hf. exact Hf.
Qed.
Lemma gen_steps : forall (en : env w) steps,
  compiles (steps_code en steps) (first_in (map (fun s => prefix_fault en (s_prefix s)) steps))
           (5 * List.length steps) (itr (stepping en steps)).
Proof.
  intros en. induction steps as [|s r IH]; cbn [steps_code map first_in stepping].
  - eapply compiles_weaken; [apply (gen_emits []); oks|cbn; lia|]. intros n f ->.
    apply itr_intro. intros P Q c x s l st o HP Hc H. cbn [after ret] in H. apply H. apply agree_refl.
  - assert (EL : 5 * List.length (s :: r) = 5 * List.length r + 5) by (cbn; lia). rewrite EL.
    destruct (s_prefix s) as [p|]; cbn [prefix_fault first].
    + destruct (e_namespaces en p) as [u|]; cbn [first]; [|apply compiles_fails].
      apply (gen_select en s r _ _ IH).
    + apply (gen_select en s r _ _ IH).
Qed.
Lemma gen_location : forall (en : env w) absolute steps,
  compiles (location_iterable en absolute steps) (first_in (map (fun s => prefix_fault en (s_prefix s)) steps))
    (5 + 5 * List.length steps)
    (itr (fun c nodes =>
            l <- (if absolute : bool then
                    n <- w_attr w c (lit "node") ;; r <- w_attr w n (lit "xml_root") ;;
                    ret (w_tuple w [r])
                  else ret nodes) ;;
            stepping en steps c l)).
Proof.
  intros en absolute steps. unfold location_iterable. eapply compiles_weaken.
  - eapply gen_before; [apply gen_steps|destruct absolute; oks|destruct absolute; oks|intros; eapply itr_mono; eassumption|].
    intros n f D. instantiate (1 := itr (fun c nodes =>
            l <- (if absolute : bool then
                    n <- w_attr w c (lit "node") ;; r <- w_attr w n (lit "xml_root") ;;
                    ret (w_tuple w [r])
                  else ret nodes) ;;
            stepping en steps c l)).
    apply itr_intro. intros P Q c x s l st o HP Hc H. bnd. rewrite <- app_assoc in *. destruct absolute.
    + cbn [map app] in *. eapply x_next; [reflexivity|]. eapply x_context; [exact Hc|]. apply x_attr. bnd.
      eapply after_mono; [|exact H]. clear H. intros v1 st1 H. apply x_attr. bnd.
      eapply after_mono; [|exact H]. clear H. intros v2 st2 H. apply (x_tuple _ _ [v2]). cbn [after ret] in H.
      eapply itr_use; [exact D|tl|exact Hc|exact H].
    + cbn [after ret map app] in *. eapply itr_use; [exact D|exact HP|exact Hc|exact H].
  - destruct absolute; cbn; lia.
  - intros n f Hf. exact Hf.
Qed.

(** Filters and paths *)
Lemma gen_filter : forall (e : mode -> compiler w) flt b a p,
  compiles (e Nodeset) flt b (val a) ->
  compiles (filter_iterable e p) flt (b + 6)
    (itr (fun c _ => l <- a c ;; match p with Some k => w_call w (kval w k) [c; l] | None => ret l end)).
Proof.
  intros e flt b a p H. unfold filter_iterable. eapply compiles_weaken.
  - eapply gen_around; [exact H|oks|oks|destruct p; oks|destruct p; oks|intros; eapply val_mono; eassumption|].
    intros n f D. instantiate (1 := itr (fun c _ => l <- a c ;; match p with Some k => w_call w (kval w k) [c; l] | None => ret l end)).
    apply itr_intro. intros P Q c x s l st o HP Hc HH. bnd. rewrite <- !app_assoc in *. cbn [map app] in *.
    eapply x_next; [reflexivity|]. eapply val_use; [exact D|tl|exact Hc|]. eapply after_mono; [|exact HH].
    intros v st1 H1 l' A'. destruct p as [k|].
    + eapply x_select; [ctx A' Hc|]. eapply after_mono; [|exact H1]. intros v2 st2 H2. apply H2. exact A'.
    + cbn [map app after ret] in *. apply H1. exact A'.
  - destruct p; cbn; lia.
  - intros n f Hf. exact Hf.
Qed.
Lemma gen_path_rest : forall (en : env w) steps (e : compiler w) flt b reach, compiles e flt b (itr reach) ->
  compiles (seq e (location_iterable en false steps))
    (first flt (first_in (map (fun s => prefix_fault en (s_prefix s)) steps)))
    (b + (5 + 5 * List.length steps))
    (itr (fun c nodes => l <- reach c nodes ;; stepping en steps c l)).
Proof.
  intros en steps e flt b reach H. eapply compiles_seq; [exact H|apply gen_location|].
  intros n n' f g Hn Hf Hg. apply (itr_mono _ n) in Hg; [|exact Hn].
  apply itr_intro. intros P Q c x s l st o HP Hc HH. bnd. rewrite <- app_assoc in *.
  eapply itr_use; [exact Hf|exact HP|exact Hc|]. eapply after_mono; [|exact HH]. intros v st1 H1 l' A'.
  eapply itr_use; [exact Hg|tl|ctx A' Hc|]. cbn [ret andthen]. unfold andthen, ret.
  eapply after_mono; [|exact H1]. intros v2 st2 H2 l2 A2. apply H2. eapply agree_trans; [|exact A'|exact A2]. lia.
Qed.
Lemma gen_start_from : forall (e : compiler w) flt b a, compiles e flt b (val a) ->
  compiles (seq (emits [i0 POP_TOP]) e) flt (1 + b) (itr (fun c _ => a c)).
Proof.
  intros e flt b a H. eapply (gen_before [i0 POP_TOP]); [exact H|oks|oks|intros; eapply val_mono; eassumption|].
  intros n f D. apply itr_intro. intros P Q c x s l st o HP Hc HH. norm. eapply x_next; [reflexivity|].
  eapply val_use; [exact D|tl|exact Hc|exact HH].
Qed.

(** Unions *)
Section Union.
Variable en : env w.
Variable B : expr w -> nat.
Definition good (m : mode) (p : expr w) : Prop :=
  compiles (compile en p m) (fault en p m) (B p) (does_mode en p m).

Definition arguments_do (k : nat) (acts : list (V -> V -> @action w V)) (n : nat) (f : list (@item w)) : Prop :=
  k <= n -> forall P Q c x s l st o, tail_of P (f ++ Q) -> l Context = Some c -> l (Tmp k) = Some x ->
    after (in_order (map (fun a => a c x) acts) st)
          (fun vs st' => forall l', agree n l l' -> sexec P Q (rev vs ++ s) l' st' o) o ->
    sexec P (f ++ Q) s l st o.
Lemma gen_arguments : forall k paths, Forall (good Iterable) paths ->
  compiles (union_arguments (Tmp k) (map (compile en) paths)) (first_in (map (fun p => fault en p Iterable) paths))
    (list_sum (map (fun p => S (B p)) paths)) (arguments_do k (map (fun p => from (means en p)) paths)).
Proof.
  intros k. induction paths as [|p r IH]; intros HF; cbn [map union_arguments first_in list_sum fold_right].
  - eapply compiles_weaken; [apply (gen_emits []); oks|cbn; lia|]. intros n f -> Hk P Q c x s l st o HP Hc Hx H.
    cbn [after ret map app in_order rev] in *. apply H. apply agree_refl.
  - inversion HF as [|y z Hp Hr]; subst. specialize (IH Hr). unfold good in Hp. cbn [does_mode] in Hp.
    change (first (fault en p Iterable)) with (fun z => first None (first (fault en p Iterable) z)). cbn beta.
    eapply compiles_weaken.
    + eapply compiles_seq; [apply (gen_emits [I LOAD_FAST (ALocal (Tmp k))]); oks| |].
      * eapply compiles_seq; [exact Hp|exact IH|]. intros n n' f g Hn Hf Hg.
        instantiate (1 := fun n h => exists n' f g, n <= n' /\ h = f ++ g /\ itr (from (means en p)) n f
            /\ arguments_do k (map (fun p => from (means en p)) r) n' g).
        exists n', f, g. repeat split; assumption.
      * intros n n' f g Hn Hf (n'' & f1 & g1 & Hn' & -> & D1 & D2). rewrite Hf.
        instantiate (1 := arguments_do k (from (means en p) :: map (fun p => from (means en p)) r)).
        intros Hk P Q c x s l st o HP Hc Hx H. norm. cbn [in_order] in H. bnd.
        eapply sx_next; [unfold sstep; cbn [op oparg]; rewrite Hx; reflexivity|].
        apply (itr_mono _ n) in D1; [|lia].
        eapply itr_use; [exact D1|tl|exact Hc|]. eapply after_mono; [|exact H]. clear H.
        intros v st1 H l1 A1. apply after_split in H.
        assert (Hc1 : l1 Context = Some c) by (destruct A1 as [A1 _]; rewrite A1; exact Hc).
        assert (Hx1 : l1 (Tmp k) = Some x) by (destruct A1 as [_ A1]; rewrite A1 by exact Hk; exact Hx).
        eapply (D2 ltac:(lia)); [tl|exact Hc1|exact Hx1|]. eapply after_mono; [|exact H]. clear H.
        intros vs st2 H l2 A2. cbn [after ret] in H. assert (A3 : agree n l l2).
        { eapply agree_trans; [|exact A1|exact A2]. lia. }
        specialize (H l2 A3). cbn [rev] in H. rewrite <- app_assoc in H. exact H.
    + unfold list_sum; cbn [List.length map fold_right]; lia.
    + intros n f Hf. exact Hf.
Qed.
Lemma in_order_length : forall A (l : list (@action w A)) st vs st', in_order l st = (Ok vs, st') -> List.length vs = List.length l.
Proof.
  intros A. induction l as [|a l IH]; intros st vs st' H; cbn [in_order] in H.
  - injection H as <- <-. reflexivity.
  - unfold andthen in H. destruct (a st) as [[v|x] st1]; [|discriminate].
    destruct (in_order l st1) as [[us|x] st2] eqn:E; [|discriminate]. injection H as <- <-.
    cbn. f_equal. eapply IH. exact E.
Qed.
Lemma gen_union : forall paths, Forall (good Iterable) paths -> List.length paths < 256 ->
  compiles (union_iterable (map (compile en) paths)) (first_in (map (fun p => fault en p Iterable) paths))
    (list_sum (map (fun p => S (B p)) paths) + 4)
    (itr (fun c nodes => its <- in_order (map (fun p => from (means en p) c nodes) paths) ;;
                         w_call w (kval w (k_unioniter w)) its)).
Proof.
  intros paths HF HL g ids W. unfold union_iterable. cbn [tmpname].
  set (k := S (g_nlocals g)). set (g0 := {| g_blocks := g_blocks g; g_cur := g_cur g; g_nlocals := k |}).
  assert (W0 : wf g0 ids) by (destruct W; constructor; assumption).
  set (is2 := [call_function (List.length (map (compile en) paths)); I DELETE_FAST (ALocal (Tmp k))]).
  set (is1 := [I STORE_FAST (ALocal (Tmp k)); load_const (k_unioniter w)]).
  assert (HC : compiles (seq (emits is1) (seq (union_arguments (Tmp k) (map (compile en) paths)) (emits is2)))
      (first_in (map (fun p => fault en p Iterable) paths)) (List.length is1 + (list_sum (map (fun p => S (B p)) paths) + List.length is2))
      (fun n f => exists fa, f = map Ins is1 ++ fa ++ map Ins is2
                   /\ arguments_do k (map (fun p => from (means en p)) paths) n fa)).
  { eapply (gen_around is1 is2); [apply gen_arguments; exact HF|oks|oks| | | |].
    - unfold is2. rewrite map_length. oks.
    - oks.
    - intros n n' f Hn D Hk P Q c x s l st o HP Hc Hx H. eapply (D ltac:(lia)); [exact HP|exact Hc|exact Hx|].
      eapply after_mono; [|exact H]. intros vs st' H' l' [A1 A2]. apply H'. split; [exact A1|]. intros j Hj. apply A2. lia.
    - intros n f D. exists f. split; [reflexivity|exact D]. }
  specialize (HC g0 ids W0).
  destruct (seq (emits is1) (seq (union_arguments (Tmp k) (map (compile en) paths)) (emits is2)) g0) as [g'|x]; [|exact HC].
  destruct HC as (F & f & X & Y & Z & L & fa & -> & D). split; [exact F|].
  exists (map Ins is1 ++ fa ++ map Ins is2). split; [|split; [exact Y|split; [exact Z|split]]].
  - destruct X as [a b c d e]. constructor; try assumption. cbn [g0 g_nlocals] in e. unfold k in e. lia.
  - change (List.length is1) with 2 in L. change (List.length is2) with 2 in L. lia.
  - cbn [g0 g_nlocals] in D. apply itr_intro. intros P Q c x s l st o HP Hc H. bnd. unfold is1, is2 in *. norm.
    eapply sx_next; [reflexivity|]. apply x_const. fold k in D.
    set (l1 := supdate l (Tmp k) (Some x)).
    assert (Hc1 : l1 Context = Some c) by (unfold l1, supdate; cbn [local_eqb]; exact Hc).
    assert (Hx1 : l1 (Tmp k) = Some x) by (unfold l1, supdate; cbn [local_eqb]; rewrite Nat.eqb_refl; reflexivity).
    eapply (D (Nat.le_refl k)); [tl|exact Hc1|exact Hx1|].
    rewrite map_map.
    destruct (in_order (map (fun p => from (means en p) c x) paths) st) as [[vs|xx] st1] eqn:E; cbn [after] in *; [|exact H].
    intros l2 A2. apply in_order_length in E. rewrite map_length in E. rewrite map_length, <- E. apply x_call.
    eapply after_mono; [|exact H]. intros v st2 H2.
    assert (Hx2 : l2 (Tmp k) = Some x) by (destruct A2 as [_ A2]; rewrite A2 by lia; exact Hx1).
    eapply sx_next; [unfold sstep; cbn [op oparg]; rewrite Hx2; reflexivity|]. apply H2. split.
    + unfold supdate. cbn [local_eqb]. destruct A2 as [A2 _]. rewrite A2. reflexivity.
    + intros j Hj. unfold supdate. cbn [local_eqb]. destruct (Nat.eqb_spec j k) as [->|Hjk]; [unfold k in Hj; lia|].
      destruct A2 as [_ A2]. rewrite A2 by (unfold k; lia). unfold l1, supdate. cbn [local_eqb].
      destruct (Nat.eqb_spec j k) as [->|_]; [unfold k in Hj; lia|reflexivity].
Qed.

Definition alternatives_do (e : nat) (acts : list (V -> @action w V)) (n : nat) (f : list (@item w)) : Prop :=
  forall P Q c s l st o, tail_of P (f ++ Lab e :: Q) -> l Context = Some c ->
    after (any (map (fun a => a c) acts) st)
          (fun v st' => forall l', agree n l l' -> sexec P Q (v :: s) l' st' o) o ->
    sexec P (f ++ Lab e :: Q) s l st o.
Lemma gen_alternatives : forall e paths base g ids g1 f1, paths <> [] -> Forall (good Boolean) paths ->
  @ext w base g ids g1 f1 -> base <= e -> aside ids f1 g1 e -> base <= List.length (g_blocks g1) ->
  match union_alternatives e (map (compile en) paths) g1 with
  | Ok g2 => first_in (map (fun p => fault en p Boolean) paths) = None /\
      exists f2, ext base g ids g2 (f1 ++ f2) /\ aside ids (f1 ++ f2) g2 e /\ fwd (f2 ++ [Lab e])
        /\ Forall ok_item f2 /\ List.length f2 <= list_sum (map (fun p => B p + 3) paths)
        /\ alternatives_do e (map (fun p => wanted (means en p) Boolean) paths) (g_nlocals g1) f2
  | Err x => first_in (map (fun p => fault en p Boolean) paths) = Some x
  end.
Proof.
  intros e. induction paths as [|p r IH]; intros base g ids g1 f1 Hne HF X Hbe A Hb; [contradiction Hne; reflexivity|].
  inversion HF as [|y z Hp Hr]; subst. pose proof (sub_of _ _ _ _ _ _ _ _ _ Hp X) as S2.
  destruct r as [|p' r].
  - cbn [map union_alternatives first_in list_sum fold_right]. destruct (compile en p Boolean g1) as [g2|x]; [|rewrite S2; reflexivity].
    destruct S2 as (-> & f2 & X2 & Y2 & Z2 & B2 & D2). split; [reflexivity|]. exists f2.
    split; [eapply step_sub; eassumption|]. split; [eapply aside_sub; eassumption|].
    split; [apply fwd_app; [exact Y2|exact Logic.I]|]. split; [exact Z2|]. split; [lia|].
    intros P Q c s l st o HP Hc H. cbn [map any] in H. eapply val_use; [exact D2|exact HP|exact Hc|].
    eapply after_mono; [|exact H]. intros v st' H' l' A'. apply sx_lab. apply H'. exact A'.
  - cbn [map] in *. change (union_alternatives e (compile en p :: compile en p' :: map (compile en) r)) with
      (fun g : graph w => do g <- compile en p Boolean g ;
        union_alternatives e (compile en p' :: map (compile en) r) (emit [i0 POP_TOP] (next_block (emit [I JUMP_IF_TRUE (AJump e)] g)))).
    cbn beta. change (first_in (fault en p Boolean :: fault en p' Boolean :: map (fun p => fault en p Boolean) r))
      with (first (fault en p Boolean) (first_in (fault en p' Boolean :: map (fun p => fault en p Boolean) r))).
    destruct (compile en p Boolean g1) as [g2|x]; cbn [bind]; [|rewrite S2; reflexivity].
    destruct S2 as (-> & f2 & X2 & Y2 & Z2 & B2 & D2). cbn [first].
    pose proof (step_sub _ _ _ _ _ _ _ X X2 Hb) as X3. pose proof (aside_sub _ _ _ _ _ _ A X2) as A3.
    assert (C2 : base <= List.length (g_blocks g2)) by (pose proof (x_count _ _ _ _ _ X2); lia).
    apply (step_emit _ _ _ _ _ [I JUMP_IF_TRUE (AJump e)]) in X3. apply (aside_emit _ _ _ _ [I JUMP_IF_TRUE (AJump e)]) in A3.
    set (g3 := emit [I JUMP_IF_TRUE (AJump e)] g2) in *.
    assert (C3 : base <= List.length (g_blocks g3)) by (unfold g3; cbn [emit g_blocks]; rewrite set_block_length; exact C2).
    apply step_next in X3; [|exact C3]. apply aside_next in A3.
    set (n := List.length (g_blocks g3)) in *.
    apply (step_emit _ _ _ _ _ [i0 POP_TOP]) in X3. apply (aside_emit _ _ _ _ [i0 POP_TOP]) in A3.
    set (g4 := emit [i0 POP_TOP] (next_block g3)) in *.
    assert (C4 : base <= List.length (g_blocks g4)).
    { unfold g4, next_block. cbn [new_block next_block_to emit g_blocks]. rewrite !set_block_length, app_length. lia. }
    assert (N4 : g_nlocals g1 <= g_nlocals g4) by (apply (x_nlocals _ _ _ _ _ X2)).
    specialize (IH base g ids g4 _ ltac:(discriminate) Hr X3 Hbe A3 C4). cbn [map] in IH.
    destruct (union_alternatives e (compile en p' :: map (compile en) r) g4) as [g5|x]; [|exact IH].
    destruct IH as (F5 & f5 & X5 & A5 & Y5 & Z5 & B5 & D5). split; [exact F5|].
    exists (f2 ++ Ins (I JUMP_IF_TRUE (AJump e)) :: Lab n :: Ins (i0 POP_TOP) :: f5).
    assert (EQ : f1 ++ f2 ++ Ins (I JUMP_IF_TRUE (AJump e)) :: Lab n :: Ins (i0 POP_TOP) :: f5
      = ((((f1 ++ f2) ++ map Ins [I JUMP_IF_TRUE (AJump e)]) ++ [Lab n]) ++ map Ins [i0 POP_TOP]) ++ f5)
      by (rewrite <- !app_assoc; reflexivity).
    rewrite EQ. split; [exact X5|]. split; [exact A5|]. split; [|split; [|split]].
    + rewrite <- app_assoc. cbn [app]. eapply fwd_jump with (b := e); [exact Y2| |reflexivity|].
      * cbn [app fwd]. split; [exact Logic.I|exact Y5].
      * cbn [app labels]. right. rewrite labels_app. apply in_or_app. right. left. reflexivity.
    + apply Forall_app. split; [exact Z2|]. constructor; [exact Logic.I|]. constructor; [exact Logic.I|].
      constructor; [exact Logic.I|exact Z5].
    + rewrite app_length. cbn [List.length list_sum map fold_right] in *. unfold list_sum in B5. cbn [map fold_right] in B5. lia.
    + intros P Q c s l st o HP Hc H. rewrite <- app_assoc in *. cbn [app] in *.
      change (any (map (fun a : V -> @action w V => a c) (wanted (means en p) Boolean :: wanted (means en p') Boolean
         :: map (fun p => wanted (means en p) Boolean) r)))
        with (x <- wanted (means en p) Boolean c ;; b <- w_truth w x ;;
              if b : bool then ret x else any (map (fun a : V -> @action w V => a c) (wanted (means en p') Boolean
                :: map (fun p => wanted (means en p) Boolean) r))) in H.
      bnd. eapply val_use; [exact D2|exact HP|exact Hc|]. eapply after_mono; [|exact H]. clear H.
      intros v st1 H l1 A1. apply after_split in H.
      assert (T1 : tail_of P (Lab e :: Q)) by tl.
      eapply x_jump_true; [exact T1|]. eapply after_mono; [|exact H]. clear H. intros [|] st2 H.
      * cbn [after ret] in H. apply H. exact A1.
      * apply sx_lab. eapply x_next; [reflexivity|]. eapply D5; [tl|ctx A1 Hc|]. eapply after_mono; [|exact H].
        intros v2 st3 H3 l2 A2. apply H3. eapply agree_trans; [|exact A1|exact A2]. exact N4.
Qed.
Lemma gen_union_boolean : forall paths, Forall (good Boolean) paths ->
  compiles (union_boolean (map (compile en) paths))
    (match paths with [] => Some IndexError | _ => first_in (map (fun p => fault en p Boolean) paths) end)
    (list_sum (map (fun p => B p + 3) paths) + 1)
    (val (fun c => any (map (fun p => wanted (means en p) Boolean c) paths))).
Proof.
  intros paths HF. destruct paths as [|p r].
  { intros g ids W. reflexivity. }
  intros g ids W. unfold union_boolean.
  set (base := List.length (g_blocks g)).
  assert (X0 : ext base g ids g []).
  { constructor; cbn [labels]; rewrite ?app_nil_r; [exact W|reflexivity|lia|constructor|lia]. }
  pose proof (step_new _ _ _ _ _ X0) as X1. pose proof (aside_fresh _ _ _ _ _ X0) as A1. fold base in A1.
  change (new_block g) with (base, snd (new_block g)). set (g1 := snd (new_block g)) in *. cbn beta iota.
  assert (C1 : base <= List.length (g_blocks g1)) by (destruct A1 as [A1 _]; lia).
  pose proof (gen_alternatives base (p :: r) base g ids g1 [] ltac:(discriminate) HF X1 (Nat.le_refl _) A1 C1) as H.
  destruct (union_alternatives base (map (compile en) (p :: r)) g1) as [g2|x]; cbn [bind]; [|exact H].
  destruct H as (F & f & X & A & Y & Z & L & D). split; [exact F|].
  cbn [app] in *. exists (f ++ [Lab base]). split; [eapply step_next_to; [exact X|exact A|lia]|].
  split; [exact Y|]. split; [apply Forall_app; split; [exact Z|constructor; [exact Logic.I|constructor]]|].
  split; [rewrite app_length; cbn [List.length]; lia|].
  change (g_nlocals g1) with (g_nlocals g) in D. apply val_intro. intros P Q c s l st o HP Hc H.
  rewrite <- app_assoc in *. cbn [app] in *. eapply D; [exact HP|exact Hc|]. rewrite map_map. exact H.
Qed.
End Union.

(** ** All expressions *)

Section ExprInd.
Variable P : expr w -> Prop.
Hypothesis HStr : forall s, P (Str s).
Hypothesis HNum : forall s, P (Num s).
Hypothesis HVar : forall p l, P (Var p l).
Hypothesis HOr : forall a b, P a -> P b -> P (Or a b).
Hypothesis HAnd : forall a b, P a -> P b -> P (And a b).
Hypothesis HCmp : forall o a b, P a -> P b -> P (Cmp o a b).
Hypothesis HArith : forall o a b, P a -> P b -> P (Arith o a b).
Hypothesis HNeg : forall a, P a -> P (Neg a).
Hypothesis HBuiltin : forall s c, P (Builtin s c).
Hypothesis HExt : forall s p l a, P (Ext s p l a).
Hypothesis HUnion : forall ps, Forall P ps -> P (Union ps).
Hypothesis HPath : forall e s, P e -> P (Path e s).
Hypothesis HFilter : forall e p, P e -> P (Filter e p).
Hypothesis HLoc : forall a s, P (Loc a s).
Fixpoint expr_nested_ind (e : expr w) : P e :=
  match e with
  | Str s => HStr s | Num s => HNum s | Var p l => HVar p l
  | Or a b => HOr a b (expr_nested_ind a) (expr_nested_ind b)
  | And a b => HAnd a b (expr_nested_ind a) (expr_nested_ind b)
  | Cmp o a b => HCmp o a b (expr_nested_ind a) (expr_nested_ind b)
  | Arith o a b => HArith o a b (expr_nested_ind a) (expr_nested_ind b)
  | Neg a => HNeg a (expr_nested_ind a)
  | Builtin s c => HBuiltin s c | Ext s p l a => HExt s p l a
  | Union ps => HUnion ps ((fix all l : Forall P l :=
      match l with [] => Forall_nil P | p :: r => Forall_cons p (expr_nested_ind p) (all r) end) ps)
  | Path e s => HPath e s (expr_nested_ind e)
  | Filter e p => HFilter e p (expr_nested_ind e)
  | Loc a s => HLoc a s
  end.
End ExprInd.

Definition B (e : expr w) : nat := 50 * size e - 10.
Lemma size_pos : forall e : expr w, 1 <= size e.
Proof. intros []; cbn [size]; lia. Qed.

Lemma gen_literal : forall s value flt b a own_string m,
  m <> Iterable ->
  compiles value flt b (val (fun _ : V => a)) -> flt = conversion_fault (if own_string : bool then to_string w s else to_number w s) ->
  (m = Boolean -> (match s with [] => false | _ => true end) = (if own_string then (match s with [] => false | _ => true end) else negb (is_zero s))) ->
  compiles (literal_modes s value m) (literal_fault s (if own_string then to_string w s else to_number w s) m) (1 + b)
    (val (wanted (constants a (constant (to_number w s) (k_nan w)) (constant (to_string w s) (k_empty w))
                            (if own_string then (match s with [] => false | _ => true end) else negb (is_zero s))) m)).
Proof.
  intros s value flt b a own m Hm H -> Hb. destruct m; cbn [literal_modes literal_fault constants wanted].
  - eapply compiles_weaken; [exact H|lia|]. intros n f Hf. exact Hf.
  - specialize (Hb eq_refl). rewrite <- Hb. unfold literal_boolean.
    replace (match s with [] => k_false w | _ => k_true w end)
      with (if match s with [] => false | _ => true end then k_true w else k_false w) by (destruct s; reflexivity).
    eapply compiles_weaken; [apply gen_const|lia|]. intros n f Hf. exact Hf.
  - eapply compiles_weaken; [apply (gen_conversion (to_number w s) (k_nan w))|lia|]. intros n f Hf. exact Hf.
  - eapply compiles_weaken; [apply (gen_conversion (to_string w s) (k_empty w))|lia|]. intros n f Hf. exact Hf.
  - apply compiles_fails.
  - contradiction Hm. reflexivity.
Qed.
Lemma not_iterable : forall en (e : expr w) m n f, m <> Iterable -> val (wanted (means en e) m) n f -> does_mode en e m n f.
Proof. intros en e m n f H D. destruct m; cbn [does_mode]; try exact D. contradiction H. reflexivity. Qed.
Lemma mode_iterable : forall m, {m = Iterable} + {m <> Iterable}.
Proof. intros []; (left; reflexivity) || (right; discriminate). Qed.
Lemma calls_fit_all : forall ps : list (expr w), calls_fit (Union ps) -> List.length ps < 256 /\ Forall calls_fit ps.
Proof.
  intros ps [H1 H2]. split; [exact H1|]. clear H1. induction ps as [|p r IH]; [constructor|].
  destruct H2 as [H2 H3]. constructor; [exact H2|apply IH; exact H3].
Qed.
Lemma no_zero_all : forall (ps : list (expr w)) m, no_zero_tested (Union ps) m ->
  Forall (fun p => no_zero_tested p (match m with Boolean => Boolean | _ => Iterable end)) ps.
Proof.
  intros ps m. induction ps as [|p r IH]; intros H; [constructor|]. destruct H as [H1 H2].
  constructor; [exact H1|apply IH; exact H2].
Qed.
Lemma sum_bound : forall k (ps : list (expr w)), k <= 10 ->
  list_sum (map (fun p => B p + k) ps) <= 50 * list_sum (map size ps).
Proof.
  intros k ps Hk. unfold list_sum. induction ps as [|p r IH]; cbn [map fold_right]; [lia|].
  unfold B in *. pose proof (size_pos p). lia.
Qed.

Lemma compile_spec : forall en, e_debug en = true -> forall (e : expr w) m,
  calls_fit e -> no_zero_tested e m ->
  compiles (compile en e m) (fault en e m) (B e) (does_mode en e m).
Proof.
  intros en Hd. induction e using expr_nested_ind; intros m CF NZ.
  - (* Str *)
    destruct (mode_iterable m) as [-> |Hm]; [apply compiles_fails|].
    eapply compiles_weaken; [eapply (gen_literal s _ _ 1 (constant (to_string w s) (k_empty w)) true m Hm)| |].
    + apply gen_conversion.
    + reflexivity.
    + intros _. reflexivity.
    + unfold B. cbn [size]. lia.
    + intros n f Hf. apply not_iterable; [exact Hm|exact Hf].
  - (* Num *)
    destruct (mode_iterable m) as [-> |Hm]; [apply compiles_fails|].
    eapply compiles_weaken; [eapply (gen_literal s _ _ 1 (constant (to_number w s) (k_nan w)) false m Hm)| |].
    + apply gen_conversion.
    + reflexivity.
    + intros ->. cbn [no_zero_tested] in NZ. rewrite NZ. destruct s; [discriminate NZ|reflexivity].
    + unfold B. cbn [size]. lia.
    + intros n f Hf. apply not_iterable; [exact Hm|exact Hf].
  - (* Var *)
    cbn [compile fault]. pose proof (gen_variable en p l) as H.
    assert (HB : 9 <= B (Var p l)) by (unfold B; cbn [size]; lia).
    destruct m; cbn [variable_modes converted_modes does_mode means wanted from plain];
      try (eapply compiles_weaken; [apply (gen_converted _ _ _ _ _ H)|lia|intros n f Hf; exact Hf]).
    + eapply compiles_weaken; [exact H|lia|intros n f Hf; exact Hf].
    + eapply compiles_weaken; [eapply gen_around; [exact H|oks|oks|oks|oks|intros; eapply val_mono; eassumption|]| |].
      * intros n f D. instantiate (1 := itr (fun c _ => v <- variable en p l c ;; w_iter w v)).
        apply itr_intro. intros P Q c x s lo st o HP Hc HH. bnd. norm. eapply x_next; [reflexivity|].
        eapply val_use; [exact D|tl|exact Hc|]. eapply after_mono; [|exact HH]. intros v st1 H1 l1 A1.
        eapply x_push; [reflexivity|]. eapply after_mono; [|exact H1]. intros v2 st2 H2. apply H2. exact A1.
      * cbn [List.length]. lia.
      * intros n f Hf. exact Hf.
  - (* Or *)
    destruct CF as [C1 C2]. destruct NZ as [Z1 Z2]. specialize (IHe1 Boolean C1 Z1). specialize (IHe2 Boolean C2 Z2).
    destruct (mode_iterable m) as [-> |Hm]; [apply compiles_fails|].
    eapply compiles_weaken; [eapply (gen_plain Boolean); [|right; left; reflexivity|exact Hm]| |].
    + eapply gen_logical; [exact IHe1|exact IHe2|left; reflexivity|]. intros c. reflexivity.
    + unfold B. cbn [size]. pose proof (size_pos e1). pose proof (size_pos e2). lia.
    + intros n f Hf. apply not_iterable; [exact Hm|exact Hf].
  - (* And *)
    destruct CF as [C1 C2]. destruct NZ as [Z1 Z2]. specialize (IHe1 Boolean C1 Z1). specialize (IHe2 Boolean C2 Z2).
    destruct (mode_iterable m) as [-> |Hm]; [apply compiles_fails|].
    eapply compiles_weaken; [eapply (gen_plain Boolean)  with (a := fun c => x <- wanted (means en e1) Boolean c ;; t <- w_truth w x ;;
        if negb t then ret x else wanted (means en e2) Boolean c); [|right; left; reflexivity|exact Hm]| |].
    + eapply gen_logical; [exact IHe1|exact IHe2|right; reflexivity|]. intros c. reflexivity.
    + unfold B. cbn [size]. pose proof (size_pos e1). pose proof (size_pos e2). lia.
    + intros n f Hf. apply not_iterable; [exact Hm|]. cbn [means].
      assert (EQ : forall c st, (x <- wanted (means en e1) Boolean c ;; t <- w_truth w x ;;
          if negb t then ret x else wanted (means en e2) Boolean c) st
        = (x <- wanted (means en e1) Boolean c ;; t <- w_truth w x ;;
           if t : bool then wanted (means en e2) Boolean c else ret x) st).
      { intros c st. unfold andthen. destruct (wanted (means en e1) Boolean c st) as [[v|x] st1]; [|reflexivity].
        destruct (w_truth w v st1) as [[[|]|x] st2]; reflexivity. }
      eapply val_ext; [|exact Hf]. intros c st. destruct m; cbn [plain wanted]; try reflexivity;
        try apply EQ; unfold convert; unfold andthen at 1; symmetry; unfold andthen at 1; rewrite EQ; reflexivity.
  - (* Cmp *)
    destruct CF as [C1 C2]. destruct NZ as [Z1 Z2]. specialize (IHe1 Value C1 Z1). specialize (IHe2 Value C2 Z2).
    destruct (mode_iterable m) as [-> |Hm]; [apply compiles_fails|].
    eapply compiles_weaken; [eapply (gen_plain Boolean); [|right; left; reflexivity|exact Hm]| |].
    + eapply gen_comparison; [exact IHe1|exact IHe2].
    + unfold B. cbn [size]. pose proof (size_pos e1). pose proof (size_pos e2). lia.
    + intros n f Hf. apply not_iterable; [exact Hm|exact Hf].
  - (* Arith *)
    destruct CF as [C1 C2]. destruct NZ as [Z1 Z2]. specialize (IHe1 Number C1 Z1). specialize (IHe2 Number C2 Z2).
    destruct (mode_iterable m) as [-> |Hm]; [apply compiles_fails|].
    eapply compiles_weaken; [eapply (gen_plain Number); [|right; right; reflexivity|exact Hm]| |].
    + eapply gen_arith; [exact IHe1|exact IHe2].
    + unfold B. cbn [size]. pose proof (size_pos e1). pose proof (size_pos e2). lia.
    + intros n f Hf. apply not_iterable; [exact Hm|exact Hf].
  - (* Neg *)
    specialize (IHe Number CF NZ).
    destruct (mode_iterable m) as [-> |Hm]; [apply compiles_fails|].
    eapply compiles_weaken; [eapply (gen_plain Number); [|right; right; reflexivity|exact Hm]| |].
    + eapply gen_unary; [exact IHe|exact Logic.I|reflexivity|]. intros; reflexivity.
    + unfold B. cbn [size]. pose proof (size_pos e). lia.
    + intros n f Hf. apply not_iterable; [exact Hm|exact Hf].
  - (* Builtin *)
    destruct (mode_iterable m) as [-> |Hm]; [destruct c; apply compiles_fails|].
    assert (E : fault en (Builtin s c) m = None) by (destruct m; try reflexivity; contradiction Hm; reflexivity). rewrite E.
    pose proof (gen_function s m Hm) as G.
    eapply compiles_weaken with (b := 4) (D := val (wanted (means en (Builtin s c)) m)).
    + destruct m, c; try exact G; cbn [compile builtin_modes]; (eapply compiles_weaken; [apply gen_const|lia|intros n f Hf; exact Hf]).
    + unfold B. cbn [size]. lia.
    + intros n f Hf. apply not_iterable; [exact Hm|exact Hf].
  - (* Ext *)
    destruct (mode_iterable m) as [-> |Hm]; [apply compiles_fails|]. cbn [calls_fit] in CF.
    pose proof (gen_function s m Hm) as G. pose proof (gen_extension en p l a Hd CF) as H.
    assert (HB : 5 + List.length a <= B (Ext s p l a)) by (unfold B; cbn [size]; lia).
    destruct m; cbn [compile extension_modes fault];
      try (eapply compiles_weaken; [exact G|lia|intros n f Hf; exact Hf]);
      try (eapply compiles_weaken; [exact H|lia|intros n f Hf; exact Hf]).
    contradiction Hm. reflexivity.
  - (* Union *)
    apply calls_fit_all in CF. destruct CF as [CL CF]. pose proof (no_zero_all _ _ NZ) as NA.
    assert (G : Forall (good en B (match m with Boolean => Boolean | _ => Iterable end)) ps).
    { clear CL NZ. induction ps as [|p r IH]; [constructor|]. inversion H; subst. inversion CF; subst. inversion NA; subst.
      constructor; [|apply IH; assumption]. unfold good. match goal with h : forall m, calls_fit p -> _ |- _ => apply h; assumption end. }
    assert (HB : 50 * list_sum (map size ps) + 40 <= B (Union ps)) by (unfold B; cbn [size]; lia).
    assert (NBool : m <> Boolean -> Forall (good en B Iterable) ps ->
      compiles (nodeset_modes (union_iterable (map (compile en) ps)) m) (first_in (map (fun p => fault en p Iterable) ps)) (B (Union ps))
        (fun n f => match m with Iterable => itr (from (means en (Union ps))) n f
                    | m => val (wanted (path (from (means en (Union ps)))) m) n f end)).
    { intros _ G'. eapply compiles_weaken; [apply gen_nodeset; apply gen_union; [exact G'|exact CL]| |intros n f Hf; exact Hf].
      pose proof (sum_bound 1 ps ltac:(lia)) as SB.
      assert (EQ : list_sum (map (fun p => S (B p)) ps) = list_sum (map (fun p => B p + 1) ps)).
      { f_equal. apply map_ext. intros p. lia. }
      lia. }
    destruct m; try (cbn [compile fault does_mode]; apply NBool; [discriminate|exact G]).
    cbn [compile fault does_mode means wanted].
    eapply compiles_weaken; [apply gen_union_boolean; exact G| |intros n f Hf; exact Hf].
    pose proof (sum_bound 3 ps ltac:(lia)) as SB. lia.
  - (* Path *)
    cbn [calls_fit] in CF.
    assert (G : compiles (path_iterable en (is_nodeset_expression e) (compile en e) s)
       (fault en (Path e s) m) (B e + 6 + 5 * List.length s) (itr (from (means en (Path e s))))).
    { unfold path_iterable. cbn [fault means from path]. eapply compiles_weaken.
      - apply gen_path_rest.
        assert (G2 : compiles (if is_nodeset_expression e then compile en e Iterable
                               else seq (emits [i0 POP_TOP]) (compile en e Nodeset))
            (match e with Union _ | Path _ _ | Filter _ _ | Loc _ _ => fault en e Iterable | _ => fault en e Nodeset end)
            (1 + B e)
            (itr (fun c nodes => match e with
                  | Union _ | Path _ _ | Filter _ _ | Loc _ _ => from (means en e) c nodes
                  | _ => wanted (means en e) Nodeset c end))).
        { cbn [no_zero_tested] in NZ.
          destruct e; cbn [is_nodeset_expression];
            try (apply gen_start_from; apply (IHe Nodeset CF NZ));
            (eapply compiles_weaken; [apply (IHe Iterable CF NZ)|lia|intros n f Hf; exact Hf]). }
        exact G2.
      - lia.
      - intros n f Hf. exact Hf. }
    eapply compiles_weaken; [apply (gen_nodeset _ _ _ _ m G)| |].
    + unfold B. cbn [size]. pose proof (size_pos e). lia.
    + intros n f Hf. destruct m; exact Hf.
  - (* Filter *)
    eapply compiles_weaken; [apply (gen_nodeset _ _ _ _ m (gen_filter (compile en e) _ _ _ p (IHe Nodeset CF NZ)))| |].
    + unfold B. cbn [size]. pose proof (size_pos e). lia.
    + intros n f Hf. destruct m; exact Hf.
  - (* Loc *)
    eapply compiles_weaken; [apply (gen_nodeset _ _ _ _ m (gen_location en a s))| |].
    + unfold B. cbn [size]. lia.
    + intros n f Hf. destruct m; exact Hf.
Qed.
End Gen.
