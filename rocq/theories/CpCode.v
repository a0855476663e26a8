(** * The compile methods emit code that computes the meaning

    The blocks a compile method links are read as one list of items, labels and
    instructions; a machine that runs such a list is easier to reason about than the
    bytes.  [compile_spec] is the induction over expressions. *)
From Coq Require Import NArith ZArith String List Bool Lia Arith.
From Verif Require Import PyStr PyErr CpModel CpSpec.
Import ListNotations.
Local Open Scope nat_scope.

Section Code.
Context {w : world}.
Local Notation V := (V w).
Local Notation K := (K w).
Local Notation St := (St w).

(** ** The linked blocks as a list *)

Inductive item := Lab (b : nat) | Ins (i : instr w).
Fixpoint labels (f : list item) : list nat :=
  match f with [] => [] | Lab b :: r => b :: labels r | Ins _ :: r => labels r end.
Definition items_of (bs : list (block w)) (ids : list nat) : list item :=
  flat_map (fun b => Lab b :: map Ins (b_code (block_at bs b))) ids.
Fixpoint links (bs : list (block w)) (ids : list nat) : Prop :=
  match ids with
  | [] => True
  | b :: r =>
    match r with
    | [] => b_next (block_at bs b) = None
    | c :: _ => b_next (block_at bs b) = Some c
    end /\ links bs r
  end.

Record wf (g : graph w) (ids : list nat) : Prop := {
  wf_nodup : NoDup ids;
  wf_lt : Forall (fun b => b < List.length (g_blocks g)) ids;
  wf_cur : exists pre, ids = pre ++ [g_cur g];
  wf_links : links (g_blocks g) ids;
  wf_fresh : forall b, ~ In b ids -> block_at (g_blocks g) b = empty_block
}.
Record ext (base : nat) (g : graph w) (ids : list nat) (g' : graph w) (f : list item) : Prop := {
  x_wf : wf g' (ids ++ labels f);
  x_items : items_of (g_blocks g') (ids ++ labels f) = items_of (g_blocks g) ids ++ f;
  x_count : List.length (g_blocks g) <= List.length (g_blocks g');
  x_range : Forall (fun b => base <= b) (labels f);
  x_nlocals : g_nlocals g <= g_nlocals g'
}.

Lemma labels_app : forall f g, labels (f ++ g) = labels f ++ labels g.
Proof. induction f as [|[b|i] f IH]; intros g; cbn [labels app]; [reflexivity| |]; rewrite IH; reflexivity. Qed.
Lemma labels_ins : forall is, labels (map Ins is) = [].
Proof. induction is as [|i is IH]; [reflexivity|exact IH]. Qed.
Lemma items_of_app : forall bs a b, items_of bs (a ++ b) = items_of bs a ++ items_of bs b.
Proof. intros. unfold items_of. apply flat_map_app. Qed.

Lemma set_block_length : forall (bs : list (block w)) n b, List.length (set_block bs n b) = List.length bs.
Proof. induction bs as [|x bs IH]; intros [|n] b; cbn; [reflexivity..|]. rewrite IH. reflexivity. Qed.
Lemma block_at_set_same : forall (bs : list (block w)) n b, n < List.length bs -> block_at (set_block bs n b) n = b.
Proof.
  unfold block_at. induction bs as [|x bs IH]; intros [|n] b H; cbn in *; [lia..|reflexivity|].
  apply IH. lia.
Qed.
Lemma block_at_set_other : forall (bs : list (block w)) n m b, m <> n -> block_at (set_block bs n b) m = block_at bs m.
Proof.
  unfold block_at. induction bs as [|x bs IH]; intros [|n] [|m] b H; cbn; try reflexivity; [lia|].
  apply IH. lia.
Qed.
Lemma block_at_new : forall (bs : list (block w)) n, block_at (bs ++ [empty_block]) n = block_at bs n.
Proof.
  intros bs n. unfold block_at. destruct (Nat.lt_ge_cases n (List.length bs)) as [H|H].
  - rewrite app_nth1 by exact H. reflexivity.
  - rewrite (nth_overflow bs) by exact H. rewrite app_nth2 by exact H.
    destruct (n - List.length bs) as [|[|k]]; reflexivity.
Qed.

Lemma items_of_ext : forall bs bs' ids,
  (forall b, In b ids -> b_code (block_at bs b) = b_code (block_at bs' b)) -> items_of bs ids = items_of bs' ids.
Proof.
  intros bs bs' ids H. unfold items_of. induction ids as [|b ids IH]; [reflexivity|].
  cbn [flat_map]. rewrite (H b (or_introl eq_refl)). f_equal. apply IH.
  intros c Hc. apply H. right. exact Hc.
Qed.
Lemma links_ext : forall bs bs' ids,
  (forall b, In b ids -> b_next (block_at bs b) = b_next (block_at bs' b)) -> links bs ids -> links bs' ids.
Proof.
  intros bs bs' ids H. induction ids as [|b ids IH]; [exact (fun x => x)|].
  cbn [links]. intros [H1 H2]. rewrite <- (H b (or_introl eq_refl)). split.
  - exact H1.
  - apply IH; [|exact H2]. intros c Hc. apply H. right. exact Hc.
Qed.
Lemma links_snoc : forall bs pre c, links bs (pre ++ [c]) -> b_next (block_at bs c) = None.
Proof.
  intros bs pre c. induction pre as [|b pre IH]; cbn [app links].
  - intros [H _]. exact H.
  - intros [_ H]. apply IH. exact H.
Qed.
Lemma links_extend : forall bs bs' pre c b,
  links bs (pre ++ [c]) -> ~ In c pre ->
  (forall x, In x pre -> b_next (block_at bs' x) = b_next (block_at bs x)) ->
  b_next (block_at bs' c) = Some b -> b_next (block_at bs' b) = None ->
  links bs' (pre ++ [c; b]).
Proof.
  intros bs bs' pre c b H Hn Heq Hc Hb. induction pre as [|x pre IH].
  - cbn [app links]. repeat split; assumption.
  - cbn [app] in H. cbn [links] in H. destruct H as [H1 H2].
    assert (IH' : links bs' (pre ++ [c; b])).
    { apply IH; [exact H2| |].
      - intros Hi. apply Hn. right. exact Hi.
      - intros y Hy. apply Heq. right. exact Hy. }
    cbn [app links]. split; [|exact IH'].
    destruct pre as [|y pre]; cbn [app] in *.
    + rewrite Heq by (left; reflexivity). exact H1.
    + rewrite Heq by (left; reflexivity). exact H1.
Qed.

Lemma wf_new : wf new_graph [0].
Proof.
  constructor.
  - constructor; [intros []|constructor].
  - constructor; [cbn; lia|constructor].
  - exists []. reflexivity.
  - cbn. split; [reflexivity|exact Logic.I].
  - intros b H. cbn. destruct b as [|[|b]]; [|reflexivity..]. destruct H. left. reflexivity.
Qed.

Lemma ext_emit : forall base g ids is, wf g ids -> ext base g ids (emit is g) (map Ins is).
Proof.
  intros base g ids is W. destruct W as [nd lt [pre Hpre] lk fr].
  assert (Hlt : g_cur g < List.length (g_blocks g)).
  { rewrite Hpre in lt. apply Forall_app in lt. destruct lt as [_ lt]. inversion lt. assumption. }
  assert (Hnin : ~ In (g_cur g) pre).
  { rewrite Hpre in nd. apply NoDup_remove_2 in nd. rewrite app_nil_r in nd. exact nd. }
  constructor; rewrite ?labels_ins, ?app_nil_r; cbn [emit g_blocks g_nlocals g_cur].
  - constructor; cbn [emit g_blocks g_cur].
    + exact nd.
    + rewrite set_block_length. exact lt.
    + exists pre. exact Hpre.
    + eapply links_ext; [|exact lk]. intros b _.
      destruct (Nat.eq_dec b (g_cur g)) as [->|E].
      * rewrite block_at_set_same by exact Hlt. reflexivity.
      * rewrite block_at_set_other by exact E. reflexivity.
    + intros b Hb. rewrite block_at_set_other; [apply fr; exact Hb|].
      intros ->. apply Hb. rewrite Hpre. apply in_or_app. right. left. reflexivity.
  - rewrite Hpre. rewrite !items_of_app.
    rewrite (items_of_ext (set_block (g_blocks g) (g_cur g) _) (g_blocks g) pre).
    + rewrite <- app_assoc. f_equal. unfold items_of. cbn [flat_map].
      rewrite block_at_set_same by exact Hlt. cbn [b_code]. rewrite map_app, !app_nil_r. reflexivity.
    + intros b Hb. rewrite block_at_set_other; [reflexivity|]. intros ->. exact (Hnin Hb).
  - rewrite set_block_length. apply Nat.le_refl.
  - constructor.
  - apply Nat.le_refl.
Qed.

Lemma wf_new_block : forall base g ids, wf g ids -> ext base g ids (snd (new_block g)) [].
Proof.
  intros base g ids [nd lt cur lk fr].
  constructor; cbn [labels]; rewrite ?app_nil_r; cbn [new_block snd g_blocks g_nlocals g_cur].
  - constructor; cbn [new_block snd g_blocks g_cur].
    + exact nd.
    + rewrite app_length. eapply Forall_impl; [|exact lt]. intros b H. cbn beta in *. lia.
    + exact cur.
    + eapply links_ext; [|exact lk]. intros b _. rewrite block_at_new. reflexivity.
    + intros b Hb. rewrite block_at_new. apply fr. exact Hb.
  - apply items_of_ext. intros b _. rewrite block_at_new. reflexivity.
  - rewrite app_length. lia.
  - constructor.
  - apply Nat.le_refl.
Qed.

Lemma ext_next_to : forall base g ids b, wf g ids -> b < List.length (g_blocks g) -> ~ In b ids -> base <= b ->
  ext base g ids (next_block_to b g) [Lab b].
Proof.
  intros base g ids b W Hb Hni Hbase. destruct W as [nd lt [pre Hpre] lk fr].
  assert (Hlt : g_cur g < List.length (g_blocks g)).
  { rewrite Hpre in lt. apply Forall_app in lt. destruct lt as [_ lt]. inversion lt. assumption. }
  assert (Hnin : ~ In (g_cur g) pre).
  { rewrite Hpre in nd. apply NoDup_remove_2 in nd. rewrite app_nil_r in nd. exact nd. }
  assert (Hbc : b <> g_cur g).
  { intros ->. apply Hni. rewrite Hpre. apply in_or_app. right. left. reflexivity. }
  constructor; cbn [labels next_block_to g_blocks g_nlocals g_cur].
  - constructor; cbn [next_block_to g_blocks g_cur].
    + clear - nd Hni. induction ids as [|x ids IH]; cbn [app].
      * constructor; [intros []|constructor].
      * inversion nd as [|y l N1 N2]; subst. constructor.
        { rewrite in_app_iff. intros [H|[H|[]]]; [exact (N1 H)|]. apply Hni. left. symmetry. exact H. }
        { apply IH; [exact N2|]. intros H. apply Hni. right. exact H. }
    + rewrite set_block_length. apply Forall_app. split; [exact lt|]. constructor; [exact Hb|constructor].
    + exists ids. reflexivity.
    + rewrite Hpre, <- app_assoc. cbn [app]. eapply links_extend.
      * rewrite <- Hpre. exact lk.
      * exact Hnin.
      * intros x Hx. rewrite block_at_set_other; [reflexivity|]. intros ->. exact (Hnin Hx).
      * rewrite block_at_set_same by exact Hlt. reflexivity.
      * rewrite block_at_set_other by exact Hbc. rewrite fr by exact Hni. reflexivity.
    + intros x Hx. rewrite block_at_set_other.
      * apply fr. intros H. apply Hx. apply in_or_app. left. exact H.
      * intros ->. apply Hx. apply in_or_app. left. rewrite Hpre. apply in_or_app. right. left. reflexivity.
  - rewrite items_of_app. f_equal.
    + apply items_of_ext. intros x _. destruct (Nat.eq_dec x (g_cur g)) as [->|E].
      * rewrite block_at_set_same by exact Hlt. reflexivity.
      * rewrite block_at_set_other by exact E. reflexivity.
    + unfold items_of. cbn [flat_map]. rewrite block_at_set_other by exact Hbc.
      rewrite fr by exact Hni. reflexivity.
  - rewrite set_block_length. apply Nat.le_refl.
  - constructor; [exact Hbase|constructor].
  - apply Nat.le_refl.
Qed.

Lemma ext_trans : forall base g0 ids g1 f1 g2 f2,
  ext base g0 ids g1 f1 -> ext base g1 (ids ++ labels f1) g2 f2 -> ext base g0 ids g2 (f1 ++ f2).
Proof.
  intros base g0 ids g1 f1 g2 f2 [w1 i1 c1 r1 n1] [w2 i2 c2 r2 n2].
  constructor; rewrite ?labels_app, ?app_assoc.
  - exact w2.
  - rewrite i2, i1. reflexivity.
  - lia.
  - apply Forall_app. split; assumption.
  - lia.
Qed.
Lemma ext_base : forall base base' g ids g' f, base <= base' -> ext base' g ids g' f -> ext base g ids g' f.
Proof.
  intros base base' g ids g' f H [a b c d e]. constructor; try assumption.
  eapply Forall_impl; [|exact d]. intros x Hx. cbn beta in *. lia.
Qed.
Lemma wf_below : forall g ids, wf g ids -> ~ In (List.length (g_blocks g)) ids.
Proof.
  intros g ids W H. pose proof (wf_lt _ _ W) as L. rewrite Forall_forall in L.
  apply L in H. cbn beta in H. lia.
Qed.

(** ** Running a list of items *)

Definition locals := local -> option V.
Inductive sres := SNext (s : list V) (l : locals) (st : St) | SJump (s : list V) (l : locals) (st : St)
                | SStop (r : result V) (st : St) | SStuck.
Definition spush (r : result V * St) (s : list V) (l : locals) : sres :=
  match r with (Ok v, st) => SNext (v :: s) l st | (Err x, st) => SStop (Err x) st end.
Definition supdate (l : locals) (x : local) (v : option V) : locals :=
  fun y => if local_eqb y x then v else l y.
Definition sstep (i : instr w) (s : list V) (l : locals) (st : St) : sres :=
  match op i, oparg i, s with
  | POP_TOP, _, _ :: s => SNext s l st
  | ROT_TWO, _, a :: b :: s => SNext (b :: a :: s) l st
  | ROT_THREE, _, a :: b :: d :: s => SNext (b :: d :: a :: s) l st
  | ROT_FOUR, _, a :: b :: d :: e :: s => SNext (b :: d :: e :: a :: s) l st
  | UNARY_NEGATIVE, _, a :: s => spush (w_negate w a st) s l
  | BINARY_MULTIPLY, _, b :: a :: s => spush (w_arith w Mul a b st) s l
  | BINARY_DIVIDE, _, b :: a :: s => spush (w_arith w Div a b st) s l
  | BINARY_MODULO, _, b :: a :: s => spush (w_arith w Mod a b st) s l
  | BINARY_ADD, _, b :: a :: s => spush (w_arith w Add a b st) s l
  | BINARY_SUBTRACT, _, b :: a :: s => spush (w_arith w Sub a b st) s l
  | BINARY_SUBSCR, _, b :: a :: s => spush (w_subscr w a b st) s l
  | GET_ITER, _, a :: s => spush (w_iter w a st) s l
  | RETURN_VALUE, _, a :: _ => SStop (Ok a) st
  | FOR_ITER, AJump _, a :: s =>
    match w_next w a st with
    | (Ok (Some v), st) => SNext (v :: a :: s) l st
    | (Ok None, st) => SJump s l st
    | (Err x, st) => SStop (Err x) st
    end
  | STORE_ATTR, AName name, v :: u :: s =>
    match w_setattr w v name u st with
    | (Ok _, st) => SNext s l st
    | (Err x, st) => SStop (Err x) st
    end
  | LOAD_CONST, AConst k, s => SNext (kval w k :: s) l st
  | BUILD_TUPLE, ANum n, s =>
    match take_stack n s [] with
    | Some (vs, s) => SNext (w_tuple w vs :: s) l st
    | None => SStuck
    end
  | LOAD_ATTR, AName name, a :: s => spush (w_attr w a name st) s l
  | COMPARE_OP, ACompare t, b :: a :: s => spush (w_compare w t a b st) s l
  | JUMP_FORWARD, AJump _, s => SJump s l st
  | JUMP_IF_FALSE, AJump _, a :: s =>
    match w_truth w a st with
    | (Ok true, st) => SNext (a :: s) l st
    | (Ok false, st) => SJump (a :: s) l st
    | (Err x, st) => SStop (Err x) st
    end
  | JUMP_IF_TRUE, AJump _, a :: s =>
    match w_truth w a st with
    | (Ok true, st) => SJump (a :: s) l st
    | (Ok false, st) => SNext (a :: s) l st
    | (Err x, st) => SStop (Err x) st
    end
  | LOAD_FAST, ALocal x, s =>
    match l x with
    | Some v => SNext (v :: s) l st
    | None => SStop (Err NameError) st
    end
  | STORE_FAST, ALocal x, a :: s => SNext s (supdate l x (Some a)) st
  | DELETE_FAST, ALocal x, s =>
    match l x with
    | Some _ => SNext s (supdate l x None) st
    | None => SStop (Err NameError) st
    end
  | CALL_FUNCTION, ANum n, s =>
    match take_stack n s [] with
    | Some (args, f :: s) => spush (w_call w f args st) s l
    | _ => SStuck
    end
  | _, _, _ => SStuck
  end.

Inductive sexec (P : list item) : list item -> list V -> locals -> St -> result V * St -> Prop :=
| sx_lab : forall b Q s l st o, sexec P Q s l st o -> sexec P (Lab b :: Q) s l st o
| sx_next : forall i Q s l st s' l' st' o,
    sstep i s l st = SNext s' l' st' -> sexec P Q s' l' st' o -> sexec P (Ins i :: Q) s l st o
| sx_jump : forall i b A Q' Q s l st s' l' st' o,
    sstep i s l st = SJump s' l' st' -> target i = Some b -> P = A ++ Lab b :: Q' ->
    sexec P (Lab b :: Q') s' l' st' o -> sexec P (Ins i :: Q) s l st o
| sx_stop : forall i Q s l st r st',
    sstep i s l st = SStop r st' -> sexec P (Ins i :: Q) s l st (r, st').

(** ** Continuations *)

Definition after {A} (r : result A * St) (k : A -> St -> Prop) (o : result V * St) : Prop :=
  match r with (Ok a, st) => k a st | (Err x, st) => o = (Err x, st) end.
Lemma after_bind : forall A B (a : @action w A) (f : A -> @action w B) st k o,
  after (andthen a f st) k o <-> after (a st) (fun v st' => after (f v st') k o) o.
Proof. intros A B a f st k o. unfold andthen. destruct (a st) as [[v|x] st']; cbn [after]; reflexivity. Qed.
Lemma after_mono : forall A (r : result A * St) (k k' : A -> St -> Prop) o,
  (forall a st, k a st -> k' a st) -> after r k o -> after r k' o.
Proof. intros A [[a|x] st] k k' o H; cbn [after]; [apply H|exact (fun h => h)]. Qed.

Definition agree (n : nat) (l l' : locals) : Prop :=
  l' Context = l Context /\ forall k, k <= n -> l' (Tmp k) = l (Tmp k).
Lemma agree_refl : forall n l, agree n l l.
Proof. intros n l. split; [reflexivity|]. intros; reflexivity. Qed.
Lemma agree_trans : forall n n' l l' l'', n <= n' -> agree n l l' -> agree n' l' l'' -> agree n l l''.
Proof.
  intros n n' l l' l'' H [a b] [c d]. split; [congruence|].
  intros k Hk. rewrite d by lia. apply b. exact Hk.
Qed.

(** A rest of the program *)
Definition tail_of (P Q : list item) : Prop := exists A, P = A ++ Q.
Lemma tail_cons : forall P x Q, tail_of P (x :: Q) -> tail_of P Q.
Proof. intros P x Q [A ->]. exists (A ++ [x]). rewrite <- app_assoc. reflexivity. Qed.
Lemma tail_app : forall P f Q, tail_of P (f ++ Q) -> tail_of P Q.
Proof. intros P f Q [A ->]. exists (A ++ f). rewrite <- app_assoc. reflexivity. Qed.

(** [does n f pre a]: with [pre] on top of the stack, [f] carries out [a], whose values
    then are on top of the stack in its place. *)
Definition does (n : nat) (f : list item) (pre : list V) (a : V -> @action w (list V)) : Prop :=
  forall P Q c s l st o,
    tail_of P (f ++ Q) -> l Context = Some c ->
    after (a c st) (fun vs st' => forall l', agree n l l' -> sexec P Q (vs ++ s) l' st' o) o ->
    sexec P (f ++ Q) (pre ++ s) l st o.
Definition one (a : V -> @action w V) : V -> @action w (list V) :=
  fun c => v <- a c ;; ret [v].

Lemma does_seq : forall n n' f g pre a (b : list V -> V -> @action w (list V)),
  n <= n' -> does n f pre a -> (forall vs, does n' g vs (b vs)) ->
  does n (f ++ g) pre (fun c => vs <- a c ;; b vs c).
Proof.
  intros n n' f g pre a b Hn Hf Hg P Q c s l st o HP Hc H.
  rewrite <- app_assoc in *. eapply (Hf P); [exact HP|exact Hc|].
  apply after_bind in H. eapply after_mono; [|exact H].
  intros vs st' H' l' Hl'. cbn beta in H'.
  eapply (Hg vs P); [exact (tail_app _ _ _ HP)| |].
  - destruct Hl' as [E _]. rewrite E. exact Hc.
  - eapply after_mono; [|exact H']. intros vs' st'' H'' l'' Hl''. apply H''.
    eapply agree_trans; eassumption.
Qed.
Lemma does_ext : forall n f pre a a', (forall c st, a c st = a' c st) -> does n f pre a -> does n f pre a'.
Proof. intros n f pre a a' E D P Q c s l st o HP Hc H. eapply D; [exact HP|exact Hc|]. rewrite E. exact H. Qed.
(** Values deeper in the stack stay. *)
Lemma does_under : forall n f pre a under, does n f pre a ->
  does n f (pre ++ under) (fun c => vs <- a c ;; ret (vs ++ under)).
Proof.
  intros n f pre a under D P Q c s l st o HP Hc H. rewrite <- app_assoc.
  eapply D; [exact HP|exact Hc|]. apply after_bind in H. eapply after_mono; [|exact H].
  intros vs st' H' l' Hl'. cbn [after ret] in H'. specialize (H' l' Hl'). rewrite <- app_assoc in H'. exact H'.
Qed.
Lemma does_nil : forall n pre, does n [] pre (fun _ => ret pre).
Proof.
  intros n pre P Q c s l st o HP Hc H. cbn [after ret] in H. apply H. apply agree_refl.
Qed.

(** Single instructions *)
Lemma x_next : forall P i Q s l st s' o,
  sstep i s l st = SNext s' l st -> sexec P Q s' l st o -> sexec P (Ins i :: Q) s l st o.
Proof. intros. eapply sx_next; eassumption. Qed.
Lemma x_push : forall P i Q s l st r s' o,
  sstep i s l st = spush r s' l ->
  after r (fun v st' => sexec P Q (v :: s') l st' o) o -> sexec P (Ins i :: Q) s l st o.
Proof.
  intros P i Q s l st [[v|x] st'] s' o E H; cbn [spush after] in *.
  - eapply sx_next; eassumption.
  - subst o. eapply sx_stop. exact E.
Qed.
Lemma x_context : forall P Q s l st c o, l Context = Some c ->
  sexec P Q (c :: s) l st o -> sexec P (Ins load_context :: Q) s l st o.
Proof.
  intros P Q s l st c o H H'. eapply sx_next; [|exact H']. unfold sstep. cbn [op oparg load_context].
  rewrite H. reflexivity.
Qed.
Lemma x_setattr : forall P Q v u a s l st o,
  after (w_setattr w v a u st) (fun _ st' => sexec P Q s l st' o) o ->
  sexec P (Ins (store_attr a) :: Q) (v :: u :: s) l st o.
Proof.
  intros P Q v u a s l st o H.
  destruct (w_setattr w v a u st) as [[x|x] st'] eqn:E; cbn [after] in H.
  - eapply sx_next; [|exact H]. unfold sstep. cbn [op oparg store_attr]. rewrite E. reflexivity.
  - subst o. eapply sx_stop. unfold sstep. cbn [op oparg store_attr]. rewrite E. reflexivity.
Qed.
Lemma x_attr : forall P Q v a s l st o,
  after (w_attr w v a st) (fun x st' => sexec P Q (x :: s) l st' o) o ->
  sexec P (Ins (load_attr a) :: Q) (v :: s) l st o.
Proof. intros P Q v a s l st o H. eapply x_push; [reflexivity|exact H]. Qed.
Lemma x_const : forall P Q k s l st o, sexec P Q (kval w k :: s) l st o -> sexec P (Ins (load_const k) :: Q) s l st o.
Proof. intros P Q k s l st o H. eapply x_next; [reflexivity|exact H]. Qed.
Lemma take_stack_rev : forall args (s acc : list V),
  take_stack (List.length args) (args ++ s) acc = Some (rev args ++ acc, s).
Proof.
  induction args as [|a args IH]; intros s acc; cbn [List.length take_stack app rev]; [reflexivity|].
  rewrite IH, <- app_assoc. reflexivity.
Qed.
Lemma x_call : forall P Q args f s l st o,
  after (w_call w f args st) (fun x st' => sexec P Q (x :: s) l st' o) o ->
  sexec P (Ins (call_function (List.length args)) :: Q) (rev args ++ f :: s) l st o.
Proof.
  intros P Q args f s l st o H. eapply x_push; [|exact H]. unfold sstep.
  cbn [op oparg call_function]. rewrite <- (rev_length args), take_stack_rev, rev_involutive, app_nil_r.
  reflexivity.
Qed.
Lemma x_tuple : forall P Q args s l st o,
  sexec P Q (w_tuple w args :: s) l st o ->
  sexec P (Ins (build_tuple (List.length args)) :: Q) (rev args ++ s) l st o.
Proof.
  intros P Q args s l st o H. eapply x_next; [|exact H]. unfold sstep.
  cbn [op oparg build_tuple]. rewrite <- (rev_length args), take_stack_rev, rev_involutive, app_nil_r.
  reflexivity.
Qed.
Lemma x_jump_true : forall P Q e Q' v s l st o,
  tail_of P (Lab e :: Q') ->
  after (w_truth w v st) (fun b st' => if b then sexec P Q' (v :: s) l st' o
                                       else sexec P Q (v :: s) l st' o) o ->
  sexec P (Ins (I JUMP_IF_TRUE (AJump e)) :: Q) (v :: s) l st o.
Proof.
  intros P Q e Q' v s l st o [A HP] H.
  destruct (w_truth w v st) as [[[|]|x] st'] eqn:E; cbn [after] in H.
  - eapply sx_jump; [unfold sstep; cbn [op oparg]; rewrite E; reflexivity|reflexivity|exact HP|].
    apply sx_lab. exact H.
  - eapply sx_next; [unfold sstep; cbn [op oparg]; rewrite E; reflexivity|exact H].
  - subst o. eapply sx_stop. unfold sstep; cbn [op oparg]; rewrite E; reflexivity.
Qed.
Lemma x_jump_false : forall P Q e Q' v s l st o,
  tail_of P (Lab e :: Q') ->
  after (w_truth w v st) (fun b st' => if b then sexec P Q (v :: s) l st' o
                                       else sexec P Q' (v :: s) l st' o) o ->
  sexec P (Ins (I JUMP_IF_FALSE (AJump e)) :: Q) (v :: s) l st o.
Proof.
  intros P Q e Q' v s l st o [A HP] H.
  destruct (w_truth w v st) as [[[|]|x] st'] eqn:E; cbn [after] in H.
  - eapply sx_next; [unfold sstep; cbn [op oparg]; rewrite E; reflexivity|exact H].
  - eapply sx_jump; [unfold sstep; cbn [op oparg]; rewrite E; reflexivity|reflexivity|exact HP|].
    apply sx_lab. exact H.
  - subst o. eapply sx_stop. unfold sstep; cbn [op oparg]; rewrite E; reflexivity.
Qed.
Lemma x_for_iter : forall P Q e Q' v s l st o,
  tail_of P (Lab e :: Q') ->
  after (w_next w v st) (fun b st' => match b with
                                      | Some x => sexec P Q (x :: v :: s) l st' o
                                      | None => sexec P Q' s l st' o
                                      end) o ->
  sexec P (Ins (I FOR_ITER (AJump e)) :: Q) (v :: s) l st o.
Proof.
  intros P Q e Q' v s l st o [A HP] H.
  destruct (w_next w v st) as [[[y|]|x] st'] eqn:E; cbn [after] in H.
  - eapply sx_next; [unfold sstep; cbn [op oparg]; rewrite E; reflexivity|exact H].
  - eapply sx_jump; [unfold sstep; cbn [op oparg]; rewrite E; reflexivity|reflexivity|exact HP|].
    apply sx_lab. exact H.
  - subst o. eapply sx_stop. unfold sstep; cbn [op oparg]; rewrite E; reflexivity.
Qed.
Lemma x_forward : forall P Q e Q' s l st o,
  tail_of P (Lab e :: Q') -> sexec P Q' s l st o -> sexec P (Ins (I JUMP_FORWARD (AJump e)) :: Q) s l st o.
Proof.
  intros P Q e Q' s l st o [A HP] H. eapply sx_jump; [reflexivity|reflexivity|exact HP|]. apply sx_lab. exact H.
Qed.

(** ** What holds of the items of every expression *)

Definition ok_instr (i : instr w) : Prop :=
  match op i, oparg i with
  | (POP_TOP | ROT_TWO | ROT_THREE | ROT_FOUR | UNARY_NEGATIVE | BINARY_MULTIPLY | BINARY_DIVIDE
     | BINARY_MODULO | BINARY_ADD | BINARY_SUBTRACT | BINARY_SUBSCR | GET_ITER | RETURN_VALUE), ANone => True
  | (FOR_ITER | JUMP_FORWARD | JUMP_IF_FALSE | JUMP_IF_TRUE), AJump _ => True
  | LOAD_CONST, AConst _ => True
  | (LOAD_ATTR | STORE_ATTR), AName _ => True
  | (LOAD_FAST | STORE_FAST | DELETE_FAST), ALocal _ => True
  | COMPARE_OP, ACompare t => In t cmp_op
  | (CALL_FUNCTION | BUILD_TUPLE), ANum n => n < 256
  | _, _ => False
  end.
Definition ok_item (x : item) : Prop := match x with Ins i => ok_instr i | Lab _ => True end.
(** Jumps go forward, inside the list. *)
Fixpoint fwd (f : list item) : Prop :=
  match f with
  | [] => True
  | Lab _ :: r => fwd r
  | Ins i :: r => match target i with Some b => In b (labels r) | None => True end /\ fwd r
  end.
Lemma fwd_app : forall f g, fwd f -> fwd g -> fwd (f ++ g).
Proof.
  induction f as [|[b|i] f IH]; intros g Hf Hg; cbn [app fwd] in *.
  - exact Hg.
  - apply IH; assumption.
  - destruct Hf as [H1 H2]. split; [|apply IH; assumption].
    destruct (target i); [|exact Logic.I]. rewrite labels_app. apply in_or_app. left. exact H1.
Qed.
Lemma fwd_jump : forall f g i b, fwd f -> fwd g -> target i = Some b -> In b (labels g) -> fwd (f ++ Ins i :: g).
Proof.
  intros f g i b Hf Hg Ht Hb. apply fwd_app; [exact Hf|]. cbn [fwd]. rewrite Ht. split; assumption.
Qed.
Lemma fwd_ins : forall is, Forall (fun i => target i = None) is -> fwd (map Ins is).
Proof.
  induction is as [|i is IH]; intros H; [exact Logic.I|]. inversion H as [|x y H1 H2]; subst.
  cbn [map fwd]. rewrite H1. split; [exact Logic.I|apply IH; exact H2].
Qed.

(** [compiles c fault bound D]: the compiler [c] fails with [fault], or else links items
    of which [D] holds. *)
Definition compiles (c : compiler w) (flt : option exn) (bound : nat) (D : nat -> list item -> Prop) : Prop :=
  forall g ids, wf g ids ->
    match c g with
    | Ok g' => flt = None /\
      exists f, ext (List.length (g_blocks g)) g ids g' f /\ fwd f /\ Forall ok_item f
                /\ List.length f <= bound /\ D (g_nlocals g) f
    | Err x => flt = Some x
    end.
Lemma compiles_weaken : forall c flt b b' D (D' : nat -> list item -> Prop),
  compiles c flt b D -> b <= b' -> (forall n f, D n f -> D' n f) -> compiles c flt b' D'.
Proof.
  intros c flt b b' D D' H Hb HD g ids W. specialize (H g ids W). destruct (c g) as [g'|x]; [|exact H].
  destruct H as (F & f & X & Y & Z & L & Df). split; [exact F|]. exists f. split; [exact X|]. split; [exact Y|]. split; [exact Z|]. split; [lia|]. apply HD. exact Df.
Qed.
Lemma compiles_fails : forall x b D, compiles (fails x) (Some x) b D.
Proof. intros x b D g ids W. reflexivity. Qed.
Lemma compiles_emits : forall is (D : nat -> list item -> Prop),
  Forall ok_instr is -> Forall (fun i => target i = None) is -> (forall n, D n (map Ins is)) ->
  compiles (emits is) None (List.length is) D.
Proof.
  intros is D H1 H2 HD g ids W. unfold emits. split; [reflexivity|]. exists (map Ins is).
  split; [apply ext_emit; exact W|]. split; [apply fwd_ins; exact H2|].
  split.
  { apply Forall_forall. intros x Hx. apply in_map_iff in Hx. destruct Hx as (i & <- & Hi).
    rewrite Forall_forall in H1. apply H1. exact Hi. }
  split; [rewrite map_length; apply Nat.le_refl|apply HD].
Qed.
Lemma compiles_seq : forall a b fa fb ba bb Da Db (D : nat -> list item -> Prop),
  compiles a fa ba Da -> compiles b fb bb Db ->
  (forall n n' f g, n <= n' -> Da n f -> Db n' g -> D n (f ++ g)) ->
  compiles (seq a b) (first fa fb) (ba + bb) D.
Proof.
  intros a b fa fb ba bb Da Db D Ha Hb HD g ids W. unfold seq. specialize (Ha g ids W).
  destruct (a g) as [g1|x]; cbn [bind].
  - destruct Ha as (-> & f1 & X1 & Y1 & Z1 & L1 & D1). cbn [first].
    specialize (Hb g1 (ids ++ labels f1) (x_wf _ _ _ _ _ X1)). destruct (b g1) as [g2|x]; [|exact Hb].
    destruct Hb as (-> & f2 & X2 & Y2 & Z2 & L2 & D2). split; [reflexivity|].
    exists (f1 ++ f2). split.
    { eapply ext_trans; [exact X1|]. eapply ext_base; [|exact X2]. apply (x_count _ _ _ _ _ X1). }
    split; [apply fwd_app; assumption|]. split; [apply Forall_app; split; assumption|].
    split; [rewrite app_length; lia|]. eapply HD; [|exact D1|exact D2]. apply (x_nlocals _ _ _ _ _ X1).
  - subst fa. reflexivity.
Qed.
End Code.
