(** * The bytes the assembler writes are the items *)
From Coq Require Import NArith ZArith String List Bool Lia Arith.
From Verif Require Import PyStr PyErr CpModel CpSpec CpCode CpVm.
Import ListNotations.
Local Open Scope nat_scope.

Section Asm.
Context {w : world}.
Local Notation V := (V w).
Local Notation K := (K w).
Local Notation St := (St w).

(** ** The tables *)

Lemma position_app : forall A (e : A -> A -> bool) x l l' n, position e x l = Some n -> position e x (l ++ l') = Some n.
Proof.
  intros A e x. induction l as [|y l IH]; intros l' n H; cbn [position app] in *; [discriminate|].
  destruct (e x y); [exact H|]. destruct (position e x l) as [m|]; [|discriminate].
  rewrite (IH l' m eq_refl). exact H.
Qed.
Lemma position_new : forall A (e : A -> A -> bool) x l, e x x = true -> position e x l = None ->
  position e x (l ++ [x]) = Some (List.length l).
Proof.
  intros A e x l R. induction l as [|y l IH]; intros H; cbn [position app List.length] in *; [rewrite R; reflexivity|].
  destruct (e x y); [discriminate|]. destruct (position e x l); [discriminate|]. rewrite IH; reflexivity.
Qed.
Lemma position_nth : forall A (e : A -> A -> bool) x l n, (forall a b, e a b = true -> a = b) ->
  position e x l = Some n -> nth_error l n = Some x.
Proof.
  intros A e x l n E. revert n. induction l as [|y l IH]; intros n H; cbn [position] in H; [discriminate|].
  destruct (e x y) eqn:Ex.
  - injection H as <-. apply E in Ex. subst y. reflexivity.
  - destruct (position e x l) as [m|]; [|discriminate]. injection H as <-. cbn. apply IH. reflexivity.
Qed.
Lemma position_lt : forall A (e : A -> A -> bool) x l n, position e x l = Some n -> n < List.length l.
Proof.
  intros A e x. induction l as [|y l IH]; intros n H; cbn [position List.length] in *; [discriminate|].
  destruct (e x y); [injection H as <-; lia|]. destruct (position e x l) as [m|]; [|discriminate].
  injection H as <-. specialize (IH m eq_refl). lia.
Qed.
Lemma position_none : forall A (e : A -> A -> bool) x l, e x x = true -> position e x l = None -> ~ In x l.
Proof.
  intros A e x l R. induction l as [|y l IH]; intros H; cbn [position] in H; [intros []|].
  intros [->|Hi]; [rewrite R in H; discriminate|]. destruct (e x y); [discriminate|].
  destruct (position e x l); [discriminate|]. exact (IH eq_refl Hi).
Qed.
Lemma position_in : forall A (e : A -> A -> bool) x l, e x x = true -> In x l -> exists n, position e x l = Some n.
Proof.
  intros A e x l R H. destruct (position e x l) as [n|] eqn:E; [exists n; reflexivity|].
  exfalso. exact (position_none A e x l R E H).
Qed.

Definition grows (t t' : @tables w) : Prop :=
  (exists x, t_consts t' = t_consts t ++ x) /\ (exists x, t_names t' = t_names t ++ x)
  /\ (exists x, t_locals t' = t_locals t ++ x).
Lemma grows_refl : forall t, grows t t.
Proof. intros t. split; [|split]; exists []; rewrite app_nil_r; reflexivity. Qed.
Lemma grows_trans : forall a b c, grows a b -> grows b c -> grows a c.
Proof.
  intros a b c ([x1 A1] & [y1 B1] & [z1 C1]) ([x2 A2] & [y2 B2] & [z2 C2]).
  split; [|split]; eexists; [rewrite A2, A1|rewrite B2, B1|rewrite C2, C1]; rewrite <- app_assoc; reflexivity.
Qed.
Definition index {A} (e : A -> A -> bool) (x : A) (l : list A) : Z :=
  match position e x l with Some n => Z.of_nat n | None => 0%Z end.
(** The instruction with its argument looked up in the final tables *)
Definition res (t : @tables w) (i : instr w) : rinstr :=
  (op i, match oparg i with
         | ANone => RNone
         | AConst k => RNum (index (same w) k (t_consts t))
         | ALocal x => RNum (index local_eqb x (t_locals t))
         | AName s => RNum (index str_eqb s (t_names t))
         | ACompare s => RNum (index str_eqb s cmp_op)
         | ANum n => RNum (Z.of_nat n)
         | AJump b => RJump b
         end).
Definition tsize (t : @tables w) : nat := List.length (t_consts t) + List.length (t_names t) + List.length (t_locals t).
(** Its argument is in the tables. *)
Definition known (t : @tables w) (i : instr w) : Prop :=
  match oparg i with
  | AConst k => exists n, position (same w) k (t_consts t) = Some n
  | ALocal x => exists n, position local_eqb x (t_locals t) = Some n
  | AName s => exists n, position str_eqb s (t_names t) = Some n
  | _ => True
  end.
Lemma known_grows : forall t t' i, grows t t' -> known t i -> known t' i.
Proof.
  intros t t' i ([x A] & [y B] & [z C]) H. unfold known in *. destruct (oparg i); try exact Logic.I;
    destruct H as [n H]; exists n; rewrite ?A, ?B, ?C; apply position_app; exact H.
Qed.
Lemma res_grows : forall t t' i, grows t t' -> known t i -> res t' i = res t i.
Proof.
  intros t t' i ([x A] & [y B] & [z C]) H. unfold known in H. unfold res, index. destruct (oparg i); try reflexivity;
    destruct H as [n H]; rewrite ?A, ?B, ?C; rewrite (position_app _ _ _ _ _ _ H), H; reflexivity.
Qed.
Lemma str_eqb_refl : forall s, str_eqb s s = true.
Proof. intros s. destruct (str_eqb_spec s s) as [|H]; [reflexivity|contradiction H; reflexivity]. Qed.
Lemma local_eqb_refl : forall x, local_eqb x x = true.
Proof. intros [|n]; [reflexivity|apply Nat.eqb_refl]. Qed.
Lemma local_eqb_eq : forall x y, local_eqb x y = true -> x = y.
Proof. intros [|n] [|m] H; try discriminate; [reflexivity|]. apply Nat.eqb_eq in H. subst m. reflexivity. Qed.

Lemma nodup_snoc : forall A (l : list A) x, NoDup l -> ~ In x l -> NoDup (l ++ [x]).
Proof.
  intros A l x. induction l as [|y l IH]; intros N H; cbn [app].
  - constructor; [intros []|constructor].
  - inversion N as [|u v N1 N2]; subst. constructor.
    + rewrite in_app_iff. intros [Hy|[Hy|[]]]; [exact (N1 Hy)|]. apply H. left. symmetry. exact Hy.
    + apply IH; [exact N2|]. intros Hx. apply H. right. exact Hx.
Qed.

Hypothesis apart : constants_apart w.
Lemma same_refl : forall k, same w k k = true.
Proof. intros k. apply apart. reflexivity. Qed.

Lemma enter_spec : forall A (e : A -> A -> bool) x l n l', e x x = true -> enter e x l = (n, l') ->
  position e x l' = Some n /\ (exists y, l' = l ++ y) /\ (NoDup l -> NoDup l') /\ List.length l' <= S (List.length l).
Proof.
  intros A e x l n l' R H. unfold enter in H. destruct (position e x l) as [m|] eqn:E; injection H as <- <-.
  - split; [exact E|]. split; [exists []; rewrite app_nil_r; reflexivity|]. split; [exact (fun h => h)|lia].
  - split; [apply position_new; assumption|]. split; [exists [x]; reflexivity|].
    split; [intros N; apply nodup_snoc; [exact N|eapply position_none; eassumption]|]. rewrite app_length. cbn. lia.
Qed.
Lemma lookup_spec : forall i t, ok_instr i ->
  exists t', lookup i t = Ok (snd (res t' i), t') /\ grows t t' /\ known t' i /\
             (NoDup (t_locals t) -> NoDup (t_locals t')) /\ tsize t' <= S (tsize t).
Proof.
  intros [o a] t Hok. unfold lookup, res, known. cbn [op oparg snd].
  destruct a as [|k|s|x|s|n|b]; cbn [snd].
  - exists t. split; [reflexivity|]. split; [apply grows_refl|]. split; [exact Logic.I|]. split; [exact (fun h => h)|lia].
  - destruct (enter (same w) k (t_consts t)) as [n l] eqn:E. apply enter_spec in E; [|apply same_refl].
    destruct E as (E1 & [y E2] & E3 & E4).
    exists {| t_consts := l; t_names := t_names t; t_locals := t_locals t |}. cbn [t_consts t_names t_locals].
    unfold index. rewrite E1. split; [reflexivity|]. split.
    { split; [exists y; exact E2|split; exists []; rewrite app_nil_r; reflexivity]. }
    split; [exists n; reflexivity|]. split; [exact (fun h => h)|]. unfold tsize. cbn [t_consts t_names t_locals]. lia.
  - destruct (enter str_eqb s (t_names t)) as [n l] eqn:E. apply enter_spec in E; [|apply str_eqb_refl].
    destruct E as (E1 & [y E2] & E3 & E4).
    exists {| t_consts := t_consts t; t_names := l; t_locals := t_locals t |}. cbn [t_consts t_names t_locals].
    unfold index. rewrite E1. split; [reflexivity|]. split.
    { split; [exists []; rewrite app_nil_r; reflexivity|split; [exists y; exact E2|exists []; rewrite app_nil_r; reflexivity]]. }
    split; [exists n; reflexivity|]. split; [exact (fun h => h)|]. unfold tsize. cbn [t_consts t_names t_locals]. lia.
  - destruct (enter local_eqb x (t_locals t)) as [n l] eqn:E. apply enter_spec in E; [|apply local_eqb_refl].
    destruct E as (E1 & [y E2] & E3 & E4).
    exists {| t_consts := t_consts t; t_names := t_names t; t_locals := l |}. cbn [t_consts t_names t_locals].
    unfold index. rewrite E1. split; [reflexivity|]. split.
    { split; [exists []; rewrite app_nil_r; reflexivity|split; [exists []; rewrite app_nil_r; reflexivity|exists y; exact E2]]. }
    split; [exists n; reflexivity|]. split; [exact E3|]. unfold tsize. cbn [t_consts t_names t_locals]. lia.
  - assert (Hs : In s cmp_op) by (destruct o; try contradiction Hok; exact Hok).
    apply (position_in _ str_eqb) in Hs; [|apply str_eqb_refl]. destruct Hs as [n Hn]. exists t. unfold index.
    rewrite Hn. split; [reflexivity|]. split; [apply grows_refl|]. split; [exact Logic.I|]. split; [exact (fun h => h)|lia].
  - exists t. split; [reflexivity|]. split; [apply grows_refl|]. split; [exact Logic.I|]. split; [exact (fun h => h)|lia].
  - exists t. split; [reflexivity|]. split; [apply grows_refl|]. split; [exact Logic.I|]. split; [exact (fun h => h)|lia].
Qed.
Lemma lookup_all_spec : forall is t, Forall ok_instr is ->
  exists t', lookup_all is t = Ok (map (res t') is, t') /\ grows t t' /\ Forall (known t') is /\
             (NoDup (t_locals t) -> NoDup (t_locals t')) /\ tsize t' <= List.length is + tsize t.
Proof.
  induction is as [|i is IH]; intros t Hok; cbn [lookup_all map].
  - exists t. split; [reflexivity|]. split; [apply grows_refl|]. split; [constructor|]. split; [exact (fun h => h)|cbn; lia].
  - inversion Hok as [|u v O1 O2]; subst. destruct (lookup_spec i t O1) as (t1 & E1 & G1 & K1 & N1 & S1).
    destruct (IH t1 O2) as (t2 & E2 & G2 & K2 & N2 & S2). rewrite E1. cbn [bind]. rewrite E2. cbn [bind].
    exists t2. split; [|split; [eapply grows_trans; eassumption|split; [|split]]].
    + rewrite (res_grows t1 t2 i G2 K1). reflexivity.
    + constructor; [eapply known_grows; eassumption|exact K2].
    + intros N. apply N2, N1, N.
    + cbn [List.length]. lia.
Qed.
Fixpoint ins_of (f : list (@item w)) : list (instr w) :=
  match f with [] => [] | Lab _ :: r => ins_of r | Ins i :: r => i :: ins_of r end.
Lemma ins_of_app : forall f g, ins_of (f ++ g) = ins_of f ++ ins_of g.
Proof. induction f as [|[b|i] f IH]; intros g; cbn [app ins_of]; [reflexivity|apply IH|]. rewrite IH. reflexivity. Qed.
Lemma ins_of_map : forall is, ins_of (map Ins is) = is.
Proof. induction is as [|i is IH]; [reflexivity|]. cbn [map ins_of]. rewrite IH. reflexivity. Qed.

Lemma lookup_blocks_spec : forall bs order t, Forall ok_item (items_of bs order) ->
  exists t', lookup_blocks bs order t = Ok (map (fun b => (b, map (res t') (b_code (block_at bs b)))) order, t')
             /\ grows t t' /\ Forall (known t') (ins_of (items_of bs order)) /\
             (NoDup (t_locals t) -> NoDup (t_locals t')) /\ tsize t' <= List.length (ins_of (items_of bs order)) + tsize t.
Proof.
  intros bs. induction order as [|b r IH]; intros t Hok; cbn [lookup_blocks map].
  - exists t. split; [reflexivity|]. split; [apply grows_refl|]. split; [constructor|]. split; [exact (fun h => h)|cbn; lia].
  - rewrite items_cons in *. inversion Hok as [|u v O1 O2]; subst. apply Forall_app in O2. destruct O2 as [O2 O3].
    assert (Oc : Forall ok_instr (b_code (block_at bs b))).
    { apply Forall_forall. intros i Hi. rewrite Forall_forall in O2. apply (O2 (Ins i)). apply in_map. exact Hi. }
    destruct (lookup_all_spec _ t Oc) as (t1 & E1 & G1 & K1 & N1 & S1).
    destruct (IH t1 O3) as (t2 & E2 & G2 & K2 & N2 & S2). rewrite E1. cbn [bind]. rewrite E2. cbn [bind].
    exists t2. cbn [ins_of]. rewrite ins_of_app, ins_of_map.
    split; [|split; [eapply grows_trans; eassumption|split; [|split]]].
    + f_equal. f_equal. f_equal. f_equal. apply map_ext_in. intros i Hi. symmetry. apply res_grows; [exact G2|].
      rewrite Forall_forall in K1. apply K1. exact Hi.
    + apply Forall_app. split; [|exact K2]. eapply Forall_impl; [|exact K1]. intros i Hi. eapply known_grows; eassumption.
    + intros N. apply N2, N1, N.
    + rewrite app_length. lia.
Qed.

(** ** Offsets *)

Section Layout.
Variables (bs : list (block w)) (ids : list nat) (t : @tables w).
Let P := items_of bs ids.
Hypothesis Nd : NoDup ids.
Hypothesis Fw : fwd P.
Hypothesis Okp : Forall ok_item P.
Hypothesis Kn : Forall (known t) (ins_of P).
Let blocks := map (fun b => (b, map (res t) (b_code (block_at bs b)))) ids.
Let os := block_offsets 0 blocks.

Fixpoint alen (f : list (@item w)) : Z :=
  match f with [] => 0%Z | Lab _ :: r => alen r | Ins i :: r => (ilen (res t i) + alen r)%Z end.
Lemma alen_app : forall f g, alen (f ++ g) = (alen f + alen g)%Z.
Proof. induction f as [|[b|i] f IH]; intros g; cbn [app alen]; rewrite ?IH; lia. Qed.
Lemma ilen_pos : forall r, (1 <= ilen r)%Z.
Proof. intros [o a]. unfold ilen. cbn [snd]. destruct a as [|n|b]; [lia| |lia]. destruct (n >? 65535)%Z; lia. Qed.
Lemma alen_nonneg : forall f, (0 <= alen f)%Z.
Proof. induction f as [|[b|i] f IH]; cbn [alen]; [lia|exact IH|]. pose proof (ilen_pos (res t i)). lia. Qed.
Lemma fold_ilen : forall is o, fold_left (fun n i => (n + ilen i)%Z) (map (res t) is) o = (o + alen (map Ins is))%Z.
Proof. induction is as [|i is IH]; intros o; cbn [map fold_left alen]; [lia|]. rewrite IH. lia. Qed.
Lemma offset_at : forall pre suf b o, ~ In b pre ->
  offset_of b (block_offsets o (map (fun b => (b, map (res t) (b_code (block_at bs b)))) (pre ++ b :: suf)))
  = (o + alen (items_of bs pre))%Z.
Proof.
  induction pre as [|c pre IH]; intros suf b o H; cbn [app map block_offsets offset_of].
  - rewrite Nat.eqb_refl. cbn. lia.
  - destruct (Nat.eqb_spec b c) as [->|_]; [exfalso; apply H; left; reflexivity|].
    rewrite IH by (intros Hi; apply H; right; exact Hi). rewrite fold_ilen, items_cons. cbn [alen]. rewrite alen_app. lia.
Qed.
Lemma offset_label : forall A b Q, P = A ++ Lab b :: Q -> offset_of b os = alen A.
Proof.
  intros A b Q E.
  assert (Hb : In b ids). { rewrite <- (labels_items bs ids). fold P. rewrite E, labels_app. apply in_or_app. right. left. reflexivity. }
  apply in_split in Hb. destruct Hb as (pre & suf & Ei).
  assert (Hn : ~ In b pre). { rewrite Ei in Nd. apply NoDup_remove_2 in Nd. intros H. apply Nd. apply in_or_app. left. exact H. }
  assert (EP : P = items_of bs pre ++ Lab b :: map Ins (b_code (block_at bs b)) ++ items_of bs suf).
  { unfold P. rewrite Ei, items_of_app, items_cons. reflexivity. }
  assert (EA : items_of bs pre = A).
  { rewrite EP in E. apply label_split in E; [exact (proj1 E)|]. rewrite <- EP. unfold P. rewrite labels_items. exact Nd. }
  unfold os, blocks. rewrite Ei, offset_at by exact Hn. rewrite EA. lia.
Qed.

(** ** Bytes *)

(** The number an instruction at the end of [A] has for an argument *)
Definition number (A : list (@item w)) (i : instr w) : option Z :=
  match snd (res t i) with
  | RNone => None
  | RNum n => Some n
  | RJump b => Some (offset_of b os - (alen A + 3))%Z
  end.
Lemma ok_opmap : forall i : instr w, ok_instr i -> exists c, opmap (op i) = Some c.
Proof. intros [o a] H. cbn [op]. destruct o; try (eexists; reflexivity). unfold ok_instr in H. cbn in H. destruct a; contradiction. Qed.
Lemma index_nonneg : forall A (e : A -> A -> bool) x l, (0 <= index e x l)%Z.
Proof. intros A e x l. unfold index. destruct (position e x l); lia. Qed.
Lemma number_nonneg : forall A i Q n, P = A ++ Ins i :: Q -> number A i = Some n -> (0 <= n)%Z.
Proof.
  intros A i Q n E H. unfold number, res in H. cbn [snd] in H.
  destruct (oparg i) as [|k|s|x|s|m|b] eqn:Eo; try discriminate; injection H as <-; try apply index_nonneg; [lia|].
  assert (Hb : In b (labels Q)).
  { pose proof Fw as F. rewrite E in F. apply fwd_tail in F. cbn [fwd] in F. destruct F as [F _].
    unfold target in F. rewrite Eo in F. exact F. }
  assert (exists Q1 Q2, Q = Q1 ++ Lab b :: Q2) as (Q1 & Q2 & EQ).
  { clear - Hb. induction Q as [|[c|j] Q IH]; cbn [labels] in Hb; [contradiction| |].
    - destruct Hb as [->|Hb]; [exists [], Q; reflexivity|]. destruct (IH Hb) as (x & y & ->). exists (Lab c :: x), y. reflexivity.
    - destruct (IH Hb) as (x & y & ->). exists (Ins j :: x), y. reflexivity. }
  rewrite (offset_label (A ++ Ins i :: Q1) b Q2).
  - rewrite alen_app. cbn [alen]. unfold res, ilen. rewrite Eo. cbn [snd]. pose proof (alen_nonneg Q1). lia.
  - rewrite E, EQ, <- app_assoc. reflexivity.
Qed.
Lemma encode_spec : forall A i Q c, P = A ++ Ins i :: Q -> opmap (op i) = Some c ->
  encode os (alen A) (res t i) =
  match number A i with
  | None => Ok [c]
  | Some n => if (n >? 65535)%Z then Err NameError else Ok [c; Z.to_N (n mod 256); Z.to_N (n / 256)]
  end.
Proof.
  intros A i Q c E Hc. pose proof (number_nonneg A i Q) as NN. unfold number in *. unfold encode.
  change (fst (res t i)) with (op i). rewrite Hc.
  destruct (snd (res t i)) as [|n|b] eqn:Er; [reflexivity| |].
  - specialize (NN n E eq_refl). destruct (n >? 65535)%Z; [reflexivity|]. destruct (Z.ltb_spec n 0); [lia|reflexivity].
  - assert (Hl : ilen (res t i) = 3%Z) by (unfold ilen; rewrite Er; reflexivity). rewrite Hl.
    specialize (NN _ E eq_refl). destruct (offset_of b os - (alen A + 3) >? 65535)%Z; [reflexivity|].
    destruct (Z.ltb_spec (offset_of b os - (alen A + 3)) 0); [lia|reflexivity].
Qed.
Lemma encode_length : forall A i Q x, P = A ++ Ins i :: Q -> encode os (alen A) (res t i) = Ok x ->
  Z.of_nat (List.length x) = ilen (res t i).
Proof.
  intros A i Q x E H.
  assert (Oi : ok_instr i).
  { pose proof Okp as O. rewrite E in O. apply Forall_app in O. destruct O as [_ O]. inversion O. assumption. }
  destruct (ok_opmap i Oi) as [c Hc]. rewrite (encode_spec A i Q c E Hc) in H. unfold number in H. unfold ilen.
  destruct (snd (res t i)) as [|n|b].
  - injection H as <-. reflexivity.
  - destruct (n >? 65535)%Z; [discriminate|]. injection H as <-. reflexivity.
  - destruct (offset_of b os - (alen A + 3) >? 65535)%Z; [discriminate|]. injection H as <-. reflexivity.
Qed.
(** All the bytes of the rest of the program *)
Lemma encode_all_spec : forall Q A, P = A ++ Q ->
  match encode_all os (alen A) (map (res t) (ins_of Q)) with
  | Ok bytes => forall A2 i Q2, Q = A2 ++ Ins i :: Q2 ->
      exists b1 x b2, bytes = b1 ++ x ++ b2 /\ Z.of_nat (List.length b1) = alen A2
        /\ encode os (alen (A ++ A2)) (res t i) = Ok x
  | Err x => x = NameError /\ exists A2 i Q2 n, Q = A2 ++ Ins i :: Q2 /\ number (A ++ A2) i = Some n /\ (n > 65535)%Z
  end.
Proof.
  induction Q as [|[b|j] Q IH]; intros A E; cbn [ins_of map encode_all].
  - intros A2 i Q2 EQ. destruct A2; discriminate.
  - assert (EA : P = (A ++ [Lab b]) ++ Q) by (rewrite <- app_assoc; exact E).
    specialize (IH (A ++ [Lab b]) EA). assert (AL : alen (A ++ [Lab b]) = alen A) by (rewrite alen_app; cbn [alen]; lia).
    rewrite AL in IH. destruct (encode_all os (alen A) (map (res t) (ins_of Q))) as [bytes|x].
    + intros A2 i Q2 EQ. destruct A2 as [|y A2]; [discriminate|]. cbn [app] in EQ. injection EQ as <- EQ.
      destruct (IH A2 i Q2 EQ) as (b1 & x & b2 & H1 & H2 & H3). exists b1, x, b2. split; [exact H1|].
      split; [exact H2|]. rewrite <- app_assoc in H3. exact H3.
    + destruct IH as (-> & A2 & i & Q2 & n & EQ & Hn & Hb). split; [reflexivity|]. exists (Lab b :: A2), i, Q2, n.
      split; [rewrite EQ; reflexivity|]. split; [|exact Hb]. rewrite <- app_assoc in Hn. exact Hn.
  - assert (Oi : ok_instr j).
    { pose proof Okp as O. rewrite E in O. apply Forall_app in O. destruct O as [_ O]. inversion O. assumption. }
    destruct (ok_opmap j Oi) as [c Hc].
    destruct (encode os (alen A) (res t j)) as [x|x] eqn:Ex; cbn [bind].
    + pose proof (encode_length A j Q x E Ex) as EL. rewrite EL.
      assert (EA : P = (A ++ [Ins j]) ++ Q) by (rewrite <- app_assoc; exact E).
      specialize (IH (A ++ [Ins j]) EA).
      assert (AL : alen (A ++ [Ins j]) = (alen A + ilen (res t j))%Z) by (rewrite alen_app; cbn [alen]; lia).
      rewrite AL in IH. destruct (encode_all os (alen A + ilen (res t j)) (map (res t) (ins_of Q))) as [bytes|y]; cbn [bind].
      * intros A2 i Q2 EQ. destruct A2 as [|y A2]; cbn [app] in EQ.
        { injection EQ as <- <-. exists [], x, bytes. split; [reflexivity|]. split; [reflexivity|]. rewrite app_nil_r. exact Ex. }
        { injection EQ as <- EQ. destruct (IH A2 i Q2 EQ) as (b1 & z & b2 & H1 & H2 & H3). exists (x ++ b1), z, b2.
          split; [rewrite H1, <- app_assoc; reflexivity|]. split; [rewrite app_length; cbn [alen]; lia|].
          rewrite <- app_assoc in H3. exact H3. }
      * destruct IH as (-> & A2 & i & Q2 & n & EQ & Hn & Hb). split; [reflexivity|]. exists (Ins j :: A2), i, Q2, n.
        split; [rewrite EQ; reflexivity|]. split; [|exact Hb]. rewrite <- app_assoc in Hn. exact Hn.
    + rewrite (encode_spec A j Q c E Hc) in Ex. destruct (number A j) as [n|] eqn:En; [|discriminate].
      destruct (Z.gtb_spec n 65535) as [Hg|Hg]; [|discriminate]. injection Ex as <-. split; [reflexivity|].
      exists [], j, Q, n. split; [reflexivity|]. rewrite app_nil_r. split; [exact En|lia].
Qed.
Lemma concat_blocks : List.concat (map snd blocks) = map (res t) (ins_of P).
Proof.
  unfold blocks, P. clear. induction ids as [|b r IH]; [reflexivity|]. cbn [map List.concat snd]. rewrite items_cons.
  cbn [ins_of]. rewrite ins_of_app, ins_of_map, map_app, IH. reflexivity.
Qed.
(** A small program is not refused. *)
Lemma small_fits : (Z.of_nat (tsize t) <= 65535)%Z -> (3 * Z.of_nat (List.length P) <= 65535)%Z ->
  forall A i Q n, P = A ++ Ins i :: Q -> number A i = Some n -> (n <= 65535)%Z.
Proof.
  intros Ht Hp A i Q n E Hn.
  assert (RN : forall j m, In (Ins j) P -> snd (res t j) = RNum m -> (m <= 65535)%Z).
  { intros j m Hj H. unfold res in H. cbn [snd] in H.
    assert (Oj : ok_instr j) by (rewrite Forall_forall in Okp; exact (Okp _ Hj)).
    assert (IX : forall A (e : A -> A -> bool) x l, (Z.of_nat (List.length l) <= 65535)%Z -> (index e x l <= 65535)%Z).
    { intros A0 e x l Hl. unfold index. destruct (position e x l) as [q|] eqn:Eq; [|lia]. apply position_lt in Eq. lia. }
    unfold tsize in Ht. unfold ok_instr in Oj.
    destruct (oparg j) as [|k|s|x|s|q|b]; try discriminate; injection H as <-; try (apply IX; lia).
    - apply IX. cbn. lia.
    - destruct (op j); try contradiction; lia. }
  assert (AL : forall f, (forall j, In (Ins j) f -> In (Ins j) P) -> (alen f <= 3 * Z.of_nat (List.length f))%Z).
  { induction f as [|[b|j] f IH]; intros Hf; cbn [alen List.length]; [lia| |].
    - specialize (IH (fun j Hj => Hf j (or_intror Hj))). lia.
    - specialize (IH (fun k Hk => Hf k (or_intror Hk))).
      assert (ilen (res t j) <= 3)%Z.
      { unfold ilen. destruct (snd (res t j)) as [|m|b] eqn:Er; [lia| |lia].
        specialize (RN j m (Hf j (or_introl eq_refl)) Er). destruct (Z.gtb_spec m 65535); lia. }
      lia. }
  assert (Hi : In (Ins i) P) by (rewrite E; apply in_or_app; right; left; reflexivity).
  unfold number in Hn. destruct (snd (res t i)) as [|m|b] eqn:Er; [discriminate| |].
  - injection Hn as <-. exact (RN i m Hi Er).
  - injection Hn as <-.
    assert (Hb : In b (labels Q)).
    { pose proof Fw as F. rewrite E in F. apply fwd_tail in F. cbn [fwd] in F. destruct F as [F _].
      unfold res in Er. cbn [snd] in Er. unfold target in F. destruct (oparg i); try discriminate. injection Er as <-. exact F. }
    assert (Hl : In b (labels P)) by (rewrite E, labels_app; apply in_or_app; right; exact Hb).
    assert (exists Q1 Q2, P = Q1 ++ Lab b :: Q2) as (Q1 & Q2 & EQ).
    { clear - Hl. induction P as [|[c|j] R IH]; cbn [labels] in Hl; [contradiction| |].
      - destruct Hl as [->|Hl]; [exists [], R; reflexivity|]. destruct (IH Hl) as (x & y & ->). exists (Lab c :: x), y. reflexivity.
      - destruct (IH Hl) as (x & y & ->). exists (Ins j :: x), y. reflexivity. }
    rewrite (offset_label Q1 b Q2 EQ).
    assert (HQ : (alen Q1 <= 3 * Z.of_nat (List.length Q1))%Z).
    { apply AL. intros j Hj. rewrite EQ. apply in_or_app. left. exact Hj. }
    assert (List.length Q1 <= List.length P) by (rewrite EQ, app_length; lia).
    pose proof (alen_nonneg A). lia.
Qed.
End Layout.
End Asm.
