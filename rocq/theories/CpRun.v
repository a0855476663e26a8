(** * The interpreter runs the bytes as the items say *)
From Coq Require Import NArith ZArith String List Bool Lia Arith.
From Verif Require Import PyStr PyErr CpModel CpSpec CpCode CpVm CpAsm CpGen CpPath.
Import ListNotations.
Local Open Scope nat_scope.

Section Run.
Context {w : world}.
Local Notation V := (V w).
Local Notation K := (K w).
Local Notation St := (St w).
Hypothesis apart : constants_apart w.

Lemma decode_opmap : forall o c, opmap o = Some c -> decode c = Some o.
Proof. intros o c H. destruct o; cbn [opmap] in H; try discriminate; injection H as <-; reflexivity. Qed.
Lemma opmap_plain : forall (i : instr w) c, ok_instr i -> opmap (op i) = Some c ->
  (c <? 90)%N = match oparg i with ANone => true | _ => false end.
Proof.
  intros [o a] c H Hc. unfold ok_instr in H. cbn [op oparg] in *.
  destruct o; destruct a; try contradiction H; cbn [opmap] in Hc; try discriminate; injection Hc as <-; reflexivity.
Qed.

Section Program.
Variables (bs : list (block w)) (ids : list nat) (t : @tables w) (c : code w).
Let P := items_of bs ids.
Hypothesis Nd : NoDup ids.
Hypothesis Fw : fwd P.
Hypothesis Okp : Forall ok_item P.
Hypothesis Kn : Forall (known t) (ins_of P).
Let os := block_offsets 0 (map (fun b => (b, map (res t) (b_code (block_at bs b)))) ids).
Hypothesis Hb : encode_all os 0 (map (res t) (ins_of P)) = Ok (c_bytes c).
Hypothesis Hk : c_consts c = t_consts t.
Hypothesis Hn : c_names c = t_names t.
Hypothesis Hv : c_varnames c = t_locals t.
Hypothesis Nl : NoDup (t_locals t).

Definition arg_is (A : list (@item w)) (a : @arg w) (n : nat) : Prop :=
  match a with
  | ANone => True
  | AConst k => nth_error (c_consts c) n = Some k
  | AName s => nth_error (c_names c) n = Some s
  | ALocal x => nth_error (c_varnames c) n = Some x
  | ACompare s => nth_error cmp_op n = Some s
  | ANum m => n = m
  | AJump b => forall A2 Q2, P = A2 ++ Lab b :: Q2 -> Z.of_nat n = (alen t A2 - (alen t A + 3))%Z
  end.
Lemma nth_mid : forall (a x b : list N) k y, nth_error x k = Some y -> nth_error (a ++ x ++ b) (List.length a + k) = Some y.
Proof.
  intros a x b k y H. rewrite nth_error_app2 by lia. replace (List.length a + k - List.length a) with k by lia.
  rewrite nth_error_app1; [exact H|]. apply nth_error_Some. rewrite H. discriminate.
Qed.
Lemma instruction_at : forall A i Q m, P = A ++ Ins i :: Q -> Z.of_nat (m_pc m) = alen t A ->
  exists n pc, step_machine c m = execute c (op i) n pc m /\ Z.of_nat pc = alen t (A ++ [Ins i])
    /\ arg_is A (oparg i) n /\ (forall b, oparg i = AJump b -> Z.of_nat pc = (alen t A + 3)%Z).
Proof.
  intros A i Q m E Hpc.
  assert (Hin : In (Ins i) P) by (rewrite E; apply in_or_app; right; left; reflexivity).
  assert (Oi : ok_instr i) by (rewrite Forall_forall in Okp; exact (Okp _ Hin)).
  assert (Ki : known t i).
  { rewrite Forall_forall in Kn. apply Kn. rewrite E, ins_of_app. apply in_or_app. right. left. reflexivity. }
  destruct (ok_opmap i Oi) as [o Ho].
  pose proof (encode_all_spec bs ids t Nd Fw Okp P [] eq_refl) as ES. cbn [alen] in ES. fold os in ES. fold P in ES.
  rewrite Hb in ES. destruct (ES A i Q E) as (b1 & x & b2 & Eb & L1 & Ex). cbn [app] in Ex.
  pose proof (encode_spec bs ids t Nd Fw A i Q o E Ho) as EC. fold os in EC. rewrite Ex in EC.
  pose proof (encode_length bs ids t Nd Fw Okp A i Q x E Ex) as EL.
  assert (Lp : m_pc m = List.length b1) by lia.
  assert (AA : alen t (A ++ [Ins i]) = (alen t A + ilen (res t i))%Z) by (rewrite alen_app; cbn [alen]; lia).
  unfold step_machine. pose proof (opmap_plain i o Oi Ho) as OP.
  assert (N0 : nth_error (c_bytes c) (m_pc m) = Some o).
  { rewrite Eb, Lp. replace (List.length b1) with (List.length b1 + 0) by lia. apply nth_mid.
    destruct (number bs ids t A i) as [n|]; [|injection EC as ->; reflexivity].
    destruct (n >? 65535)%Z; [discriminate|]. injection EC as ->. reflexivity. }
  rewrite N0, (decode_opmap _ _ Ho), OP. clear OP N0.
  pose proof (number_nonneg bs ids t Nd Fw A i Q) as NN.
  destruct (oparg i) eqn:Eo;
    (assert (En : number bs ids t A i = match snd (res t i) with RNone => None | RNum n => Some n
                    | RJump b => Some (offset_of b os - (alen t A + 3))%Z end) by reflexivity);
    unfold res in En, AA, EL; rewrite Eo in En, AA, EL; cbn [snd] in En; unfold ilen in AA, EL; cbn [snd] in AA, EL.
  { exists 0, (m_pc m + 1). split; [reflexivity|]. split; [lia|]. split; [exact Logic.I|]. intros b Hbb. discriminate. }
  all: rewrite En in EC, NN; specialize (NN _ E eq_refl).
  all: match type of EC with Ok _ = (if (?n >? 65535)%Z then _ else _) => set (nn := n) in * end.
  all: destruct (Z.gtb_spec nn 65535) as [Hg|Hg]; [discriminate|]; injection EC as ->.
  all: assert (N1 : nth_error (c_bytes c) (m_pc m + 1) = Some (Z.to_N (nn mod 256)))
         by (rewrite Eb, Lp; apply nth_mid; reflexivity).
  all: assert (N2 : nth_error (c_bytes c) (m_pc m + 2) = Some (Z.to_N (nn / 256)))
         by (rewrite Eb, Lp; apply nth_mid; reflexivity).
  all: rewrite N1, N2.
  all: assert (EN : N.to_nat (Z.to_N (nn mod 256) + 256 * Z.to_N (nn / 256)) = Z.to_nat nn)
         by (pose proof (Z.div_mod nn 256 ltac:(lia)); pose proof (Z.mod_pos_bound nn 256 ltac:(lia));
             pose proof (Z.div_pos nn 256 NN ltac:(lia)); lia).
  all: rewrite EN; exists (Z.to_nat nn), (m_pc m + 3); split; [reflexivity|].
  all: (split; [|split; [|intros bb Hbb; try discriminate; lia]]).
  all: try (cbn [List.length] in EL; lia).
  all: unfold arg_is; unfold known in Ki; rewrite ?Eo in Ki.
  - destruct Ki as [n Hp]. rewrite Hk. assert (nn = Z.of_nat n) as -> by (unfold nn, index; rewrite Hp; reflexivity).
    rewrite Nat2Z.id. eapply position_nth; [|exact Hp]. intros a b Hab. apply apart. exact Hab.
  - destruct Ki as [n Hp]. rewrite Hn. assert (nn = Z.of_nat n) as -> by (unfold nn, index; rewrite Hp; reflexivity).
    rewrite Nat2Z.id. eapply position_nth; [|exact Hp]. intros a b Hab. destruct (str_eqb_spec a b); [assumption|discriminate].
  - destruct Ki as [n Hp]. rewrite Hv. assert (nn = Z.of_nat n) as -> by (unfold nn, index; rewrite Hp; reflexivity).
    rewrite Nat2Z.id. eapply position_nth; [|exact Hp]. apply local_eqb_eq.
  - assert (Hs : In s cmp_op).
    { unfold ok_instr in Oi. rewrite Eo in Oi. destruct (op i); try contradiction Oi; exact Oi. }
    apply (position_in _ str_eqb) in Hs; [|apply str_eqb_refl]. destruct Hs as [n Hp].
    assert (nn = Z.of_nat n) as -> by (unfold nn, index; rewrite Hp; reflexivity).
    rewrite Nat2Z.id. eapply position_nth; [|exact Hp]. intros a b Hab. destruct (str_eqb_spec a b); [assumption|discriminate].
  - unfold nn. apply Nat2Z.id.
  - intros A2 Q2 E2. pose proof (offset_label bs ids t Nd A2 b Q2 E2) as OL. fold os in OL. unfold nn in *. rewrite OL in *. lia.
Qed.

(** The interpreter's variables *)
Definition vars (locs : list (option V)) (l : locals) : Prop :=
  List.length locs = List.length (c_varnames c) /\
  forall n x, nth_error (c_varnames c) n = Some x -> nth_error locs n = Some (l x).
Lemma set_local_length : forall (l : list (option V)) n v, List.length (set_local l n v) = List.length l.
Proof. induction l as [|x l IH]; intros [|n] v; cbn; [reflexivity..|]. rewrite IH. reflexivity. Qed.
Lemma set_local_same : forall (l : list (option V)) n v, n < List.length l -> nth_error (set_local l n v) n = Some v.
Proof. induction l as [|x l IH]; intros [|n] v H; cbn in *; [lia..|reflexivity|]. apply IH. lia. Qed.
Lemma set_local_other : forall (l : list (option V)) n k v, n <> k -> nth_error (set_local l n v) k = nth_error l k.
Proof. induction l as [|x l IH]; intros [|n] [|k] v H; cbn; try reflexivity; [lia|]. apply IH. lia. Qed.
Lemma vars_set : forall locs l n x v, vars locs l -> nth_error (c_varnames c) n = Some x ->
  vars (set_local locs n v) (supdate l x v).
Proof.
  intros locs l n x v [L H] Hx. split; [rewrite set_local_length; exact L|].
  intros k y Hy. unfold supdate. destruct (local_eqb y x) eqn:E.
  - apply local_eqb_eq in E. subst y.
    assert (n = k). { rewrite Hv in *. eapply NoDup_nth_error; [exact Nl| |congruence]. apply nth_error_Some. congruence. }
    subst k. apply set_local_same. rewrite L. apply nth_error_Some. congruence.
  - assert (n <> k). { intros ->. rewrite Hx in Hy. injection Hy as <-. rewrite local_eqb_refl in E. discriminate. }
    rewrite set_local_other by assumption. apply H. exact Hy.
Qed.

Lemma take_stack_length : forall n (s acc a r : list V), take_stack n s acc = Some (a, r) ->
  List.length s = n + List.length r.
Proof.
  induction n as [|n IH]; intros s acc a r H; cbn [take_stack] in H.
  - injection H as <- <-. reflexivity.
  - destruct s as [|x s]; [discriminate|]. apply IH in H. cbn. lia.
Qed.

Definition fits (s : list V) : Prop := (Z.of_nat (List.length s) <= c_stacksize c)%Z.

Lemma go_fits : forall pc s l st, fits s ->
  (if (Z.of_nat (List.length s) <=? c_stacksize c)%Z
   then Go {| m_pc := pc; m_stack := s; m_locals := l; m_state := st |} else Stop Crash)
  = @Go w {| m_pc := pc; m_stack := s; m_locals := l; m_state := st |}.
Proof. intros pc s l st H. destruct (Z.leb_spec (Z.of_nat (List.length s)) (c_stacksize c)) as [_|X]; [reflexivity|unfold fits in H; lia]. Qed.

Lemma execute_sstep : forall A i n pc m l, ok_instr i -> arg_is A (oparg i) n -> vars (m_locals m) l ->
  match sstep i (m_stack m) l (m_state m) with
  | SNext s' l' st' => fits s' -> exists locs', vars locs' l' /\
      execute c (op i) n pc m = Go {| m_pc := pc; m_stack := s'; m_locals := locs'; m_state := st' |}
  | SJump s' l' st' => vars (m_locals m) l' /\
      execute c (op i) n pc m = Go {| m_pc := pc + n; m_stack := s'; m_locals := m_locals m; m_state := st' |}
  | SStop r st' => execute c (op i) n pc m = Stop (Done r st')
  | SStuck => True
  end.
Proof.
  intros A [o a] n pc m l Oi Ha Hl. unfold ok_instr in Oi. unfold sstep, execute. cbn [op oparg] in *.
  assert (HL : forall x, nth_error (c_varnames c) n = Some x -> nth_error (m_locals m) n = Some (l x))
    by (intros x Hx; exact (proj2 Hl n x Hx)).
  assert (KEEP : forall s' st' e, fits s' ->
     e = @Go w {| m_pc := pc; m_stack := s'; m_locals := m_locals m; m_state := st' |} ->
     exists locs', vars locs' l /\ e = Go {| m_pc := pc; m_stack := s'; m_locals := locs'; m_state := st' |}).
  { intros s' st' e Hf He. exists (m_locals m). split; [exact Hl|exact He]. }
  Ltac fin Hl KEEP go_fits :=
    first [exact Logic.I | reflexivity
          | let Hf := fresh in intros Hf; apply KEEP; [exact Hf|apply go_fits; exact Hf]
          | split; [exact Hl|reflexivity]].
  Ltac stack4 := match goal with |- context [m_stack ?m] => destruct (m_stack m) as [|s1 [|s2 [|s3 [|s4 sr]]]] end.
  Ltac stack2 := match goal with |- context [m_stack ?m] => destruct (m_stack m) as [|s1 [|s2 sr]] end.
  Ltac stack1 := match goal with |- context [m_stack ?m] => destruct (m_stack m) as [|s1 sr] end.
  Ltac pushed := try (match goal with |- match spush ?r _ _ with _ => _ end => destruct r as [[vv|xx] stt]; cbn [spush] end).
  destruct o; destruct a; try contradiction Oi; cbn [arg_is] in Ha.
  - stack4; fin Hl KEEP go_fits.
  - stack4; fin Hl KEEP go_fits.
  - stack4; fin Hl KEEP go_fits.
  - stack4; fin Hl KEEP go_fits.
  - stack1; pushed; fin Hl KEEP go_fits.
  - stack2; pushed; fin Hl KEEP go_fits.
  - stack2; pushed; fin Hl KEEP go_fits.
  - stack2; pushed; fin Hl KEEP go_fits.
  - stack2; pushed; fin Hl KEEP go_fits.
  - stack2; pushed; fin Hl KEEP go_fits.
  - stack2; pushed; fin Hl KEEP go_fits.
  - stack1; pushed; fin Hl KEEP go_fits.
  - stack1; fin Hl KEEP go_fits.
  - (* FOR_ITER *)
    stack1; [fin Hl KEEP go_fits|]. destruct (w_next w s1 (m_state m)) as [[[v|]|x] st]; fin Hl KEEP go_fits.
  - (* STORE_ATTR *)
    stack2; try fin Hl KEEP go_fits. rewrite Ha. destruct (w_setattr w s1 s s2 (m_state m)) as [[v|x] st]; fin Hl KEEP go_fits.
  - rewrite Ha. fin Hl KEEP go_fits.
  - (* BUILD_TUPLE *)
    subst n. destruct (take_stack n0 (m_stack m) []) as [[vs s]|]; fin Hl KEEP go_fits.
  - (* LOAD_ATTR *)
    stack1; [fin Hl KEEP go_fits|]. rewrite Ha. pushed; fin Hl KEEP go_fits.
  - (* COMPARE_OP *)
    stack2; try fin Hl KEEP go_fits. rewrite Ha. pushed; fin Hl KEEP go_fits.
  - (* jumps *)
    fin Hl KEEP go_fits.
  - stack1; [fin Hl KEEP go_fits|]. destruct (w_truth w s1 (m_state m)) as [[[|]|x] st]; fin Hl KEEP go_fits.
  - stack1; [fin Hl KEEP go_fits|]. destruct (w_truth w s1 (m_state m)) as [[[|]|x] st]; fin Hl KEEP go_fits.
  - (* LOAD_FAST *)
    rewrite (HL _ Ha). destruct (l x); fin Hl KEEP go_fits.
  - (* STORE_FAST *)
    stack1; [fin Hl KEEP go_fits|]. rewrite (HL _ Ha). intros Hf. exists (set_local (m_locals m) n (Some s1)).
    split; [apply vars_set; assumption|apply go_fits; exact Hf].
  - (* DELETE_FAST *)
    rewrite (HL _ Ha). destruct (l x); [|reflexivity]. intros Hf. exists (set_local (m_locals m) n None).
    split; [apply vars_set; assumption|apply go_fits; exact Hf].
  - (* CALL_FUNCTION *)
    subst n. rewrite Nat.div_small, Nat.mod_small by exact Oi. change (2 * 0) with 0; cbn [take_stack pairs].
    destruct (take_stack n0 (m_stack m) []) as [[args [|f s]]|]; try exact Logic.I. pushed; fin Hl KEEP go_fits.
Qed.

Lemma some_eq : forall (a b : Z), Some a = Some b -> a = b.
Proof. intros a b H. congruence. Qed.
Lemma sstep_depth : forall i s l st d, ok_instr i -> stack_effect i = Some d ->
  match @sstep w i s l st with
  | SNext s' _ _ => (Z.of_nat (List.length s') <= Z.of_nat (List.length s) + d)%Z /\ op i <> JUMP_FORWARD
  | SJump s' _ _ => (Z.of_nat (List.length s') <= Z.of_nat (List.length s) + d)%Z
  | _ => True
  end.
Proof.
  intros [o a] s l st d Oi Hd. unfold ok_instr in Oi. unfold stack_effect in Hd. unfold sstep. cbn [op oparg] in *.
  Ltac dep := first [exact Logic.I | split; [cbn [List.length]; lia|discriminate] | cbn [List.length]; lia].
  Ltac pushed2 := try (match goal with |- match spush ?r _ _ with _ => _ end => destruct r as [[vv|xx] stt]; cbn [spush] end).
  destruct o; destruct a; try contradiction Oi; apply some_eq in Hd; subst d.
  - destruct s as [|s1 [|s2 [|s3 [|s4 sr]]]]; dep.
  - destruct s as [|s1 [|s2 [|s3 [|s4 sr]]]]; dep.
  - destruct s as [|s1 [|s2 [|s3 [|s4 sr]]]]; dep.
  - destruct s as [|s1 [|s2 [|s3 [|s4 sr]]]]; dep.
  - destruct s as [|s1 sr]; pushed2; dep.
  - destruct s as [|s1 [|s2 sr]]; pushed2; dep.
  - destruct s as [|s1 [|s2 sr]]; pushed2; dep.
  - destruct s as [|s1 [|s2 sr]]; pushed2; dep.
  - destruct s as [|s1 [|s2 sr]]; pushed2; dep.
  - destruct s as [|s1 [|s2 sr]]; pushed2; dep.
  - destruct s as [|s1 [|s2 sr]]; pushed2; dep.
  - destruct s as [|s1 sr]; pushed2; dep.
  - destruct s as [|s1 sr]; dep.
  - destruct s as [|s1 sr]; [dep|]. destruct (w_next w s1 st) as [[[v|]|x] st1]; dep.
  - destruct s as [|s1 [|s2 sr]]; try dep. destruct (w_setattr w s1 s0 s2 st) as [[v|x] st1]; dep.
  - dep.
  - destruct (take_stack n s []) as [[vs r]|] eqn:E; [|dep]. apply take_stack_length in E. dep.
  - destruct s as [|s1 sr]; pushed2; dep.
  - destruct s as [|s1 [|s2 sr]]; pushed2; dep.
  - dep.
  - destruct s as [|s1 sr]; [dep|]. destruct (w_truth w s1 st) as [[[|]|x] st1]; dep.
  - destruct s as [|s1 sr]; [dep|]. destruct (w_truth w s1 st) as [[[|]|x] st1]; dep.
  - destruct (l x); dep.
  - destruct s as [|s1 sr]; dep.
  - destruct (l x); dep.
  - destruct (take_stack n s []) as [[vs [|f r]]|] eqn:E; try dep. apply take_stack_length in E. cbn [List.length] in E.
    rewrite Z.div_small, Z.mod_small by lia. pushed2; dep.
Qed.

(** The simulation *)
Lemma run_items : forall Q s l st o, sexec P Q s l st o ->
  forall A d locs pc, P = A ++ Q -> Z.of_nat pc = alen t A -> safe P (c_stacksize c) Q d ->
    (Z.of_nat (List.length s) <= d)%Z -> vars locs l ->
    exists n, forall k, n <= k ->
      run k c {| m_pc := pc; m_stack := s; m_locals := locs; m_state := st |} = Done (fst o) (snd o).
Proof.
  intros Q s l st o H. induction H as [b Q s l st o H IH|i Q s l st s' l' st' o E H IH|i b A' Q' Q s l st s' l' st' o E Et EP H IH|i Q s l st r st' E];
    intros A d locs pc HP Hpc Hs Hd Hl.
  - apply (IH (A ++ [Lab b]) d); [rewrite <- app_assoc; exact HP|rewrite alen_app; cbn [alen]; lia|inversion Hs; assumption|exact Hd|exact Hl].
  - set (m := {| m_pc := pc; m_stack := s; m_locals := locs; m_state := st |}).
    assert (Oi : ok_instr i). { pose proof Okp as O. rewrite HP in O. apply Forall_app in O. destruct O as [_ O]. inversion O. assumption. }
    destruct (instruction_at A i Q m HP Hpc) as (n & pc' & ES & Hpc' & Ha & _).
    inversion Hs as [| |i0 Q0 d0 e He Hm Hj Hnx]; subst i0 Q0 d0.
    pose proof (sstep_depth i s l st e Oi He) as SD. rewrite E in SD. destruct SD as [SD NJ].
    pose proof (execute_sstep A i n pc' m l Oi Ha Hl) as EX. cbn [m m_stack m_state] in EX. rewrite E in EX.
    destruct EX as (locs' & Hl' & EX); [unfold fits; lia|].
    destruct (IH (A ++ [Ins i]) (d + e)%Z locs' pc') as [k0 Hk0].
    + rewrite <- app_assoc. exact HP.
    + exact Hpc'.
    + apply Hnx. exact NJ.
    + lia.
    + exact Hl'.
    + exists (S k0). intros k Hkk. destruct k as [|k]; [lia|]. cbn [run]. fold m. rewrite ES, EX. apply Hk0. lia.
  - set (m := {| m_pc := pc; m_stack := s; m_locals := locs; m_state := st |}).
    assert (Oi : ok_instr i). { pose proof Okp as O. rewrite HP in O. apply Forall_app in O. destruct O as [_ O]. inversion O. assumption. }
    destruct (instruction_at A i Q m HP Hpc) as (n & pc' & ES & Hpc' & Ha & Hpj).
    inversion Hs as [| |i0 Q0 d0 e He Hm Hj Hnx]; subst i0 Q0 d0.
    pose proof (sstep_depth i s l st e Oi He) as SD. rewrite E in SD.
    pose proof (execute_sstep A i n pc' m l Oi Ha Hl) as EX. cbn [m m_stack m_state] in EX. rewrite E in EX.
    destruct EX as (Hl' & EX).
    assert (Eo : oparg i = AJump b) by (unfold target in Et; destruct (oparg i); try discriminate; injection Et as ->; reflexivity).
    rewrite Eo in Ha. cbn [arg_is] in Ha. specialize (Ha A' Q' EP). specialize (Hpj b Eo).
    destruct (IH A' (d + e)%Z locs (pc' + n)) as [k0 Hk0].
    + exact EP.
    + lia.
    + apply sf_lab. eapply Hj; [exact Et|exact EP].
    + lia.
    + exact Hl'.
    + exists (S k0). intros k Hkk. destruct k as [|k]; [lia|]. cbn [run]. fold m. rewrite ES, EX. apply Hk0. lia.
  - set (m := {| m_pc := pc; m_stack := s; m_locals := locs; m_state := st |}).
    assert (Oi : ok_instr i). { pose proof Okp as O. rewrite HP in O. apply Forall_app in O. destruct O as [_ O]. inversion O. assumption. }
    destruct (instruction_at A i Q m HP Hpc) as (n & pc' & ES & Hpc' & Ha & Hpj).
    pose proof (execute_sstep A i n pc' m l Oi Ha Hl) as EX. cbn [m m_stack m_state] in EX. rewrite E in EX.
    exists 1. intros k Hkk. destruct k as [|k]; [lia|]. cbn [run]. fold m. rewrite ES, EX. reflexivity.
Qed.
End Program.

(** ** The compiled function *)

Lemma nodup_length : forall (l : list nat) n, NoDup l -> Forall (fun x => x < n) l -> List.length l <= n.
Proof.
  intros l n N F. rewrite <- (seq_length n 0). apply NoDup_incl_length; [exact N|].
  intros x Hx. apply in_seq. rewrite Forall_forall in F. specialize (F x Hx). cbn beta in F. lia.
Qed.

Theorem compiled_spec : forall en doc (e : expr w) m,
  e_debug en = true -> calls_fit e -> no_zero_tested e m -> m <> Iterable ->
  match compiled en doc m e with
  | Ok c => fault en e m = None /\
            forall context s, gives c context s (wanted (means en e) m context s)
  | Err x => fault en e m = Some x \/
             (fault en e m = None /\ x = NameError /\ (size e > 400)%nat)
  end.
Proof.
  intros en doc e m Hd CF NZ Hm. unfold compiled.
  pose proof (compile_spec en Hd e m CF NZ new_graph [0] wf_new) as C.
  destruct (compile en e m new_graph) as [g|x]; cbn [bind]; [|left; exact C].
  destruct C as (F & f & X & Y & Z & L & D). cbn [g_nlocals new_graph] in D.
  assert (DV : val (wanted (means en e) m) 0 f) by (destruct m; try exact D; contradiction Hm; reflexivity). clear D.
  assert (Cg : 1 <= List.length (g_blocks g)) by (pose proof (x_count _ _ _ _ _ X) as xc; cbn in xc; exact xc).
  apply step_next in X; [|exact Cg].
  set (z := List.length (g_blocks g)) in *.
  apply (step_emit _ _ _ _ _ [i0 RETURN_VALUE]) in X.
  unfold assemble. set (g' := emit [i0 RETURN_VALUE] (next_block g)) in *. cbn zeta.
  set (ids := [0] ++ labels ((f ++ [Lab z]) ++ map Ins [i0 RETURN_VALUE])) in *.
  set (bs := g_blocks g') in *.
  assert (EP : items_of bs ids = Lab 0 :: f ++ [Lab z; Ins (i0 RETURN_VALUE)]).
  { pose proof (x_items _ _ _ _ _ X) as E. fold ids bs in E. rewrite E. rewrite <- app_assoc. reflexivity. }
  pose proof (x_wf _ _ _ _ _ X) as W. fold ids in W. destruct W as [nd lt cur lk fr]. fold bs in lt, lk, fr.
  assert (Fw : fwd (items_of bs ids)).
  { rewrite EP. cbn [fwd]. apply fwd_app; [exact Y|]. cbn. split; exact Logic.I. }
  assert (Okp : Forall ok_item (items_of bs ids)).
  { rewrite EP. constructor; [exact Logic.I|]. apply Forall_app. split; [exact Z|]. repeat (constructor; [exact Logic.I|]). constructor. }
  assert (Ei : ids = 0 :: labels ((f ++ [Lab z]) ++ map Ins [i0 RETURN_VALUE])) by reflexivity.
  set (suf := labels ((f ++ [Lab z]) ++ map Ins [i0 RETURN_VALUE])) in *.
  assert (Ls : List.length suf < S (List.length bs)).
  { pose proof (nodup_length ids (List.length bs) nd lt) as NL. rewrite Ei in NL. cbn [List.length] in NL. lia. }
  destruct (walk_size_chain bs ids lk Fw nd Okp (S (List.length bs)) [] 0 suf [] 0%Z 0%Z Ei (fun _ _ h => h) Ls) as (M & EM & _ & SM).
  unfold compute_stack_size. rewrite EM. cbn [bind].
  destruct (walk_order_chain bs suf (S (List.length bs)) 0 [] []) as (seen & EO & _).
  { rewrite <- Ei. exact lk. } { rewrite <- Ei. exact Fw. } { rewrite <- Ei. exact nd. } { intros x _ []. } { exact Ls. }
  unfold blocks_in_order. rewrite EO. cbn [rmap bind snd]. rewrite app_nil_r, <- Ei.
  set (t0 := {| t_consts := [doc]; t_names := []; t_locals := [Context] |}).
  destruct (lookup_blocks_spec apart bs ids t0 Okp) as (t & ET & GT & KT & NT & ST). rewrite ET. cbn [bind].
  rewrite (concat_blocks bs ids t).
  pose proof (encode_all_spec bs ids t nd Fw Okp (items_of bs ids) [] eq_refl) as ES. cbn [alen] in ES.
  destruct (encode_all (block_offsets 0 (map (fun b => (b, map (res t) (b_code (block_at bs b)))) ids)) 0
              (map (res t) (ins_of (items_of bs ids)))) as [bytes|x] eqn:EE; cbn [bind].
  - split; [exact F|]. intros ctx st.
    set (c := {| c_stacksize := M; c_bytes := bytes; c_consts := t_consts t; c_names := t_names t; c_varnames := t_locals t |}).
    assert (Nl : NoDup (t_locals t)) by (apply NT; constructor; [intros []|constructor]).
    destruct GT as (_ & _ & [ls GL]). cbn [t0 t_locals app] in GL.
    set (l0 := fun x : local => match x with Context => Some ctx | Tmp _ => None end).
    assert (Hl : vars c (m_locals (start c ctx st)) l0).
    { unfold vars. cbn [start m_locals]. assert (EV : c_varnames c = Context :: ls) by exact GL. rewrite EV. split.
      - cbn [List.length]. rewrite repeat_length. lia.
      - intros n x Hx. rewrite GL in Nl. destruct n as [|n]; cbn [nth_error] in Hx |- *.
        + injection Hx as <-. reflexivity.
        + assert (x <> Context). { intros ->. inversion Nl as [|u v N1 N2]; subst. apply N1. eapply nth_error_In. exact Hx. }
          destruct x as [|q]; [contradiction|]. cbn [l0].
          assert (Hn : n < List.length ls) by (apply nth_error_Some; congruence).
          cbn [List.length]. rewrite Nat.sub_succ, Nat.sub_0_r. rewrite nth_error_repeat by exact Hn. reflexivity. }
    unfold gives. eapply (run_items bs ids t c nd Fw Okp KT EE eq_refl eq_refl eq_refl Nl (items_of bs ids) [] l0 st) with (A := []) (d := 0%Z).
    + rewrite EP. apply sx_lab. rewrite <- EP.
      eapply val_use; [exact DV| |reflexivity|].
      * rewrite EP. exists [Lab 0]. reflexivity.
      * destruct (wanted (means en e) m ctx st) as [[v|x] st'] eqn:EW; cbn [after].
        { intros l' _. apply sx_lab. eapply sx_stop. reflexivity. }
        { reflexivity. }
    + reflexivity.
    + reflexivity.
    + rewrite Ei. cbn [c c_stacksize]. rewrite <- Ei at 1. apply SM. lia.
    + cbn. lia.
    + exact Hl.
  - right. split; [exact F|]. destruct ES as (-> & A2 & i & Q2 & n & EQ & Hn & Hg). split; [reflexivity|].
    destruct (Nat.le_gt_cases (size e) 400) as [Hs|Hs]; [exfalso|exact Hs].
    assert (LP : List.length (items_of bs ids) <= 50 * size e + 3).
    { rewrite EP. cbn [List.length]. rewrite app_length. cbn [List.length]. unfold B in L. lia. }
    assert (LI : forall q : list (@item w), List.length (ins_of q) <= List.length q).
    { induction q as [|[b|j] q IHq]; cbn [ins_of List.length]; lia. }
    pose proof (LI (items_of bs ids)) as LI'. unfold tsize in ST at 2. cbn [t0 t_consts t_names t_locals List.length] in ST.
    assert (Hn' : (n <= 65535)%Z).
    { eapply (small_fits bs ids t nd Fw Okp); [lia|lia|exact EQ|exact Hn]. }
    lia.
Qed.
End Run.
