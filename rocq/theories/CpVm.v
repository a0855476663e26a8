(** * The assembler and the interpreter carry out the items *)
From Coq Require Import NArith ZArith String List Bool Lia Arith.
From Verif Require Import PyStr PyErr CpModel CpSpec CpCode.
Import ListNotations.
Local Open Scope nat_scope.

Section Vm.
Context {w : world}.
Local Notation V := (V w).
Local Notation K := (K w).
Local Notation St := (St w).

Lemma labels_items : forall (bs : list (block w)) ids, labels (items_of bs ids) = ids.
Proof.
  intros bs. induction ids as [|b ids IH]; [reflexivity|]. unfold items_of in *. cbn [flat_map].
  change ((Lab b :: map Ins (b_code (block_at bs b))) ++ flat_map (fun b => Lab b :: map Ins (b_code (block_at bs b))) ids)
    with ([@Lab w b] ++ map Ins (b_code (block_at bs b)) ++ flat_map (fun b => Lab b :: map Ins (b_code (block_at bs b))) ids).
  rewrite !labels_app, labels_ins, IH. reflexivity.
Qed.
Lemma items_cons : forall (bs : list (block w)) b ids,
  items_of bs (b :: ids) = Lab b :: map Ins (b_code (block_at bs b)) ++ items_of bs ids.
Proof. reflexivity. Qed.
Lemma fwd_tail : forall (f g : list (@item w)), fwd (f ++ g) -> fwd g.
Proof.
  induction f as [|[b|i] f IH]; intros g H; cbn [app fwd] in H; [exact H|apply IH; exact H|].
  apply IH. exact (proj2 H).
Qed.
Lemma fwd_code : forall is (r : list (@item w)), fwd (map Ins is ++ r) ->
  forall i t, In i is -> target i = Some t -> In t (labels r).
Proof.
  induction is as [|j is IH]; intros r H i t Hi Ht; [contradiction|]. cbn [map app fwd] in H. destruct H as [H1 H2].
  destruct Hi as [->|Hi]; [|eapply IH; eassumption].
  rewrite Ht in H1. rewrite labels_app, labels_ins in H1. exact H1.
Qed.
Lemma fwd_block : forall (bs : list (block w)) b suf, fwd (items_of bs (b :: suf)) ->
  forall i t, In i (b_code (block_at bs b)) -> target i = Some t -> In t suf.
Proof.
  intros bs b suf H i t Hi Ht. rewrite items_cons in H. cbn [fwd] in H.
  pose proof (fwd_code _ _ H i t Hi Ht) as R. rewrite labels_items in R. exact R.
Qed.

Lemma seen_false : forall seen b, ~ In b seen -> seen_b seen b = false.
Proof.
  intros seen b H. unfold seen_b. destruct (existsb (Nat.eqb b) seen) eqn:E; [|reflexivity].
  apply existsb_exists in E. destruct E as (x & Hx & Ex). apply Nat.eqb_eq in Ex. subst x. contradiction.
Qed.
Lemma seen_true : forall seen b, In b seen -> seen_b seen b = true.
Proof. intros seen b H. apply existsb_exists. exists b. split; [exact H|apply Nat.eqb_refl]. Qed.

(** ** The order of the blocks *)

Definition order_targets (visit : nat -> list nat * list nat -> result (list nat * list nat)) :=
  fix targets (is : list (instr w)) so :=
    match is with
    | [] => Ok so
    | i :: r => match target i with
                | Some t => do so <- visit t so ; targets r so
                | None => targets r so
                end
    end.
Definition order_visit f bs n (so : list nat * list nat) : result (list nat * list nat) :=
  if seen_b (fst so) n then Ok so else @walk_order w f bs n (fst so) (snd so).
Lemma walk_order_eq : forall f bs b seen post,
  @walk_order w (S f) bs b seen post =
  do so <- match b_next (block_at bs b) with
           | Some n => order_visit f bs n (b :: seen, post)
           | None => Ok (b :: seen, post)
           end ;
  do so <- order_targets (order_visit f bs) (b_code (block_at bs b)) so ;
  Ok (fst so, b :: snd so).
Proof. reflexivity. Qed.
Lemma walk_order_chain : forall bs suf f b seen post,
  links bs (b :: suf) -> fwd (items_of bs (b :: suf)) -> NoDup (b :: suf) ->
  (forall x, In x (b :: suf) -> ~ In x seen) -> List.length suf < f ->
  exists seen', @walk_order w f bs b seen post = Ok (seen', b :: suf ++ post) /\
                (forall x, In x (b :: suf) \/ In x seen -> In x seen').
Proof.
  intros bs. induction suf as [|c suf IH]; intros f b seen post Lk Fw Nd Ds Hf;
    (destruct f as [|f]; [cbn in Hf; lia|]); rewrite walk_order_eq; cbn [links] in Lk; destruct Lk as [Ln Lk]; rewrite Ln.
  - cbn [bind].
    assert (T : forall is, (forall i, In i is -> In i (b_code (block_at bs b))) -> forall so,
       order_targets (order_visit f bs) is so = Ok so).
    { induction is as [|i is IHi]; intros Hi so; [reflexivity|]. cbn [order_targets].
      destruct (target i) as [t|] eqn:Et.
      - exfalso. exact (fwd_block bs b [] Fw i t (Hi i (or_introl eq_refl)) Et).
      - apply IHi. intros j Hj. apply Hi. right. exact Hj. }
    rewrite T by (intros; assumption). cbn [bind fst snd app]. exists (b :: seen). split; [reflexivity|].
    intros x [[->|[]]|H]; [left; reflexivity|right; exact H].
  - inversion Nd as [|y z N1 N2]; subst.
    assert (Hc : ~ In c (b :: seen)).
    { intros [->|H]; [apply N1; left; reflexivity|]. apply (Ds c); [right; left; reflexivity|exact H]. }
    unfold order_visit at 1. cbn [fst snd]. rewrite seen_false by exact Hc.
    destruct (IH f c (b :: seen) post) as (seen1 & E1 & I1).
    + exact Lk.
    + rewrite items_cons in Fw. cbn [fwd] in Fw. apply fwd_tail in Fw. exact Fw.
    + exact N2.
    + intros x Hx [->|H]; [exact (N1 Hx)|]. apply (Ds x); [right; exact Hx|exact H].
    + cbn in Hf. lia.
    + rewrite E1. cbn [bind].
      assert (T : forall is, (forall i, In i is -> In i (b_code (block_at bs b))) ->
         order_targets (order_visit f bs) is (seen1, c :: suf ++ post) = Ok (seen1, c :: suf ++ post)).
      { induction is as [|i is IHi]; intros Hi; [reflexivity|]. cbn [order_targets].
        destruct (target i) as [t|] eqn:Et.
        - pose proof (fwd_block bs b (c :: suf) Fw i t (Hi i (or_introl eq_refl)) Et) as Ht.
          unfold order_visit at 1. cbn [fst]. rewrite seen_true by (apply I1; left; exact Ht). cbn [bind].
          apply IHi. intros j Hj. apply Hi. right. exact Hj.
        - apply IHi. intros j Hj. apply Hi. right. exact Hj. }
      rewrite T by (intros; assumption). cbn [bind fst snd app]. exists seen1.
      split; [reflexivity|]. intros x [[->|Hx]|Hx]; apply I1; [right; left; reflexivity|left; exact Hx|right; right; exact Hx].
Qed.

(** ** The stack size *)

Definition size_loop (rec : list nat -> nat -> Z -> Z -> result Z) (bs : list (block w)) (b : nat) (seen : list nat) :=
  fix loop (is : list (instr w)) (size maxsize : Z) : result Z :=
    match is with
    | [] =>
      match b_next (block_at bs b) with
      | Some n => if seen_b seen n then Ok maxsize else rec seen n size maxsize
      | None => Ok maxsize
      end
    | i :: r =>
      match stack_effect i with
      | None => Err RuntimeError
      | Some d =>
        let size := (size + d)%Z in
        let maxsize := Z.max size maxsize in
        match target i with
        | Some t =>
          if seen_b seen t then loop r size maxsize
          else do m <- rec seen t size maxsize ;
               match op i with JUMP_FORWARD => Ok m | _ => loop r size m end
        | None => loop r size maxsize
        end
      end
    end.
Lemma walk_size_eq : forall f bs seen b size m,
  walk_size (S f) bs seen b size m = size_loop (walk_size f bs) bs b (b :: seen) (b_code (block_at bs b)) size m.
Proof. reflexivity. Qed.

(** At no point of the program reached with [d] values on the stack are there more than [M]. *)
Inductive safe (P : list (@item w)) (M : Z) : list item -> Z -> Prop :=
| sf_nil : forall d, safe P M [] d
| sf_lab : forall b Q d, safe P M Q d -> safe P M (Lab b :: Q) d
| sf_ins : forall i Q d e, stack_effect i = Some e -> (d + e <= M)%Z ->
    (forall b A Q', target i = Some b -> P = A ++ Lab b :: Q' -> safe P M Q' (d + e)) ->
    (op i <> JUMP_FORWARD -> safe P M Q (d + e)) -> safe P M (Ins i :: Q) d.

Lemma label_split : forall (A B Q Q' : list (@item w)) b,
  NoDup (labels (A ++ Lab b :: Q)) -> A ++ Lab b :: Q = B ++ Lab b :: Q' -> A = B /\ Q = Q'.
Proof.
  induction A as [|x A IH]; intros B Q Q' b Nd E.
  - destruct B as [|y B]; cbn [app] in E; [injection E as ->; split; reflexivity|].
    injection E as <- ->. cbn [app labels] in Nd. inversion Nd as [|u v N1 N2]; subst. exfalso. apply N1.
    rewrite labels_app. apply in_or_app. right. left. reflexivity.
  - destruct B as [|y B]; cbn [app] in E.
    + injection E as -> <-. cbn [app labels] in Nd. inversion Nd as [|u v N1 N2]; subst. exfalso. apply N1.
      rewrite labels_app. apply in_or_app. right. left. reflexivity.
    + injection E as <- E. apply IH in E.
      * destruct E as [-> ->]. split; reflexivity.
      * destruct x; cbn [app labels] in Nd; [inversion Nd; assumption|exact Nd].
Qed.
Lemma ok_effect : forall i : instr w, ok_instr i -> exists e, stack_effect i = Some e.
Proof.
  intros [o a] H. unfold ok_instr in H. cbn [op oparg] in H. unfold stack_effect. cbn [op oparg].
  destruct o; try (eexists; reflexivity); destruct a; try contradiction; eexists; reflexivity.
Qed.

Section Size.
Variables (bs : list (block w)) (ids : list nat).
Hypothesis Lk : links bs ids.
Hypothesis Fw : fwd (items_of bs ids).
Hypothesis Nd : NoDup ids.
Hypothesis Ok_ : Forall ok_item (items_of bs ids).
Let P := items_of bs ids.

Lemma links_tail : forall a b, links bs (a ++ b) -> links bs b.
Proof. induction a as [|x a IH]; intros b H; [exact H|]. apply IH. exact (proj2 H). Qed.
Lemma NoDup_tail : forall (a b : list nat), NoDup (a ++ b) -> NoDup b.
Proof. induction a as [|x a IH]; intros b H; [exact H|]. inversion H; subst. apply IH. assumption. Qed.

Lemma walk_size_chain : forall f pre b suf seen size m0,
  ids = pre ++ b :: suf -> (forall x, In x (b :: suf) -> ~ In x seen) -> List.length suf < f ->
  exists M, walk_size f bs seen b size m0 = Ok M /\ (m0 <= M)%Z /\
            forall M', (M <= M')%Z -> safe P M' (items_of bs (b :: suf)) size.
Proof.
  induction f as [|f IH]; intros pre b suf seen size m0 E Ds Hf; [lia|].
  rewrite walk_size_eq.
  assert (Lb : links bs (b :: suf)) by (apply (links_tail pre); rewrite <- E; exact Lk).
  assert (Nb : NoDup (b :: suf)) by (apply (NoDup_tail pre); rewrite <- E; exact Nd).
  inversion Nb as [|u v N1 N2]; subst u v.
  assert (Fb : fwd (items_of bs (b :: suf))).
  { pose proof Fw as F. rewrite E, items_of_app in F. apply fwd_tail in F. exact F. }
  assert (Ob : Forall ok_instr (b_code (block_at bs b))).
  { pose proof Ok_ as O. rewrite E, items_of_app in O. apply Forall_app in O. destruct O as [_ O].
    rewrite items_cons in O. inversion O as [|u v _ O2]; subst. apply Forall_app in O2. destruct O2 as [O2 _].
    apply Forall_forall. intros i Hi. rewrite Forall_forall in O2. apply (O2 (Ins i)). apply in_map. exact Hi. }
  assert (Tb : forall i t, In i (b_code (block_at bs b)) -> target i = Some t -> In t suf) by (apply fwd_block; exact Fb).
  rewrite items_cons.
  assert (G : forall is size m0, Forall ok_instr is -> (forall i, In i is -> In i (b_code (block_at bs b))) ->
    exists M, size_loop (walk_size f bs) bs b (b :: seen) is size m0 = Ok M /\ (m0 <= M)%Z /\
            forall M', (M <= M')%Z -> safe P M' (map Ins is ++ items_of bs suf) size).
  { induction is as [|i is IHi]; intros sz mx Oi Hi; cbn [size_loop].
    - cbn [links] in Lb. destruct Lb as [Ln _]. destruct suf as [|c suf]; rewrite Ln.
      + exists mx. split; [reflexivity|]. split; [lia|]. intros M' _. cbn. constructor.
      + rewrite seen_false by (intros [->|H]; [apply N1; left; reflexivity|apply (Ds c); [right; left; reflexivity|exact H]]).
        cbn [map app]. apply (IH (pre ++ [b])).
        * rewrite <- app_assoc. exact E.
        * intros x Hx [->|H]; [exact (N1 Hx)|]. apply (Ds x); [right; exact Hx|exact H].
        * cbn in Hf. lia.
    - inversion Oi as [|u v O1 O2]; subst u v. destruct (ok_effect i O1) as [e Ee]. rewrite Ee. cbn zeta.
      set (sz' := (sz + e)%Z). set (mx' := Z.max sz' mx).
      assert (Hi' : forall j, In j is -> In j (b_code (block_at bs b))) by (intros j Hj; apply Hi; right; exact Hj).
      destruct (target i) as [t|] eqn:Et.
      + assert (Ht : In t suf) by (eapply Tb; [apply Hi; left; reflexivity|exact Et]).
        rewrite seen_false by (intros [->|H]; [exact (N1 Ht)|apply (Ds t); [right; exact Ht|exact H]]).
        apply in_split in Ht. destruct Ht as (s1 & s2 & Es).
        destruct (IH (pre ++ b :: s1) t s2 (b :: seen) sz' mx') as (M1 & E1 & L1 & S1).
        { rewrite E, Es, <- app_assoc. reflexivity. }
        { intros x Hx. assert (Hx' : In x suf) by (rewrite Es; apply in_or_app; right; exact Hx).
          intros [->|H]; [exact (N1 Hx')|]. apply (Ds x); [right; exact Hx'|exact H]. }
        { rewrite Es, app_length in Hf. cbn in Hf. lia. }
        rewrite E1. cbn [bind].
        assert (J : forall M' b0 A Q', (M1 <= M')%Z -> Some t = Some b0 -> P = A ++ Lab b0 :: Q' -> safe P M' Q' sz').
        { intros M' b0 A Q' HM Eb EP. injection Eb as <-. specialize (S1 M' HM). rewrite items_cons in S1.
          assert (EP2 : P = items_of bs (pre ++ b :: s1) ++ Lab t :: map Ins (b_code (block_at bs t)) ++ items_of bs s2).
          { unfold P. rewrite E, Es. change (pre ++ b :: s1 ++ t :: s2) with (pre ++ (b :: s1) ++ t :: s2).
            rewrite app_assoc, items_of_app, items_cons. reflexivity. }
          rewrite EP2 in EP. apply label_split in EP.
          - destruct EP as [_ <-]. inversion S1; assumption.
          - rewrite <- EP2. unfold P. rewrite labels_items. exact Nd. }
        destruct (op i) eqn:Eo;
        try (destruct (IHi sz' M1 O2 Hi') as (M2 & E2 & L2 & S2); exists M2; split; [exact E2|]; split; [lia|];
             intros M' HM; cbn [map app]; eapply sf_ins; [exact Ee|fold sz'; lia| |];
             [intros b0 A Q' Eb EP; rewrite Et in Eb; apply (J M' b0 A Q'); [lia|exact Eb|exact EP]
             |intros _; apply S2; exact HM]).
        exists M1. split; [reflexivity|]. split; [lia|]. intros M' HM. cbn [map app].
        eapply sf_ins; [exact Ee|fold sz'; lia| |].
        * intros b0 A Q' Eb EP. rewrite Et in Eb. apply (J M' b0 A Q'); [lia|exact Eb|exact EP].
        * intros H. congruence.
      + destruct (IHi sz' mx' O2 Hi') as (M2 & E2 & L2 & S2). exists M2. split; [exact E2|]. split; [lia|].
        intros M' HM. cbn [map app]. eapply sf_ins; [exact Ee|fold sz'; lia| |].
        * intros b0 A Q' Eb. rewrite Et in Eb. discriminate.
        * intros _. apply S2. exact HM. }
  destruct (G (b_code (block_at bs b)) size m0 Ob (fun i Hi => Hi)) as (M & EM & LM & SM).
  exists M. split; [exact EM|]. split; [exact LM|]. intros M' HM. apply sf_lab. apply SM. exact HM.
Qed.
End Size.
End Vm.
