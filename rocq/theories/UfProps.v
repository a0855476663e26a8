(** * Property C124: user-defined functions *)
From Coq Require Import NArith String List Bool Lia Arith.
From Verif Require Import UfModel UfSpec.
Import ListNotations.

Section Proofs.
Context {V : Type} (empty : V) (truth : V -> bool) (op : N -> list V -> V) (functions : N -> option (func V)) (globals : env V).
Notation eval := (eval empty truth op functions).
Notation evals := (evals empty truth op functions).
Notation bind := (bind empty truth op functions).
Notation exec := (exec empty truth op functions).
Notation evaluates := (evaluates empty truth op functions globals).
Notation all := (all empty truth op functions globals).
Notation binds := (binds empty truth op functions globals).
Notation runs := (runs empty truth op functions globals).
Notation tame := (tame functions).
Notation scoped := (scoped functions globals).
Notation block := (block functions globals).
Notation parameters := (parameters functions globals).
Notation global := (global globals).

Lemma eval_S : forall n vars s e, eval (S n) vars s e =
    match e with
    | Const v => Some (v, s)
    | Var x => match look vars x with Some v => Some (v, s) | None => None end   
    | Op o args => match evals n vars s args with Some (vs, s1) => Some (op o vs, s1) | None => None end
    | Call f args =>
      
      match functions f with
      | None => None
      | Some fd =>
        match bind n args (f_params fd) vars (put s f empty) with
        | None => None
        | Some (vars1, s1) =>
          match exec n f (f_body fd) vars1 s1 with
          | None => None
          | Some s2 => Some (s2 f, s2)
          end
        end
      end
    end.
Proof. reflexivity. Qed.
Lemma evals_S : forall n vars s l, evals (S n) vars s l =
    match l with
    | [] => Some ([], s)
    | e :: l' =>
      match eval n vars s e with
      | None => None
      | Some (v, s1) => match evals n vars s1 l' with Some (vs, s2) => Some (v :: vs, s2) | None => None end
      end
    end.
Proof. reflexivity. Qed.
Lemma bind_S : forall n args params vars s, bind (S n) args params vars s =
    match args, params with
    | _, [] => Some (vars, s)
    | a :: args', (x, _) :: params' =>
      match eval n vars s a with Some (v, s1) => bind n args' params' (set vars x v) s1 | None => None end
    | [], (x, d) :: params' =>
      match eval n vars s d with Some (v, s1) => bind n [] params' (set vars x v) s1 | None => None end
    end.
Proof. reflexivity. Qed.
Lemma exec_S : forall n f b vars s, exec (S n) f b vars s =
    match b with
    | [] => Some s
    | Let x e :: b' => match eval n vars s e with Some (v, s1) => exec n f b' (set vars x v) s1 | None => None end
    | Result e :: b' => 
      match eval n vars s e with Some (v, s1) => exec n f b' vars (put s1 f v) | None => None end
    | Eval e :: b' => match eval n vars s e with Some (_, s1) => exec n f b' vars s1 | None => None end
    | Choose e yes no :: b' =>
      match eval n vars s e with
      | None => None
      | Some (c, s1) => match exec n f (if truth c then yes else no) vars s1 with Some s2 => exec n f b' vars s2 | None => None end
      end
    end.
Proof. reflexivity. Qed.
Lemma look_set : forall (d : env V) x v y, look (set d x v) y = if N.eqb x y then Some v else look d y.
Proof. reflexivity. Qed.
Lemma put_same : forall (s : slots V) f v, put s f v f = v.
Proof. intros s f v. unfold put. rewrite N.eqb_refl. reflexivity. Qed.
(** Two sets of variables that agree *)
Definition agree (X : list N) (a b : env V) : Prop := forall x, In x X -> look a x = look b x.
Definition glob (a : env V) : Prop := forall x, global x -> look a x = look globals x.
Lemma agree_app : forall X Y a b, agree (X ++ Y) a b -> agree X a b /\ agree Y a b.
Proof. intros X Y a b H. split; intros x Hx; apply H; apply in_or_app; [left|right]; exact Hx. Qed.
Lemma agree_set : forall X a b x v, agree X a b -> agree (x :: X) (set a x v) (set b x v).
Proof.
  intros X a b x v H y Hy. rewrite !look_set. destruct (N.eqb_spec x y) as [E|E]; [reflexivity|].
  apply H. destruct Hy as [Hy|Hy]; [contradiction|exact Hy].
Qed.
Lemma glob_set : forall a x v, glob a -> ~ global x -> glob (set a x v).
Proof.
  intros a x v H Hx y Hy. rewrite look_set. destruct (N.eqb_spec x y) as [E|E]; [subst y; contradiction|]. apply H. exact Hy.
Qed.
Lemma agree_keep : forall X a b x v, agree X a b -> ~ In x X -> agree X (set a x v) b.
Proof.
  intros X a b x v H Hx y Hy. rewrite look_set. destruct (N.eqb_spec x y) as [E|E]; [subst y; contradiction|]. apply H. exact Hy.
Qed.
Lemma scoped_agree : forall seen e a b, scoped seen e -> agree seen a b -> glob a -> glob b -> agree (mentions e) a b.
Proof.
  intros seen e a b [_ H] Ha Ga Gb x Hx. destruct (H x Hx) as [K|K]; [apply Ha; exact K|]. rewrite (Ga x K), (Gb x K). reflexivity.
Qed.
Lemma tame_all : forall l, fold_right and True (map tame l) -> Forall tame l.
Proof. intro l. induction l as [|e l IH]; intro H; [constructor|]. cbn [map fold_right] in H. destruct H as [H1 H2]. constructor; [exact H1|apply IH; exact H2]. Qed.

Context (TP : tame_program functions globals).

Definition eval_ok (n : nat) : Prop := forall a d s e v s', tame e -> agree (mentions e) a d -> glob a ->
  eval n a s e = Some (v, s') -> evaluates d e v.
Definition evals_ok (n : nat) : Prop := forall l a d s vs s', Forall tame l -> agree (flat_map mentions l) a d -> glob a ->
  evals n a s l = Some (vs, s') -> all d l vs.
Definition bind_ok (n : nat) : Prop := forall args params seen a d dp s a' s',
  Forall tame args -> agree (flat_map mentions args) a d -> no_capture args params -> parameters seen params ->
  agree seen a dp -> glob a -> glob dp -> bind n args params a s = Some (a', s') ->
  exists vs d', all d args vs /\ binds params vs dp d' /\ agree (rev (map fst params) ++ seen) a' d' /\ glob a' /\ glob d'.
Definition exec_ok (n : nat) : Prop := forall f last seen b a d s s', block last seen b -> agree seen a d -> glob a -> glob d ->
  exec n f b a s = Some s' ->
  if last then runs d b (Some (s' f)) else runs d b None.

Lemma all_ok : forall n, eval_ok n /\ evals_ok n /\ bind_ok n /\ exec_ok n.
Proof.
  intro n. induction n as [|n (IHe & IHl & IHb & IHx)].
  { split; [|split; [|split]].
    - intros a d s e v s' _ _ _ H. discriminate H.
    - intros l a d s vs s' _ _ _ H. discriminate H.
    - intros args params seen a d dp s a' s' _ _ _ _ _ _ _ H. discriminate H.
    - intros f last seen b a d s s' _ _ _ _ H. discriminate H. }
  split; [|split; [|split]].
  - intros a d s e v s' Ht Ha Hg H. destruct e as [w|x|o args|f args]; rewrite eval_S in H.
    + injection H as H1 H2. subst w. apply ev_const.
    + destruct (look a x) as [w|] eqn:E; [|discriminate H]. injection H as H1 H2. subst w. apply ev_var. rewrite <- E. symmetry. apply Ha. left. reflexivity.
    + destruct (evals n a s args) as [[vs s1]|] eqn:E; [|discriminate H]. injection H as H1 H2. subst v. apply ev_op.
      apply (IHl args a d s vs s1); [apply tame_all; exact Ht|exact Ha|exact Hg|exact E].
    + cbn [UfSpec.tame] in Ht. destruct Ht as [(fd & Hf & Hc) Ht]. rewrite Hf in H.
      destruct (bind n args (f_params fd) a (put s f empty)) as [[a1 s1]|] eqn:Eb; [|discriminate H].
      destruct (exec n f (f_body fd) a1 s1) as [s2|] eqn:Ex; [|discriminate H]. injection H as H1 H2. subst v.
      destruct (TP f fd Hf) as [Hp Hk].
      destruct (IHb args (f_params fd) [] a d globals (put s f empty) a1 s1) as (vs & d' & A1 & B1 & G1 & G2 & G3);
        [apply tame_all; exact Ht|exact Ha|exact Hc|exact Hp|intros x []|exact Hg|intros x _; reflexivity|exact Eb|].
      rewrite app_nil_r in G1.
      pose proof (IHx f true _ _ a1 d' s1 s2 Hk G1 G2 G3 Ex) as R. cbn in R.
      exact (ev_call empty truth op functions globals d f args fd vs d' (Some (s2 f)) Hf A1 B1 R).
  - intros l a d s vs s' Ht Ha Hg H. destruct l as [|e l]; rewrite evals_S in H.
    + injection H as H1 H2. subst vs. apply all_nil.
    + destruct (eval n a s e) as [[v s1]|] eqn:E1; [|discriminate H].
      destruct (evals n a s1 l) as [[ws s2]|] eqn:E2; [|discriminate H]. injection H as H1 H2. subst vs.
      inversion Ht as [|? ? T1 T2]; subst. cbn [flat_map] in Ha. apply agree_app in Ha. destruct Ha as [A1 A2].
      apply all_cons; [exact (IHe a d s e v s1 T1 A1 Hg E1)|exact (IHl l a d s1 ws _ T2 A2 Hg E2)].
  - intros args params seen a d dp s a' s' Ht Ha Hc Hp Hs Hg Hd H. rewrite bind_S in H.
    destruct params as [|[x e] params].
    + assert (E : args = []) by (destruct args as [|e args]; [reflexivity|destruct Hc]). subst args. injection H as H1 H2. subst a' s'.
      exists [], dp. split; [apply all_nil|]. split; [apply binds_nil|]. split; [exact Hs|]. split; [exact Hg|exact Hd].
    + inversion Hp as [|? ? ? ? P1 P2 P3]; subst. destruct args as [|e1 args].
      * destruct (eval n a s e) as [[v s1]|] eqn:E; [|discriminate H].
        destruct (IHb [] params (x :: seen) (set a x v) d (set dp x v) s1 a' s') as (vs & d' & A1 & B1 & G1 & G2 & G3);
          [constructor|intros y []|exact I|exact P3|apply agree_set; exact Hs|apply glob_set; assumption|apply glob_set; assumption|exact H|].
        exists [], d'. split; [apply all_nil|]. split; [|split; [|split; [exact G2|exact G3]]].
        -- inversion A1; subst. apply binds_default with (v := v); [|exact B1].
           apply (IHe a dp s e v s1); [exact (proj1 P1)|exact (scoped_agree seen e a dp P1 Hs Hg Hd)|exact Hg|exact E].
        -- cbn [map fst rev]. rewrite <- app_assoc. exact G1.
      * destruct (eval n a s e1) as [[v s1]|] eqn:E; [|discriminate H].
        inversion Ht as [|? ? T1 T2]; subst. cbn [flat_map] in Ha. apply agree_app in Ha. destruct Ha as [A1 A2].
        cbn [no_capture] in Hc. destruct Hc as [C1 C2].
        destruct (IHb args params (x :: seen) (set a x v) d (set dp x v) s1 a' s') as (vs & d' & A3 & B1 & G1 & G2 & G3);
          [exact T2| |exact C2|exact P3|apply agree_set; exact Hs|apply glob_set; assumption|apply glob_set; assumption|exact H|].
        { apply agree_keep; [exact A2|]. intro K. apply in_flat_map in K. destruct K as (y & Hy1 & Hy2). rewrite Forall_forall in C1. exact (C1 y Hy1 Hy2). }
        exists (v :: vs), d'. split; [apply all_cons; [exact (IHe a d s e1 v s1 T1 A1 Hg E)|exact A3]|].
        split; [apply binds_arg; exact B1|]. split; [|split; [exact G2|exact G3]].
        cbn [map fst rev]. rewrite <- app_assoc. exact G1.
  - intros f last seen b a d s s' Hb Ha Hg Hd H.
    assert (EV : forall e v t t', scoped seen e -> eval n a t e = Some (v, t') -> evaluates d e v).
    { intros e v t t' S E. exact (IHe a d t e v t' (proj1 S) (scoped_agree seen e a d S Ha Hg Hd) Hg E). }
    inversion Hb as [seen0|last0 seen0 x e b0 S1 S2 S3|seen0 e S1|last0 seen0 e b0 S1 S2|last0 seen0 e yes no b0 S1 S2 S3 S4|seen0 e yes no S1 S2 S3]; subst; rewrite exec_S in H.
    + apply runs_nil.
    + destruct (eval n a s e) as [[v s1]|] eqn:E; [|discriminate H].
      pose proof (IHx f last (x :: seen) b0 (set a x v) (set d x v) s1 s' S3 (agree_set _ _ _ _ _ Ha) (glob_set _ _ _ Hg S2) (glob_set _ _ _ Hd S2) H) as R.
      destruct last; exact (runs_let _ _ _ _ _ d x e b0 v _ (EV e v s s1 S1 E) R).
    + destruct (eval n a s e) as [[v s1]|] eqn:E; [|discriminate H]. destruct n as [|n]; [discriminate H|]. rewrite exec_S in H. injection H as H. subst s'. rewrite put_same.
      apply runs_result. exact (EV e v s s1 S1 E).
    + destruct (eval n a s e) as [[v s1]|] eqn:E; [|discriminate H].
      pose proof (IHx f last seen b0 a d s1 s' S2 Ha Hg Hd H) as R.
      destruct last; exact (runs_eval _ _ _ _ _ d e b0 v _ (EV e v s s1 S1 E) R).
    + destruct (eval n a s e) as [[c s1]|] eqn:E; [|discriminate H].
      destruct (exec n f (if truth c then yes else no) a s1) as [s2|] eqn:E2; [|discriminate H].
      assert (Sb : block false seen (if truth c then yes else no)) by (destruct (truth c); assumption).
      pose proof (IHx f false seen _ a d s1 s2 Sb Ha Hg Hd E2) as R1. cbn in R1.
      pose proof (IHx f last seen b0 a d s2 s' S4 Ha Hg Hd H) as R.
      destruct last; exact (runs_choose _ _ _ _ _ d e yes no b0 c _ (EV e c s s1 S1 E) R1 R).
    + destruct (eval n a s e) as [[c s1]|] eqn:E; [|discriminate H].
      destruct (exec n f (if truth c then yes else no) a s1) as [s2|] eqn:E2; [|discriminate H].
      assert (Sb : block true seen (if truth c then yes else no)) by (destruct (truth c); assumption).
      pose proof (IHx f true seen _ a d s1 s2 Sb Ha Hg Hd E2) as R1. cbn in R1.
      destruct n as [|n]; [discriminate H|]. rewrite exec_S in H. injection H as H. subst s'.
      apply (runs_choose_result _ _ _ _ _ d e yes no [] c); [exact (EV e c s s1 S1 E)|exact R1].
Qed.
(** ** The other direction *)
Scheme evaluates_min := Minimality for UfSpec.evaluates Sort Prop
  with all_min := Minimality for UfSpec.all Sort Prop
  with binds_min := Minimality for UfSpec.binds Sort Prop
  with runs_min := Minimality for UfSpec.runs Sort Prop.
Combined Scheme meaning_min from evaluates_min, all_min, binds_min, runs_min.
Definition e_done (d : env V) (e : expr V) (v : V) : Prop := forall a, tame e -> agree (mentions e) a d -> glob a ->
  exists n0, forall n s, (n0 <= n)%nat -> exists s', eval n a s e = Some (v, s').
Definition l_done (d : env V) (l : list (expr V)) (vs : list V) : Prop := Forall2 (e_done d) l vs.
Definition b_done (params : list (N * expr V)) (vs : list V) (dp d' : env V) : Prop := forall args seen a d,
  Forall2 (e_done d) args vs -> Forall tame args -> agree (flat_map mentions args) a d -> no_capture args params -> parameters seen params ->
  agree seen a dp -> glob a -> glob dp ->
  exists a', agree (rev (map fst params) ++ seen) a' d' /\ glob a' /\ glob d' /\
    exists n0, forall n s, (n0 <= n)%nat -> exists s', bind n args params a s = Some (a', s').
Definition r_done (d : env V) (b : list (instr V)) (o : option V) : Prop := forall f last seen a, block last seen b -> agree seen a d -> glob a -> glob d ->
  (if last then o <> None else o = None) /\
  exists n0, forall n s, (n0 <= n)%nat -> exists s', exec n f b a s = Some s' /\ match o with Some v => s' f = v | None => True end.
Lemma evals_done : forall d l vs, Forall2 (e_done d) l vs -> forall a, Forall tame l -> agree (flat_map mentions l) a d -> glob a ->
  exists n0, forall n s, (n0 <= n)%nat -> exists s', evals n a s l = Some (vs, s').
Proof.
  intros d l vs H. induction H as [|e v l vs H1 H2 IH]; intros a Ht Ha Hg.
  - exists 1%nat. intros n s Hn. destruct n as [|n]; [lia|]. exists s. reflexivity.
  - inversion Ht as [|? ? T1 T2]; subst. cbn [flat_map] in Ha. apply agree_app in Ha. destruct Ha as [A1 A2].
    destruct (H1 a T1 A1 Hg) as [n1 K1]. destruct (IH a T2 A2 Hg) as [n2 K2].
    exists (S (n1 + n2)). intros n s Hn. destruct n as [|n]; [lia|]. rewrite evals_S.
    destruct (K1 n s ltac:(lia)) as [s1 E1]. rewrite E1. destruct (K2 n s1 ltac:(lia)) as [s2 E2]. rewrite E2. exists s2. reflexivity.
Qed.
Lemma done_all :
  (forall d e v, evaluates d e v -> e_done d e v) /\ (forall d l vs, all d l vs -> l_done d l vs) /\
  (forall ps vs d d', binds ps vs d d' -> b_done ps vs d d') /\ (forall d b o, runs d b o -> r_done d b o).
Proof.
  apply (meaning_min V empty truth op functions globals e_done l_done b_done r_done).
  - intros d v a _ _ _. exists 1%nat. intros n s Hn. destruct n as [|n]; [lia|]. exists s. reflexivity.
  - intros d x v Hl a _ Ha _. exists 1%nat. intros n s Hn. destruct n as [|n]; [lia|]. rewrite eval_S. rewrite (Ha x (or_introl eq_refl)), Hl. exists s. reflexivity.
  - intros d o args vs _ Hl a Ht Ha Hg. destruct (evals_done d args vs Hl a (tame_all args Ht) Ha Hg) as [n0 K].
    exists (S n0). intros n s Hn. destruct n as [|n]; [lia|]. rewrite eval_S. destruct (K n s ltac:(lia)) as [s1 E]. rewrite E. exists s1. reflexivity.
  - intros d f args fd vs d' o Hf _ Hl _ Hb _ Hr a Ht Ha Hg. cbn [UfSpec.tame] in Ht. destruct Ht as [(fd' & Hf' & Hc) Ht]. rewrite Hf in Hf'. injection Hf' as Hf'. subst fd'.
    destruct (TP f fd Hf) as [Hp Hk].
    destruct (Hb args [] a d Hl (tame_all args Ht) Ha Hc Hp) as (a' & G1 & G2 & G3 & n1 & K1); [intros x []|exact Hg|intros x _; reflexivity|].
    rewrite app_nil_r in G1. destruct (Hr f true _ a' Hk G1 G2 G3) as [Ho (n2 & K2)].
    exists (S (n1 + n2)). intros n s Hn. destruct n as [|n]; [lia|]. rewrite eval_S, Hf.
    destruct (K1 n (put s f empty) ltac:(lia)) as [s1 E1]. rewrite E1. destruct (K2 n s1 ltac:(lia)) as (s2 & E2 & E3). rewrite E2.
    destruct o as [v|]; [|exfalso; apply Ho; reflexivity]. exists s2. rewrite E3. reflexivity.
  - intro d. constructor.
  - intros d e l v vs _ H1 _ H2. constructor; assumption.
  - intros d args seen a d0 Hl _ _ _ _ Hs Hg Hd. inversion Hl; subst. exists a. split; [exact Hs|]. split; [exact Hg|]. split; [exact Hd|].
    exists 1%nat. intros n s Hn. destruct n as [|n]; [lia|]. exists s. reflexivity.
  - intros x e params v vs d d' _ Hb args seen a d0 Hl Ht Ha Hc Hp Hs Hg Hd. inversion Hl as [|e1 v1 args1 vs1 L1 L2]; subst.
    inversion Ht as [|? ? T1 T2]; subst. cbn [flat_map] in Ha. apply agree_app in Ha. destruct Ha as [A1 A2].
    cbn [no_capture] in Hc. destruct Hc as [C1 C2]. inversion Hp as [|? ? ? ? P1 P2 P3]; subst.
    destruct (L1 a T1 A1 Hg) as [n1 K1].
    destruct (Hb args1 (x :: seen) (set a x v) d0 L2 T2) as (a' & G1 & G2 & G3 & n2 & K2);
      [|exact C2|exact P3|apply agree_set; exact Hs|apply glob_set; assumption|apply glob_set; assumption|].
    { apply agree_keep; [exact A2|]. intro K. apply in_flat_map in K. destruct K as (y & Hy1 & Hy2). rewrite Forall_forall in C1. exact (C1 y Hy1 Hy2). }
    exists a'. split; [cbn [map fst rev]; rewrite <- app_assoc; exact G1|]. split; [exact G2|]. split; [exact G3|].
    exists (S (n1 + n2)). intros n s Hn. destruct n as [|n]; [lia|]. rewrite bind_S.
    destruct (K1 n s ltac:(lia)) as [s1 E1]. rewrite E1. apply K2. lia.
  - intros x e params v d d' _ He _ Hb args seen a d0 Hl Ht Ha Hc Hp Hs Hg Hd. inversion Hl; subst.
    inversion Hp as [|? ? ? ? P1 P2 P3]; subst.
    destruct (He a (proj1 P1) (scoped_agree seen e a d P1 Hs Hg Hd) Hg) as [n1 K1].
    destruct (Hb [] (x :: seen) (set a x v) d0 (Forall2_nil _) (Forall_nil _)) as (a' & G1 & G2 & G3 & n2 & K2);
      [intros y []|exact I|exact P3|apply agree_set; exact Hs|apply glob_set; assumption|apply glob_set; assumption|].
    exists a'. split; [cbn [map fst rev]; rewrite <- app_assoc; exact G1|]. split; [exact G2|]. split; [exact G3|].
    exists (S (n1 + n2)). intros n s Hn. destruct n as [|n]; [lia|]. rewrite bind_S.
    destruct (K1 n s ltac:(lia)) as [s1 E1]. rewrite E1. apply K2. lia.
  - intros d f last seen a Hb _ _ _. inversion Hb; subst. split; [reflexivity|]. exists 1%nat. intros n s Hn. destruct n as [|n]; [lia|]. exists s. split; [reflexivity|exact I].
  - intros d x e b v o _ He _ Hr f last seen a Hb Hs Hg Hd. inversion Hb as [|? ? ? ? ? S1 S2 S3| | | |]; subst.
    destruct (He a (proj1 S1) (scoped_agree seen e a d S1 Hs Hg Hd) Hg) as [n1 K1].
    destruct (Hr f last (x :: seen) (set a x v) S3 (agree_set _ _ _ _ _ Hs) (glob_set _ _ _ Hg S2) (glob_set _ _ _ Hd S2)) as [Ho (n2 & K2)].
    split; [exact Ho|]. exists (S (n1 + n2)). intros n s Hn. destruct n as [|n]; [lia|]. rewrite exec_S.
    destruct (K1 n s ltac:(lia)) as [s1 E1]. rewrite E1. apply K2. lia.
  - intros d e b v _ He f last seen a Hb Hs Hg Hd. inversion Hb as [| |? ? S1| | |]; subst.
    destruct (He a (proj1 S1) (scoped_agree seen e a d S1 Hs Hg Hd) Hg) as [n1 K1].
    split; [intro X; discriminate X|]. exists (S (S n1)). intros n s Hn. destruct n as [|n]; [lia|]. rewrite exec_S.
    destruct (K1 n s ltac:(lia)) as [s1 E1]. rewrite E1. destruct n as [|n]; [lia|]. exists (put s1 f v). split; [reflexivity|apply put_same].
  - intros d e b v o _ He _ Hr f last seen a Hb Hs Hg Hd. inversion Hb as [| | |? ? ? ? S1 S2| |]; subst.
    destruct (He a (proj1 S1) (scoped_agree seen e a d S1 Hs Hg Hd) Hg) as [n1 K1].
    destruct (Hr f last seen a S2 Hs Hg Hd) as [Ho (n2 & K2)].
    split; [exact Ho|]. exists (S (n1 + n2)). intros n s Hn. destruct n as [|n]; [lia|]. rewrite exec_S.
    destruct (K1 n s ltac:(lia)) as [s1 E1]. rewrite E1. apply K2. lia.
  - intros d e yes no b c v _ He _ Hr f last seen a Hb Hs Hg Hd. inversion Hb as [| | | |? ? ? ? ? ? S1 S2 S3 S4|? ? ? ? S1 S2 S3]; subst.
    + assert (Sb : block false seen (if truth c then yes else no)) by (destruct (truth c); assumption).
      destruct (Hr f false seen a Sb Hs Hg Hd) as [Ho _]. discriminate Ho.
    + assert (Sb : block true seen (if truth c then yes else no)) by (destruct (truth c); assumption).
      destruct (He a (proj1 S1) (scoped_agree seen e a d S1 Hs Hg Hd) Hg) as [n1 K1].
      destruct (Hr f true seen a Sb Hs Hg Hd) as [Ho (n2 & K2)]. split; [exact Ho|].
      exists (S (S (n1 + n2))). intros n s Hn. destruct n as [|n]; [lia|]. rewrite exec_S.
      destruct (K1 n s ltac:(lia)) as [s1 E1]. rewrite E1. destruct (K2 n s1 ltac:(lia)) as (s2 & E2 & E3). rewrite E2.
      destruct n as [|n]; [lia|]. exists s2. split; [reflexivity|exact E3].
  - intros d e yes no b c o _ He _ Hr _ Hr2 f last seen a Hb Hs Hg Hd. inversion Hb as [| | | |? ? ? ? ? ? S1 S2 S3 S4|? ? ? ? S1 S2 S3]; subst.
    + assert (Sb : block false seen (if truth c then yes else no)) by (destruct (truth c); assumption).
      destruct (He a (proj1 S1) (scoped_agree seen e a d S1 Hs Hg Hd) Hg) as [n1 K1].
      destruct (Hr f false seen a Sb Hs Hg Hd) as [_ (n2 & K2)].
      destruct (Hr2 f last seen a S4 Hs Hg Hd) as [Ho (n3 & K3)]. split; [exact Ho|].
      exists (S (n1 + n2 + n3)). intros n s Hn. destruct n as [|n]; [lia|]. rewrite exec_S.
      destruct (K1 n s ltac:(lia)) as [s1 E1]. rewrite E1. destruct (K2 n s1 ltac:(lia)) as (s2 & E2 & E3). rewrite E2. apply K3. lia.
    + assert (Sb : block true seen (if truth c then yes else no)) by (destruct (truth c); assumption).
      destruct (Hr f true seen a Sb Hs Hg Hd) as [Ho _]. exfalso. apply Ho. reflexivity.
Qed.
End Proofs.

(** C124: what the specification takes from the model: a variable has the value it was set to last. *)
Theorem C124_variables : forall (V : Type) (d : env V) x v,
  look (set d x v) x = Some v /\ (forall y, y <> x -> look (set d x v) y = look d y) /\ (forall y, look (V := V) [] y = None).
Proof.
  intros V d x v. split; [rewrite look_set, N.eqb_refl; reflexivity|]. split; [|reflexivity].
  intros y H. rewrite look_set. destruct (N.eqb_spec x y) as [E|E]; [exfalso; apply H; symmetry; exact E|reflexivity].
Qed.
Print Assumptions C124_variables.
(** C124: what an expression is found to be, from global variables, is its value: calls of user-defined functions, recursive ones included, are by
    value and with the variables of their definition. *)
Theorem C124_value_partial : forall (V : Type) (empty : V) truth op functions globals n s e v s',
  tame_program functions globals -> scoped functions globals [] e ->
  eval empty truth op functions n globals s e = Some (v, s') ->
  evaluates empty truth op functions globals globals e v.
Proof.
  intros V empty truth op functions globals n s e v s' TP [Ht Hs] H.
  destruct (all_ok empty truth op functions globals TP n) as (He & _).
  apply (He globals globals s e v s' Ht); [intros x _; reflexivity|intros x _; reflexivity|exact H].
Qed.
Print Assumptions C124_value_partial.
(** C124: and every value is found. *)
Theorem C124_found_partial : forall (V : Type) (empty : V) truth op functions globals e v,
  tame_program functions globals -> scoped functions globals [] e ->
  evaluates empty truth op functions globals globals e v ->
  exists n0, forall n s, (n0 <= n)%nat -> exists s', eval empty truth op functions n globals s e = Some (v, s').
Proof.
  intros V empty truth op functions globals e v TP [Ht Hs] H.
  apply (proj1 (done_all empty truth op functions globals TP) globals e v H globals Ht); intros x _; reflexivity.
Qed.
Print Assumptions C124_found_partial.

(** *** Values are numbers: 0 is false, operator 0 adds, 1 is the remainder, 2 says whether a number is 0 *)
Definition nop (o : N) (l : list N) : N :=
  match o, l with 0, [a; b] => a + b | 1, [a; b] => a mod b | 2, [a] => if a =? 0 then 1 else 0 | _, _ => 0 end%N.
Definition ntruth (v : N) : bool := negb (v =? 0)%N.
Definition none : slots N := fun _ => 0%N.
Definition ntable (l : list (N * func N)) (f : N) : option (func N) :=
  match find (fun p => (fst p =? f)%N) l with Some p => Some (snd p) | None => None end.
(** a function that adds the numbers to n by recursion; its second parameter has a default that uses the first *)
Definition sum : func N :=
  {| f_params := [(10, Const 0); (11, Op 0 [Var 10; Var 1])];
     f_body := [Let 12 (Op 0 [Var 10; Const 1]);
                Choose (Op 1 [Var 10; Const 4]) [Result (Op 0 [Var 11; Call 5 [Var 12]])] [Eval (Var 12); Result (Var 11)]] |}%N.
Example C124_case : tame_program (ntable [(5%N, sum)]) [(1%N, 100%N)] /\ scoped (ntable [(5%N, sum)]) [(1%N, 100%N)] [] (Call 5 [Const 1%N]) /\
  option_map fst (eval 0%N ntruth nop (ntable [(5%N, sum)]) 60 [(1%N, 100%N)] none (Call 5 [Const 1%N])) = Some 410%N.
Proof.
  split; [|split].
  - intros f fd H. unfold ntable in H. cbn [find fst snd] in H. destruct (5 =? f)%N eqn:E; [|discriminate H]. injection H as H. subst fd.
    assert (S : forall seen e, (forall x, In x (mentions e) -> In x seen \/ x = 1%N) -> tame (ntable [(5%N, sum)]) e -> scoped (ntable [(5%N, sum)]) [(1%N, 100%N)] seen e).
    { intros seen e H1 H2. split; [exact H2|]. intros x Hx. destruct (H1 x Hx) as [K|K]; [left; exact K|]. right. left. symmetry. exact K. }
    assert (G : forall x, x <> 1%N -> ~ global (V := N) [(1%N, 100%N)] x) by (intros x Hx [K|[]]; apply Hx; symmetry; exact K).
    cbn [sum f_params f_body map fst rev app].
    split.
    + apply parameters_cons; [apply S; [intros x []|exact I]|apply G; discriminate|].
      apply parameters_cons; [apply S; [|cbn; tauto]|apply G; discriminate|apply parameters_nil].
      intros x [K|[K|[]]]; subst x; [left; left; reflexivity|right; reflexivity].
    + apply block_let; [apply S; [intros x [K|[]]; subst x; left; right; left; reflexivity|cbn; tauto]|apply G; discriminate|].
      apply block_choose_last.
      * apply S; [intros x [K|[]]; subst x; left; right; right; left; reflexivity|cbn; tauto].
      * apply block_result. apply S; [intros x [K|[K|[]]]; subst x; left; cbn; tauto|].
        cbn [tame map fold_right]. repeat split. exists sum. split; [reflexivity|]. cbn. split; [constructor|exact I].
      * apply block_eval; [apply S; [intros x [K|[]]; subst x; left; cbn; tauto|exact I]|]. apply block_result. apply S; [intros x [K|[]]; subst x; left; cbn; tauto|exact I].
  - split; [|intros x []]. cbn [tame map fold_right]. repeat split. exists sum. split; [reflexivity|]. cbn. split; [constructor|exact I].
  - vm_compute. reflexivity.
Qed.
(** Arguments are evaluated after the parameters to their left have been set: in a function with the parameter a, f(1, $a) passes 1 twice. *)
Definition second : func N := {| f_params := [(10, Const 0); (11, Const 0)]; f_body := [Result (Var 11)] |}%N.
Definition caller : func N := {| f_params := [(10, Const 0)]; f_body := [Result (Call 5 [Const 1; Var 10])] |}%N.
Section Inversion.
Context {V : Type} (empty : V) (truth : V -> bool) (op : N -> list V -> V) (functions : N -> option (func V)) (globals : env V).
Notation evaluates := (evaluates empty truth op functions globals).
Notation all := (all empty truth op functions globals).
Notation binds := (binds empty truth op functions globals).
Notation runs := (runs empty truth op functions globals).
Lemma const_inv : forall d w v, evaluates d (Const w) v -> v = w.
Proof. intros d w v H. inversion H; subst. reflexivity. Qed.
Lemma var_inv : forall d x v, evaluates d (Var x) v -> look d x = Some v.
Proof. intros d x v H. inversion H; subst. assumption. Qed.
Lemma call_inv : forall d f args v, evaluates d (Call f args) v ->
  exists fd vs d' o, functions f = Some fd /\ all d args vs /\ binds (f_params fd) vs globals d' /\ runs d' (f_body fd) o /\ v = match o with Some w => w | None => empty end.
Proof. intros d f args v H. inversion H; subst. eexists. eexists. eexists. eexists. split; [eassumption|]. split; [eassumption|]. split; [eassumption|]. split; [eassumption|reflexivity]. Qed.
Lemma all_nil_inv : forall d vs, all d [] vs -> vs = [].
Proof. intros d vs H. inversion H; subst. reflexivity. Qed.
Lemma all_cons_inv : forall d e l vs, all d (e :: l) vs -> exists v ws, vs = v :: ws /\ evaluates d e v /\ all d l ws.
Proof. intros d e l vs H. inversion H; subst. eexists. eexists. split; [reflexivity|]. split; assumption. Qed.
Lemma binds_arg_inv : forall x e ps v vs d d', binds ((x, e) :: ps) (v :: vs) d d' -> binds ps vs (set d x v) d'.
Proof. intros x e ps v vs d d' H. inversion H; subst. assumption. Qed.
Lemma binds_nil_inv : forall vs d d', binds [] vs d d' -> d' = d.
Proof. intros vs d d' H. inversion H; subst. reflexivity. Qed.
Lemma runs_nil_inv : forall d o, runs d [] o -> o = None.
Proof. intros d o H. inversion H; subst. reflexivity. Qed.
Lemma runs_result_inv : forall d e b o, runs d (Result e :: b) o -> exists v, o = Some v /\ evaluates d e v.
Proof. intros d e b o H. inversion H; subst. eexists. split; [reflexivity|assumption]. Qed.
Lemma runs_choose_inv : forall d e yes no b o, runs d (Choose e yes no :: b) o ->
  exists c, evaluates d e c /\ (runs d (if truth c then yes else no) None /\ runs d b o \/ exists v, o = Some v /\ runs d (if truth c then yes else no) (Some v)).
Proof.
  intros d e yes no b o H. inversion H; subst; eexists; (split; [eassumption|]).
  - right. eexists. split; [reflexivity|assumption].
  - left. split; assumption.
Qed.
End Inversion.
Theorem C124_arguments_refuted : exists functions e v s', 
  eval 0%N ntruth nop functions 20 [] none e = Some (v, s') /\ ~ evaluates 0%N ntruth nop functions [] [] e v /\ evaluates 0%N ntruth nop functions [] [] e 7%N.
Proof.
  exists (ntable [(5%N, second); (6%N, caller)]), (Call 6%N [Const 7%N]), 1%N. eexists. split; [reflexivity|]. split.
  - intro H. apply call_inv in H. destruct H as (fd & vs & d' & o & Hf & Ha & Hb & Hr & E). vm_compute in Hf. injection Hf as Hf. subst fd.
    apply all_cons_inv in Ha. destruct Ha as (v & ws & E1 & H1 & H2). apply const_inv in H1. apply all_nil_inv in H2. subst.
    cbn [caller f_params f_body] in Hb, Hr. apply binds_arg_inv in Hb. apply binds_nil_inv in Hb. subst d'.
    apply runs_result_inv in Hr. destruct Hr as (w & E2 & H3). subst o.
    apply call_inv in H3. destruct H3 as (fd & vs & d' & o & Hf & Ha & Hb & Hr & E3). vm_compute in Hf. injection Hf as Hf. subst fd.
    apply all_cons_inv in Ha. destruct Ha as (v1 & ws1 & F1 & K1 & K2). apply all_cons_inv in K2. destruct K2 as (v2 & ws2 & F2 & K2 & K3). apply all_nil_inv in K3. apply const_inv in K1.
    apply var_inv in K2. vm_compute in K2. injection K2 as K2. subst.
    cbn [second f_params f_body] in Hb, Hr. apply binds_arg_inv in Hb. apply binds_arg_inv in Hb. apply binds_nil_inv in Hb. subst d'.
    apply runs_result_inv in Hr. destruct Hr as (w & E2 & H3). subst o. apply var_inv in H3. vm_compute in H3. injection H3 as H3. subst w. discriminate E.
  - apply (ev_call 0%N ntruth nop _ [] [] 6%N [Const 7%N] caller [7%N] [(10%N, 7%N)] (Some 7%N)); [reflexivity| | |].
    + apply all_cons; [apply ev_const|apply all_nil].
    + apply binds_arg. apply binds_nil.
    + apply runs_result. apply (ev_call 0%N ntruth nop _ [] _ 5%N [Const 1%N; Var 10%N] second [1%N; 7%N] [(11%N, 7%N); (10%N, 1%N)] (Some 7%N)); [reflexivity| | |].
      * apply all_cons; [apply ev_const|]. apply all_cons; [apply ev_var; reflexivity|apply all_nil].
      * apply binds_arg. apply binds_arg. apply binds_nil.
      * apply runs_result. apply ev_var. reflexivity.
Qed.
Print Assumptions C124_arguments_refuted.
(** The function element holds one result for all its calls: a call of the function after func:result replaces the result. *)
Definition later : func N :=
  {| f_params := [(10, Const 0)]; f_body := [Choose (Var 10) [Result (Const 7)] []; Choose (Var 10) [Eval (Call 5 [Const 0])] [Result (Const 9)]] |}%N.
Theorem C124_result_refuted : exists functions e v s',
  eval 0%N ntruth nop functions 20 [] none e = Some (v, s') /\ ~ evaluates 0%N ntruth nop functions [] [] e v /\ evaluates 0%N ntruth nop functions [] [] e 7%N.
Proof.
  exists (ntable [(5%N, later)]), (Call 5%N [Const 1%N]), 9%N. eexists. split; [reflexivity|]. split.
  - intro H. apply call_inv in H. destruct H as (fd & vs & d' & o & Hf & Ha & Hb & Hr & E). vm_compute in Hf. injection Hf as Hf. subst fd.
    apply all_cons_inv in Ha. destruct Ha as (v & ws & E1 & H1 & H2). apply const_inv in H1. apply all_nil_inv in H2. subst.
    cbn [later f_params f_body] in Hb, Hr. apply binds_arg_inv in Hb. apply binds_nil_inv in Hb. subst d'.
    apply runs_choose_inv in Hr. destruct Hr as (c & Hc & Hr). apply var_inv in Hc. vm_compute in Hc. injection Hc as Hc. subst c.
    change (ntruth 1) with true in Hr. cbn iota in Hr. destruct Hr as [[Hr _]|(v & Ev & Hr)]; apply runs_result_inv in Hr; destruct Hr as (w & E2 & H3); [discriminate E2|].
    injection E2 as E2. apply const_inv in H3. subst. discriminate E.
  - apply (ev_call 0%N ntruth nop _ [] [] 5%N [Const 1%N] later [1%N] [(10%N, 1%N)] (Some 7%N)); [reflexivity| | |].
    + apply all_cons; [apply ev_const|apply all_nil].
    + apply binds_arg. apply binds_nil.
    + apply runs_choose_result with (c := 1%N); [apply ev_var; reflexivity|]. apply runs_result. apply ev_const.
Qed.
Print Assumptions C124_result_refuted.
(** A function sees the variables of its caller: with the global variable x = 1 and a caller that has a parameter x = 5, it finds 5. *)
Definition peeks : func N := {| f_params := []; f_body := [Result (Var 1)] |}%N.
Definition shadow : func N := {| f_params := [(1, Const 0)]; f_body := [Result (Call 5 [])] |}%N.
Theorem C124_scope_refuted : exists functions globals e v s',
  eval 0%N ntruth nop functions 20 globals none e = Some (v, s') /\ ~ evaluates 0%N ntruth nop functions globals globals e v /\ evaluates 0%N ntruth nop functions globals globals e 1%N.
Proof.
  exists (ntable [(5%N, peeks); (6%N, shadow)]), [(1%N, 1%N)], (Call 6%N [Const 5%N]), 5%N. eexists. split; [reflexivity|]. split.
  - intro H. apply call_inv in H. destruct H as (fd & vs & d' & o & Hf & Ha & Hb & Hr & E). vm_compute in Hf. injection Hf as Hf. subst fd.
    apply all_cons_inv in Ha. destruct Ha as (v & ws & E1 & H1 & H2). apply const_inv in H1. apply all_nil_inv in H2. subst.
    cbn [shadow f_params f_body] in Hb, Hr. apply binds_arg_inv in Hb. apply binds_nil_inv in Hb. subst d'.
    apply runs_result_inv in Hr. destruct Hr as (w & E2 & H3). subst o.
    apply call_inv in H3. destruct H3 as (fd & vs & d' & o & Hf & Ha & Hb & Hr & E3). vm_compute in Hf. injection Hf as Hf. subst fd.
    cbn [peeks f_params f_body] in Hb, Hr. apply binds_nil_inv in Hb. subst d'.
    apply runs_result_inv in Hr. destruct Hr as (u & E2 & H3). subst o. apply var_inv in H3. vm_compute in H3. injection H3 as H3. subst. discriminate E.
  - apply (ev_call 0%N ntruth nop _ _ _ 6%N [Const 5%N] shadow [5%N] [(1%N, 5%N); (1%N, 1%N)] (Some 1%N)); [reflexivity| | |].
    + apply all_cons; [apply ev_const|apply all_nil].
    + apply binds_arg. apply binds_nil.
    + apply runs_result. apply (ev_call 0%N ntruth nop _ _ _ 5%N [] peeks [] [(1%N, 1%N)] (Some 1%N)); [reflexivity|apply all_nil|apply binds_nil|].
      apply runs_result. apply ev_var. reflexivity.
Qed.
Print Assumptions C124_scope_refuted.
