(** * Proofs for C58 and C59 *)
From Coq Require Import NArith String List Bool Lia Arith.
From Verif Require Import PyStr PyErr XtVars XtVarsSpec.
Import ListNotations.
Local Open Scope nat_scope.

Section Proofs.
Variables V Nd : Type.
Notation env := (env V).
Notation expr := (expr V Nd).
Notation instr := (instr V Nd).
Notation binding := (binding V Nd).
Notation template := (template V Nd).
Notation focus := (focus Nd).
Notation state := (state V Nd).
Notation outcome := (outcome V Nd).
Variable w : world V Nd.
Variable G : env.
Variable GN : list str.

(** ** Induction over instructions *)
Section Induction.
Variable P : instr -> Prop.
Hypothesis HText : forall v, P (Text v).
Hypothesis HValue : forall e, P (Value e).
Hypothesis HElement : forall body, Forall P body -> P (Element body).
Hypothesis HSelect : forall n e, P (Var n (Select e)).
Hypothesis HContent : forall n body, Forall P body -> P (Var n (Content body)).
Hypothesis HEmpty : forall n, P (Var n Empty).
Hypothesis HIf : forall e body, Forall P body -> P (If e body).
Hypothesis HChoose : forall whens other, Forall (fun p => Forall P (snd p)) whens -> Forall P other -> P (Choose whens other).
Hypothesis HForEach : forall e body, Forall P body -> P (ForEach e body).
Hypothesis HCall : forall m n ps, P (Call m n ps).
Hypothesis HApply : forall e ps, P (Apply e ps).
Fixpoint instr_all (i : instr) : P i :=
  let list_all := fix list_all (l : list instr) : Forall P l :=
    match l with [] => Forall_nil P | j :: l' => Forall_cons j (instr_all j) (list_all l') end in
  match i with
  | Text v => HText v
  | Value e => HValue e
  | Element body => HElement body (list_all body)
  | Var n (Select e) => HSelect n e
  | Var n (Content body) => HContent n body (list_all body)
  | Var n Empty => HEmpty n
  | If e body => HIf e body (list_all body)
  | Choose whens other =>
      HChoose whens other
        ((fix pairs (l : list (expr * list instr)) : Forall (fun p => Forall P (snd p)) l :=
            match l with [] => Forall_nil _ | (e, b) :: l' => Forall_cons (e, b) (list_all b) (pairs l') end) whens)
        (list_all other)
  | ForEach e body => HForEach e body (list_all body)
  | Call m n ps => HCall m n ps
  | Apply e ps => HApply e ps
  end.
End Induction.

(** ** The definitions unfolded *)
Section Unfold.
Variable call : template -> env -> state -> outcome.
Variable apply : list Nd -> env -> state -> outcome.
Notation run := (run w call apply).
Notation process := (process w call apply).
Notation run_all := (run_all w call apply).
Lemma run_list : forall l s, (fix all (l : list instr) (s : state) : outcome :=
    match l with [] => Done s [] | j :: l' => andthen (run j s) (all l') end) l s = run_all l s.
Proof. induction l as [|j l IH]; intros; cbn [XtVars.run_all]; [reflexivity|]. unfold andthen. destruct (run j s); [|reflexivity]. rewrite IH. reflexivity. Qed.
Lemma run_process : forall body s,
  (if declares body
    then match (fix all (l : list instr) (s : state) : outcome :=
                  match l with [] => Done s [] | j :: l' => andthen (run j s) (all l') end) body (set_vars s (s_vars s) true) with
         | Done s' out => Done (set_vars s' (s_vars s) (s_copied s)) out
         | Fail e s' => Fail e s'
         end
    else (fix all (l : list instr) (s : state) : outcome :=
                  match l with [] => Done s [] | j :: l' => andthen (run j s) (all l') end) body s) = process body s.
Proof. intros. rewrite !run_list. reflexivity. Qed.
Lemma run_element : forall body s, run (Element body) s = process body s.
Proof. intros. cbn [XtVars.run]. apply run_process. Qed.
Lemma run_content : forall n body s, run (Var n (Content body)) s =
  match process body s with Done s' out => Done (assign s' n (tree_of w out)) [] | Fail e s' => Fail e s' end.
Proof. intros. cbn [XtVars.run]. rewrite run_process. auto. Qed.
Lemma run_if : forall e body s, run (If e body) s = with_value e s (fun v => if truth w v then process body s else Done s []).
Proof. intros. cbn [XtVars.run]. unfold with_value. destruct (evaluate e s); [|reflexivity]. destruct (truth w v); reflexivity. Qed.
Fixpoint run_choose (whens : list (expr * list instr)) (other : list instr) (s : state) : outcome :=
  match whens with
  | [] => process other s
  | (e, body) :: l => with_value e s (fun v => if truth w v then process body s else run_choose l other s)
  end.
Lemma run_choose_eq : forall whens other s, run (Choose whens other) s = run_choose whens other s.
Proof.
  intros. cbn [XtVars.run]. induction whens as [|[e body] l IH]; cbn [run_choose].
  - apply run_process.
  - unfold with_value. destruct (evaluate e s); [|reflexivity]. destruct (truth w v); [apply run_process|exact IH].
Qed.
Lemma each_ext : forall (f g : state -> outcome), (forall s, f s = g s) -> forall nodes p n s, each f nodes p n s = each g nodes p n s.
Proof. intros f g H. induction nodes as [|x nodes IH]; intros; cbn [each]; auto. unfold andthen. rewrite H. destruct (g _); auto. rewrite IH. auto. Qed.
Lemma run_foreach : forall e body s, run (ForEach e body) s =
  with_value e s (fun v => match each (process body) (nodes_of w v) 1 (List.length (nodes_of w v)) s with
                           | Done s' out => Done (set_focus s' (s_focus s)) out | Fail x s' => Fail x s' end).
Proof.
  intros. cbn [XtVars.run]. reflexivity.
Qed.
End Unfold.
Section UnfoldSpec.
Variable scall : template -> env -> focus -> result (list V).
Variable sapply : list Nd -> env -> focus -> result (list V).
Notation means := (means w scall sapply).
Notation means_all := (means_all w scall sapply).
Lemma means_list : forall l rho f, (fix all (l : list instr) (rho : env) (f : focus) : result (list V) :=
    match l with [] => Ok [] | j :: l' => do x <- means j rho f ; do o <- all l' (snd x) f ; Ok (fst x ++ o) end) l rho f = means_all l rho f.
Proof. induction l as [|j l IH]; intros; cbn [XtVarsSpec.means_all]; [reflexivity|]. destruct (means j rho f); cbn [bind]; [|reflexivity]. rewrite IH. reflexivity. Qed.
Lemma means_element : forall body rho f, means (Element body) rho f = rmap (fun o => (o, rho)) (means_all body rho f).
Proof. intros. cbn [XtVarsSpec.means]. rewrite means_list. auto. Qed.
Lemma means_content : forall n body rho f, means (Var n (Content body)) rho f = do o <- means_all body rho f ; Ok ([], (n, tree_of w o) :: rho).
Proof. intros. cbn [XtVarsSpec.means]. rewrite means_list. auto. Qed.
Lemma means_if : forall e body rho f, means (If e body) rho f =
  do v <- value_of e rho f ; if truth w v then rmap (fun o => (o, rho)) (means_all body rho f) else Ok ([], rho).
Proof. intros. cbn [XtVarsSpec.means]. rewrite means_list. auto. Qed.
Fixpoint means_choose (whens : list (expr * list instr)) (other : list instr) (rho : env) (f : focus) : result (list V * env) :=
  match whens with
  | [] => rmap (fun o => (o, rho)) (means_all other rho f)
  | (e, body) :: l => do v <- value_of e rho f ; if truth w v then rmap (fun o => (o, rho)) (means_all body rho f) else means_choose l other rho f
  end.
Lemma means_choose_eq : forall whens other rho f, means (Choose whens other) rho f = means_choose whens other rho f.
Proof.
  intros. cbn [XtVarsSpec.means]. induction whens as [|[e body] l IH]; cbn [means_choose].
  - rewrite means_list. auto.
  - destruct (value_of e rho f); cbn [bind]; [|reflexivity]. destruct (truth w a); [rewrite means_list; reflexivity|exact IH].
Qed.
Lemma each_node_ext : forall A (f g : A -> nat -> result (list V)), (forall x p, f x p = g x p) -> forall l p, each_node f l p = each_node g l p.
Proof. intros A f g H. induction l as [|x l IH]; intros; cbn [each_node]; auto. rewrite H. destruct (g x p); cbn [bind]; auto. rewrite IH. auto. Qed.
Lemma means_foreach : forall e body rho f, means (ForEach e body) rho f =
  do v <- value_of e rho f ;
  rmap (fun o => (o, rho)) (each_node (fun n position => means_all body rho (Focus n position (List.length (nodes_of w v)) n)) (nodes_of w v) 1).
Proof.
  intros. cbn [XtVarsSpec.means]. destruct (value_of e rho f); cbn [bind]; reflexivity.
Qed.
End UnfoldSpec.
Lemma good_list : forall l tail scope, (fix all (tail : option template) (scope : list str) (l : list instr) : Prop :=
    match l with
    | [] => True
    | j :: l' => good w GN (match l' with [] => tail | _ => None end) scope j /\ all tail (declared j ++ scope) l'
    end) tail scope l = good_all w GN tail scope l.
Proof. induction l as [|j l IH]; intros; cbn [good_all]; [reflexivity|]. rewrite IH. reflexivity. Qed.
Fixpoint good_choose (tail : option template) (scope : list str) (whens : list (expr * list instr)) (other : list instr) : Prop :=
  match whens with
  | [] => good_all w GN tail scope other
  | (e, body) :: l => good_expr scope e /\ good_all w GN tail scope body /\ good_choose tail scope l other
  end.
Lemma good_choose_eq : forall tail scope whens other, good w GN tail scope (Choose whens other) -> good_choose tail scope whens other.
Proof.
  intros tail scope whens other. cbn [good]. induction whens as [|[e body] l IH]; cbn [good_choose].
  - rewrite good_list. auto.
  - rewrite good_list. intros (H1 & H2 & H3). auto.
Qed.

(** ** The simulation *)
Definition near (f f' : focus) : Prop := f_node f = f_node f' /\ f_position f = f_position f' /\ f_size f = f_size f'.
Lemma near_refl : forall f, near f f. Proof. repeat split. Qed.
Lemma near_trans : forall f g h, near f g -> near g h -> near f h.
Proof. intros f g h (A & B & C) (D & E & F). repeat split; congruence. Qed.
Lemma near_sym : forall f g, near f g -> near g f.
Proof. intros f g (A & B & C). repeat split; congruence. Qed.
Definition base (s : state) : Prop := s_global s = G /\ forall n, In n GN -> lookup (s_vars s) n = lookup G n.
Definition agree (scope : list str) (s : state) (rho : env) : Prop := forall n, In n scope -> lookup (s_vars s) n = lookup rho n.
(** Everything but the variables and the recursive parameters is as before. *)
Definition kept (s s' : state) : Prop := near (s_focus s) (s_focus s') /\ s_copied s' = s_copied s /\ s_global s' = s_global s.
Lemma kept_refl : forall s, kept s s. Proof. repeat split. Qed.
Lemma kept_trans : forall s s1 s2, kept s s1 -> kept s1 s2 -> kept s s2.
Proof. intros s s1 s2 (A & B & C) (D & E & F). repeat split; try congruence; try (destruct A as (A1 & A2 & A3); destruct D as (D1 & D2 & D3); congruence). Qed.

Lemma all_values_agree : forall scope s rho, agree scope s rho -> forall ns, incl ns scope -> all_values (s_vars s) ns = all_values rho ns.
Proof.
  intros scope s rho H. induction ns as [|n ns IH]; intros Hi; cbn [all_values]; auto.
  rewrite (H n) by (apply Hi; left; auto). rewrite IH by (intros x Hx; apply Hi; right; auto). auto.
Qed.
Lemma evaluate_agree : forall scope e s rho f, good_expr scope e -> agree scope s rho -> near f (s_focus s) ->
  value_of e rho f = match evaluate e s with Some v => Ok v | None => Err UndefinedVariable end.
Proof.
  intros scope e s rho f (Hr & Hc) Ha Hn. unfold value_of, evaluate. rewrite (all_values_agree _ _ _ Ha _ Hr).
  destruct (all_values rho (reads e)) as [l|]; auto. f_equal. destruct f as [n p z c]. destruct (s_focus s) as [n' p' z' c'].
  destruct Hn as (A & B & C). cbn in *. subst. apply Hc.
Qed.

Section Simulation.
Variable call : template -> env -> state -> outcome.
Variable apply : list Nd -> env -> state -> outcome.
Variable scall : template -> env -> focus -> result (list V).
Variable sapply : list Nd -> env -> focus -> result (list V).
Notation run := (run w call apply).
Notation process := (process w call apply).
Notation run_all := (run_all w call apply).
Notation means := (means w scall sapply).
Notation means_all := (means_all w scall sapply).
(** [o] does what [r] says, and leaves the state as it was. *)
Definition matches (s : state) (o : outcome) (r : result (list V)) : Prop :=
  (exists e s', o = Fail e s' /\ r = Err e) \/
  (exists s' out, o = Done s' out /\ r = Ok out /\ kept s s' /\ s_vars s' = s_vars s /\ s_rec s' = None).
Hypothesis Hnamed : forall n t, named w n = Some t -> good_template w GN t.
Hypothesis Hcall : forall t p s f, good_template w GN t -> base s -> near f (s_focus s) -> s_rec s = None -> matches s (call t p s) (scall t p f).
Hypothesis Happly : forall nodes p s f, base s -> near f (s_focus s) -> s_rec s = None -> matches s (apply nodes p s) (sapply nodes p f).

(** An outcome with a possible tail call. *)
Definition tailed (tail : option template) (f : focus) (s' : state) (out : list V) (r : result (list V)) : Prop :=
  match s_rec s' with
  | None => r = Ok out
  | Some p => exists t, tail = Some t /\ r = rmap (app out) (scall t p f)
  end.
Definition simulates (tail : option template) (scope : list str) (i : instr) : Prop :=
  forall s rho f, base s -> agree scope s rho -> near f (s_focus s) -> s_rec s = None ->
  (exists e s', run i s = Fail e s' /\ means i rho f = Err e) \/
  (exists s' out, run i s = Done s' out /\ kept s s' /\ base s' /\ (is_var i = false -> s_vars s' = s_vars s) /\
     ((s_rec s' = None /\ exists rho', means i rho f = Ok (out, rho') /\ agree (declared i ++ scope) s' rho') \/
      (is_var i = false /\ exists p t, s_rec s' = Some p /\ tail = Some t /\ means i rho f = rmap (fun o => (out ++ o, rho)) (scall t p f)))).
Definition simulates_all (tail : option template) (scope : list str) (l : list instr) : Prop :=
  forall s rho f, base s -> agree scope s rho -> near f (s_focus s) -> s_rec s = None ->
  (exists e s', run_all l s = Fail e s' /\ means_all l rho f = Err e) \/
  (exists s' out, run_all l s = Done s' out /\ kept s s' /\ base s' /\ (declares l = false -> s_vars s' = s_vars s) /\
     tailed tail f s' out (means_all l rho f)).
Lemma all_simulates : forall l, Forall (fun i => forall tail scope, good w GN tail scope i -> simulates tail scope i) l ->
  forall tail scope, good_all w GN tail scope l -> simulates_all tail scope l.
Proof.
  intros l H. induction H as [|i l Hi Hl IH]; intros tail scope Hg s rho f Hb Ha Hn Hr.
  - right. exists s, []. cbn. unfold tailed. rewrite Hr. repeat split; auto; apply Hb.
  - cbn [good_all] in Hg. destruct Hg as [Hgi Hgl]. cbn [XtVars.run_all XtVarsSpec.means_all declares existsb].
    destruct (Hi _ _ Hgi s rho f Hb Ha Hn Hr) as [(e & s' & He & Hm)|(s' & out & He & Hk & Hb' & Hv & Hc)].
    + left. exists e, s'. rewrite He, Hm. auto.
    + rewrite He. cbn [andthen]. destruct Hc as [(Hr' & rho' & Hm & Ha')|(Hnv & p & t & Hrp & Ht & Hm)].
      * rewrite Hm. cbn [bind fst snd].
        assert (Hn' : near f (s_focus s')) by (eapply near_trans; [exact Hn|apply Hk]).
        destruct (IH _ _ Hgl s' rho' f Hb' Ha' Hn' Hr') as [(e & s'' & He' & Hm')|(s'' & out' & He' & Hk' & Hb'' & Hv' & Ht')].
        -- left. exists e, s''. rewrite He', Hm'. auto.
        -- right. exists s'', (out ++ out'). rewrite He'. split; auto. split; [eapply kept_trans; eauto|]. split; auto. split.
           { intros Hd. apply orb_false_iff in Hd. destruct Hd as [D1 D2]. rewrite Hv', Hv; auto. }
           unfold tailed in *. destruct (s_rec s'') as [p|].
           ++ destruct Ht' as (t & Ht & Hm''). exists t. split; auto. rewrite Hm''. destruct (scall t p f); cbn; auto. rewrite app_assoc. auto.
           ++ rewrite Ht'. auto.
      * destruct l as [|j l]; [|discriminate]. right. exists s', out. cbn. rewrite app_nil_r. split; auto. split; auto. split; auto. split.
        { intros; auto. }
        unfold tailed. rewrite Hrp. exists t. split; auto. rewrite Hm. destruct (scall t p f); cbn; auto. rewrite app_nil_r. auto.
Qed.
Lemma process_simulates : forall tail scope l, simulates_all tail scope l -> forall s rho f, base s -> agree scope s rho -> near f (s_focus s) -> s_rec s = None ->
  (exists e s', process l s = Fail e s' /\ means_all l rho f = Err e) \/
  (exists s' out, process l s = Done s' out /\ kept s s' /\ s_vars s' = s_vars s /\ tailed tail f s' out (means_all l rho f)).
Proof.
  intros tail scope l H s rho f Hb Ha Hn Hr. unfold XtVars.process. destruct (declares l) eqn:Ed.
  - destruct (H (set_vars s (s_vars s) true) rho f) as [(e & s' & He & Hm)|(s' & out & He & Hk & Hb' & Hv & Ht)]; auto.
    + left. exists e, s'. rewrite He. auto.
    + right. rewrite He. eexists _, out. split; [reflexivity|]. destruct Hk as (K1 & K2 & K3). split; [repeat split; auto; apply K1|]. split; auto.
  - destruct (H s rho f) as [(e & s' & He & Hm)|(s' & out & He & Hk & Hb' & Hv & Ht)]; auto.
    + left. exists e, s'. auto.
    + right. exists s', out. repeat split; auto; apply Hk.
Qed.
(** From a body to an instruction with this body. *)
Lemma body_instr : forall tail scope l i s rho f o, simulates_all tail scope l -> is_var i = false -> declared i = [] ->
  base s -> agree scope s rho -> near f (s_focus s) -> s_rec s = None ->
  o = process l s -> means i rho f = rmap (fun x => (x, rho)) (means_all l rho f) ->
  (exists e s', o = Fail e s' /\ means i rho f = Err e) \/
  (exists s' out, o = Done s' out /\ kept s s' /\ base s' /\ (is_var i = false -> s_vars s' = s_vars s) /\
     ((s_rec s' = None /\ exists rho', means i rho f = Ok (out, rho') /\ agree (declared i ++ scope) s' rho') \/
      (is_var i = false /\ exists p t, s_rec s' = Some p /\ tail = Some t /\ means i rho f = rmap (fun o => (out ++ o, rho)) (scall t p f)))).
Proof.
  intros tail scope l i s rho f o Hl Hiv Hid Hb Ha Hn Hr -> Hm.
  destruct (process_simulates _ _ _ Hl s rho f Hb Ha Hn Hr) as [(e & s' & He & Hm')|(s' & out & He & Hk & Hv & Ht)].
  - left. exists e, s'. rewrite Hm, Hm'. auto.
  - right. exists s', out. split; auto. split; auto. split.
    { split; [destruct Hk as (_ & _ & K); rewrite K; apply Hb|]. rewrite Hv. apply Hb. }
    split; auto. unfold tailed in Ht. destruct (s_rec s') as [p|] eqn:Er.
    + right. split; auto. destruct Ht as (t & Htl & Hx). exists p, t. split; auto. split; auto. rewrite Hm, Hx. destruct (scall t p f); auto.
    + left. split; auto. exists rho. rewrite Hm, Ht. split; auto. rewrite Hid. cbn [app]. intros n Hin. rewrite Hv. apply Ha; auto.
Qed.
Lemma params_simulate : forall scope ps s rho f acc (k : env -> outcome) (k' : env -> result (list V * env)),
  good_params scope ps -> agree scope s rho -> near f (s_focus s) ->
  (exists e, with_params ps s acc k = Fail e s /\ (do x <- params_of ps rho f acc ; k' x) = Err e) \/
  (exists p, with_params ps s acc k = k p /\ (do x <- params_of ps rho f acc ; k' x) = k' p).
Proof.
  intros scope ps. induction ps as [|[n e] ps IH]; intros s rho f acc k k' Hg Ha Hn; cbn [with_params params_of].
  - right. exists acc. auto.
  - inversion Hg as [|x y H1 H2]; subst. cbn [snd] in H1. rewrite (evaluate_agree _ _ _ _ _ H1 Ha Hn). unfold with_value.
    destruct (evaluate e s) as [v|]; cbn [bind].
    + apply IH; auto.
    + left. exists UndefinedVariable. auto.
Qed.
Lemma value_simulates : forall scope e s rho f (k : V -> outcome) A (k' : V -> result A),
  good_expr scope e -> agree scope s rho -> near f (s_focus s) ->
  (with_value e s k = Fail UndefinedVariable s /\ (do v <- value_of e rho f ; k' v) = Err UndefinedVariable) \/
  (exists v, with_value e s k = k v /\ (do v <- value_of e rho f ; k' v) = k' v).
Proof.
  intros scope e s rho f k A k' Hg Ha Hn. rewrite (evaluate_agree _ _ _ _ _ Hg Ha Hn). unfold with_value.
  destruct (evaluate e s) as [v|]; cbn [bind]; [right; exists v; auto|left; auto].
Qed.
Lemma agree_assign : forall scope s rho n v, agree scope s rho -> agree (n :: scope) (assign s n v) ((n, v) :: rho).
Proof.
  intros scope s rho n v Ha m Hm. cbn [assign s_vars lookup]. destruct (str_eqb n m) eqn:E; auto.
  destruct Hm as [->|Hm]; auto. assert (str_eqb m m = true) by (apply str_eqb_eq; auto). congruence.
Qed.
Lemma base_assign : forall s n v, ~ In n GN -> base s -> base (assign s n v).
Proof.
  intros s n v Hn (B1 & B2). split; auto. intros m Hm. cbn [assign s_vars lookup]. destruct (str_eqb n m) eqn:E; auto.
  apply str_eqb_eq in E. congruence.
Qed.
Lemma kept_base : forall s s', kept s s' -> s_vars s' = s_vars s -> base s -> base s'.
Proof. intros s s' (_ & _ & K) Hv (B1 & B2). split; [congruence|rewrite Hv; auto]. Qed.
Lemma each_simulates : forall l scope, simulates_all None scope l -> forall nodes pos size s rho, base s -> agree scope s rho -> s_rec s = None ->
  (exists e s', each (process l) nodes pos size s = Fail e s' /\ each_node (fun n p => means_all l rho (Focus n p size n)) nodes pos = Err e) \/
  (exists s' out, each (process l) nodes pos size s = Done s' out /\ each_node (fun n p => means_all l rho (Focus n p size n)) nodes pos = Ok out /\
     s_vars s' = s_vars s /\ s_copied s' = s_copied s /\ s_global s' = s_global s /\ s_rec s' = None).
Proof.
  intros l scope Hl. induction nodes as [|n nodes IH]; intros pos size s rho Hb Ha Hr; cbn [each each_node].
  - right. exists s, []. repeat split; auto.
  - destruct (process_simulates _ _ _ Hl (set_focus s (Focus n pos size n)) rho (Focus n pos size n)) as [(e & s' & He & Hm)|(s' & out & He & Hk & Hv & Ht)];
      auto using near_refl.
    + left. exists e, s'. rewrite He, Hm. auto.
    + rewrite He. cbn [andthen]. unfold tailed in Ht. destruct (s_rec s') as [p|] eqn:Er; [destruct Ht as (t & Ht & _); discriminate|].
      rewrite Ht. cbn [bind]. cbn [set_focus s_vars] in Hv. destruct Hk as (_ & K2 & K3). cbn [set_focus s_copied s_global] in K2, K3.
      assert (Hb' : base s'). { split; [rewrite K3; apply Hb|rewrite Hv; apply Hb]. }
      assert (Ha' : agree scope s' rho). { intros m Hm. rewrite Hv. auto. }
      destruct (IH (S pos) size s' rho Hb' Ha' Er) as [(e & s'' & He' & Hm')|(s'' & out' & He' & Hm' & V' & C' & G' & R')].
      * left. exists e, s''. rewrite He', Hm'. auto.
      * right. exists s'', (out ++ out'). rewrite He', Hm'. repeat split; auto; congruence.
Qed.
Lemma tail_none : forall f s' out r, tailed None f s' out r -> s_rec s' = None /\ r = Ok out.
Proof. intros f s' out r H. unfold tailed in H. destruct (s_rec s'); auto. destruct H as (t & H & _). discriminate. Qed.
Ltac var_done Hb Ha Hr :=
  right; eexists _, []; split; [reflexivity|]; split; [repeat split|]; split; [apply base_assign; auto|]; split; [discriminate|];
  left; split; [exact Hr|]; eexists; split; [reflexivity|]; apply agree_assign; exact Ha.
Lemma instr_simulates : forall i tail scope, good w GN tail scope i -> simulates tail scope i.
Proof.
  apply (instr_all (fun i => forall tail scope, good w GN tail scope i -> simulates tail scope i)).
  - intros v tail scope _ s rho f Hb Ha Hn Hr. right. exists s, [v]. split; auto. split; [apply kept_refl|]. split; auto. split; auto.
    left. split; auto. exists rho. auto.
  - intros e tail scope Hg s rho f Hb Ha Hn Hr. cbn [good] in Hg. cbn [XtVars.run XtVarsSpec.means].
    destruct (value_simulates scope e s rho f (fun v => Done s [v]) _ (fun v => Ok ([v], rho)) Hg Ha Hn) as [(H1 & H2)|(v & H1 & H2)]; rewrite H1, H2.
    + left. eauto.
    + right. exists s, [v]. split; auto. split; [apply kept_refl|]. split; auto. split; auto. left. split; auto. exists rho. auto.
  - intros body Hbody tail scope Hg s rho f Hb Ha Hn Hr. cbn [good] in Hg. rewrite good_list in Hg.
    destruct (body_instr None scope body (Element body) s rho f (run (Element body) s)) as [H|(s' & out & H1 & H2 & H3 & H4 & H5)]; auto.
    { apply all_simulates; auto. }
    right. exists s', out. repeat (split; auto). destruct H5 as [H5|(_ & p & t & _ & H5 & _)]; auto. discriminate.
  - intros n e tail scope (Hng & Hg) s rho f Hb Ha Hn Hr. cbn [XtVars.run XtVarsSpec.means].
    destruct (value_simulates scope e s rho f (fun v => Done (assign s n v) []) _ (fun v => Ok ([] : list V, (n, v) :: rho)) Hg Ha Hn) as [(H1 & H2)|(v & H1 & H2)]; rewrite H1, H2.
    + left. eauto.
    + var_done Hb Ha Hr.
  - intros n body Hbody tail scope Hgg s rho f Hb Ha Hn Hr. cbn [good] in Hgg. destruct Hgg as (Hng & Hg). rewrite good_list in Hg.
    rewrite run_content, means_content.
    destruct (process_simulates None scope body (all_simulates body Hbody None scope Hg) s rho f Hb Ha Hn Hr) as [(e & s' & He & Hm)|(s' & out & He & Hk & Hv & Ht)].
    + left. exists e, s'. rewrite He, Hm. auto.
    + rewrite He. apply tail_none in Ht. destruct Ht as [Hr' Hm]. rewrite Hm. cbn [bind].
      assert (Hb' : base s') by (eapply kept_base; eauto). assert (Ha' : agree scope s' rho) by (intros m Hin; rewrite Hv; auto).
      right. eexists _, []. split; [reflexivity|]. split; [exact Hk|]. split; [apply base_assign; auto|]. split; [discriminate|].
      left. split; [exact Hr'|]. eexists. split; [reflexivity|]. apply agree_assign. exact Ha'.
  - intros n tail scope (Hng & _) s rho f Hb Ha Hn Hr. cbn [XtVars.run XtVarsSpec.means]. var_done Hb Ha Hr.
  - intros e body Hbody tail scope Hg s rho f Hb Ha Hn Hr. cbn [good] in Hg. destruct Hg as (Hge & Hg). rewrite good_list in Hg.
    pose proof (run_if call apply e body s) as H1. pose proof (means_if scall sapply e body rho f) as H2.
    destruct (value_simulates scope e s rho f (fun v => if truth w v then process body s else Done s []) _
       (fun v => if truth w v then rmap (fun o => (o, rho)) (means_all body rho f) else Ok ([], rho)) Hge Ha Hn) as [(H3 & H4)|(v & H3 & H4)].
    + rewrite H1, H2, H3, H4. left. eauto.
    + rewrite H3 in H1. rewrite H4 in H2. destruct (truth w v) eqn:Etr.
      * apply (body_instr tail scope body (If e body) s rho f); auto. apply all_simulates; auto.
      * rewrite H1, H2. right. exists s, []. split; auto. split; [apply kept_refl|]. split; auto. split; auto. left. split; auto. exists rho. auto.
  - intros whens other Hw Ho tail scope Hg s rho f Hb Ha Hn Hr. apply good_choose_eq in Hg.
    pose proof (run_choose_eq call apply whens other s) as H1. pose proof (means_choose_eq scall sapply whens other rho f) as H2.
    assert (Hgen : forall o m, o = run_choose call apply whens other s -> m = means_choose scall sapply whens other rho f -> 
      (exists e s', o = Fail e s' /\ m = Err e) \/
      (exists s' out, o = Done s' out /\ kept s s' /\ base s' /\ s_vars s' = s_vars s /\
         ((s_rec s' = None /\ m = Ok (out, rho)) \/
          (exists p t, s_rec s' = Some p /\ tail = Some t /\ m = rmap (fun o => (out ++ o, rho)) (scall t p f))))).
    { clear H1 H2. induction Hw as [|[e body] whens Hbody Hw IH]; cbn [run_choose means_choose good_choose] in *; intros o m -> ->.
      - destruct (process_simulates tail scope other (all_simulates other Ho tail scope Hg) s rho f Hb Ha Hn Hr) as [(e & s' & He & Hm)|(s' & out & He & Hk & Hv & Ht)].
        + left. exists e, s'. rewrite He, Hm. auto.
        + right. exists s', out. split; auto. split; auto. split; [eapply kept_base; eauto|]. split; auto. unfold tailed in Ht. destruct (s_rec s') as [p|].
          * right. destruct Ht as (t & Ht & Hm). exists p, t. rewrite Hm. repeat split; auto. destruct (scall t p f); auto.
          * left. rewrite Ht. auto.
      - destruct Hg as (Hge & Hgb & Hg).
        destruct (value_simulates scope e s rho f (fun v => if truth w v then process body s else run_choose call apply whens other s) _
          (fun v => if truth w v then rmap (fun o => (o, rho)) (means_all body rho f) else means_choose scall sapply whens other rho f) Hge Ha Hn) as [(H3 & H4)|(v & H3 & H4)].
        + rewrite H3, H4. left. eauto.
        + rewrite H3, H4. destruct (truth w v).
          * destruct (process_simulates tail scope body (all_simulates body Hbody tail scope Hgb) s rho f Hb Ha Hn Hr) as [(x & s' & He & Hm)|(s' & out & He & Hk & Hv & Ht)].
            -- left. exists x, s'. rewrite He, Hm. auto.
            -- right. exists s', out. split; auto. split; auto. split; [eapply kept_base; eauto|]. split; auto. unfold tailed in Ht. destruct (s_rec s') as [p|].
               ++ right. destruct Ht as (t & Ht & Hm). exists p, t. rewrite Hm. repeat split; auto. destruct (scall t p f); auto.
               ++ left. rewrite Ht. auto.
          * apply IH; auto. }
    destruct (Hgen _ _ H1 H2) as [H|(s' & out & He & Hk & Hb' & Hv & Hc)]; [left; exact H|].
    right. exists s', out. split; auto. split; auto. split; auto. split; auto. destruct Hc as [(Hr' & Hm)|(p & t & Hx)].
    + left. split; auto. exists rho. split; auto. intros m Hin. rewrite Hv. auto.
    + right. split; auto. exists p, t. auto.
  - intros e body Hbody tail scope Hg s rho f Hb Ha Hn Hr. cbn [good] in Hg. destruct Hg as (Hge & Hg). rewrite good_list in Hg.
    rewrite run_foreach, means_foreach.
    destruct (value_simulates scope e s rho f
       (fun v => match each (process body) (nodes_of w v) 1 (List.length (nodes_of w v)) s with
                 | Done s' out => Done (set_focus s' (s_focus s)) out | Fail x s' => Fail x s' end) _
       (fun v => rmap (fun o => (o, rho)) (each_node (fun n position => means_all body rho (Focus n position (List.length (nodes_of w v)) n)) (nodes_of w v) 1)) Hge Ha Hn) as [(H3 & H4)|(v & H3 & H4)].
    + rewrite H3, H4. left. eauto.
    + rewrite H3, H4. clear H3 H4.
      destruct (each_simulates body scope (all_simulates body Hbody None scope Hg) (nodes_of w v) 1 (List.length (nodes_of w v)) s rho Hb Ha Hr) as [(x & s' & He & Hm)|(s' & out & He & Hm & V' & C' & G' & R')].
      * left. exists x, s'. rewrite He, Hm. auto.
      * right. rewrite He, Hm. eexists _, out. split; [reflexivity|]. split; [repeat split; auto|]. split.
        { split; [cbn; rewrite G'; apply Hb|cbn; rewrite V'; apply Hb]. }
        split; [intros _; exact V'|]. left. split; [exact R'|]. exists rho. split; auto. intros m Hin. cbn [set_focus s_vars]. rewrite V'. apply Ha. exact Hin.
  - intros m n ps tail scope (Hgp & Hgm) s rho f Hb Ha Hn Hr. cbn [XtVars.run XtVarsSpec.means]. destruct (named w n) as [t|] eqn:En.
    2: { left. eauto. }
    destruct (params_simulate scope ps s rho f [] (fun params => if m then Done (set_rec s (Some params)) [] else call t params s)
      (fun params => rmap (fun o => (o, rho)) (scall t params f)) Hgp Ha Hn) as [(e & H1 & H2)|(p & H1 & H2)]; rewrite H1, H2.
    + left. eauto.
    + destruct m.
      * destruct (Hgm eq_refl) as (t' & Ht & Hx). injection Hx as <-. right. eexists _, []. split; [reflexivity|]. split; [repeat split|]. split; [exact Hb|].
        split; auto. right. split; auto. exists p, t. split; auto.
      * destruct (Hcall t p s f (Hnamed _ _ En) Hb Hn Hr) as [(e & s' & He & Hm)|(s' & out & He & Hm & Hk & Hv & Hr')].
        -- left. exists e, s'. rewrite Hm. auto.
        -- right. exists s', out. rewrite Hm. split; auto. split; auto. split; [eapply kept_base; eauto|]. split; auto.
           left. split; auto. exists rho. split; auto. intros k Hin. rewrite Hv. auto.
  - intros e ps tail scope (Hgp & Hge) s rho f Hb Ha Hn Hr. cbn [XtVars.run XtVarsSpec.means].
    destruct (params_simulate scope ps s rho f [] (fun params => with_value e s (fun v => apply (nodes_of w v) params s))
      (fun params => do v <- value_of e rho f ; rmap (fun o => (o, rho)) (sapply (nodes_of w v) params f)) Hgp Ha Hn) as [(x & H1 & H2)|(p & H1 & H2)]; rewrite H1, H2.
    + left. eauto.
    + destruct (value_simulates scope e s rho f (fun v => apply (nodes_of w v) p s) _ (fun v => rmap (fun o => (o, rho)) (sapply (nodes_of w v) p f)) Hge Ha Hn) as [(H3 & H4)|(v & H3 & H4)]; rewrite H3, H4.
      * left. eauto.
      * destruct (Happly (nodes_of w v) p s f Hb Hn Hr) as [(x & s' & He & Hm)|(s' & out & He & Hm & Hk & Hv & Hr')].
        -- left. exists x, s'. rewrite Hm. auto.
        -- right. exists s', out. rewrite Hm. split; auto. split; auto. split; [eapply kept_base; eauto|]. split; auto.
           left. split; auto. exists rho. split; auto. intros k Hin. rewrite Hv. auto.
Qed.
Lemma list_simulates : forall tail scope l, good_all w GN tail scope l -> simulates_all tail scope l.
Proof. intros. apply all_simulates; auto. apply Forall_forall. intros; apply instr_simulates; auto. Qed.
(** The parameters of a template. *)
Lemma set_params_simulates : forall ps given scope s rho f, good_defaults w GN scope ps -> base s -> agree scope s rho -> near f (s_focus s) -> s_rec s = None ->
  (exists e s', set_params w call apply ps given s = Fail e s' /\ bind_params w scall sapply ps given rho f = Err e) \/
  (exists s' rho', set_params w call apply ps given s = Done s' [] /\ bind_params w scall sapply ps given rho f = Ok rho' /\
     kept s s' /\ base s' /\ agree (rev (map fst ps) ++ scope) s' rho' /\ s_rec s' = None /\ (ps = [] -> s_vars s' = s_vars s)).
Proof.
  induction ps as [|[n b] ps IH]; intros given scope s rho f Hg Hb Ha Hn Hr; cbn [set_params bind_params].
  - right. exists s, rho. repeat (split; auto using kept_refl).
  - destruct Hg as [Hgv Hg]. cbn [map fst rev]. destruct (lookup given n) as [v|].
    + assert (Hng : ~ In n GN) by (cbn [good] in Hgv; apply Hgv).
      destruct (IH given (n :: scope) (assign s n v) ((n, v) :: rho) f Hg (base_assign _ _ _ Hng Hb) (agree_assign _ _ _ _ _ Ha) Hn Hr) as [H|(s' & rho' & H1 & H2 & H3 & H4 & H5 & H6 & _)]; auto.
      right. exists s', rho'. split; auto. split; auto. split; auto. split; auto. rewrite <- app_assoc. cbn [app]. split; auto. split; auto. discriminate.
    + destruct (instr_simulates _ _ _ Hgv s rho f Hb Ha Hn Hr) as [(e & s' & He & Hm)|(s' & out & He & Hk & Hb' & _ & Hc)].
      * left. exists e, s'. rewrite He, Hm. auto.
      * destruct Hc as [(Hr' & rho1 & Hm & Ha')|(Hx & _)]; [|discriminate].
        assert (Hout : out = []).
        { clear -Hm. destruct b as [e|body|]; cbn [XtVarsSpec.means] in Hm.
          - destruct (value_of e rho f); cbn [bind] in Hm; [injection Hm as <- _; auto|discriminate].
          - match type of Hm with bind ?x _ = _ => destruct x; cbn [bind] in Hm; [injection Hm as <- _; auto|discriminate] end.
          - injection Hm as <- _; auto. }
        subst out. rewrite He, Hm. cbn [andthen bind snd]. cbn [declared app] in Ha'.
        assert (Hn' : near f (s_focus s')) by (eapply near_trans; [exact Hn|apply Hk]).
        destruct (IH given (n :: scope) s' rho1 f Hg Hb' Ha' Hn' Hr') as [(e & s'' & H1 & H2)|(s'' & rho' & H1 & H2 & H3 & H4 & H5 & H6 & _)].
        -- left. exists e, s''. rewrite H1. auto.
        -- right. exists s'', rho'. rewrite H1. split; auto. split; auto. split; [eapply kept_trans; eauto|]. split; auto.
           rewrite <- app_assoc. cbn [app]. split; auto. split; auto. discriminate.
Qed.
End Simulation.

(** ** Calls *)
Hypothesis Hgood : good_stylesheet w GN.
Notation srounds := (calls w G).
Notation sapplies := (applies w G).
Lemma rounds_S : forall fuel t p s, rounds w (S fuel) t p s =
  andthen (set_params w (enter (rounds w fuel)) (apply_templates w fuel) (t_params t) p (set_rec s None)) (fun s1 =>
  andthen (body_of w t (enter (rounds w fuel)) (apply_templates w fuel) s1) (fun s2 =>
  match s_rec s2 with None => Done s2 [] | Some params' => rounds w fuel t params' s2 end)).
Proof. reflexivity. Qed.
Lemma calls_S : forall fuel t p f, srounds (S fuel) t p f =
  do rho <- bind_params w (srounds fuel) (sapplies fuel) (t_params t) p G f ;
  means_all w (srounds fuel) (sapplies fuel) (t_body t) rho f.
Proof. reflexivity. Qed.
Lemma apply_S : forall fuel nodes p s, apply_templates w (S fuel) nodes p s =
  match apply_each w (enter (rounds w fuel)) (apply_templates w fuel) nodes p 1 (List.length nodes) s with
  | Done s' out => Done (restore_focus s s') out
  | Fail e s' => Fail e s'
  end.
Proof. reflexivity. Qed.
Lemma applies_S : forall fuel nodes p f, sapplies (S fuel) nodes p f =
  each_node (fun n position => match rule w n with
     | Some t => srounds fuel t p (Focus n position (List.length nodes) n)
     | None => do o <- sapplies fuel (children w n) [] (Focus n position (List.length nodes) n) ; Ok (string_of w n ++ o) end) nodes 1.
Proof. reflexivity. Qed.
Lemma body_simulates : forall call apply scall sapply t,
  (forall t p s f, good_template w GN t -> base s -> near f (s_focus s) -> s_rec s = None -> matches s (call t p s) (scall t p f)) ->
  (forall nodes p s f, base s -> near f (s_focus s) -> s_rec s = None -> matches s (apply nodes p s) (sapply nodes p f)) ->
  good_template w GN t -> forall s rho f, base s -> agree (rev (map fst (t_params t)) ++ GN) s rho -> near f (s_focus s) -> s_rec s = None ->
  (exists e s', body_of w t call apply s = Fail e s' /\ means_all w scall sapply (t_body t) rho f = Err e) \/
  (exists s' out, body_of w t call apply s = Done s' out /\ kept s s' /\ base s' /\ (t_params t = [] -> s_vars s' = s_vars s) /\
     tailed scall (Some t) f s' out (means_all w scall sapply (t_body t) rho f)).
Proof.
  intros call apply scall sapply t Hc Ha (Hd & Hb) s rho f Hs Hag Hn Hr. unfold body_of.
  pose proof (list_simulates call apply scall sapply (proj2 Hgood) Hc Ha (Some t) _ _ Hb) as Hl.
  destruct (t_params t) as [|x y].
  - destruct (process_simulates _ _ _ _ _ _ _ Hl s rho f Hs Hag Hn Hr) as [(e & s' & He & Hm)|(s' & out & He & Hk & Hv & Ht)].
    + left. exists e, s'. auto.
    + right. exists s', out. split; auto. split; auto. split; auto. eapply kept_base; eauto.
  - destruct (Hl s rho f Hs Hag Hn Hr) as [H|(s' & out & He & Hk & Hb' & Hv & Ht)]; auto.
    right. exists s', out. split; auto. split; auto. split; auto. split; auto. discriminate.
Qed.
Lemma calls_simulate : forall fuel,
  (forall t p s f, good_template w GN t -> base s -> near f (s_focus s) ->
     (exists e s', rounds w fuel t p s = Fail e s' /\ srounds fuel t p f = Err e) \/
     (exists s' out, rounds w fuel t p s = Done s' out /\ srounds fuel t p f = Ok out /\ kept s s' /\ (t_params t = [] -> s_vars s' = s_vars s) /\ base s' /\ s_rec s' = None)) /\
  (forall nodes p s f, base s -> near f (s_focus s) -> s_rec s = None -> matches s (apply_templates w fuel nodes p s) (sapplies fuel nodes p f)).
Proof.
  induction fuel as [|fuel (IHc & IHa)].
  - split; intros; left; cbn; eauto.
  - assert (Henter : forall t p s f, good_template w GN t -> base s -> near f (s_focus s) -> s_rec s = None -> matches s (enter (rounds w fuel) t p s) (srounds fuel t p f)).
    { intros t p s f Hg Hb Hn Hr. unfold enter. destruct (t_params t) as [|x y] eqn:Et.
      - destruct (IHc t p s f Hg Hb Hn) as [H|(s' & out & H1 & H2 & H3 & H4 & H5 & H6)]; [left; exact H|].
        right. exists s', out. repeat (split; auto); apply H3.
      - destruct (IHc t p (set_vars s (s_vars s) true) f Hg Hb Hn) as [(e & s' & H1 & H2)|(s' & out & H1 & H2 & H3 & H4 & H5 & H6)].
        + left. exists e, s'. rewrite H1. auto.
        + right. rewrite H1. eexists _, out. split; [reflexivity|]. split; auto. destruct H3 as (K1 & K2 & K3). split; [repeat split; auto; apply K1|]. split; auto. }
    split.
    + intros t p s f Hg Hb Hn. rewrite rounds_S, calls_S.
      pose proof (set_params_simulates (enter (rounds w fuel)) (apply_templates w fuel) (srounds fuel) (sapplies fuel) (proj2 Hgood) Henter IHa) as Hsp.
      destruct (Hsp (t_params t) p GN (set_rec s None) G f (proj1 Hg)) as [(e & s' & He & Hm)|(s1 & rho & He & Hm & Hk & Hb1 & Ha1 & Hr1 & Hv1)]; auto.
      { exact (proj2 Hb). }
      * left. exists e, s'. rewrite He, Hm. auto.
      * rewrite He, Hm. cbn [andthen bind app].
        assert (Hn1 : near f (s_focus s1)) by (eapply near_trans; [exact Hn|apply Hk]).
        destruct (body_simulates _ _ _ _ t Henter IHa Hg s1 rho f Hb1 Ha1 Hn1 Hr1) as [(e & s' & He' & Hm')|(s2 & out & He' & Hk2 & Hb2 & Hv2 & Ht)].
        -- left. exists e, s'. rewrite He', Hm'. auto.
        -- rewrite He'. cbn [andthen]. unfold tailed in Ht.
           assert (Hk' : kept s s2) by (eapply kept_trans; [exact Hk|exact Hk2]).
           assert (Hv' : t_params t = [] -> s_vars s2 = s_vars s) by (intros Hx; rewrite (Hv2 Hx); apply (Hv1 Hx)).
           destruct (s_rec s2) as [p'|] eqn:Er.
           ++ destruct Ht as (t' & Hx & Hm'). injection Hx as <-. rewrite Hm'.
              assert (Hn2 : near f (s_focus s2)) by (eapply near_trans; [exact Hn1|apply Hk2]).
              destruct (IHc t p' s2 f Hg Hb2 Hn2) as [(e & s' & H1 & H2)|(s' & out' & H1 & H2 & H3 & H4 & H5 & H6)].
              ** left. exists e, s'. rewrite H1, H2. auto.
              ** right. exists s', (out ++ out'). rewrite H1, H2. split; auto. split; auto. split; [eapply kept_trans; eauto|]. split; auto.
                 intros Hx. rewrite (H4 Hx). auto.
           ++ right. exists s2, out. rewrite app_nil_r. split; auto.
    + intros nodes p s f Hb Hn Hr. rewrite apply_S, applies_S.
      assert (Hgen : forall l pos size s0, base s0 -> s_rec s0 = None ->
        (exists e s', apply_each w (enter (rounds w fuel)) (apply_templates w fuel) l p pos size s0 = Fail e s' /\
           each_node (fun n position => match rule w n with
             | Some t => srounds fuel t p (Focus n position size n)
             | None => do o <- sapplies fuel (children w n) [] (Focus n position size n) ; Ok (string_of w n ++ o) end) l pos = Err e) \/
        (exists s' out, apply_each w (enter (rounds w fuel)) (apply_templates w fuel) l p pos size s0 = Done s' out /\
           each_node (fun n position => match rule w n with
             | Some t => srounds fuel t p (Focus n position size n)
             | None => do o <- sapplies fuel (children w n) [] (Focus n position size n) ; Ok (string_of w n ++ o) end) l pos = Ok out /\
           s_vars s' = s_vars s0 /\ s_copied s' = s_copied s0 /\ s_global s' = s_global s0 /\ s_rec s' = None)).
      { induction l as [|n l IHl]; intros pos size s0 Hb0 Hr0; cbn [apply_each each_node].
        - right. exists s0, []. repeat (split; auto).
        - set (s1 := set_focus s0 (Focus n pos size n)).
          assert (Hone : (exists e s', apply_one w (enter (rounds w fuel)) (apply_templates w fuel) n p s1 = Fail e s' /\
              match rule w n with
              | Some t => srounds fuel t p (Focus n pos size n)
              | None => do o <- sapplies fuel (children w n) [] (Focus n pos size n) ; Ok (string_of w n ++ o) end = Err e) \/
            (exists s' out, apply_one w (enter (rounds w fuel)) (apply_templates w fuel) n p s1 = Done s' out /\
              match rule w n with
              | Some t => srounds fuel t p (Focus n pos size n)
              | None => do o <- sapplies fuel (children w n) [] (Focus n pos size n) ; Ok (string_of w n ++ o) end = Ok out /\
              s_vars s' = s_vars s0 /\ s_copied s' = s_copied s0 /\ s_global s' = s_global s0 /\ s_rec s' = None)).
          { unfold apply_one. destruct (rule w n) as [t|] eqn:Er.
            - assert (Hbv : base (set_vars s1 (s_global s1) false)). { split; [apply Hb0|]. intros m Hm. cbn. rewrite (proj1 Hb0). auto. }
              destruct (Henter t p (set_vars s1 (s_global s1) false) (Focus n pos size n) (proj1 Hgood _ _ Er) Hbv (near_refl _) Hr0) as [(e & s' & H1 & H2)|(s' & out & H1 & H2 & (K1 & K2 & K3) & H4 & H5)].
              + left. eexists e, _. rewrite H1, H2. auto.
              + right. rewrite H1. eexists _, out. split; [reflexivity|]. split; auto.
            - destruct (IHa (children w n) [] s1 (Focus n pos size n) Hb0 (near_refl _) Hr0) as [(e & s' & H1 & H2)|(s' & out & H1 & H2 & (K1 & K2 & K3) & H4 & H5)].
              + left. exists e, s'. rewrite H1, H2. auto.
              + right. rewrite H1, H2. eexists _, _. split; [reflexivity|]. split; [reflexivity|]. auto. }
          destruct Hone as [(e & s' & H1 & H2)|(s' & out & H1 & H2 & V1 & C1 & G1 & R1)].
          + left. exists e, s'. rewrite H1, H2. auto.
          + rewrite H1, H2. cbn [andthen bind].
            assert (Hb1 : base s'). { split; [rewrite G1; apply Hb0|rewrite V1; apply Hb0]. }
            destruct (IHl (S pos) size s' Hb1 R1) as [(e & s'' & H3 & H4)|(s'' & out' & H3 & H4 & V2 & C2 & G2 & R2)].
            * left. exists e, s''. rewrite H3, H4. auto.
            * right. exists s'', (out ++ out'). rewrite H3, H4. split; auto. split; auto. repeat split; congruence. }
      destruct (Hgen nodes 1 (List.length nodes) s Hb Hr) as [(e & s' & H1 & H2)|(s' & out & H1 & H2 & V1 & C1 & G1 & R1)].
      * left. exists e, s'. rewrite H1. auto.
      * right. rewrite H1. eexists _, out. split; [reflexivity|]. split; auto. split; [repeat split; auto|]. split; auto.
Qed.

(** ** More fuel *)
Section More.
Variables sc sc' : template -> env -> focus -> result (list V).
Variables sa sa' : list Nd -> env -> focus -> result (list V).
Hypothesis Hsc : forall t p f o, sc t p f = Ok o -> sc' t p f = Ok o.
Hypothesis Hsa : forall n p f o, sa n p f = Ok o -> sa' n p f = Ok o.
Lemma bind_more : forall A B (r r' : result A) (k k' : A -> result B) x, (forall a, r = Ok a -> r' = Ok a) -> (forall a, k a = Ok x -> k' a = Ok x) ->
  bind r k = Ok x -> bind r' k' = Ok x.
Proof. intros A B r r' k k' x H1 H2 H. destruct r as [a|]; cbn [bind] in H; [|discriminate]. rewrite (H1 a eq_refl). cbn [bind]. auto. Qed.
Lemma rmap_more : forall A B (r r' : result A) (g : A -> B) x, (forall a, r = Ok a -> r' = Ok a) -> rmap g r = Ok x -> rmap g r' = Ok x.
Proof. intros A B r r' g x H1 H. destruct r as [a|]; cbn [rmap] in H; [|discriminate]. rewrite (H1 a eq_refl). auto. Qed.
Lemma means_all_more : forall l, Forall (fun i => forall rho f x, means w sc sa i rho f = Ok x -> means w sc' sa' i rho f = Ok x) l ->
  forall rho f x, means_all w sc sa l rho f = Ok x -> means_all w sc' sa' l rho f = Ok x.
Proof.
  intros l H. induction H as [|i l Hi Hl IH]; intros rho f x; cbn [XtVarsSpec.means_all]; auto.
  apply bind_more; [apply Hi|]. intros y. apply bind_more; auto.
Qed.
Lemma each_node_more : forall A (f g : A -> nat -> result (list V)), (forall y p o, f y p = Ok o -> g y p = Ok o) ->
  forall l p x, each_node f l p = Ok x -> each_node g l p = Ok x.
Proof. intros A f g H. induction l as [|y l IH]; intros p x; cbn [each_node]; auto. apply bind_more; auto. intros o. apply bind_more; auto. Qed.
Lemma means_more : forall i rho f x, means w sc sa i rho f = Ok x -> means w sc' sa' i rho f = Ok x.
Proof.
  apply (instr_all (fun i => forall rho f x, means w sc sa i rho f = Ok x -> means w sc' sa' i rho f = Ok x)); auto.
  - intros body Hb rho f x. rewrite !means_element. apply rmap_more. intros o. apply means_all_more; auto.
  - intros n body Hb rho f x. rewrite !means_content. apply bind_more; auto. intros o. apply means_all_more; auto.
  - intros e body Hb rho f x. rewrite !means_if. apply bind_more; auto. intros v. destruct (truth w v); auto. apply rmap_more. intros o. apply means_all_more; auto.
  - intros whens other Hw Ho rho f x. rewrite !means_choose_eq. induction Hw as [|[e body] whens Hb Hw IH]; cbn [means_choose snd] in *.
    + apply rmap_more. intros o. apply means_all_more; auto.
    + apply bind_more; auto. intros v. destruct (truth w v); auto. apply rmap_more. intros o. apply means_all_more; auto.
  - intros e body Hb rho f x. rewrite !means_foreach. apply bind_more; auto. intros v. apply rmap_more. intros o. apply each_node_more.
    intros n p y. apply means_all_more; auto.
  - intros m n ps rho f x. cbn [XtVarsSpec.means]. destruct (named w n); auto. apply bind_more; auto. intros p. apply rmap_more; auto.
  - intros e ps rho f x. cbn [XtVarsSpec.means]. apply bind_more; auto. intros p. apply bind_more; auto. intros v. apply rmap_more; auto.
Qed.
Lemma bind_params_more : forall ps given rho f x, bind_params w sc sa ps given rho f = Ok x -> bind_params w sc' sa' ps given rho f = Ok x.
Proof.
  induction ps as [|[n b] ps IH]; intros given rho f x; cbn [bind_params]; auto. destruct (lookup given n); auto.
  apply bind_more; auto. intros a. apply means_more.
Qed.
End More.
Lemma calls_more : forall fuel fuel', fuel <= fuel' ->
  (forall t p f o, srounds fuel t p f = Ok o -> srounds fuel' t p f = Ok o) /\
  (forall n p f o, sapplies fuel n p f = Ok o -> sapplies fuel' n p f = Ok o).
Proof.
  induction fuel as [|fuel IH]; intros fuel' Hle.
  - split; intros; discriminate.
  - destruct fuel' as [|fuel']; [lia|]. destruct (IH fuel' ltac:(lia)) as [H1 H2]. split.
    + intros t p f o. rewrite !calls_S. apply bind_more.
      * intros rho. apply bind_params_more; auto.
      * intros rho. apply means_all_more. apply Forall_forall. intros i _. intros rho' f' x. apply means_more; auto.
    + intros n p f o. rewrite !applies_S. apply each_node_more. intros y q x. destruct (rule w y); auto. apply bind_more; auto.
Qed.
End Proofs.
