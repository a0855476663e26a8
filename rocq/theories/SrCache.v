(** * The cache of the reader *)
From Coq Require Import NArith ZArith String List Bool Lia Arith Permutation.
From Verif Require Import PyStr PyErr DtdModel DtdSpec DtdDfa DtdProps SrModel SrSpec SrMatch SrAttrs SrRead SrDoc.
Import ListNotations.
Local Open Scope nat_scope.

Section C.
Variable w : world.
Hypothesis G : good_world w.

Definition known_entry (n : str) : result entry :=
  match m_class n with Some (m, ts) => do d <- compile (w_order w) m ; Ok {| c_kind := KXsl n; c_dfa := d; c_token := n; c_attrs := Some ts |} | None => Err KeyError end.
Definition unknown_entry : result entry := do d <- compile (w_order w) m_template ; Ok {| c_kind := KUndefinedXsl; c_dfa := d; c_token := RESULT_ELEMENT; c_attrs := Some [] |}.
Definition honest (b : bool) (c : cache) : Prop :=
  forall n x, cached c n = Some x -> match m_class n with Some _ => known_entry n = Ok x | None => b = true /\ unknown_entry = Ok x end.
Lemma honest_nil b : honest b [].
Proof. intros n x H. discriminate H. Qed.
Lemma honest_weaken b c : honest false c -> honest b c.
Proof. intros H n x E. specialize (H n x E). destruct (m_class n); [exact H|]. destruct H as [H _]. discriminate H. Qed.
Lemma honest_cons b c n x : honest b c -> match m_class n with Some _ => known_entry n = Ok x | None => b = true /\ unknown_entry = Ok x end -> honest b ((n, x) :: c).
Proof. intros H K m y. cbn [cached]. destruct (str_eqb n m) eqn:E; [|apply H]. apply str_eqb_eq in E. subst m. intros Q. injection Q as <-. exact K. Qed.
Lemma class_known l e : xsl e = true -> m_class (e_local e) <> None -> find_class w l e = known_entry (e_local e).
Proof. intros X M. unfold find_class, known_entry. rewrite X. destruct (m_class (e_local e)) as [[m ts]|]; [reflexivity|congruence]. Qed.
Lemma class_unknown l e : xsl e = true -> m_class (e_local e) = None -> find_class w l e = if l_fc l then unknown_entry else static (l_kind l) ILLEGAL_ELEMENT.
Proof. intros X M. unfold find_class, unknown_entry. rewrite X, M. destruct (l_fc l); reflexivity. Qed.
Lemma class_sim b c l e : honest b c -> (xsl e = true -> m_class (e_local e) = None -> l_fc l = b) ->
  exists c', element_class w l e c = (c', find_class w l e) /\ honest b c'.
Proof.
  intros H K. unfold element_class. destruct (xsl e) eqn:X; [|exists c; auto]. specialize (K eq_refl).
  destruct (cached c (e_local e)) as [x|] eqn:E.
  - exists c. split; [|exact H]. specialize (H _ _ E). destruct (m_class (e_local e)) eqn:M.
    + rewrite (class_known l e X) by congruence. rewrite H. reflexivity.
    + destruct H as [-> H]. rewrite (class_unknown l e X M), (K eq_refl), H. reflexivity.
  - destruct (find_class w l e) as [x|er] eqn:F; [|exists c; auto]. eexists. split; [reflexivity|]. apply honest_cons; [exact H|]. destruct (m_class (e_local e)) eqn:M.
    + rewrite <- F. symmetry. apply class_known; congruence.
    + rewrite (class_unknown l e X M), (K eq_refl) in F. destruct b; [auto|]. unfold static in F. destruct (l_kind l); discriminate F.
Qed.

(** ** Levels keep their version *)
Lemma end_fc l r e c l' r' : end_element w l r e c = Ok (l', r') -> l_fc l' = l_fc l.
Proof.
  unfold end_element. intros H. apply bind_ok in H. destruct H as (nodes & _ & H). destruct (is_variable (l_kind c)); [|injection H as <- _; reflexivity].
  destruct (match r_sheet r with Some s => s =? l_id l | None => false end).
  - destruct (one_of (r_globals r) _); [discriminate H|]. injection H as <- _. reflexivity.
  - destruct (one_of (l_vars l) _); [discriminate H|]. injection H as <- _. reflexivity.
Qed.
Lemma text_fc l d l' : characters l d = Ok l' -> l_fc l' = l_fc l.
Proof. unfold characters. destruct (lookup _ _); [intros H; injection H as <-; reflexivity|]. unfold static. destruct (l_kind l); intros H; discriminate H. Qed.
Lemma start_fc l r e k s : start_element w l r e k = Ok s -> l_fc (fst (fst s)) = l_fc l /\ exists m, attributes w k e (l_fc l, l_exts l) = Ok m /\ l_fc (snd (fst s)) = fst m.
Proof.
  unfold start_element. intros H. apply bind_ok in H. destruct H as (l1 & H1 & H). apply bind_ok in H. destruct H as (m & H2 & H). cbv zeta in H. apply bind_ok in H. destruct H as (u & _ & H). injection H as <-. cbn [fst snd l_fc].
  split; [|exists m; auto]. destruct (lookup _ _); [injection H1 as <-; reflexivity|]. unfold static in H1. destruct (l_kind l); try discriminate H1. injection H1 as <-. reflexivity.
Qed.
Lemma inside_fc p e q b : role_of w p e = Some q -> no_sheet e -> keeps_mode w b e -> x_fc p = b -> x_fc (inside w p e q) = b.
Proof.
  intros Eq NS K E. cbn [inside x_fc]. unfold mode_attr.
  assert (reads_mode q = None \/ reads_mode q = Some (Some XSL_NAMESPACE)) as [-> | ->].
  { pose proof (role_no_sheet w p e q Eq NS) as T. destruct q; cbn [reads_mode inside x_top] in *; auto. rewrite T. auto. }
  - exact E.
  - destruct (attr (e_attrs e) (Some XSL_NAMESPACE) (lit "version")) as [v|] eqn:A; [|exact E]. destruct (w_number w v) as [n|] eqn:N; [|exact E].
    specialize (K v n A N). destruct b.
    + destruct n; [|reflexivity|reflexivity]. destruct K as [K _]. specialize (K eq_refl). discriminate K.
    + destruct K as [_ K]. rewrite (K eq_refl). reflexivity.
Qed.
Lemma rn_fc x l r l' r' : rn w x l r = Ok (l', r') -> l_fc l' = l_fc l.
Proof.
  destruct x as [d|e kids].
  - cbn [rn]. intros H. apply bind_ok in H. destruct H as (l1 & H & Q). injection Q as <- _. exact (text_fc _ _ _ H).
  - rewrite rn_elem. intros H. apply bind_ok in H. destruct H as (k & _ & H). apply bind_ok in H. destruct H as (s & Hs & H). apply bind_ok in H. destruct H as (lr & _ & H).
    rewrite (end_fc _ _ _ _ _ _ H). apply (start_fc _ _ _ _ _ Hs).
Qed.

(** ** With the cache and without *)
Section Sim.
Variable b : bool.
Variable J : bool -> Prop.
Variable Q : elem -> Prop.
Hypothesis Jclass : forall l e, J (l_fc l) -> Q e -> xsl e = true -> m_class (e_local e) = None -> l_fc l = b.
Hypothesis Jstart : forall l r e k s, J (l_fc l) -> Q e -> find_class w l e = Ok k -> start_element w l r e k = Ok s -> J (l_fc (snd (fst s))).
Definition simulated (x : snode) : Prop := forall l r c, J (l_fc l) -> honest b c -> exists c', read_node w (element_class w) x l r c = (c', rn w x l r) /\ honest b c'.
Lemma nodes_sim ks : Forall simulated ks -> forall l r c, J (l_fc l) -> honest b c -> exists c', read_nodes w (element_class w) ks l r c = (c', rns w ks l r) /\ honest b c'.
Proof.
  induction ks as [|k ks IH]; intros F l r c Jl H; [exists c; auto|]. inversion F as [|k' ks' F1 F2]; subst. cbn [read_nodes rns]. unfold andthen.
  destruct (F1 l r c Jl H) as (c1 & E1 & H1). rewrite E1. destruct (rn w k l r) as [[l1 r1]|er] eqn:R; cbn [bind fst snd]; [|exists c1; auto].
  apply IH; [exact F2| |exact H1]. rewrite (rn_fc _ _ _ _ _ R). exact Jl.
Qed.
Lemma node_sim x : everywhere Q x -> simulated x.
Proof.
  induction x as [d|e kids IH] using snode_ind2; intros E l r c Jl H.
  - exists c. auto.
  - apply everywhere_elem in E. destruct E as [Qe Ek].
    assert (Forall simulated kids) as F by (rewrite Forall_forall in *; auto).
    change (exists c', andthen (element_class w l e) (fun k => andthen (lift (start_element w l r e k)) (fun s => andthen (read_nodes w (element_class w) kids (snd (fst s)) (snd s)) (fun lr => lift (end_element w (fst (fst s)) (snd lr) e (fst lr))))) c = (c', rn w (SElem e kids) l r) /\ honest b c').
    rewrite rn_elem. unfold andthen at 1. destruct (class_sim b c l e H (Jclass l e Jl Qe)) as (c1 & E1 & H1). rewrite E1.
    destruct (find_class w l e) as [k|er] eqn:K; cbn [bind]; [|exists c1; auto].
    unfold andthen, lift. destruct (start_element w l r e k) as [s|er] eqn:S; cbn [bind]; [|exists c1; auto].
    destruct (nodes_sim kids F (snd (fst s)) (snd s) c1 (Jstart _ _ _ _ _ Jl Qe K S) H1) as (c2 & E2 & H2). rewrite E2.
    destruct (rns w kids (snd (fst s)) (snd s)) as [lr|er]; cbn [bind]; exists c2; auto.
Qed.
End Sim.

Lemma end_sim b root r e child c : honest b c -> exists c', end_root w (element_class w) root r e child c =
  (c', do nodes <- finish w child e ;
       match r_sheet r with
       | Some i => if i =? l_id child then Ok (XElem e nodes) else Err NotModelled
       | None =>
         match l_kind child with
         | KLiteral =>
           match attr (e_attrs e) (Some XSL_NAMESPACE) (lit "version") with
           | None => Err LITERAL_RESULT_MISSING_VERSION
           | Some v => match w_number w v with Some NOne | Some NOther => Ok (XElem sheet_elem [XElem template_elem [XElem e nodes]]) | _ => Err INVALID_ATTR end
           end
         | _ => Err AssertionError
         end
       end) /\ honest b c'.
Proof.
  intros H. unfold end_root, lift. unfold andthen at 1. destruct (finish w child e) as [nodes|er]; cbn [bind]; [|exists c; auto].
  destruct (r_sheet r); [exists c; auto|]. destruct (l_kind child); try (exists c; auto; fail). destruct (attr (e_attrs e) (Some XSL_NAMESPACE) (lit "version")) as [v|]; [|exists c; auto].
  assert (forall (e0 : elem) l, xsl e0 = true -> m_class (e_local e0) <> None -> exists k, find_class w l e0 = Ok k) as FC.
  { intros e0 l X M. rewrite (class_known l e0 X M). unfold known_entry. pose proof (class_row (e_local e0)) as CR. destruct (m_class (e_local e0)) as [[m ts]|]; [|congruence].
    destruct (compile_ok w G m ltac:(apply CR)) as (d & C & _). rewrite C. eexists. reflexivity. }
  unfold andthen at 1. destruct (class_sim b c root sheet_elem H) as (c1 & E1 & H1); [intros _ M; discriminate M|]. rewrite E1.
  destruct (FC sheet_elem root eq_refl) as (k1 & ->); [intros M; discriminate M|].
  destruct (w_number w v) as [[| |]|]; try (exists c1; auto; fail).
  all: unfold andthen; destruct (class_sim b c1 root template_elem H1) as (c2 & E2 & H2); [intros _ M; discriminate M|]; rewrite E2;
    destruct (FC template_elem root eq_refl) as (k2 & ->); [intros M; discriminate M|]; exists c2; auto.
Qed.

Lemma doc_sim b (J : bool -> Prop) (Q : elem -> Prop) e kids c :
  (forall l e, J (l_fc l) -> Q e -> xsl e = true -> m_class (e_local e) = None -> l_fc l = b) ->
  (forall l r e k s, J (l_fc l) -> Q e -> find_class w l e = Ok k -> start_element w l r e k = Ok s -> J (l_fc (snd (fst s)))) ->
  honest false c -> Forall (everywhere Q) kids ->
  (forall d k s, compile (w_order w) m_root = Ok d -> find_class w (root_level d) e = Ok k -> start_element w (root_level d) new_reader e k = Ok s -> J (l_fc (snd (fst s)))) ->
  exists c', read_document w e kids c = (c', rdoc w e kids) /\ honest b c'.
Proof.
  intros JC JS H F R. unfold read_document, read_with, rdoc. unfold andthen at 1. unfold lift at 1.
  destruct (compile (w_order w) m_root) as [d|er] eqn:C; cbn [bind]; [|exists c; split; [reflexivity|apply honest_weaken; exact H]].
  destruct (class_sim false c (root_level d) e H) as (c1 & E1 & H1); [reflexivity|]. unfold andthen at 1. rewrite E1.
  destruct (find_class w (root_level d) e) as [k|er] eqn:K; cbn [bind]; [|exists c1; split; [reflexivity|apply honest_weaken; exact H1]].
  unfold andthen at 1. unfold lift at 1. destruct (start_element w (root_level d) new_reader e k) as [s|er] eqn:S; cbn [bind]; [|exists c1; split; [reflexivity|apply honest_weaken; exact H1]].
  unfold andthen at 1.
  destruct (nodes_sim b J kids) with (l := snd (fst s)) (r := snd s) (c := c1) as (c2 & E2 & H2).
  { eapply Forall_impl; [|exact F]. intros x. apply (node_sim b J Q JC JS). }
  { exact (R d k s eq_refl K S). }
  { apply honest_weaken. exact H1. }
  rewrite E2. destruct (rns w kids (snd (fst s)) (snd s)) as [lr|er]; cbn [bind]; [|exists c2; auto].
  apply end_sim. exact H2.
Qed.
Lemma known_class e : known_element e -> xsl e = true -> m_class (e_local e) = None -> False.
Proof.
  intros K X M. replace (xsl e) with (in_xsl e) in X by apply in_xsl_eq. specialize (K X). pose proof (class_row (e_local e)) as CR. rewrite M in CR. congruence.
Qed.
Lemma sim_known e kids c : honest false c -> known_only e kids -> exists c', read_document w e kids c = (c', rdoc w e kids) /\ honest false c'.
Proof.
  intros H K. unfold known_only in K. apply everywhere_elem in K. destruct K as [_ K].
  apply (doc_sim false (fun _ => True) known_element); auto. intros l e0 _ Ke X M. destruct (known_class e0 Ke X M).
Qed.
Lemma sim_version b e kids c : honest false c -> regular e kids -> one_version w b e kids -> exists c', read_document w e kids c = (c', rdoc w e kids) /\ honest b c'.
Proof.
  intros H (ND & NDs & NSs) [V Vs].
  apply (doc_sim b (fun x => x = b) (fun e => distinct_attributes e /\ no_sheet e /\ keeps_mode w b e)); auto.
  - intros l r e0 k s E (D & NS & KM) K S. apply start_fc in S. destruct S as (_ & m & A & ->).
    set (p := {| x_fc := l_fc l; x_exts := l_exts l; x_top := false |}).
    apply (find_class_iff w l p e0 k eq_refl eq_refl) in K. destruct K as (q & d & Eq & _ & ->).
    apply (attributes_iff w p e0 q d m D Eq) in A. destruct A as [_ ->]. cbn [fst]. apply inside_fc; auto.
  - rewrite Forall_forall in *. intros x I. specialize (NDs x I). specialize (NSs x I). specialize (Vs x I). clear - NDs NSs Vs. revert NDs NSs Vs.
    induction x as [d|e kids IH] using snode_ind2; intros A B C; [exact Logic.I|]. apply everywhere_elem in A, B, C. apply everywhere_elem. destruct A as [A1 A2], B as [B1 B2], C as [C1 C2].
    split; [auto|]. rewrite Forall_forall in *. auto.
  - intros d k s _ K S. apply start_fc in S. destruct S as (_ & m & A & ->).
    apply (find_class_iff w (root_level d) nowhere e k eq_refl eq_refl) in K. destruct K as (q & d2 & Eq & _ & ->).
    apply (attributes_iff w nowhere e q d2 m ND Eq) in A. destruct A as [_ ->]. cbn [fst]. apply V. exact Eq.
Qed.
Lemma history_honest docs : Forall (undisturbing w) docs -> forall c, honest false c -> honest false (read_all w docs c).
Proof.
  induction docs as [|[e kids] docs IH]; intros F c H; [exact H|]. inversion F as [|d ds F1 F2]; subst. cbn [read_all]. apply IH; [exact F2|].
  destruct F1 as [R [K|V]]; cbn [fst snd] in *.
  - destruct (sim_known e kids c H K) as (c' & E & H'). rewrite E. exact H'.
  - destruct (sim_version false e kids c H R V) as (c' & E & H'). rewrite E. exact H'.
Qed.

(** ** Two caches that differ in what is computed again *)
Definition recomputed (c : cache) : Prop := forall n x, m_class n <> None -> cached c n = Some x -> known_entry n = Ok x.
Definition agree (c1 c2 : cache) : Prop := recomputed c1 /\ recomputed c2 /\ forall n, m_class n = None -> cached c1 n = cached c2 n.
Definition same {A} (x : act A) : Prop := forall c1 c2, agree c1 c2 -> snd (x c1) = snd (x c2) /\ agree (fst (x c1)) (fst (x c2)).
Lemma same_lift {A} (r : result A) : same (lift r).
Proof. intros c1 c2 H. auto. Qed.
Lemma same_then {A B} (x : act A) (k : A -> act B) : same x -> (forall a, same (k a)) -> same (andthen x k).
Proof.
  intros X K c1 c2 H. unfold andthen. specialize (X c1 c2 H). destruct (x c1) as [d1 r1], (x c2) as [d2 r2]. cbn [fst snd] in X. destruct X as [-> X]. destruct r2 as [a|er]; [exact (K a d1 d2 X)|auto].
Qed.
Lemma recomputed_cons c n x : recomputed c -> (m_class n <> None -> known_entry n = Ok x) -> recomputed ((n, x) :: c).
Proof. intros H K m y M. cbn [cached]. destruct (str_eqb n m) eqn:E; [|apply H; exact M]. apply str_eqb_eq in E. subst m. intros Q. injection Q as <-. auto. Qed.
Lemma same_class l e : same (element_class w l e).
Proof.
  intros c1 c2 (R1 & R2 & A). unfold element_class. destruct (xsl e) eqn:X; [|cbn [fst snd]; unfold agree; auto].
  destruct (m_class (e_local e)) as [mt|] eqn:M.
  - assert (m_class (e_local e) <> None) as M' by congruence. pose proof (class_known l e X M') as FC.
    assert (forall c, recomputed c -> snd (match cached c (e_local e) with Some x => (c, Ok x) | None => match find_class w l e with Ok x => ((e_local e, x) :: c, Ok x) | Err er => (c, Err er) end end) = find_class w l e /\
      recomputed (fst (match cached c (e_local e) with Some x => (c, Ok x) | None => match find_class w l e with Ok x => ((e_local e, x) :: c, Ok x) | Err er => (c, Err er) end end)) /\
      forall n, m_class n = None -> cached (fst (match cached c (e_local e) with Some x => (c, Ok x) | None => match find_class w l e with Ok x => ((e_local e, x) :: c, Ok x) | Err er => (c, Err er) end end)) n = cached c n) as K.
    { intros c R. destruct (cached c (e_local e)) as [x|] eqn:E; cbn [fst snd].
      - split; [|auto]. rewrite FC. symmetry. apply (R _ _ M' E).
      - destruct (find_class w l e) as [x|er] eqn:F; cbn [fst snd]; [|auto]. split; [reflexivity|]. split; [apply recomputed_cons; [exact R|intros _; congruence]|].
        intros n N. cbn [cached]. destruct (str_eqb (e_local e) n) eqn:En; [apply str_eqb_eq in En; subst n; congruence|reflexivity]. }
    destruct (K c1 R1) as (K1 & K2 & K3), (K c2 R2) as (L1 & L2 & L3). split; [congruence|]. split; [exact K2|]. split; [exact L2|]. intros n N. rewrite K3, L3 by exact N. apply A. exact N.
  - rewrite (A _ M). destruct (cached c2 (e_local e)) as [x|]; [cbn [fst snd]; unfold agree; auto|]. destruct (find_class w l e) as [x|er]; cbn [fst snd]; [|unfold agree; auto].
    split; [reflexivity|]. split; [apply recomputed_cons; [exact R1|congruence]|]. split; [apply recomputed_cons; [exact R2|congruence]|]. intros n N. cbn [cached]. destruct (str_eqb (e_local e) n); [reflexivity|]. apply A. exact N.
Qed.
Lemma same_node x : forall l r, same (read_node w (element_class w) x l r).
Proof.
  induction x as [d|e kids IH] using snode_ind2; intros l r; [apply same_lift|].
  change (same (andthen (element_class w l e) (fun k => andthen (lift (start_element w l r e k)) (fun s => andthen (read_nodes w (element_class w) kids (snd (fst s)) (snd s)) (fun lr => lift (end_element w (fst (fst s)) (snd lr) e (fst lr))))))).
  apply same_then; [apply same_class|]. intros k. apply same_then; [apply same_lift|]. intros s. apply same_then; [|intros lr; apply same_lift].
  generalize (snd (fst s)) (snd s). clear - IH. induction IH as [|k ks H _ IHk]; intros l r; cbn [read_nodes]; [apply same_lift|]. apply same_then; [apply H|]. intros lr. apply IHk.
Qed.
Lemma same_nodes ks : forall l r, same (read_nodes w (element_class w) ks l r).
Proof. induction ks as [|k ks IH]; intros l r; cbn [read_nodes]; [apply same_lift|]. apply same_then; [apply same_node|]. intros lr. apply IH. Qed.
Lemma same_document e kids : same (read_document w e kids).
Proof.
  unfold read_document, read_with. apply same_then; [apply same_lift|]. intros d. apply same_then; [apply same_class|]. intros k. apply same_then; [apply same_lift|]. intros s. apply same_then; [apply same_nodes|]. intros lr.
  unfold end_root. apply same_then; [apply same_lift|]. intros nodes. destruct (r_sheet (snd lr)); [apply same_lift|]. destruct (l_kind (fst lr)); try apply same_lift.
  destruct (attr (e_attrs e) (Some XSL_NAMESPACE) (lit "version")) as [v|]; [|apply same_lift]. apply same_then; [apply same_class|]. intros _.
  destruct (w_number w v) as [[| |]|]; try apply same_lift; (apply same_then; [apply same_class|]; intros _; apply same_lift).
Qed.
Lemma honest_agree c : honest false c -> agree c [].
Proof.
  intros H. split; [|split].
  - intros n x M E. specialize (H n x E). destruct (m_class n); [exact H|congruence].
  - intros n x _ E. discriminate E.
  - intros n M. destruct (cached c n) as [x|] eqn:E; [|reflexivity]. specialize (H n x E). rewrite M in H. destruct H as [H _]. discriminate H.
Qed.
Theorem history docs e kids : Forall (undisturbing w) docs -> snd (read_document w e kids (read_all w docs [])) = snd (read_document w e kids []).
Proof. intros F. apply (same_document e kids). apply honest_agree. apply history_honest; [exact F|apply honest_nil]. Qed.
End C.
