(** * Property C123: base URIs and languages in the reported events *)
From Coq Require Import NArith String List Bool Lia Arith.
From Verif Require Import PyStr PyErr XbModel XbSpec.
Import ListNotations.

(** ** Basics *)
Lemma ostr_eqb_eq : forall a b, ostr_eqb a b = true <-> a = b.
Proof.
  intros [a|] [b|]; cbn [ostr_eqb]; split; intro H; try discriminate H; try reflexivity.
  - apply str_eqb_eq in H. subst b. reflexivity.
  - injection H as H. apply str_eqb_eq. exact H.
Qed.
Lemma ostr_eqb_neq : forall a b, ostr_eqb a b = false <-> a <> b.
Proof.
  intros a b. destruct (ostr_eqb a b) eqn:E; split; intro H; try discriminate H.
  - exfalso. apply H. apply ostr_eqb_eq. exact E.
  - intro K. apply ostr_eqb_eq in K. rewrite K in E. discriminate E.
  - reflexivity.
Qed.
Definition hit (local : str) (a : attribute) : bool := ostr_eqb (a_ns a) (Some XML_NAMESPACE) && str_eqb (a_local a) local.
Lemma hit_spec : forall s a, hit (lit s) a = true <-> is_xml s a.
Proof.
  intros s a. unfold hit, is_xml. rewrite andb_true_iff, ostr_eqb_eq, str_eqb_eq. reflexivity.
Qed.
Lemma hit_no : forall s a, hit (lit s) a = false <-> ~ is_xml s a.
Proof.
  intros s a. rewrite <- hit_spec. destruct (hit (lit s) a); split; intro H; try discriminate H; try reflexivity.
  - exfalso. apply H. reflexivity.
  - intro K. discriminate K.
Qed.
Lemma scan_app : forall l a b o, scan l (a ++ b) o = scan l b (scan l a o).
Proof. intros l a. induction a as [|x a IH]; intros b o; [reflexivity|]. cbn [app scan]. apply IH. Qed.
Lemma scan_none : forall s a o, Forall (fun b => ~ is_xml s b) a -> scan (lit s) a o = o.
Proof.
  intros s a. induction a as [|x a IH]; intros o H; [reflexivity|].
  cbn [scan]. inversion H as [|? ? H1 H2]; subst. apply hit_no in H1. unfold hit in H1. rewrite H1. apply IH. exact H2.
Qed.
Lemma inherits_fun : forall s atts o v, inherits s atts o v -> v = scan (lit s) atts o.
Proof.
  intros s atts o v H. destruct H as [o l1 a l2 E Ha Hl|o Hl].
  - subst atts. rewrite scan_app. cbn [scan]. apply hit_spec in Ha. unfold hit in Ha. rewrite Ha. symmetry. apply scan_none. exact Hl.
  - symmetry. apply scan_none. exact Hl.
Qed.
Lemma scan_inherits : forall s atts o, inherits s atts o (scan (lit s) atts o).
Proof.
  intros s atts. induction atts as [|a l IH] using rev_ind; intro o.
  - apply inherits_outer. constructor.
  - rewrite scan_app. cbn [scan]. destruct (hit (lit s) a) eqn:E.
    + pose proof E as E'. unfold hit in E'. rewrite E'. apply inherits_own with (l1 := l) (l2 := []); [reflexivity|apply hit_spec; exact E|constructor].
    + pose proof E as E'. unfold hit in E'. rewrite E'. apply hit_no in E. destruct (IH o) as [o l1 b l2 Eq Hb Hl|o Hl].
      * apply inherits_own with (l1 := l1) (l2 := l2 ++ [a]); [rewrite Eq, <- app_assoc; reflexivity|exact Hb|].
        apply Forall_app. split; [exact Hl|]. constructor; [exact E|constructor].
      * apply inherits_outer. apply Forall_app. split; [exact Hl|]. constructor; [exact E|constructor].
Qed.
Lemma scan_found : forall l a o, scan l a o = match scan l a None with Some v => Some v | None => o end.
Proof.
  intros l a. induction a as [|x a IH] using rev_ind; intro o; [reflexivity|].
  rewrite !scan_app. cbn [scan]. destruct (ostr_eqb (a_ns x) (Some XML_NAMESPACE) && str_eqb (a_local x) l); [reflexivity|]. apply IH.
Qed.
Lemma scan_absent : forall s a, scan (lit s) a None = None -> Forall (fun b => ~ is_xml s b) a.
Proof.
  intros s a. induction a as [|x a IH] using rev_ind; intro H; [constructor|].
  rewrite scan_app in H. cbn [scan] in H. destruct (hit (lit s) x) eqn:E; pose proof E as E'; unfold hit in E'; rewrite E' in H.
  - discriminate H.
  - apply Forall_app. split; [apply IH; exact H|]. constructor; [apply hit_no; exact E|constructor].
Qed.

(** ** The values as functions *)
Fixpoint fbases (b : option str) (n : node) : list (option str) :=
  match n with
  | Elem atts kids => let b' := scan BASE atts b in b' :: flat_map (fbases b') kids
  | Entity uri kids => flat_map (fbases (Some uri)) kids
  end.
Fixpoint flangs (b : option str) (n : node) : list (option str) :=
  match n with
  | Elem atts kids => let b' := scan LANG atts b in b' :: flat_map (flangs b') kids
  | Entity uri kids => flat_map (flangs b) kids
  end.
Lemma bases_fun : forall b l x, bases b l x -> x = flat_map (fbases b) l.
Proof.
  intros b l x H. induction H as [b|b atts kids rest b' x y Hi H1 IH1 H2 IH2|b uri kids rest x y H1 IH1 H2 IH2].
  - reflexivity.
  - apply inherits_fun in Hi. cbn [flat_map fbases app]. change BASE with (lit "base"). rewrite <- Hi, <- IH1, <- IH2. reflexivity.
  - cbn [flat_map fbases]. rewrite <- IH1, <- IH2. reflexivity.
Qed.
Lemma langs_fun : forall b l x, langs b l x -> x = flat_map (flangs b) l.
Proof.
  intros b l x H. induction H as [b|b atts kids rest b' x y Hi H1 IH1 H2 IH2|b uri kids rest x y H1 IH1 H2 IH2].
  - reflexivity.
  - apply inherits_fun in Hi. cbn [flat_map flangs app]. change LANG with (lit "lang"). rewrite <- Hi, <- IH1, <- IH2. reflexivity.
  - cbn [flat_map flangs]. rewrite <- IH1, <- IH2. reflexivity.
Qed.
(** Reading as a function *)
Lemma reads_app : forall s e1 st vs1 st1 e2 vs2 st2, reads s st e1 vs1 st1 -> reads s st1 e2 vs2 st2 -> reads s st (e1 ++ e2) (vs1 ++ vs2) st2.
Proof.
  intros s e1 st vs1 st1 e2 vs2 st2 H1 H2. induction H1 as [st|outer st atts base v ev vs st' Hi H IH|v st base ev vs st' H IH].
  - exact H2.
  - cbn [app]. apply reads_start; [exact Hi|]. apply IH. exact H2.
  - cbn [app]. apply reads_end. apply IH. exact H2.
Qed.
Lemma closes_app : forall e1 st st1 e2 st2, closes st e1 st1 -> closes st1 e2 st2 -> closes st (e1 ++ e2) st2.
Proof.
  intros e1 st st1 e2 st2 H1 H2. induction H1 as [st|st atts b ev st' H IH|st b ev st' H IH]; cbn [app].
  - exact H2.
  - apply closes_start. apply IH. exact H2.
  - apply closes_end. apply IH. exact H2.
Qed.
Lemma steps_app : forall l1 r l2, steps r (l1 ++ l2) = (let '(r1, e1) := steps r l1 in let '(r2, e2) := steps r1 l2 in (r2, e1 ++ e2)).
Proof.
  intro l1. induction l1 as [|c l1 IH]; intros r l2.
  - cbn [app steps]. destruct (steps r l2) as [r2 e2]. reflexivity.
  - cbn [app steps]. destruct (step r c) as [r0 e0]. rewrite IH. destruct (steps r0 l1) as [r1 e1]. destruct (steps r1 l2) as [r2 e2]. rewrite app_assoc. reflexivity.
Qed.
(** Induction on documents *)
Section NodeInd.
  Context (P : node -> Prop) (Pe : forall atts kids, Forall P kids -> P (Elem atts kids)) (Pt : forall uri kids, Forall P kids -> P (Entity uri kids)).
  Fixpoint node_ind' (n : node) : P n :=
    match n with
    | Elem atts kids => Pe atts kids ((fix go (l : list node) : Forall P l := match l with [] => Forall_nil P | k :: l' => Forall_cons k (node_ind' k) (go l') end) kids)
    | Entity uri kids => Pt uri kids ((fix go (l : list node) : Forall P l := match l with [] => Forall_nil P | k :: l' => Forall_cons k (node_ind' k) (go l') end) kids)
    end.
End NodeInd.

(** ** One node *)
Definition state (b : option str) (B : list (option str)) (l : option str) (L : list (option str)) (c : context) (C : list context) : reader :=
  {| r_base := b :: B; r_lang := l :: L; r_contexts := c :: C |}.
Definition clear (c : context) : context := {| c_uri := c_uri c; c_fixup := false; c_base := c_base c; c_lang := c_lang c |}.
Definition after (c : context) (l : list node) : context := if existsb is_elem l then clear c else c.
Lemma clear_off : forall c, c_fixup c = false -> clear c = c.
Proof. intros [u f b l] H. cbn in H. subst f. reflexivity. Qed.
(** When the attributes give the base *)
Definition fine (c : context) (b r : option str) (l : list node) : Prop :=
  Forall tidy l /\ b <> None /\ c_uri c <> None /\
  (c_fixup c = true -> (length (filter is_elem l) <= 1)%nat /\ (c_base c = b -> r = b)) /\
  (c_fixup c = false -> existsb is_elem l = true -> r = b) /\
  (forall u k, In (Entity u k) l -> b = Some u -> r = b).
Definition same_lang (c : context) (lg : option str) (l : list node) : Prop :=
  Forall (quiet lg) l /\ (c_fixup c = true -> c_lang c = lg).
Definition good (nodes : list node) : Prop :=
  forall b B l L c C, exists ev,
    steps (state b B l L c C) (flat_map calls nodes) = (state b B l L (after c nodes) C, ev) /\
    (located ev = flat_map (fbases b) nodes /\ forall st, closes st ev st) /\
    Forall2 extends (flat_map written nodes) (reported ev) /\
    (forall r R, fine c b r nodes -> reads "base" (r :: R) ev (flat_map (fbases b) nodes) (r :: R)) /\
    (forall R, same_lang c l nodes -> reads "lang" (l :: R) ev (flat_map (flangs l) nodes) (l :: R)).

Lemma after_fields : forall c l, c_uri (after c l) = c_uri c /\ c_base (after c l) = c_base c /\ c_lang (after c l) = c_lang c.
Proof. intros c l. unfold after. destruct (existsb is_elem l); repeat split. Qed.
Lemma after_cons : forall c n l, after (after c [n]) l = after c (n :: l).
Proof.
  intros c n l. unfold after. cbn [existsb]. rewrite orb_false_r. destruct (is_elem n); destruct (existsb is_elem l); reflexivity.
Qed.
Lemma filter_none : forall l, (length (filter is_elem l) = 0)%nat -> existsb is_elem l = false.
Proof.
  intro l. induction l as [|n l IH]; intro H; [reflexivity|]. cbn [filter existsb] in *. destruct (is_elem n); [discriminate H|]. cbn [orb]. apply IH. exact H.
Qed.
Lemma fine_head : forall c b r n l, fine c b r (n :: l) -> fine c b r [n].
Proof.
  intros c b r n l (H1 & H2 & H3 & H4 & H5 & H6). inversion H1 as [|? ? Hn Hl]; subst.
  split; [constructor; [exact Hn|constructor]|]. split; [exact H2|]. split; [exact H3|]. split; [|split].
  - intro E. split; [|apply H4; exact E]. cbn [filter]. destruct (is_elem n); cbn [length]; lia.
  - intros E X. apply H5; [exact E|]. cbn [existsb] in *. rewrite orb_false_r in X. rewrite X. reflexivity.
  - intros u k [E|[]]. subst n. apply (H6 u k). left. reflexivity.
Qed.
Lemma fine_tail : forall c b r n l, fine c b r (n :: l) -> fine (after c [n]) b r l.
Proof.
  intros c b r n l (H1 & H2 & H3 & H4 & H5 & H6). inversion H1 as [|? ? Hn Hl]; subst.
  destruct (after_fields c [n]) as (F1 & F2 & F3).
  split; [exact Hl|]. split; [exact H2|]. split; [rewrite F1; exact H3|]. split; [|split].
  - intro E. rewrite F2. unfold after in E. cbn [existsb] in E. rewrite orb_false_r in E. destruct (is_elem n) eqn:En; [discriminate E|].
    destruct (H4 E) as [K1 K2]. split; [|exact K2]. cbn [filter] in K1. rewrite En in K1. exact K1.
  - intros E X. destruct (c_fixup c) eqn:Ef.
    + unfold after in E. cbn [existsb] in E. rewrite orb_false_r in E. destruct (is_elem n) eqn:En.
      * destruct (H4 eq_refl) as [K1 K2]. cbn [filter] in K1. rewrite En in K1. cbn [length] in K1. rewrite filter_none in X by lia. discriminate X.
      * rewrite Ef in E. discriminate E.
    + apply H5; [reflexivity|]. cbn [existsb]. rewrite X. apply orb_true_r.
  - intros u k E. apply (H6 u k). right. exact E.
Qed.
Lemma lang_head : forall c lg n l, same_lang c lg (n :: l) -> same_lang c lg [n].
Proof. intros c lg n l (H1 & H2). inversion H1; subst. split; [constructor; [assumption|constructor]|exact H2]. Qed.
Lemma lang_tail : forall c lg n l, same_lang c lg (n :: l) -> same_lang (after c [n]) lg l.
Proof.
  intros c lg n l (H1 & H2). inversion H1; subst. split; [assumption|]. destruct (after_fields c [n]) as (F1 & F2 & F3). rewrite F3.
  intro E. apply H2. unfold after in E. cbn [existsb] in E. rewrite orb_false_r in E. destruct (is_elem n); [discriminate E|exact E].
Qed.
Lemma located_app : forall a b, located (a ++ b) = located a ++ located b.
Proof. intros. apply flat_map_app. Qed.
Lemma reported_app : forall a b, reported (a ++ b) = reported a ++ reported b.
Proof. intros. apply flat_map_app. Qed.
Lemma good_nil : good [].
Proof.
  intros b B l L c C. exists []. split; [reflexivity|]. split; [split; [reflexivity|intro st; constructor]|]. split; [constructor|]. split; intros; constructor.
Qed.
Lemma good_cons : forall n l, good [n] -> good l -> good (n :: l).
Proof.
  intros n l Hn Hl b B lg L c C.
  destruct (Hn b B lg L c C) as (e1 & S1 & [L1 K1] & R1 & B1 & G1).
  destruct (Hl b B lg L (after c [n]) C) as (e2 & S2 & [L2 K2] & R2 & B2 & G2).
  cbn [flat_map] in S1, L1, R1, B1, G1. rewrite app_nil_r in S1, L1, R1.
  exists (e1 ++ e2). cbn [flat_map].
  split; [rewrite steps_app, S1, S2, after_cons; reflexivity|].
  split; [split; [rewrite located_app, L1, L2; reflexivity|intro st; exact (closes_app _ _ _ _ _ (K1 st) (K2 st))]|].
  split; [rewrite reported_app; apply Forall2_app; assumption|].
  split.
  - intros r R H. apply reads_app with (st1 := r :: R); [|apply B2; apply fine_tail; exact H].
    specialize (B1 r R (fine_head _ _ _ _ _ H)). rewrite app_nil_r in B1. exact B1.
  - intros R H. apply reads_app with (st1 := lg :: R); [|apply G2; apply lang_tail; exact H].
    specialize (G1 R (lang_head _ _ _ _ H)). rewrite app_nil_r in G1. exact G1.
Qed.
Lemma good_list : forall l, Forall (fun n => good [n]) l -> good l.
Proof. intros l H. induction H as [|n l Hn Hl IH]; [apply good_nil|]. apply good_cons; assumption. Qed.

(** ** The attributes that are added *)
Lemma fixup_shape : forall s atts top outer,
  fixup (lit s) (scan (lit s) atts None) top outer = [] \/
  exists a, fixup (lit s) (scan (lit s) atts None) top outer = [a] /\ is_xml s a /\ Forall (fun b => ~ is_xml s b) atts.
Proof.
  intros s atts top outer. unfold fixup. destruct (scan (lit s) atts None) eqn:E; [left; reflexivity|].
  destruct (ostr_eqb outer top); [left; reflexivity|]. right. eexists. split; [reflexivity|]. split; [split; reflexivity|]. apply scan_absent. exact E.
Qed.
Lemma base_not_lang : forall a, is_xml "base" a -> ~ is_xml "lang" a.
Proof. intros a [_ H1] [_ H2]. rewrite H1 in H2. discriminate H2. Qed.
Lemma scan_other : forall s t a o, s <> t -> (forall x, is_xml t x -> ~ is_xml s x) -> forall atts top outer, a = fixup (lit t) (scan (lit t) atts None) top outer -> scan (lit s) a o = o.
Proof.
  intros s t a o _ H atts top outer E. apply scan_none. destruct (fixup_shape t atts top outer) as [F|(x & F & Hx & _)]; rewrite E, F; [constructor|].
  constructor; [apply H; exact Hx|constructor].
Qed.
Lemma scan_fix : forall s atts v outer o, (outer = Some v -> o = Some v) -> scan (lit s) (atts ++ fixup (lit s) (scan (lit s) atts None) (Some v) outer) o = scan (lit s) atts (Some v).
Proof.
  intros s atts v outer o H. rewrite scan_app, (scan_found (lit s) atts o), (scan_found (lit s) atts (Some v)).
  destruct (scan (lit s) atts None) as [w|] eqn:E; [reflexivity|]. unfold fixup. destruct (ostr_eqb outer (Some v)) eqn:Eq.
  - apply ostr_eqb_eq in Eq. cbn [scan]. apply H. exact Eq.
  - cbn [scan a_ns a_local a_value]. assert (Hh : ostr_eqb (Some XML_NAMESPACE) (Some XML_NAMESPACE) = true) by (apply ostr_eqb_eq; reflexivity).
    rewrite Hh, (proj2 (str_eqb_eq (lit s) (lit s)) eq_refl). reflexivity.
Qed.
Lemma fix_same : forall l f top, fixup l f top top = [].
Proof. intros l f top. unfold fixup. destruct f; [reflexivity|]. rewrite (proj2 (ostr_eqb_eq top top) eq_refl). reflexivity. Qed.

Lemma good_elem : forall atts kids, Forall (fun n => good [n]) kids -> good [Elem atts kids].
Proof.
  intros atts kids Hk b B l L c C. apply good_list in Hk.
  set (b' := scan BASE atts b). set (l' := scan LANG atts l).
  set (extra := if c_fixup c then fixup BASE (scan BASE atts None) b (c_base c) ++ fixup LANG (scan LANG atts None) l (c_lang c) else []).
  destruct (Hk b' (b :: B) l' (l :: L) (clear c) C) as (e & S & [Lc Kc] & R & Hb & Hl).
  exists (EStart (atts ++ extra) b' :: e ++ [EEnd b']).
  assert (S0 : step (state b B l L c C) (RStart atts) = (state b' (b :: B) l' (l :: L) (clear c) C, [EStart (atts ++ extra) b'])).
  { cbn [step]. unfold start_element, state. cbn [r_contexts r_base r_lang peek hd]. unfold extra. destruct (c_fixup c) eqn:E; [reflexivity|].
    rewrite (clear_off c E). reflexivity. }
  assert (Ac : after (clear c) kids = clear c) by (unfold after; destruct (existsb is_elem kids); reflexivity).
  split; [|split; [|split; [|split]]].
  - cbn [flat_map calls]. rewrite app_nil_r. cbn [steps]. rewrite S0. rewrite steps_app, S. rewrite Ac. cbn [steps step end_element]. unfold state, end_element. cbn [r_base r_lang r_contexts tl peek hd app]. reflexivity.
  - split; [|intro st; apply closes_start; apply (closes_app _ _ _ _ _ (Kc (b' :: st))); apply closes_end; apply closes_nil].
    cbn [flat_map fbases]. rewrite app_nil_r. fold b'. change (EStart (atts ++ extra) b' :: e ++ [EEnd b']) with ([EStart (atts ++ extra) b'] ++ e ++ [EEnd b']).
    rewrite !located_app, Lc. cbn [located flat_map app]. rewrite app_nil_r. reflexivity.
  - cbn [flat_map written]. rewrite app_nil_r. change (EStart (atts ++ extra) b' :: e ++ [EEnd b']) with ([EStart (atts ++ extra) b'] ++ e ++ [EEnd b']).
    rewrite !reported_app. cbn [reported flat_map app]. rewrite app_nil_r. constructor; [|exact R].
    unfold extra. destruct (c_fixup c).
    + exists (fixup BASE (scan BASE atts None) b (c_base c)), (fixup LANG (scan LANG atts None) l (c_lang c)). split; [reflexivity|]. split.
      * exact (fixup_shape "base" atts b (c_base c)).
      * exact (fixup_shape "lang" atts l (c_lang c)).
    + exists [], []. split; [reflexivity|]. split; left; reflexivity.
  - intros r Rs (H1 & H2 & H3 & H4 & H5 & H6). cbn [flat_map fbases]. rewrite app_nil_r. fold b'.
    assert (Hv : inherits "base" (atts ++ extra) r b').
    { assert (Hs : scan (lit "base") (atts ++ extra) r = b').
      { unfold extra, b'. destruct (c_fixup c) eqn:E.
        - destruct (H4 eq_refl) as [_ K]. destruct b as [v|]; [|exfalso; apply H2; reflexivity].
          rewrite app_assoc, scan_app.
          rewrite (scan_other "base" "lang" _ _ ltac:(discriminate) ltac:(intros x X1 X2; exact (base_not_lang x X2 X1)) atts l (c_lang c) eq_refl).
          apply (scan_fix "base"). exact K.
        - rewrite app_nil_r. rewrite (H5 eq_refl eq_refl). reflexivity. }
      rewrite <- Hs. apply scan_inherits. }
    apply reads_start; [exact Hv|].
    rewrite <- (app_nil_r (flat_map (fbases b') kids)). apply reads_app with (st1 := b' :: r :: Rs).
    + apply Hb. inversion H1 as [|? ? Ht _]; subst. cbn [tidy] in Ht.
      assert (Hb' : b' <> None). { unfold b'. rewrite scan_found. destruct (scan BASE atts None); [intro X; discriminate X|exact H2]. }
      split; [|split; [exact Hb'|split; [exact H3|split; [intro X; discriminate X|split; intros; reflexivity]]]].
      clear -Ht. induction kids as [|k kids IH]; [constructor|]. cbn [map fold_right] in Ht. destruct Ht as [T1 T2]. constructor; [exact T1|apply IH; exact T2].
    + apply reads_end. apply reads_nil.
  - intros Rs (H1 & H2). cbn [flat_map flangs]. rewrite app_nil_r. fold l'.
    assert (Hv : inherits "lang" (atts ++ extra) l l').
    { assert (Hs : scan (lit "lang") (atts ++ extra) l = l').
      { unfold extra, l'. destruct (c_fixup c) eqn:E; [|rewrite app_nil_r; reflexivity].
        rewrite (H2 eq_refl), fix_same, app_nil_r, scan_app.
        apply (scan_other "lang" "base" _ _ ltac:(discriminate) ltac:(intros x X1; exact (base_not_lang x X1)) atts b (c_base c) eq_refl). }
      rewrite <- Hs. apply scan_inherits. }
    apply reads_start; [exact Hv|].
    rewrite <- (app_nil_r (flat_map (flangs l') kids)). apply reads_app with (st1 := l' :: l :: Rs).
    + apply Hl. split; [|intro X; discriminate X]. inversion H1 as [|? ? Hq _]; subst. inversion Hq as [? ? ? l'' Hi Hf|]; subst.
      apply inherits_fun in Hi. subst l''. exact Hf.
    + apply reads_end. apply reads_nil.
Qed.
Lemma good_entity : forall uri kids, Forall (fun n => good [n]) kids -> good [Entity uri kids].
Proof.
  intros uri kids Hk b B l L c C. apply good_list in Hk.
  set (f := negb (ostr_eqb (c_uri c) None)).
  set (c0 := {| c_uri := Some uri; c_fixup := f; c_base := if f then b else None; c_lang := if f then l else None |}).
  destruct (Hk (Some uri) (b :: B) None (l :: L) c0 (c :: C)) as (e & S & [Lc Kc] & R & Hb & Hl).
  exists e. split; [|split; [|split; [|split]]].
  - cbn [flat_map calls]. rewrite app_nil_r. cbn [steps step]. change (begin_context (state b B l L c C) (Some uri)) with (state (Some uri) (b :: B) None (l :: L) c0 (c :: C)).
    rewrite steps_app, S. cbn [steps step end_context]. unfold state. cbn [end_context r_contexts r_base r_lang tl app]. rewrite app_nil_r. reflexivity.
  - cbn [flat_map fbases]. rewrite app_nil_r. split; [exact Lc|exact Kc].
  - cbn [flat_map written]. rewrite app_nil_r. exact R.
  - intros r Rs (H1 & H2 & H3 & H4 & H5 & H6). cbn [flat_map fbases]. rewrite app_nil_r. apply Hb.
    assert (Hf : f = true). { unfold f. rewrite (proj2 (ostr_eqb_neq (c_uri c) None) H3). reflexivity. }
    inversion H1 as [|? ? Ht _]; subst. cbn [tidy] in Ht. destruct Ht as (T1 & T2 & T3).
    split; [|split; [intro X; discriminate X|split; [intro X; discriminate X|split; [|split]]]].
    + clear -T3. induction kids as [|k kids IH]; [constructor|]. cbn [map fold_right] in T3. destruct T3 as [T1 T2]. constructor; [exact T1|apply IH; exact T2].
    + intros _. split; [exact T1|]. cbn [c0 c_base]. unfold c0. cbn [c_base]. rewrite Hf. intro E. rewrite <- E. apply (H6 uri kids); [left; reflexivity|exact E].
    + unfold c0. cbn [c_fixup]. rewrite Hf. intro X. discriminate X.
    + intros u k Hin E. exfalso. injection E as E. apply (T2 u k Hin). symmetry. exact E.
  - intros Rs (H1 & H2). inversion H1 as [|? ? Hq _]; subst. inversion Hq as [|? ? Hf]; subst. cbn [flat_map flangs]. rewrite app_nil_r. apply Hl.
    split; [exact Hf|]. intros _. unfold c0. cbn [c_lang]. destruct f; reflexivity.
Qed.
Lemma good_all : forall n, good [n].
Proof. apply node_ind'; [apply good_elem|apply good_entity]. Qed.

(** ** The property *)
Lemma parse_good : forall uri n, exists ev, parse (Some uri) (calls n) = (new_reader, ev) /\
  (located ev = fbases (Some uri) n /\ forall st, closes st ev st) /\ Forall2 extends (written n) (reported ev) /\
  (forall r R, fine {| c_uri := Some uri; c_fixup := false; c_base := None; c_lang := None |} (Some uri) r [n] -> reads "base" (r :: R) ev (fbases (Some uri) n) (r :: R)) /\
  (forall R, Forall (quiet None) [n] -> reads "lang" (None :: R) ev (flangs None n) (None :: R)).
Proof.
  intros uri n. destruct (good_all n (Some uri) [None] None [None] {| c_uri := Some uri; c_fixup := false; c_base := None; c_lang := None |} []) as (ev & S & [L K] & R & B & G).
  cbn [flat_map] in *. rewrite app_nil_r in S, L, R.
  exists ev. split; [|split; [split; [exact L|exact K]|split; [exact R|split]]].
  - unfold parse. change (begin_context new_reader (Some uri)) with (state (Some uri) [None] None [None] {| c_uri := Some uri; c_fixup := false; c_base := None; c_lang := None |} []).
    rewrite S. reflexivity.
  - intros r Rs H. specialize (B r Rs H). rewrite app_nil_r in B. exact B.
  - intros Rs H. specialize (G Rs). rewrite app_nil_r in G. apply G. split; [exact H|]. intro X. discriminate X.
Qed.
(** C123: during the calls for the start and the end of an element the locator names the base URI of the element; the stacks are restored at the end. *)
Theorem C123_locator : forall uri n x, bases (Some uri) [n] x ->
  located (snd (parse (Some uri) (calls n))) = x /\ closes [] (snd (parse (Some uri) (calls n))) [] /\ fst (parse (Some uri) (calls n)) = new_reader.
Proof.
  intros uri n x H. apply bases_fun in H. cbn [flat_map] in H. rewrite app_nil_r in H. subst x.
  destruct (parse_good uri n) as (ev & P & [L K] & _). rewrite P. split; [exact L|]. split; [apply K|reflexivity].
Qed.
Print Assumptions C123_locator.
(** C123: the attributes of the document are reported; xml:base and xml:lang are added at most, at most once each, and only where the element has none. *)
Theorem C123_attributes : forall uri n, Forall2 extends (written n) (reported (snd (parse (Some uri) (calls n)))).
Proof. intros uri n. destruct (parse_good uri n) as (ev & P & _ & R & _). rewrite P. exact R. Qed.
Print Assumptions C123_attributes.
(** C123: whoever reads the base URIs from the reported attributes alone gets those of the document. *)
Theorem C123_base_partial : forall uri n x, tidy n -> is_elem n = true -> bases (Some uri) [n] x ->
  reads "base" [Some uri] (snd (parse (Some uri) (calls n))) x [Some uri].
Proof.
  intros uri n x Ht He H. apply bases_fun in H. cbn [flat_map] in H. rewrite app_nil_r in H. subst x.
  destruct (parse_good uri n) as (ev & P & _ & _ & B & _). rewrite P. apply B.
  split; [constructor; [exact Ht|constructor]|]. split; [intro X; discriminate X|]. split; [intro X; discriminate X|].
  split; [intro X; discriminate X|]. split; intros; reflexivity.
Qed.
Print Assumptions C123_base_partial.
(** C123: the same for languages, if no entity is in an element with a language. *)
Theorem C123_lang_partial : forall uri n x, quiet None n -> langs None [n] x ->
  reads "lang" [None] (snd (parse (Some uri) (calls n))) x [None].
Proof.
  intros uri n x Hq H. apply langs_fun in H. cbn [flat_map] in H. rewrite app_nil_r in H. subst x.
  destruct (parse_good uri n) as (ev & P & _ & _ & _ & G). rewrite P. apply G. constructor; [exact Hq|constructor].
Qed.
Print Assumptions C123_lang_partial.

(** *** Cases and refutations *)
Definition xml (local value : string) : attribute := {| a_ns := Some XML_NAMESPACE; a_local := lit local; a_value := lit value |}.
Definition plain (local value : string) : attribute := {| a_ns := None; a_local := lit local; a_value := lit value |}.
(** a document with an entity that has an entity beside its element *)
Definition doc1 : node :=
  Elem [xml "base" "p:x"] [Entity (lit "p:e") [Entity (lit "p:f") [Elem [xml "lang" "en"] []]; Elem [plain "base" "no"] [Elem [xml "base" "p:y"] []]]; Elem [] []].
Example C123_case : tidy doc1 /\ is_elem doc1 = true /\ quiet None doc1 /\
  bases (Some (lit "p:d")) [doc1] [Some (lit "p:x"); Some (lit "p:f"); Some (lit "p:e"); Some (lit "p:y"); Some (lit "p:x")] /\
  langs None [doc1] [None; Some (lit "en"); None; None; None] /\
  reported (snd (parse (Some (lit "p:d")) (calls doc1))) =
    [[xml "base" "p:x"]; [xml "lang" "en"; xml "base" "p:f"]; [plain "base" "no"; xml "base" "p:e"]; [xml "base" "p:y"]; []].
Proof.
  assert (K1 : inherits "lang" [xml "base" "p:x"] None None) by exact (scan_inherits "lang" [xml "base" "p:x"] None).
  assert (K2 : inherits "lang" [xml "lang" "en"] None (Some (lit "en"))) by exact (scan_inherits "lang" [xml "lang" "en"] None).
  assert (K3 : inherits "lang" [plain "base" "no"] None None) by exact (scan_inherits "lang" [plain "base" "no"] None).
  assert (K4 : inherits "lang" [xml "base" "p:y"] None None) by exact (scan_inherits "lang" [xml "base" "p:y"] None).
  assert (K5 : inherits "lang" [] None None) by exact (scan_inherits "lang" [] None).
  assert (J1 : inherits "base" [xml "base" "p:x"] (Some (lit "p:d")) (Some (lit "p:x"))) by exact (scan_inherits "base" [xml "base" "p:x"] _).
  assert (J2 : inherits "base" [xml "lang" "en"] (Some (lit "p:f")) (Some (lit "p:f"))) by exact (scan_inherits "base" [xml "lang" "en"] _).
  assert (J3 : inherits "base" [plain "base" "no"] (Some (lit "p:e")) (Some (lit "p:e"))) by exact (scan_inherits "base" [plain "base" "no"] _).
  assert (J4 : inherits "base" [xml "base" "p:y"] (Some (lit "p:e")) (Some (lit "p:y"))) by exact (scan_inherits "base" [xml "base" "p:y"] _).
  assert (J5 : inherits "base" [] (Some (lit "p:x")) (Some (lit "p:x"))) by exact (scan_inherits "base" [] _).
  split; [|split; [|split; [|split; [|split]]]].
  - cbn [tidy doc1 map fold_right filter is_elem length]. repeat split; try lia.
    + intros u k [E|[E|[]]]; [|discriminate E]. injection E as E1 E2. subst u. discriminate.
    + intros u k [E|[]]. discriminate E.
  - reflexivity.
  - apply quiet_elem with (l' := None); [exact K1|].
    apply Forall_cons; [|apply Forall_cons; [|apply Forall_nil]].
    + apply quiet_entity. apply Forall_cons; [|apply Forall_cons; [|apply Forall_nil]].
      * apply quiet_entity. apply Forall_cons; [|apply Forall_nil]. apply quiet_elem with (l' := Some (lit "en")); [exact K2|apply Forall_nil].
      * apply quiet_elem with (l' := None); [exact K3|]. apply Forall_cons; [|apply Forall_nil]. apply quiet_elem with (l' := None); [exact K4|apply Forall_nil].
    + apply quiet_elem with (l' := None); [exact K5|apply Forall_nil].
  - apply (bases_elem _ _ _ _ _ [Some (lit "p:f"); Some (lit "p:e"); Some (lit "p:y"); Some (lit "p:x")] [] J1); [|apply bases_nil].
    apply (bases_entity _ _ _ _ [Some (lit "p:f"); Some (lit "p:e"); Some (lit "p:y")] [Some (lit "p:x")]).
    + apply (bases_entity _ _ _ _ [Some (lit "p:f")] [Some (lit "p:e"); Some (lit "p:y")]).
      * exact (bases_elem _ _ _ _ _ [] [] J2 (bases_nil _) (bases_nil _)).
      * apply (bases_elem _ _ _ _ _ [Some (lit "p:y")] [] J3); [|apply bases_nil]. exact (bases_elem _ _ _ _ _ [] [] J4 (bases_nil _) (bases_nil _)).
    + exact (bases_elem _ _ _ _ _ [] [] J5 (bases_nil _) (bases_nil _)).
  - apply (langs_elem _ _ _ _ _ [Some (lit "en"); None; None; None] [] K1); [|apply langs_nil].
    apply (langs_entity _ _ _ _ [Some (lit "en"); None; None] [None]).
    + apply (langs_entity _ _ _ _ [Some (lit "en")] [None; None]).
      * exact (langs_elem _ _ _ _ _ [] [] K2 (langs_nil _) (langs_nil _)).
      * apply (langs_elem _ _ _ _ _ [None] [] K3); [|apply langs_nil]. exact (langs_elem _ _ _ _ _ [] [] K4 (langs_nil _) (langs_nil _)).
    + exact (langs_elem _ _ _ _ _ [] [] K5 (langs_nil _) (langs_nil _)).
  - vm_compute. reflexivity.
Qed.
(** Only the first element of an entity gets its base: for the second the attributes say that it is the one of the document. *)
Theorem C123_base_refuted : ~ (forall uri n x, is_elem n = true -> bases (Some uri) [n] x ->
  reads "base" [Some uri] (snd (parse (Some uri) (calls n))) x [Some uri]).
Proof.
  intro H.
  specialize (H (lit "p:d") (Elem [] [Entity (lit "p:e") [Elem [] []; Elem [] []]]) [Some (lit "p:d"); Some (lit "p:e"); Some (lit "p:e")] eq_refl).
  assert (J : forall v, inherits "base" [] v v) by (intro v; apply inherits_outer; constructor).
  assert (K : bases (Some (lit "p:d")) [Elem [] [Entity (lit "p:e") [Elem [] []; Elem [] []]]] [Some (lit "p:d"); Some (lit "p:e"); Some (lit "p:e")]).
  { apply (bases_elem _ _ _ _ _ [Some (lit "p:e"); Some (lit "p:e")] [] (J _)); [|apply bases_nil].
    apply (bases_entity _ _ _ _ [Some (lit "p:e"); Some (lit "p:e")] []); [|apply bases_nil].
    apply (bases_elem _ _ _ _ _ [] [Some (lit "p:e")] (J _)); [apply bases_nil|]. exact (bases_elem _ _ _ _ _ [] [] (J _) (bases_nil _) (bases_nil _)). }
  specialize (H K). remember (snd (parse (Some (lit "p:d")) (calls (Elem [] [Entity (lit "p:e") [Elem [] []; Elem [] []]])))) as ev eqn:E. vm_compute in E. subst ev.
  inversion H as [|? ? ? ? ? ? ? ? Hi1 H1|]; subst. inversion H1 as [|? ? ? ? ? ? ? ? Hi2 H2|]; subst. inversion H2 as [| |? ? ? ? ? ? H3]; subst.
  inversion H3 as [|? ? ? ? ? ? ? ? Hi3 H4|]; subst. apply inherits_fun in Hi3. vm_compute in Hi3. discriminate Hi3.
Qed.
Print Assumptions C123_base_refuted.
(** An entity in an element with a language: xml:lang="" is reported for its element, which has the language of the element around the entity. *)
Theorem C123_lang_refuted : ~ (forall uri n x, is_elem n = true -> tidy n -> langs None [n] x ->
  reads "lang" [None] (snd (parse (Some uri) (calls n))) x [None]).
Proof.
  intro H. set (n := Elem [xml "lang" "en"] [Entity (lit "p:e") [Elem [] []]]).
  specialize (H (lit "p:d") n [Some (lit "en"); Some (lit "en")] eq_refl).
  assert (T : tidy n). { cbn [tidy n map fold_right filter is_elem length]. repeat split; try lia. intros u k [E|[]]. discriminate E. }
  assert (J : inherits "lang" [] (Some (lit "en")) (Some (lit "en"))) by (apply inherits_outer; constructor).
  assert (J1 : inherits "lang" [xml "lang" "en"] None (Some (lit "en"))) by exact (scan_inherits "lang" [xml "lang" "en"] None).
  assert (K : langs None [n] [Some (lit "en"); Some (lit "en")]).
  { apply (langs_elem _ _ _ _ _ [Some (lit "en")] [] J1); [|apply langs_nil]. apply (langs_entity _ _ _ _ [Some (lit "en")] []); [|apply langs_nil].
    exact (langs_elem _ _ _ _ _ [] [] J (langs_nil _) (langs_nil _)). }
  specialize (H T K). remember (snd (parse (Some (lit "p:d")) (calls n))) as ev eqn:E. vm_compute in E. subst ev.
  inversion H as [|? ? ? ? ? ? ? ? Hi1 H1|]; subst. inversion H1 as [|? ? ? ? ? ? ? ? Hi2 H2|]; subst. apply inherits_fun in Hi2. vm_compute in Hi2. discriminate Hi2.
Qed.
Print Assumptions C123_lang_refuted.
