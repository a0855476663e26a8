(** * Deciding what a pattern selects

    Not part of the model: these functions show that the specification of PtSpec can
    be computed, and are used to check the examples. *)
From Coq Require Import NArith ZArith String List Bool Lia Arith.
From Verif Require Import PyStr PyErr PtModel PtSpec PtTree.
Import ListNotations.
Open Scope nat_scope.

Definition name_eqb (a b : name) : bool := opt_eqb (fst a) (fst b) && str_eqb (snd a) (snd b).
Lemma name_eqb_eq : forall a b, name_eqb a b = true <-> a = b.
Proof.
  intros [a1 a2] [b1 b2]. unfold name_eqb. cbn [fst snd]. rewrite andb_true_iff, str_eqb_eq, opt_eqb_eq. split; [intros [-> ->]; reflexivity|intros [= -> ->]; split; reflexivity].
Qed.
Definition name_holdsb (x : xtest) (nm : name) : bool :=
  match x with XAny => true | XNs u => opt_eqb (fst nm) (Some u) | XName ns l => name_eqb nm (ns, l) | XPi _ => false end.
Lemma name_holdsb_ok : forall x nm, name_holdsb x nm = true <-> name_holds x nm.
Proof. intros [|u|ns l|t] nm; cbn; [tauto|apply opt_eqb_eq|apply name_eqb_eq|split; [discriminate|tauto]]. Qed.
Definition step_selectsb (n : nsmap) (s : step) (k : kind) : bool :=
  match expand n (nt s), ax s, k with
  | Some x, (Child | Descendant), KElem nm => name_holdsb x nm
  | Some x, Attribute, KAttr nm => name_holdsb x nm
  | Some (XPi None), (Child | Descendant), KPi _ => true
  | Some (XPi (Some t)), (Child | Descendant), KPi t' => str_eqb t' t
  | _, _, _ => false
  end.
Lemma step_selectsb_ok : forall n s k, step_selectsb n s k = true <-> step_selects n s k.
Proof.
  intros n s k. unfold step_selectsb, step_selects. destruct (expand n (nt s)) as [[|u|ns l|[t|]]|]; destruct (ax s); destruct k as [nm|nm|t'];
    try apply name_holdsb_ok; try apply str_eqb_eq; split; try discriminate; try (intros []; fail); auto.
Qed.
Definition is_descendant (a : axis) : bool := match a with Descendant => true | _ => false end.
Definition first_step (n : nsmap) (s : step) (next : list kind -> bool) : list kind -> bool :=
  fix go (c : list kind) : bool :=
    match c with
    | [] => false
    | k :: rest => (step_selectsb n s k && next rest) || (is_descendant (ax s) && go rest)
    end.
Fixpoint steps_selectb (n : nsmap) (l : list step) : list kind -> bool :=
  match l with
  | [] => fun c => match c with [] => true | _ => false end
  | s :: r => first_step n s (steps_selectb n r)
  end.
Lemma steps_selectb_ok : forall n l c, steps_selectb n l c = true <-> steps_select n l c.
Proof.
  intros n. induction l as [|s l IH]; [intros [|k c]; cbn; split; congruence|].
  intros c. cbn [steps_selectb steps_select]. induction c as [|k c IHc]; cbn [first_step].
  - split; [discriminate|intros ([|g gap] & k & rest & K & _); discriminate K].
  - rewrite orb_true_iff, !andb_true_iff, step_selectsb_ok, IH, IHc. split.
    + intros [[A B]|[D (gap & k' & rest & -> & _ & C)]].
      * exists [], k, c. repeat apply conj; auto.
      * exists (k :: gap), k', rest. repeat apply conj; [reflexivity|right; destruct (ax s); try discriminate D; reflexivity|apply C|apply C].
    + intros ([|g gap] & k' & rest & E & G & A & B); injection E as -> ->.
      * left. split; assumption.
      * right. destruct G as [G|G]; [discriminate|]. split; [rewrite G; reflexivity|]. exists gap, k', rest. repeat apply conj; auto.
Qed.
Fixpoint some_suffix (f : list kind -> bool) (c : list kind) : bool := f c || match c with [] => false | _ :: r => some_suffix f r end.
Lemma some_suffix_ok : forall f c, some_suffix f c = true <-> exists above below, c = above ++ below /\ f below = true.
Proof.
  intros f. induction c as [|k c IH]; cbn [some_suffix]; rewrite orb_true_iff.
  - split; [intros [H|H]; [exists [], []; auto|discriminate]|intros ([|a above] & below & E & H); [cbn in E; subst; auto|discriminate]].
  - rewrite IH. split.
    + intros [H|(above & below & -> & H)]; [exists [], (k :: c); auto|exists (k :: above), below; auto].
    + intros ([|a above] & below & E & H); [cbn in E; subst; auto|]. injection E as -> ->. right. exists above, below. auto.
Qed.
Definition path_selectsb (n : nsmap) (p : path) (c : list kind) : bool :=
  match p with Relative l => some_suffix (steps_selectb n l) c | Absolute l | Anywhere l => steps_selectb n l c | OtherPath => false end.
Lemma path_selectsb_ok : forall n p c, path_selectsb n p c = true <-> path_selects n p c.
Proof.
  intros n [l|l|l|] c; cbn [path_selectsb path_selects]; try apply steps_selectb_ok; [|split; [discriminate|tauto]].
  rewrite some_suffix_ok. split; intros (above & below & E & H); exists above, below; (split; [exact E|]); apply steps_selectb_ok; exact H.
Qed.
Definition pattern_selectsb (n : nsmap) (e : pattern) (c : list kind) : bool := existsb (fun p => path_selectsb n p c) e.
Lemma pattern_selectsb_ok : forall n e c, pattern_selectsb n e c = true <-> pattern_selects n e c.
Proof.
  intros n e c. unfold pattern_selectsb, pattern_selects. rewrite existsb_exists. split; intros (p & H & K); exists p; (split; [exact H|]); apply path_selectsb_ok; exact K.
Qed.
Definition selb (n : nsmap) (l : list pattern) (i : nat) (c : list kind) : bool := match nth_error l i with Some e => pattern_selectsb n e c | None => false end.
Lemma selb_decides : forall n l, decides n l (selb n l).
Proof.
  intros n l i c. unfold selb. destruct (nth_error l i) as [e|]; [rewrite pattern_selectsb_ok|].
  - split; [intros H; exists e; auto|intros (e' & [= ->] & H); exact H].
  - split; [discriminate|intros (e & K & _); discriminate K].
Qed.

Definition xtest_eqb (a b : option xtest) : bool :=
  match a, b with
  | None, None => true
  | Some XAny, Some XAny => true
  | Some (XNs u), Some (XNs v) => str_eqb u v
  | Some (XName n l), Some (XName n' l') => opt_eqb n n' && str_eqb l l'
  | Some (XPi t), Some (XPi t') => opt_eqb t t'
  | _, _ => false
  end.
Lemma xtest_eqb_eq : forall a b, xtest_eqb a b = true -> a = b.
Proof.
  intros [[|u|n l|t]|] [[|u'|n' l'|t']|]; cbn; try discriminate; auto.
  - intros H. apply str_eqb_eq in H. congruence.
  - intros H. apply andb_true_iff in H. destruct H as [H1 H2]. apply opt_eqb_eq in H1. apply str_eqb_eq in H2. congruence.
  - intros H. apply opt_eqb_eq in H. congruence.
Qed.
Definition unambiguousb (n : nsmap) (l : list pattern) (doc : list item) : bool :=
  forallb (fun k => forallb (fun s => forallb (fun s' => negb (step_selectsb n s k && step_selectsb n s' k) || xtest_eqb (expand n (nt s)) (expand n (nt s'))) (all_steps l)) (all_steps l)) (doc_kinds doc).
Lemma unambiguousb_ok : forall n l doc, unambiguousb n l doc = true -> unambiguous n l doc.
Proof.
  intros n l doc H k s s' Hk Hs Hs' A B. unfold unambiguousb in H. rewrite forallb_forall in H. specialize (H k Hk). rewrite forallb_forall in H. specialize (H s Hs).
  rewrite forallb_forall in H. specialize (H s' Hs'). apply step_selectsb_ok in A. apply step_selectsb_ok in B. rewrite A, B in H. apply xtest_eqb_eq. exact H.
Qed.
Definition unprefixedb (l : list pattern) (doc : list item) : bool :=
  forallb (fun k => match k with
    | KElem nm | KAttr nm => forallb (fun s => match nt s with LocalName x => negb (str_eqb x (snd nm)) || match fst nm with None => true | _ => false end | _ => true end) (all_steps l)
    | KPi _ => true end) (doc_kinds doc).
Lemma unprefixedb_ok : forall l doc, unprefixedb l doc = true -> unprefixed_in_no_namespace l doc.
Proof.
  intros l doc H s nm Hs E K. unfold unprefixedb in H. rewrite forallb_forall in H.
  assert (forallb (fun s => match nt s with LocalName x => negb (str_eqb x (snd nm)) || match fst nm with None => true | _ => false end | _ => true end) (all_steps l) = true) as F by (destruct K as [K|K]; exact (H _ K)).
  rewrite forallb_forall in F. specialize (F s Hs). rewrite E in F. rewrite (proj2 (str_eqb_eq (snd nm) (snd nm)) eq_refl) in F. destruct (fst nm); [discriminate F|reflexivity].
Qed.
