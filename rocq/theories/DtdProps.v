(** * Properties C36, C37 and C44: DTD validation

    Statements only; proofs are in DtdNfa, DtdDfa and DtdValid, the vocabulary in
    DtdSpec.  [order] is the order in which dictionaries are gone through: any
    permutation, possibly another one for every dictionary. *)
From Coq Require Import NArith ZArith String List Bool Lia Arith Permutation.
From Verif Require Import PyStr PyErr DtdModel DtdSpec DtdNfa DtdDfa DtdValid.
Import ListNotations.
Local Open Scope nat_scope.

Definition any_order (order : forall A, list A -> list A) : Prop := forall A (l : list A), Permutation (order A l) l.
Definition same_order : forall A, list A -> list A := fun _ l => l.
Example same_order_ok : any_order same_order.
Proof. intros A l. apply Permutation_refl. Qed.

(** ** C36 *)
(** Compiling a content model succeeds, and the automaton accepts a sequence of
    names iff it matches the model.  The full statement would have this for every
    model; missing: models with an empty sequence in them, which the XML grammar
    excludes but the constructor allows.  The automaton can go on after some names
    iff they are the beginning of a match. *)
Theorem C36_language_partial : forall order c, any_order order -> proper c ->
  exists d, compile order c = Ok d /\
    (forall names, accepts d (map EName names) = true <-> matches c (map EName names)) /\
    (inhabited c -> forall names, walk d 0 (map EName names) <> None <-> exists more, matches c (map EName names ++ more)).
Proof.
  intros order c O P. destruct (compile_spec order O c P) as [d [R [H [_ W]]]]. exists d. split; [exact R|]. split; [intros names; apply H|]. intros IL names. apply (W IL).
  intros I. apply in_map_iff in I. destruct I as [x [C _]]. discriminate.
Qed.
Print Assumptions C36_language_partial.
(** For every sequence of events, "#PCDATA" and the tokens included. *)
Theorem C36_events_partial : forall order c, any_order order -> proper c -> exists d, compile order c = Ok d /\ forall w, accepts d w = true <-> matches c w.
Proof. intros order c O P. destruct (compile_spec order O c P) as [d [R [H _]]]. eauto. Qed.
Print Assumptions C36_events_partial.
(** ContentModel(SEQ, ()) matches the empty content, its automaton does not. *)
Theorem C36_empty_sequence_refuted : exists c d, compile same_order c = Ok d /\ matches c [] /\ accepts d [] = false.
Proof.
  exists (CSeq One []). eexists. split; [vm_compute; reflexivity|]. split; [|vm_compute; reflexivity]. apply m_one; [reflexivity|]. constructor. constructor.
Qed.
Print Assumptions C36_empty_sequence_refuted.

(** (a, (b | c)*, d?)+ *)
Definition a_model : content := CSeq Plus [CName One (lit "a"); CAlt Rep [CName One (lit "b"); CName One (lit "c")]; CName Opt (lit "d")].
Example C36_case :
  proper a_model /\ inhabited a_model /\
  rmap (fun d => map (fun names => accepts d (map EName names))
    [[lit "a"; lit "c"; lit "b"; lit "d"; lit "a"]; [lit "a"]; []; [lit "a"; lit "d"; lit "b"]; [lit "b"]]) (compile same_order a_model) = Ok [true; true; false; false; false].
Proof. split; [cbn; repeat split; discriminate|]. split; [cbn; repeat split; discriminate|]. vm_compute. reflexivity. Qed.

(** ** C37 *)
(** Validating a document gives a verdict for every element; see [judged].  The
    root is accepted iff it is the one the DOCTYPE declaration names.  The full
    statement has "undeclared elements accept everything" too. *)
Theorem C37_verdicts_partial : forall order ds doctype root kids, any_order order -> Forall (fun d => proper_spec (snd d)) ds ->
  exists r, validate_document order ds doctype root kids = Ok r /\ (accepted r = true <-> doctype = root) /\ judged ds (Elem root kids) r.
Proof.
  intros order ds doctype root kids O P. destruct (validate_document_spec order O ds doctype root kids P) as [dcl [rs [cmp [R J]]]]. eexists. split; [exact R|]. split; [cbn; apply str_eqb_eq|exact J].
Qed.
Print Assumptions C37_verdicts_partial.
(** No element of a document is reported in error iff the document is valid. *)
Theorem C37_document : forall order ds doctype root kids, any_order order -> Forall (fun d => proper_spec (snd d)) ds ->
  exists r, validate_document order ds doctype root kids = Ok r /\ (no_errors r = true <-> doctype = root /\ valid ds (Elem root kids)).
Proof.
  intros order ds doctype root kids O P. destruct (C37_verdicts_partial order ds doctype root kids O P) as [r [R [A J]]]. exists r. split; [exact R|]. rewrite (judged_no_errors ds _ _ J), A. tauto.
Qed.
Print Assumptions C37_document.
(** An undeclared element is judged by the state a finished element left behind:
    [<r><a/><u><a/></u></r>] with [r] and [a] declared, [u] not. *)
Definition undeclared_ds : list (str * spec) := [(lit "r", DAny); (lit "a", DEmpty)].
Theorem C37_undeclared_refuted : exists ds kids r, Forall (fun d => proper_spec (snd d)) ds /\ declaration ds (lit "u") = None /\
  validate_document same_order ds (lit "r") (lit "r") (kids ++ [Elem (lit "u") [Elem (lit "a") []]]) = Ok r /\
  exists rs cmp0 cmp cmp1, r = RElem true true (rs ++ [RElem true false [RElem false true [] cmp0] cmp]) cmp1.
Proof.
  exists undeclared_ds, [Elem (lit "a") []]. eexists. split; [repeat constructor|]. split; [reflexivity|]. split; [vm_compute; reflexivity|].
  eexists [_], _, _, _. reflexivity.
Qed.
Print Assumptions C37_undeclared_refuted.

Definition a_dtd : list (str * spec) :=
  [(lit "r", DContent a_model); (lit "a", DEmpty); (lit "b", DContent (CMixed Rep [CName One (lit "c"); CName One (lit "b")])); (lit "c", DAny); (lit "d", DContent (CSeq One [CName One (lit "a")]))].
Definition a_document : list node :=
  [Text true true; Elem (lit "a") []; Elem (lit "b") [Text false false; Elem (lit "c") [Elem (lit "r") [Elem (lit "a") []]; Text false true]; Text true false]; Elem (lit "d") [Text true false; Elem (lit "a") []]].
Example C37_case :
  Forall (fun d => proper_spec (snd d)) a_dtd /\ Forall (fun d => inhabited_spec (snd d)) a_dtd /\
  rmap no_errors (validate_document same_order a_dtd (lit "r") (lit "r") a_document) = Ok true /\
  rmap no_errors (validate_document same_order a_dtd (lit "r") (lit "r") (a_document ++ [Elem (lit "b") []])) = Ok false.
Proof.
  split; [repeat constructor; discriminate|]. split; [repeat constructor; discriminate|]. split; vm_compute; reflexivity.
Qed.

(** ** C44 *)
(** What becomes of the texts in the content of declared elements; see
    [text_spec].  Missing from the full statement: white space in elements
    declared ANY. *)
Theorem C44_text_partial : forall order ds doctype root kids r, any_order order -> Forall (fun d => proper_spec (snd d)) ds ->
  validate_document order ds doctype root kids = Ok r -> texts_judged ds (Elem root kids) r.
Proof. intros order ds doctype root kids r O P. apply (validate_document_texts order O ds doctype root kids r P). Qed.
Print Assumptions C44_text_partial.
(** White space that is not preserved is an error in an element declared ANY. *)
Theorem C44_any_whitespace_refuted : exists cmp, validate_document same_order [(lit "r", DAny)] (lit "r") (lit "r") [Text true false] = Ok (RElem true true [RText InvalidText] cmp).
Proof. eexists. vm_compute. reflexivity. Qed.
Print Assumptions C44_any_whitespace_refuted.
(** Text in an undeclared element: the name of a NULL element type is taken. *)
Theorem C44_undeclared_refuted : exists r, validate_document same_order undeclared_ds (lit "r") (lit "r") [Elem (lit "a") []; Elem (lit "u") [Text false false]] = Ok r /\
  exists a c1 c2, r = RElem true true [a; RElem true false [RText NullType] c1] c2.
Proof. eexists. split; [vm_compute; reflexivity|]. eexists _, _, _. reflexivity. Qed.
Print Assumptions C44_undeclared_refuted.
Example C44_case :
  Forall (fun d => xml_spec (snd d)) a_dtd /\
  exists c1 c2 c3 c4 c5 c6 c7, validate_document same_order a_dtd (lit "r") (lit "r") a_document =
    Ok (RElem true true
      [RText Ignorable; RElem true true [] c1;
       RElem true true [RText Characters; RElem true true [RElem true true [RElem true true [] c2] c3; RText Characters] c4; RText Dropped] c5;
       RElem true true [RText Dropped; RElem true true [] c6] c7] true).
Proof.
  split.
  - repeat constructor; try discriminate. intros x [<-|[<-|[]]]; eauto.
  - eexists _, _, _, _, _, _, _. vm_compute. reflexivity.
Qed.
