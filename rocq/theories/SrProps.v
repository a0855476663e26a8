(** * C96 to C99: reading stylesheets *)
From Coq Require Import NArith ZArith String List Bool Lia Arith Permutation.
From Verif Require Import PyStr PyErr DtdModel DtdSpec DtdDfa DtdProps SrModel SrSpec SrMatch SrAttrs SrRead SrDoc SrCache SrErr.
Import ListNotations.
Local Open Scope nat_scope.

(** ** A world and documents *)
Definition number_of (v : str) : option num :=
  if str_eqb v (lit "1.0") then Some NOne else if str_eqb v (lit "0") then Some NZero else if str_eqb v (lit "2.0") then Some NOther else None.
Definition no_values (_ _ : option str * str) (_ : list (option str * str)) (v : str) : bool := negb (str_eqb v (lit "bad")).
Definition a_pair : content := CSeq One [CName One (lit "if"); CName One (lit "if")].
Definition extension (ns : option str) (n : str) : option (content * option (list (str * bool))) :=
  if str_eqb n (lit "pair") then Some (a_pair, None) else if str_eqb n (lit "loop") then Some (m_template, Some [req "times"]) else None.
Definition a_world (high : Z) : world :=
  {| w_order := fun _ l => l; w_number := number_of; w_prefixes := fun v => Some [Some v]; w_value := no_values; w_name := fun _ v => v; w_ext := extension; w_high := high |}.
Definition plain_world : world :=
  {| w_order := fun _ l => l; w_number := number_of; w_prefixes := fun v => Some [Some v]; w_value := no_values; w_name := fun _ v => v;
     w_ext := fun _ n => if str_eqb n (lit "loop") then Some (m_template, Some [req "times"]) else None; w_high := 0 |}.
Lemma a_good high : good_world (a_world high).
Proof.
  split; [intros A l; apply Permutation_refl|]. intros ns n m ts E. cbn [a_world w_ext] in E. unfold extension in E.
  destruct (str_eqb n (lit "pair")); [injection E as <- _; cbn; intuition discriminate|]. destruct (str_eqb n (lit "loop")); [injection E as <- _; apply template_proper|discriminate E].
Qed.
Lemma plain_good : good_world plain_world /\ open_ended plain_world.
Proof.
  split; [split; [intros A l; apply Permutation_refl|]|]; intros ns n m ts; cbn [plain_world w_ext]; destruct (str_eqb n (lit "loop")); intros H; try discriminate H; injection H as <- _.
  - apply template_proper.
  - split; [exact inhabited_template|exact template_may_end].
Qed.
Definition X (n : string) (attrs : list (str * str)) : elem := {| e_ns := Some XSL_NAMESPACE; e_local := lit n; e_scope := [(Some (lit "x"), lit "urn:x")]; e_attrs := map (fun t => ((None, fst t), snd t)) attrs |}.
Definition R (ns : option str) (n : string) (attrs : list ((option str * str) * str)) : elem := {| e_ns := ns; e_local := lit n; e_scope := [(Some (lit "x"), lit "urn:x")]; e_attrs := attrs |}.
Definition pair (a v : string) : str * str := (lit a, lit v).
Definition of_xsl (a v : string) : (option str * str) * str := ((Some XSL_NAMESPACE, lit a), lit v).
(** A stylesheet with variables, a choice, a literal result element and an
    extension element. *)
Definition sheet (version : string) : elem := X "stylesheet" [pair "version" version; pair "extension-element-prefixes" "x"].
Definition body : list snode :=
  [SElem (X "param" [pair "name" "p"]) [];
   SElem (X "template" [pair "match" "/"])
     [SElem (X "param" [pair "name" "q"]) [];
      SElem (R None "out" [of_xsl "version" "1.0"]) [SText (lit "t"); SElem (X "variable" [pair "name" "v"; pair "select" "1"]) []; SElem (X "value-of" [pair "select" "$v"]) []];
      SElem (X "choose" []) [SElem (X "when" [pair "test" "$q"]) [SText (lit "a")]; SElem (X "otherwise" []) []];
      SElem (R (Some (lit "urn:x")) "loop" [((None, lit "times"), lit "3")]) [SElem (X "if" [pair "test" "1"]) []]]].
Ltac each := cbn; repeat (split || constructor); try (repeat constructor; cbn; intuition discriminate); try (intros [? [?|?]]; discriminate); try (intros ?; discriminate).
Lemma body_regular v : regular (sheet v) body.
Proof. each. Qed.
Lemma body_known v : known_only (sheet v) body.
Proof. each. Qed.

(** ** C96: the stylesheets that are accepted *)
(** A document is accepted if and only if it is a correct stylesheet. *)
Theorem C96_accepted_partial w docs e kids : good_world w -> Forall (undisturbing w) docs ->
  regular e kids -> known_only e kids \/ (exists b, one_version w b e kids) -> version_not_zero w e ->
  ((exists t, snd (read_document w e kids (read_all w docs [])) = Ok t) <-> stylesheet_ok w e kids).
Proof.
  intros G D Rg V Z. assert (honest w false (read_all w docs [])) as H by (apply (history_honest w G); [exact D|apply honest_nil]).
  assert (snd (read_document w e kids (read_all w docs [])) = rdoc w e kids) as ->.
  { destruct V as [K|(b & V)]; [destruct (sim_known w G e kids _ H K) as (c & -> & _)|destruct (sim_version w G b e kids _ H Rg V) as (c & -> & _)]; reflexivity. }
  destruct Rg as (ND & NDs & NSs). assert (Forall node_ok kids) as OK by (rewrite Forall_forall in *; intros x I; split; auto). split.
  - intros (t & E). apply (rdoc_iff w G e kids t ND OK Z) in E. apply E.
  - intros S. exists (made_sheet w e kids). apply (rdoc_iff w G e kids _ ND OK Z). auto.
Qed.
Print Assumptions C96_accepted_partial.
Definition accepted (w : world) (e : elem) (kids : list snode) : bool := match snd (read_document w e kids []) with Ok _ => true | Err _ => false end.
Example C96_case : accepted (a_world 0) (sheet "1.0") body = true /\ regular (sheet "1.0") body /\ known_only (sheet "1.0") body /\ stylesheet_ok (a_world 0) (sheet "1.0") body /\
  accepted (a_world 0) (sheet "1.0") (SElem (X "param" [pair "name" "p"]) [] :: body) = false /\
  accepted (a_world 0) (sheet "1.0") [SElem (X "foo" []) []] = false /\ accepted (a_world 0) (sheet "2.0") [SElem (X "foo" []) []] = true /\
  accepted (a_world 0) (X "stylesheet" []) body = false.
Proof.
  assert (accepted (a_world 0) (sheet "1.0") body = true) as A by (vm_compute; reflexivity).
  split; [exact A|]. split; [apply body_regular|]. split; [apply body_known|]. split; [|vm_compute; auto].
  apply (C96_accepted_partial (a_world 0) [] (sheet "1.0") body (a_good 0) (Forall_nil _) (body_regular _) (or_introl (body_known _))).
  - intros E. discriminate E.
  - unfold accepted in A. cbn [read_all]. destruct (snd (read_document (a_world 0) (sheet "1.0") body [])) as [t|]; [eauto|discriminate A].
Qed.
(** A literal result element with version 0 is a correct stylesheet, but it is
    refused. *)
Theorem C96_zero_refuted : exists w e kids, good_world w /\ regular e kids /\ known_only e kids /\ stylesheet_ok w e kids /\
  snd (read_document w e kids []) = Err INVALID_ATTR.
Proof.
  exists (a_world 0), (R None "out" [of_xsl "version" "0"]), [SText (lit "t")]. split; [apply a_good|]. split; [each|]. split; [each|]. split; [|vm_compute; reflexivity].
  split.
  - cbn [correct]. unfold role_of. cbn [in_xsl R e_ns existsb nowhere x_exts ostr_eqb]. split; [|split; [intros E; discriminate E|split; [|auto]]].
    + intros ns a v [E|[]]. injection E as <- <- <-. split; [intros _; split; [cbn; auto|discriminate]|congruence].
    + constructor; [exact Logic.I|constructor].
  - right. split; [reflexivity|]. split; [cbn; auto|discriminate].
Qed.
Print Assumptions C96_zero_refuted.
(** In a stylesheet for a later version an unknown top-level element is to be
    ignored, with its content (XSLT 1.0, section 2.5).  With xsl:param in it the
    stylesheet is refused. *)
Theorem C96_forwards_refuted : exists w e ignored, good_world w /\ in_xsl (sheet "2.0") = true /\ row attribute_table (e_local e) = None /\
  (exists t, snd (read_document w (sheet "2.0") [] []) = Ok t) /\ snd (read_document w (sheet "2.0") [SElem e ignored] []) = Err ILLEGAL_ELEMENT_CHILD.
Proof.
  exists (a_world 0), (X "function" [pair "name" "x:f"]), [SElem (X "param" [pair "name" "p"]) []]. split; [apply a_good|]. split; [reflexivity|]. split; [reflexivity|].
  split; [eexists|]; vm_compute; reflexivity.
Qed.
Print Assumptions C96_forwards_refuted.

(** ** C97: the tree that is built *)
(** An accepted stylesheet becomes the tree of its elements and text, with nodes
    that save and restore the variables around the content of every element that
    declares one. *)
Theorem C97_built_partial w docs e kids t : good_world w -> w_high w = 0%Z -> Forall (undisturbing w) docs ->
  regular e kids -> known_only e kids \/ (exists b, one_version w b e kids) -> version_not_zero w e ->
  snd (read_document w e kids (read_all w docs [])) = Ok t -> t = built_sheet w e kids.
Proof.
  intros G HI D Rg V Z. assert (honest w false (read_all w docs [])) as H by (apply (history_honest w G); [exact D|apply honest_nil]).
  assert (snd (read_document w e kids (read_all w docs [])) = rdoc w e kids) as ->.
  { destruct V as [K|(b & V)]; [destruct (sim_known w G e kids _ H K) as (c & -> & _)|destruct (sim_version w G b e kids _ H Rg V) as (c & -> & _)]; reflexivity. }
  destruct Rg as (ND & NDs & NSs). assert (Forall node_ok kids) as OK by (rewrite Forall_forall in *; intros x I; split; auto).
  intros E. apply (rdoc_iff w G e kids t ND OK Z) in E. destruct E as [_ ->]. apply made_built_sheet. exact HI.
Qed.
Print Assumptions C97_built_partial.
Definition scoped : list snode := [SElem (X "template" []) [SElem (X "variable" [pair "name" "v"]) []; SText (lit "t")]].
Definition scoped_tree (nodes : list xnode) : xnode := XElem (sheet "1.0") [XElem (X "template" []) nodes].
Example C97_case : snd (read_document (a_world 0) (sheet "1.0") scoped []) = Ok (scoped_tree [XPush; XElem (X "variable" [pair "name" "v"]) []; XText (lit "t"); XPop]) /\
  regular (sheet "1.0") scoped /\ known_only (sheet "1.0") scoped /\ version_not_zero (a_world 0) (sheet "1.0").
Proof. split; [vm_compute; reflexivity|]. split; [each|]. split; [each|]. intros E. discriminate E. Qed.
(** With rubbish in the upper half of the index the variables are saved after
    they have been declared. *)
Theorem C97_index_refuted : exists w e kids, good_world w /\ regular e kids /\ known_only e kids /\
  snd (read_document w e kids []) = Ok (scoped_tree [XElem (X "variable" [pair "name" "v"]) []; XText (lit "t"); XPush; XPop]).
Proof. exists (a_world 1), (sheet "1.0"), scoped. split; [apply a_good|]. split; [each|]. split; [each|]. vm_compute. reflexivity. Qed.
Print Assumptions C97_index_refuted.

(** ** C98: stylesheets do not disturb each other *)
(** What a document gives does not depend on the documents read before, if those
    have elements of XSLT 1.0 only, or are for version 1.0 only. *)
Theorem C98_history_partial w docs e kids : good_world w -> Forall (undisturbing w) docs ->
  snd (read_document w e kids (read_all w docs [])) = snd (read_document w e kids []).
Proof. intros G D. apply (history w G). exact D. Qed.
Print Assumptions C98_history_partial.
Example C98_case : Forall (undisturbing (a_world 0)) [(sheet "2.0", body); (sheet "1.0", [SElem (X "foo" []) []])] /\
  (exists t, snd (read_document (a_world 0) (sheet "2.0") [SElem (X "foo" []) []] (read_all (a_world 0) [(sheet "2.0", body); (sheet "1.0", [SElem (X "foo" []) []])] [])) = Ok t).
Proof.
  split; [|eexists; vm_compute; reflexivity]. constructor; [|constructor; [|constructor]].
  - split; [apply body_regular|left; apply body_known].
  - split; [each|right]. split; [|each]. intros r E. injection E as <-. reflexivity.
Qed.
(** A stylesheet for a later version makes the reader accept, in later
    stylesheets, what they are refused for when they are read first. *)
Theorem C98_history_refuted : exists w before e kids, good_world w /\ regular (fst before) (snd before) /\ regular e kids /\ one_version w true (fst before) (snd before) /\ one_version w false e kids /\
  snd (read_document w e kids []) = Err ILLEGAL_ELEMENT /\ exists t, snd (read_document w e kids (read_all w [before] [])) = Ok t.
Proof.
  exists (a_world 0), (sheet "2.0", [SElem (X "foo" []) []]), (sheet "1.0"), [SElem (X "foo" []) []]. split; [apply a_good|]. split; [each|]. split; [each|].
  split; [split; [intros r E; injection E as <-; reflexivity|each]|]. split; [split; [intros r E; injection E as <-; reflexivity|each]|].
  split; [vm_compute; reflexivity|]. eexists. vm_compute. reflexivity.
Qed.
Print Assumptions C98_history_refuted.

(** ** C99: what is refused is refused with an error of XSLT *)
Theorem C99_errors_partial w docs e kids er : good_world w -> open_ended w -> Forall (undisturbing w) docs ->
  regular e kids -> known_only e kids \/ (exists b, one_version w b e kids) ->
  sheet_elem_name e \/ in_xsl e = false -> everywhere (prefixes_declared w) (SElem e kids) ->
  snd (read_document w e kids (read_all w docs [])) = Err er -> xslt_error er.
Proof.
  intros G O D Rg V De P. assert (honest w false (read_all w docs [])) as H by (apply (history_honest w G); [exact D|apply honest_nil]).
  assert (snd (read_document w e kids (read_all w docs [])) = rdoc w e kids) as ->.
  { destruct V as [K|(b & V)]; [destruct (sim_known w G e kids _ H K) as (c & -> & _)|destruct (sim_version w G b e kids _ H Rg V) as (c & -> & _)]; reflexivity. }
  destruct Rg as (ND & NDs & NSs). apply (rdoc_err w G O e kids er De P NSs ND).
Qed.
Print Assumptions C99_errors_partial.
Example C99_case : good_world plain_world /\ open_ended plain_world /\ everywhere (prefixes_declared plain_world) (SElem (sheet "1.0") [SElem (X "template" []) [SElem (X "choose" []) []]]) /\
  sheet_elem_name (sheet "1.0") /\ snd (read_document plain_world (sheet "1.0") [SElem (X "template" []) [SElem (X "choose" []) []]] []) = Err MISSING_REQUIRED_ELEMENT.
Proof.
  split; [apply plain_good|]. split; [apply plain_good|]. split; [|split; [split; [reflexivity|left; reflexivity]|vm_compute; reflexivity]].
  assert (forall e, e_attrs e = [] -> prefixes_declared plain_world e) as K by (intros e E ns a v ps I; rewrite E in I; destruct I).
  cbn [everywhere]. split; [|split; [split; [apply K; reflexivity|split; [split; [apply K; reflexivity|exact Logic.I]|exact Logic.I]]|exact Logic.I]].
  intros ns a v ps I E Q q Iq. cbn in Q. injection Q as <-. destruct Iq as [<-|[]]. destruct I as [I|[I|[]]]; injection I as <- <- <-; destruct E as [E|E]; discriminate.
Qed.
(** A document element that belongs elsewhere, a prefix that is not declared, an
    extension element that is not complete, and an unknown document element after
    a stylesheet for a later version. *)
Theorem C99_document_element_refuted : exists w e kids, good_world w /\ regular e kids /\ known_only e kids /\ snd (read_document w e kids []) = Err AttributeError.
Proof. exists (a_world 0), (X "template" []), []. split; [apply a_good|]. split; [each|]. split; [each|]. vm_compute. reflexivity. Qed.
Print Assumptions C99_document_element_refuted.
Theorem C99_prefix_refuted : exists w e kids, good_world w /\ regular e kids /\ known_only e kids /\ sheet_elem_name e /\ snd (read_document w e kids []) = Err KeyError.
Proof.
  exists (a_world 0), (X "stylesheet" [pair "version" "1.0"; pair "exclude-result-prefixes" "y"]), []. split; [apply a_good|]. split; [each|]. split; [each|]. split; [split; [reflexivity|left; reflexivity]|]. vm_compute. reflexivity.
Qed.
Print Assumptions C99_prefix_refuted.
Theorem C99_incomplete_refuted : exists w e kids, good_world w /\ regular e kids /\ known_only e kids /\ sheet_elem_name e /\ snd (read_document w e kids []) = Err KeyError.
Proof.
  exists (a_world 0), (sheet "1.0"), [SElem (X "template" []) [SElem (R (Some (lit "urn:x")) "pair" []) [SElem (X "if" [pair "test" "1"]) []]]]. split; [apply a_good|]. split; [each|]. split; [each|].
  split; [split; [reflexivity|left; reflexivity]|]. vm_compute. reflexivity.
Qed.
Print Assumptions C99_incomplete_refuted.
Theorem C99_assertion_refuted : exists w before e kids, good_world w /\ regular e kids /\ snd (read_document w e kids (read_all w [before] [])) = Err AssertionError.
Proof. exists (a_world 0), (sheet "2.0", [SElem (X "foo" []) []]), (X "foo" []), []. split; [apply a_good|]. split; [each|]. vm_compute. reflexivity. Qed.
Print Assumptions C99_assertion_refuted.
