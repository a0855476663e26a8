(** * C85 to C89: what a reader reports *)
From Coq Require Import NArith String List Bool Lia Arith Sorted Permutation.
From Verif Require Import PyStr PyErr RdModel RdSpec RdProofs RdOrder.
Import ListNotations.

(** A name and an attribute, for the examples. *)
Definition plain (s : string) : xname := {| x_ns := None; x_local := lit s; x_qname := lit s |}.
Definition within (u s : string) : xname := {| x_ns := Some (lit u); x_local := lit s; x_qname := lit s |}.
Definition space_attr (v : string) : xattr :=
  {| a_name := {| x_ns := Some (lit "http://www.w3.org/XML/1998/namespace"); x_local := lit "space"; x_qname := lit "xml:space" |}; a_value := lit v |}.

(** ** C85: text is reported whole *)

(** For every document and every way in which Expat may cut up its text, a
    reader without stripping rules reports the nodes of the document, all text
    between two pieces of markup in one call. *)
Theorem C85_text_whole : forall l calls, reported l calls -> Forall single_space l ->
  content_events (snd (parse [] new_reader calls true)) = flat_map told (nodes inherited [] l).
Proof.
  intros l calls HR SS. destruct (parse_spec [] [] eq_refl l calls new_reader HR SS eq_refl eq_refl) as (ev & E & C).
  rewrite E; cbn [snd]. rewrite C. unfold nodes. cbn [new_reader rd_preserve peek hd].
  assert (EP : forall i inh inh', parts fresh_entity [] inh i = parts inherited [] inh' i).
  { apply (item_ind' (fun i => forall inh inh', parts fresh_entity [] inh i = parts inherited [] inh' i)); intros; try reflexivity.
    - cbn [parts]. change (stripped [] n) with false. cbn [negb]. rewrite !orb_true_r. do 4 f_equal.
      apply flat_map_same. rewrite Forall_forall in *. intros x HIn; apply H; exact HIn.
    - cbn [parts]. apply flat_map_same. rewrite Forall_forall in *. intros x HIn; apply H; exact HIn. }
  rewrite (flat_map_same (parts fresh_entity [] false) (parts inherited [] false) l); [reflexivity|].
  apply Forall_forall; intros x _; apply EP.
Qed.
Print Assumptions C85_text_whole.

(** The way Expat cuts up the text does not matter, whatever the rules. *)
Theorem C85_chunks_irrelevant : forall rules l calls calls', reported l calls -> reported l calls' -> Forall single_space l ->
  forall rs, create_rules rules = Ok rs ->
  content_events (snd (parse rs new_reader calls true)) = content_events (snd (parse rs new_reader calls' true)).
Proof.
  intros rules l calls calls' H1 H2 SS rs E.
  destruct (parse_spec rules rs E l calls new_reader H1 SS eq_refl eq_refl) as (e1 & E1 & C1).
  destruct (parse_spec rules rs E l calls' new_reader H2 SS eq_refl eq_refl) as (e2 & E2 & C2).
  rewrite E1, E2; cbn [snd]. congruence.
Qed.
Print Assumptions C85_chunks_irrelevant.

(** Whatever Expat does, the handler never gets an empty text, nor two texts
    in a row. *)
Lemma flush_cases : forall r, exists ev, charbuf_flush r = (emptied r, ev) /\ (ev = [] \/ exists s, s <> [] /\ ev = [EText s]).
Proof.
  intros r; destruct (flush_spec r) as (ev & E & _ & _). exists ev; split; [exact E|].
  unfold charbuf_flush in E. destruct (rd_buffer r) as [|c b] eqn:EB; apply (f_equal snd) in E; cbn [snd] in E; subst ev; [left; reflexivity|].
  destruct (forallb is_space_char (c :: b)); [destruct (peek (rd_preserve r))|]; [right|left; reflexivity|right]; exists (c :: b); split; try reflexivity; discriminate.
Qed.
(** A text is followed by something else. *)
Inductive spaced : list event -> Prop :=
| sp_nil : spaced []
| sp_text : forall s e l, s <> [] -> (forall u, e <> EText u) -> spaced l -> spaced (EText s :: e :: l)
| sp_other : forall e l, (forall u, e <> EText u) -> spaced l -> spaced (e :: l).
Lemma spaced_app : forall l1 l2, spaced l1 -> spaced l2 -> spaced (l1 ++ l2).
Proof. intros l1 l2 H H2; induction H; cbn [app]; [exact H2|constructor; assumption|constructor; assumption]. Qed.
Lemma step_spaced : forall rules r c, spaced (content_events (snd (step rules r c))).
Proof.
  intros rules r c.
  assert (F : forall e, (forall u, e <> EText u) -> not_mark e = true -> spaced (content_events (snd (flushing r e)))).
  { intros e NE NM. unfold flushing. destruct (flush_cases r) as (ev & E & [->|(s & NS & ->)]); rewrite E; unfold content_events; cbn [snd app filter]; rewrite NM; cbn [not_mark].
    - apply sp_other; [exact NE|constructor].
    - apply sp_text; [exact NS|exact NE|constructor]. }
  destruct c; cbn [step]; try (apply F; [discriminate|reflexivity]); try constructor.
  - unfold start_element. destruct (flush_cases r) as (ev & E & [->|(s & NS & ->)]); rewrite E; cbn.
    + apply sp_other; [discriminate|constructor].
    + apply sp_text; [exact NS|discriminate|constructor].
  - unfold end_element. destruct (flush_cases r) as (ev & E & [->|(s & NS & ->)]); rewrite E; cbn.
    + apply sp_other; [discriminate|constructor].
    + apply sp_text; [exact NS|discriminate|constructor].
Qed.
Lemma steps_spaced : forall rules calls r, spaced (content_events (snd (steps rules r calls))).
Proof.
  induction calls as [|c calls IH]; intros r; cbn [steps]; [constructor|].
  pose proof (step_spaced rules r c) as H1. destruct (step rules r c) as [r1 e1]. specialize (IH r1). destruct (steps rules r1 calls) as [r2 e2].
  cbn [snd] in *. rewrite content_events_app. apply spaced_app; assumption.
Qed.
Lemma spaced_last : forall l, spaced l -> forall last, last = [] \/ (exists s, s <> [] /\ last = [EText s]) ->
  (forall s, In (EText s) (l ++ last) -> s <> []) /\ (forall l1 a b l2, l ++ last <> l1 ++ EText a :: EText b :: l2).
Proof.
  intros l H last HL; induction H as [|s e l NS NE H IH|e l NE H IH].
  - split.
    + intros s HIn; destruct HL as [->|(t & NT & ->)]; [contradiction HIn|]. destruct HIn as [E|[]]; injection E as <-; exact NT.
    + intros l1 a b l2 E; destruct HL as [->|(t & NT & ->)]; destruct l1 as [|x [|y l1]]; discriminate E.
  - destruct IH as [I1 I2]. split.
    + intros u HIn; cbn [app] in HIn; destruct HIn as [E|[E|HIn]]; [injection E as <-; exact NS|contradiction (NE u E)|exact (I1 u HIn)].
    + intros l1 a b l2 E. cbn [app] in E. destruct l1 as [|x [|y l1]]; cbn [app] in E.
      * injection E as _ E1 _. exact (NE b E1).
      * injection E as _ E1 _. exact (NE a E1).
      * injection E as _ _ E. exact (I2 _ _ _ _ E).
  - destruct IH as [I1 I2]. split.
    + intros u HIn; cbn [app] in HIn; destruct HIn as [E|HIn]; [contradiction (NE u E)|exact (I1 u HIn)].
    + intros l1 a b l2 E. cbn [app] in E. destruct l1 as [|x l1]; cbn [app] in E.
      * injection E as E1 _. exact (NE a E1).
      * injection E as _ E. exact (I2 _ _ _ _ E).
Qed.
Theorem C85_no_adjacent_text : forall rules r calls ok, let ev := content_events (snd (parse rules r calls ok)) in
  (forall s, In (EText s) ev -> s <> []) /\ (forall l1 a b l2, ev <> l1 ++ EText a :: EText b :: l2).
Proof.
  intros rules r calls ok. cbn zeta. unfold parse.
  pose proof (steps_spaced rules calls (begin_context r)) as HS. destruct (steps rules (begin_context r) calls) as [r1 e1]. cbn [snd] in HS.
  destruct ok.
  - destruct (flush_cases r1) as (ev & E & HL). rewrite E. cbn [snd]. rewrite content_events_app. apply spaced_last; [exact HS|].
    destruct HL as [->|(s & NS & ->)]; [left; reflexivity|right; exists s; split; [exact NS|reflexivity]].
  - cbn [snd]. rewrite content_events_app. apply spaced_last; [exact HS|left; reflexivity].
Qed.
Print Assumptions C85_no_adjacent_text.

(** Cases: text with a CDATA section, cut up in two ways. *)
Definition doc1 : list item := [Elem (plain "a") [(None, Some (lit "u"))] [] [Text (lit "x < "); Cdata (lit "y"); Text (lit " z"); Comm (lit "c"); Text (lit " ")]].
Definition calls1 : list raw :=
  [RNsStart None (Some (lit "u")); RStart (plain "a") []; RChars (lit "x "); RChars (lit "<"); RChars (lit " "); RCdataStart; RChars (lit "y"); RCdataEnd; RChars (lit " z");
   RComment (lit "c"); RChars (lit " "); REnd (plain "a"); RNsEnd None].
Example C85_case : reported doc1 calls1 /\ Forall single_space doc1
  /\ snd (parse [] new_reader calls1 true)
     = [ENsStart None (Some (lit "u")); EStart (plain "a") []; ECdataStart; ECdataEnd; EText (lit "x < y z"); EComment (lit "c"); EText (lit " "); EEnd (plain "a"); ENsEnd None].
Proof.
  split; [|split; [repeat constructor|vm_compute; reflexivity]].
  exact (rep_elem (plain "a") [(None, Some (lit "u"))] [] _ [] _ []
    (rep_text [lit "x "; lit "<"; lit " "] _ _ (rep_cdata [lit "y"] _ _ (rep_text [lit " z"] _ _ (rep_comm _ _ _ (rep_text [lit " "] _ _ rep_nil))))) rep_nil).
Qed.

(** The marks of a CDATA section do not enclose its text: both are reported
    before it. *)
Theorem C85_cdata_marks_refuted : exists l calls, reported l calls /\ Forall single_space l
  /\ l = [Elem (plain "a") [] [] [Cdata (lit "x")]]
  /\ snd (parse [] new_reader calls true) = [EStart (plain "a") []; ECdataStart; ECdataEnd; EText (lit "x"); EEnd (plain "a")].
Proof.
  exists [Elem (plain "a") [] [] [Cdata (lit "x")]], [RStart (plain "a") []; RCdataStart; RChars (lit "x"); RCdataEnd; REnd (plain "a")].
  split; [|split; [repeat constructor|split; [reflexivity|vm_compute; reflexivity]]].
  exact (rep_elem (plain "a") [] [] _ [] _ [] (rep_cdata [lit "x"] _ _ rep_nil) rep_nil).
Qed.
Print Assumptions C85_cdata_marks_refuted.

(** ** C86: white space is stripped by the rules *)

(** For every list of rules the reader accepts and every document that refers
    to no external entity inside xml:space="preserve", exactly the text nodes
    of white space are left out that stand in an element whose first matching
    rule says to strip and for which xml:space is not "preserve". *)
Theorem C86_stripping_partial : forall rules rs l calls, create_rules rules = Ok rs -> reported l calls -> Forall single_space l -> Forall (entities_outside false) l ->
  content_events (snd (parse rs new_reader calls true)) = flat_map told (nodes inherited rules l).
Proof.
  intros rules rs l calls E HR SS EO. destruct (parse_spec rules rs E l calls new_reader HR SS eq_refl eq_refl) as (ev & EP & C).
  rewrite EP; cbn [snd]. rewrite C. unfold nodes. cbn [new_reader rd_preserve peek hd].
  rewrite (flat_map_same (parts fresh_entity rules false) (parts inherited rules false) l); [reflexivity|].
  rewrite Forall_forall in *. intros x HIn; apply parts_outside; apply EO; exact HIn.
Qed.
Print Assumptions C86_stripping_partial.

(** The rules strip all elements but those of a namespace; xml:space overrides
    them, and is overridden in turn. *)
Definition rules2 : list (option str * str * bool) := [(Some (lit "u"), lit "keep", false); (Some (lit "u"), lit "*", true); (None, lit "*", true)].
Definition doc2 : list item :=
  [Elem (plain "a") [] [] [Text (lit " "); Elem (within "u" "keep") [] [] [Text (lit "  ")]; Text (lit " ");
     Elem (within "u" "b") [] [space_attr "preserve"] [Text (lit "   "); Elem (plain "c") [] [] [Text (lit "    ")]; Elem (plain "d") [] [space_attr "default"] [Text (lit " "); Cdata (lit " ")]]; Text (lit " t")]].
Fixpoint calls_of (i : item) : list raw :=
  match i with
  | Elem n ns atts ct => map (fun d => RNsStart (fst d) (snd d)) ns ++ RStart n atts :: flat_map calls_of ct ++ REnd n :: map (fun d => RNsEnd (fst d)) (rev ns)
  | Text s => [RChars s]
  | Cdata s => [RCdataStart; RChars s; RCdataEnd]
  | Instr t d => [RPI t d]
  | Comm s => [RComment s]
  | External ct => REntityStart :: flat_map calls_of ct ++ [REntityEnd]
  | Unread n => [RSkipped n]
  end.
(** The calls with every text in one chunk are a report. *)
Lemma calls_of_reported : forall l, reported l (flat_map calls_of l).
Proof.
  assert (K : forall i l r, reported l r -> reported (i :: l) (calls_of i ++ r)).
  { apply (item_ind' (fun i => forall l r, reported l r -> reported (i :: l) (calls_of i ++ r))); intros; cbn [calls_of app].
    - rewrite <- !app_assoc. cbn [app]. rewrite <- !app_assoc. cbn [app]. apply rep_elem; [|exact H0].
      clear H0. induction H as [|x ct HX HF IH]; cbn [flat_map]; [constructor|apply HX; exact IH].
    - pose proof (rep_text [s] l r H) as R. cbn [concat map app] in R. rewrite app_nil_r in R. exact R.
    - pose proof (rep_cdata [s] l r H) as R. cbn [concat map app] in R. rewrite app_nil_r in R. exact R.
    - apply rep_instr; exact H.
    - apply rep_comm; exact H.
    - rewrite <- app_assoc. cbn [app]. apply rep_external; [|exact H0].
      clear H0. induction H as [|x ct HX HF IH]; cbn [flat_map]; [constructor|apply HX; exact IH].
    - apply rep_unread; exact H. }
  induction l as [|i l IH]; cbn [flat_map]; [constructor|apply K; exact IH].
Qed.
Example C86_case : exists rs, create_rules rules2 = Ok rs /\ reported doc2 (flat_map calls_of doc2) /\ Forall single_space doc2 /\ Forall (entities_outside false) doc2
  /\ nodes inherited rules2 doc2 =
     [TElem (plain "a") [] [] [TElem (within "u" "keep") [] [] [TText (lit "  ")];
        TElem (within "u" "b") [] [space_attr "preserve"] [TText (lit "   "); TElem (plain "c") [] [] [TText (lit "    ")]; TElem (plain "d") [] [space_attr "default"] []]; TText (lit " t")]]
  /\ snd (parse rs new_reader (flat_map calls_of doc2) true) <> snd (parse [] new_reader (flat_map calls_of doc2) true).
Proof.
  eexists; split; [vm_compute; reflexivity|]. split; [apply calls_of_reported|].
  split; [repeat constructor|]. split; [repeat constructor|]. split; [vm_compute; reflexivity|]. intros E; vm_compute in E; discriminate E.
Qed.

(** An external entity inside xml:space="preserve": xml:space is not inherited
    by the elements of the entity, and their white space is lost. *)
Theorem C86_entity_refuted : exists rules rs l calls, create_rules rules = Ok rs /\ reported l calls /\ Forall single_space l
  /\ l = [Elem (plain "a") [] [space_attr "preserve"] [External [Elem (plain "b") [] [] [Text (lit " ")]]]]
  /\ flat_map told (nodes inherited rules l) = [EStart (plain "a") [space_attr "preserve"]; EStart (plain "b") []; EText (lit " "); EEnd (plain "b"); EEnd (plain "a")]
  /\ snd (parse rs new_reader calls true) = [EStart (plain "a") [space_attr "preserve"]; EStart (plain "b") []; EEnd (plain "b"); EEnd (plain "a")].
Proof.
  exists [(None, lit "*", true)]. eexists.
  exists [Elem (plain "a") [] [space_attr "preserve"] [External [Elem (plain "b") [] [] [Text (lit " ")]]]]. eexists.
  split; [vm_compute; reflexivity|]. split; [apply calls_of_reported|]. split; [repeat constructor|]. split; [reflexivity|].
  split; vm_compute; reflexivity.
Qed.
Print Assumptions C86_entity_refuted.

(** ** C87: a reader can be used again *)

(** After documents that were read to their end, the reader is as new. *)
Theorem C87_reuse_partial : forall rules rs docs, create_rules rules = Ok rs ->
  (forall d, In d docs -> exists l, reported l d /\ Forall single_space l) ->
  read_all rs new_reader (map (fun d => (d, true)) docs) = map (fun d => snd (parse rs new_reader d true)) docs.
Proof.
  intros rules rs docs E; induction docs as [|d docs IH]; intros HD; [reflexivity|]; cbn [map read_all fst snd].
  destruct (HD d (or_introl eq_refl)) as (l & HR & SS).
  destruct (parse_spec rules rs E l d new_reader HR SS eq_refl eq_refl) as (ev & EP & _). rewrite EP. cbn [snd]. f_equal. apply IH.
  intros d' HIn; apply HD; right; exact HIn.
Qed.
Print Assumptions C87_reuse_partial.

Lemma destroy_fields : forall n r, rd_buffer (destroy n r) = rd_buffer r /\ rd_contexts (destroy n r) = (rd_contexts r - n)%nat.
Proof.
  induction n as [|n IH]; intros r; cbn [destroy]; [split; [reflexivity|lia]|].
  destruct (IH (end_context r)) as [-> ->]. cbn [end_context rd_buffer rd_contexts]. split; [reflexivity|lia].
Qed.
Lemma gather_markup : forall l : list (N + tree), (forall x, In x l -> exists t, x = inr t /\ no_text t) -> drop_white (gather l) = gather l.
Proof.
  induction l as [|x l IH]; intros H; [reflexivity|].
  destruct (H x (or_introl eq_refl)) as (t & -> & NT). cbn [gather]. rewrite drop_white_no_text by exact NT. f_equal. apply IH.
  intros y HIn; apply H; right; exact HIn.
Qed.
(** After a document that failed, too, if the failure came right after some
    markup: the next document is then read as with a new reader. *)
Theorem C87_after_failure_partial : forall rules rs calls c l calls', create_rules rules = Ok rs -> markup_call c ->
  reported l calls' -> Forall single_space l -> Forall markup l ->
  map content_events (read_all rs new_reader [(calls ++ [c], false); (calls', true)])
  = map content_events [snd (parse rs new_reader (calls ++ [c]) false); snd (parse rs new_reader calls' true)].
Proof.
  intros rules rs calls c l calls' E MC HR SS MK. cbn [read_all fst snd].
  assert (EB : rd_buffer (fst (parse rs new_reader (calls ++ [c]) false)) = [] /\ rd_contexts (fst (parse rs new_reader (calls ++ [c]) false)) = 0%nat).
  { unfold parse. rewrite steps_app. destruct (steps rs (begin_context new_reader) calls) as [r1 e1]. cbn [steps].
    assert (B : rd_buffer (fst (step rs r1 c)) = []).
    { destruct c; try contradiction MC; cbn [step]; unfold start_element, end_element, flushing;
      destruct (flush_cases r1) as (ev & EF & _); rewrite EF; reflexivity. }
    destruct (step rs r1 c) as [r2 e2]. cbn [fst] in *. unfold destroy_contexts.
    destruct (destroy_fields (rd_contexts r2) r2) as [-> ->]. split; [exact B|lia]. }
  destruct (parse rs new_reader (calls ++ [c]) false) as [r ev0]. cbn [fst snd] in *. destruct EB as [EB EC].
  destruct (parse_spec rules rs E l calls' r HR SS EB EC) as (e1 & E1 & C1).
  destruct (parse_spec rules rs E l calls' new_reader HR SS eq_refl eq_refl) as (e2 & E2 & C2).
  rewrite E1, E2. cbn [map snd]. rewrite C1, C2. cbn [new_reader rd_preserve peek hd].
  assert (G : drop_white (gather (flat_map (parts fresh_entity rules false) l)) = gather (flat_map (parts fresh_entity rules false) l)).
  { apply gather_markup. intros x HIn. apply in_flat_map in HIn as (i & HI & HIn). rewrite Forall_forall in MK. specialize (MK i HI).
    destruct i; try contradiction MK; cbn [parts] in HIn; destruct HIn as [<-|[]]; eexists; split; try reflexivity; exact I. }
  unfold finish. rewrite G. destruct (peek (rd_preserve r)); reflexivity.
Qed.
Print Assumptions C87_after_failure_partial.
Example C87_case : markup_call (RStart (plain "b") []) /\ Forall markup doc2 /\ Forall single_space doc2
  /\ read_all [] new_reader [([RStart (plain "a") []; RChars (lit "t"); RStart (plain "b") []], false); (calls1, true); (calls1, true)]
     = [[EStart (plain "a") []; EText (lit "t"); EStart (plain "b") []]; snd (parse [] new_reader calls1 true); snd (parse [] new_reader calls1 true)].
Proof. split; [exact I|]. split; [repeat constructor|]. split; [repeat constructor|vm_compute; reflexivity]. Qed.

(** In general it is not: text that was buffered when a document failed turns
    up in front of the next document. *)
Theorem C87_leak_refuted : exists calls calls' l', reported l' calls' /\ Forall single_space l' /\ Forall markup l'
  /\ snd (parse [] new_reader calls' true) = [EStart (plain "b") []; EEnd (plain "b")]
  /\ read_all [] new_reader [(calls, false); (calls', true)] = [[EStart (plain "a") []]; [EText (lit "secret"); EStart (plain "b") []; EEnd (plain "b")]].
Proof.
  exists [RStart (plain "a") []; RChars (lit "secret")], [RStart (plain "b") []; REnd (plain "b")], [Elem (plain "b") [] [] []].
  split; [apply (calls_of_reported [Elem (plain "b") [] [] []])|]. split; [repeat constructor|]. split; [repeat constructor|]. split; vm_compute; reflexivity.
Qed.
Print Assumptions C87_leak_refuted.

(** ** C88: setting the rules *)

(** The reader accepts rules exactly if they name no element outside a
    namespace; accepted rules decide as they say; rejected ones change
    nothing. *)
Theorem C88_set_rules_partial : forall old l,
  (Forall namespaced l -> exists rs, set_rules old l = (rs, Ok tt) /\ forall n, is_whitespace_preserving rs n = negb (stripped l n))
  /\ (~ Forall namespaced l -> set_rules old l = (old, Err TypeError)).
Proof.
  intros old l; split.
  - intros F. apply create_rules_ok in F as [rs E]. exists rs. unfold set_rules; rewrite E. split; [reflexivity|].
    intros n; apply create_rules_spec; exact E.
  - intros NF. unfold set_rules. destruct (create_rules l) as [rs|e] eqn:E.
    + exfalso; apply NF. apply create_rules_ok. exists rs; exact E.
    + f_equal. f_equal. clear NF. revert e E. induction l as [|[[ns local] strip] l IH]; intros e E; cbn [create_rules] in E; [discriminate E|].
      cbn [create_rule] in E.
      destruct (str_eqb local (lit "*")); destruct ns; cbn [intern_string bind] in E; try (destruct (create_rules l); cbn [bind] in E; try discriminate E; injection E as <-; apply IH; reflexivity).
      injection E as <-; reflexivity.
Qed.
Print Assumptions C88_set_rules_partial.
Example C88_case : Forall namespaced rules2 /\ stripped rules2 (within "u" "keep") = false /\ stripped rules2 (plain "keep") = true
  /\ ~ Forall namespaced [(None, lit "*", true); (None, lit "a", false)].
Proof.
  split; [constructor; [right; discriminate|]; constructor; [right; discriminate|]; constructor; [left; reflexivity|constructor]|].
  split; [reflexivity|]. split; [reflexivity|]. intros F. inversion_clear F as [|? ? _ F']. inversion_clear F' as [|? ? N1 _]. destruct N1 as [N1|N1]; [discriminate N1|apply N1; reflexivity].
Qed.

(** A rule for an element in no namespace cannot be given: None raises a
    TypeError, and the empty string matches nothing. *)
Theorem C88_no_namespace_refuted : (forall old strip, set_rules old [(None, lit "a", strip)] = (old, Err TypeError))
  /\ forall n, x_ns n = None -> exists rs, set_rules [] [(Some [], lit "a", true)] = (rs, Ok tt) /\ is_whitespace_preserving rs n = true.
Proof.
  split; [reflexivity|]. intros n EN. eexists; split; [reflexivity|]. cbn [is_whitespace_preserving r_test rule_matches]. rewrite EN.
  destruct (str_eqb (lit "a") (x_local n)); reflexivity.
Qed.
Print Assumptions C88_no_namespace_refuted.

(** Reading the rules gives them with all flags inverted: rules read and set
    again strip where they preserved. *)
Theorem C88_read_back_refuted : exists rs, set_rules [] [(Some (lit "u"), lit "a", true)] = (rs, Ok tt)
  /\ is_whitespace_preserving rs (within "u" "a") = false
  /\ get_rules rs = [(Some (lit "u"), lit "a", false)]
  /\ exists rs', set_rules rs (get_rules rs) = (rs', Ok tt) /\ is_whitespace_preserving rs' (within "u" "a") = true.
Proof. eexists; split; [reflexivity|]. split; [vm_compute; reflexivity|]. split; [reflexivity|]. eexists; split; vm_compute; reflexivity. Qed.
Print Assumptions C88_read_back_refuted.

(** ** C89: the rules of a stylesheet *)

(** For all declarations and every element name, the first rule of the
    stylesheet's list that matches is the last one declared among the most
    specific tests that match; if no rule matches, nothing declared does. *)
Theorem C89_most_specific_partial : forall decls n, named n ->
  match find (fun r => pattern_matches (fst r) n) (space_rules decls) with
  | Some r => chosen (declared decls) n (snd r)
  | None => forall q w, In (q, w) (declared decls) -> pattern_matches q n = false
  end.
Proof. exact space_rules_chosen. Qed.
Print Assumptions C89_most_specific_partial.
Definition decls4 : list (bool * list token) :=
  [(true, [(None, lit "*"); (Some (lit "u"), lit "p")]); (false, [(Some (lit "u"), lit "*"); (None, lit "q")]); (true, [(Some (lit "u"), lit "pre")]); (false, [(Some (lit "u"), lit "p")])].
Example C89_case : named (within "u" "p") /\ named (plain "q")
  /\ space_rules decls4 = [(Some (lit "u"), lit "pre", true); (Some (lit "u"), lit "p", false); (Some (lit "u"), lit "*", false); (None, lit "q", false); (None, lit "*", true)].
Proof.
  split; [eexists _, _; split; [reflexivity|reflexivity]|]. split; [eexists _, _; split; [reflexivity|reflexivity]|]. vm_compute; reflexivity.
Qed.

(** XSLT 1.0, 3.4, eliminates the matches of lower import precedence first.
    [tests] are the declarations with their import precedence: no list built
    from the declarations alone, in whatever order they are in, can respect
    it; here the imported stylesheet strips {u}p and the importing one
    preserves all elements. *)
Theorem C89_import_precedence_refuted : exists imported importing n,
  imported = [(true, [(Some (lit "u"), lit "p")])] /\ importing = [(false, [(None, lit "*")])]
  /\ chosen (declared importing) n false
  /\ stripped (space_rules (imported ++ importing)) n = true /\ stripped (space_rules (importing ++ imported)) n = true.
Proof.
  exists [(true, [(Some (lit "u"), lit "p")])], [(false, [(None, lit "*")])], (within "u" "p").
  split; [reflexivity|]. split; [reflexivity|]. split; [|split; vm_compute; reflexivity].
  exists [], (None, lit "*"), []. split; [reflexivity|]. split; [reflexivity|]. split; [|intros q w []].
  intros q w [E|[]] _; injection E as <- <-; apply Nat.le_refl.
Qed.
Print Assumptions C89_import_precedence_refuted.

(** A stylesheet that strips an element in no namespace makes a list of rules
    that the reader does not accept. *)
Theorem C89_reader_refuted : exists decls, decls = [(true, [(None, lit "p")])] /\ create_rules (space_rules decls) = Err TypeError.
Proof. exists [(true, [(None, lit "p")])]; split; [reflexivity|vm_compute; reflexivity]. Qed.
Print Assumptions C89_reader_refuted.
