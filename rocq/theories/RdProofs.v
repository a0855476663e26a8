(** * Proofs about the reader *)
From Coq Require Import NArith String List Bool Lia Sorted Permutation.
From Verif Require Import PyStr PyErr RdModel RdSpec.
Import ListNotations.

Lemma steps_app : forall rules l1 r l2,
  steps rules r (l1 ++ l2) = let '(r1, e1) := steps rules r l1 in let '(r2, e2) := steps rules r1 l2 in (r2, e1 ++ e2).
Proof.
  induction l1 as [|c l1 IH]; intros r l2; cbn [app steps].
  - destruct (steps rules r l2); reflexivity.
  - destruct (step rules r c) as [r1 e1]; rewrite IH; destruct (steps rules r1 l1) as [r2 e2]; destruct (steps rules r2 l2) as [r3 e3]; rewrite app_assoc; reflexivity.
Qed.

Lemma str_eqb_refl' : forall s, str_eqb s s = true.
Proof. induction s; cbn [str_eqb]; [reflexivity|]; rewrite N.eqb_refl; exact IHs. Qed.
Lemma str_eqb_true : forall a b, str_eqb a b = true <-> a = b.
Proof.
  induction a as [|x a IH]; destruct b as [|y b]; cbn [str_eqb]; try (split; [discriminate|intros E; discriminate E]).
  - split; reflexivity.
  - rewrite andb_true_iff, N.eqb_eq, IH. split; [intros [-> ->]; reflexivity|intros E; injection E as -> ->; auto].
Qed.
Lemma str_eqb_sym' : forall a b, str_eqb a b = str_eqb b a.
Proof. induction a; destruct b; cbn [str_eqb]; try reflexivity. now rewrite N.eqb_sym, IHa. Qed.
Lemma ostr_eqb_true : forall a b, ostr_eqb a b = true <-> a = b.
Proof.
  intros [a|] [b|]; cbn [ostr_eqb]; try (split; [discriminate|intros E; discriminate E]); [|split; reflexivity].
  rewrite str_eqb_true. split; [intros ->; reflexivity|intros E; injection E as ->; reflexivity].
Qed.
Lemma ostr_eqb_sym : forall a b, ostr_eqb a b = ostr_eqb b a.
Proof. intros [a|] [b|]; cbn [ostr_eqb]; try reflexivity. apply str_eqb_sym'. Qed.

(** ** Gathering text *)

Definition texts (b : str) : list tree := match b with [] => [] | _ => [TText b] end.
Definition no_text (t : tree) : Prop := match t with TText _ => False | _ => True end.

Lemma gather_head : forall l t, no_text t -> gather (inr t :: l) = t :: gather l.
Proof. reflexivity. Qed.
Lemma gather_chars_then : forall b t rest, no_text t -> gather (map inl b ++ inr t :: rest) = texts b ++ t :: gather rest.
Proof.
  induction b as [|c b IH]; intros t rest NT; cbn [map app].
  - reflexivity.
  - cbn [gather]; rewrite IH by exact NT. destruct b as [|c' b]; cbn [texts app].
    + destruct t; try reflexivity. contradiction NT.
    + reflexivity.
Qed.
Lemma gather_chars : forall b, gather (map inl b) = texts b.
Proof.
  induction b as [|c b IH]; [reflexivity|]; cbn [map gather]; rewrite IH.
  destruct b; reflexivity.
Qed.

Lemma drop_white_app : forall a b, drop_white (a ++ b) = drop_white a ++ drop_white b.
Proof. intros; unfold drop_white; apply filter_app. Qed.
Lemma drop_white_no_text : forall t l, no_text t -> drop_white (t :: l) = t :: drop_white l.
Proof. intros t l NT; destruct t; try reflexivity; contradiction NT. Qed.

(** What a flush tells. *)
Definition flushed (k : bool) (b : str) : list tree := if k then texts b else drop_white (texts b).

Lemma finish_chars_then : forall k b t rest, no_text t -> finish k (map inl b ++ inr t :: rest) = flushed k b ++ t :: finish k rest.
Proof.
  intros k b t rest NT; unfold finish, flushed; rewrite gather_chars_then by exact NT; destruct k; [reflexivity|].
  rewrite drop_white_app, drop_white_no_text by exact NT; reflexivity.
Qed.
Lemma finish_chars : forall k b, finish k (map inl b) = flushed k b.
Proof. intros k b; unfold finish, flushed; rewrite gather_chars; destruct k; reflexivity. Qed.

Lemma white_same : forall s, forallb is_space_char s = whiteb s.
Proof.
  induction s as [|c s IH]; [reflexivity|]; unfold whiteb in *; cbn [forallb]; rewrite IH; f_equal.
  unfold is_space_char; cbn [existsb]. rewrite orb_false_r, !orb_assoc; reflexivity.
Qed.

(** ** The state *)

Definition emptied (r : reader) : reader :=
  {| rd_buffer := []; rd_space := rd_space r; rd_preserve := rd_preserve r; rd_contexts := rd_contexts r |}.
Definition with_buffer (r : reader) (b : str) : reader :=
  {| rd_buffer := b; rd_space := rd_space r; rd_preserve := rd_preserve r; rd_contexts := rd_contexts r |}.

Lemma flush_spec : forall r, exists ev, charbuf_flush r = (emptied r, ev) /\ content_events ev = flat_map told (flushed (peek (rd_preserve r)) (rd_buffer r)) /\ content_events ev = ev.
Proof.
  intros r; unfold charbuf_flush. destruct (rd_buffer r) as [|c b] eqn:EB.
  - exists []; split; [|split; [|reflexivity]].
    + unfold emptied; destruct r; cbn in EB |- *; rewrite EB; reflexivity.
    + unfold flushed; destruct (peek _); reflexivity.
  - eexists; split; [reflexivity|]. rewrite white_same. unfold flushed, texts.
    unfold drop_white; cbn [filter is_white_text].
    destruct (peek (rd_preserve r)); destruct (whiteb (c :: b)); split; reflexivity.
Qed.

Lemma content_events_app : forall a b, content_events (a ++ b) = content_events a ++ content_events b.
Proof. intros; apply filter_app. Qed.

(** The result of a flush followed by one event. *)
Lemma flushing_spec : forall r e, not_mark e = true -> exists ev,
  flushing r e = (emptied r, ev) /\ content_events ev = flat_map told (flushed (peek (rd_preserve r)) (rd_buffer r)) ++ [e].
Proof.
  intros r e NM; destruct (flush_spec r) as (ev & E & C & _); unfold flushing; rewrite E.
  exists (ev ++ [e]); split; [reflexivity|]. rewrite content_events_app, C; unfold content_events; cbn [filter]; rewrite NM; reflexivity.
Qed.
Lemma flushing_empty : forall r e, rd_buffer r = [] -> flushing r e = (r, [e]).
Proof. intros r e EB; unfold flushing, charbuf_flush; rewrite EB; reflexivity. Qed.

Lemma steps_chars : forall rules chunks r, steps rules r (map RChars chunks) = (with_buffer r (rd_buffer r ++ concat chunks), []).
Proof.
  induction chunks as [|c chunks IH]; intros r; cbn [map steps step concat].
  - rewrite app_nil_r; destruct r; reflexivity.
  - rewrite IH. unfold charbuf_write, with_buffer; cbn [rd_buffer rd_space rd_preserve rd_contexts]. rewrite app_assoc; reflexivity.
Qed.

(** The namespace declarations and the start tag. *)
Lemma steps_ns_empty : forall rules ns r, rd_buffer r = [] ->
  steps rules r (map (fun d => RNsStart (fst d) (snd d)) ns) = (r, map (fun d => ENsStart (fst d) (snd d)) ns).
Proof.
  induction ns as [|d ns IH]; intros r EB; cbn [map steps step]; [reflexivity|].
  rewrite flushing_empty by exact EB. rewrite IH by exact EB. reflexivity.
Qed.
Lemma steps_ns_end : forall rules (ns : list (option str * option str)) r, rd_buffer r = [] ->
  steps rules r (map (fun d => RNsEnd (fst d)) ns) = (r, map (fun d => ENsEnd (fst d)) ns).
Proof.
  induction ns as [|d ns IH]; intros r EB; cbn [map steps step]; [reflexivity|].
  rewrite flushing_empty by exact EB. rewrite IH by exact EB. reflexivity.
Qed.

Definition opened (rules : list rule) (r : reader) (n : xname) (atts : list xattr) : reader :=
  {| rd_buffer := []; rd_space := scan_space atts (peek (rd_space r)) :: rd_space r;
     rd_preserve := (if scan_space atts (peek (rd_space r)) then true else is_whitespace_preserving rules n) :: rd_preserve r;
     rd_contexts := rd_contexts r |}.

Lemma start_spec : forall rules r n atts, exists ev, step rules r (RStart n atts) = (opened rules r n atts, ev)
  /\ content_events ev = flat_map told (flushed (peek (rd_preserve r)) (rd_buffer r)) ++ [EStart n atts].
Proof.
  intros rules r n atts; destruct (flush_spec r) as (ev & E & C & _); cbn [step]; unfold start_element; rewrite E.
  eexists; split; [reflexivity|]. rewrite content_events_app, C; reflexivity.
Qed.

Lemma open_tag : forall rules r ns n atts, exists ev,
  steps rules r (map (fun d => RNsStart (fst d) (snd d)) ns ++ [RStart n atts]) = (opened rules r n atts, ev)
  /\ content_events ev = flat_map told (flushed (peek (rd_preserve r)) (rd_buffer r)) ++ map (fun d => ENsStart (fst d) (snd d)) ns ++ [EStart n atts].
Proof.
  intros rules r [|d ns] n atts.
  - cbn [map app]. destruct (start_spec rules r n atts) as (ev & E & C). exists ev; split; [|exact C].
    cbn [steps]; rewrite E, app_nil_r; reflexivity.
  - cbn [map app steps]. cbn [step]. destruct (flushing_spec r (ENsStart (fst d) (snd d)) eq_refl) as (e1 & E1 & C1). rewrite E1, steps_app, steps_ns_empty by reflexivity.
    destruct (start_spec rules (emptied r) n atts) as (e2 & E2 & C2). cbn [steps]; rewrite E2.
    eexists; split; [reflexivity|]. rewrite !content_events_app, C1, C2, app_nil_r.
    assert (NE : content_events (map (fun d0 => ENsStart (fst d0) (snd d0)) ns) = map (fun d0 => ENsStart (fst d0) (snd d0)) ns)
      by (clear; induction ns as [|x ns IH]; [reflexivity|]; unfold content_events in *; cbn [map filter not_mark]; rewrite IH; reflexivity).
    rewrite NE. cbn [emptied rd_buffer rd_preserve]. unfold flushed at 2; cbn [texts].
    destruct (peek (rd_preserve r)); cbn [drop_white filter flat_map app]; rewrite <- app_assoc; reflexivity.
Qed.

Lemma end_spec : forall rules r n, exists ev, step rules r (REnd n) = ({| rd_buffer := []; rd_space := tl (rd_space r); rd_preserve := tl (rd_preserve r); rd_contexts := rd_contexts r |}, ev)
  /\ content_events ev = flat_map told (flushed (peek (rd_preserve r)) (rd_buffer r)) ++ [EEnd n].
Proof.
  intros rules r n; destruct (flush_spec r) as (ev & E & C & _); cbn [step]; unfold end_element; rewrite E.
  eexists; split; [reflexivity|]. rewrite content_events_app, C; reflexivity.
Qed.

(** ** xml:space and the rules *)

Lemma scan_space_none : forall atts inh, filter is_xml_space atts = [] -> scan_space atts inh = inh.
Proof.
  induction atts as [|a atts IH]; intros inh F; cbn [scan_space]; [reflexivity|].
  cbn [filter] in F. destruct (is_xml_space a) eqn:ES; [discriminate F|].
  unfold is_xml_space in ES. rewrite IH by exact F. unfold xml_namespace.
  destruct (ostr_eqb (x_ns (a_name a)) (Some (lit "http://www.w3.org/XML/1998/namespace"))); [|reflexivity].
  rewrite andb_true_l in ES; rewrite ES; reflexivity.
Qed.
Lemma find_filter_nil : forall (atts : list xattr), filter is_xml_space atts = [] -> find is_xml_space atts = None.
Proof.
  induction atts as [|a atts IH]; intros F; [reflexivity|]; cbn [filter find] in *.
  destruct (is_xml_space a); [discriminate F|exact (IH F)].
Qed.
Lemma scan_space_spec : forall atts inh, (length (filter is_xml_space atts) <= 1)%nat -> scan_space atts inh = space_in inh atts.
Proof.
  induction atts as [|a atts IH]; intros inh L; [reflexivity|].
  cbn [scan_space]. cbn [filter] in L. unfold space_in, xml_space_of; cbn [find].
  destruct (is_xml_space a) eqn:ES.
  - cbn [length] in L. assert (F : filter is_xml_space atts = []) by (destruct (filter is_xml_space atts); [reflexivity|cbn [length] in L; lia]).
    rewrite scan_space_none by exact F. unfold is_xml_space in ES; apply andb_true_iff in ES as [ES1 ES2].
    unfold xml_namespace; rewrite ES1, ES2; cbn [option_map].
    destruct (str_eqb (a_value a) (lit "preserve")) eqn:EP; [|reflexivity].
    destruct (str_eqb (a_value a) (lit "default")) eqn:ED; [|reflexivity].
    apply str_eqb_true in EP; apply str_eqb_true in ED; rewrite EP in ED; discriminate ED.
  - unfold is_xml_space in ES. unfold xml_namespace.
    replace (if ostr_eqb (x_ns (a_name a)) (Some (lit "http://www.w3.org/XML/1998/namespace"))
             then if str_eqb (x_local (a_name a)) (lit "space") then _ else inh else inh) with inh.
    + rewrite IH by exact L; reflexivity.
    + destruct (ostr_eqb _ _); [|reflexivity]. rewrite andb_true_l in ES; rewrite ES; reflexivity.
Qed.

Lemma create_rule_spec : forall t r n, create_rule t = Ok r ->
  rule_matches (r_test r) n = pattern_matches (fst t) n /\ r_preserve r = negb (snd t).
Proof.
  intros [[ns local] strip] r n E. cbn [create_rule] in E. unfold pattern_matches; cbn [fst snd].
  destruct (str_eqb local (lit "*")) eqn:ES.
  - destruct ns as [u|]; cbn [intern_string bind] in E; injection E as <-; cbn [r_test r_preserve rule_matches]; split; try reflexivity.
    apply ostr_eqb_sym.
  - destruct ns as [u|]; cbn [intern_string bind] in E; [|discriminate E]. injection E as <-; cbn [r_test r_preserve rule_matches]; split; [|reflexivity].
    rewrite (str_eqb_sym' local), (ostr_eqb_sym (Some u)). destruct (str_eqb (x_local n) local); cbn [negb]; [now rewrite andb_true_r|now rewrite andb_false_r].
Qed.
Lemma create_rules_spec : forall l rs n, create_rules l = Ok rs -> is_whitespace_preserving rs n = negb (stripped l n).
Proof.
  induction l as [|t l IH]; intros rs n E; cbn [create_rules] in E.
  - injection E as <-; reflexivity.
  - destruct (create_rule t) as [r|e] eqn:ER; cbn [bind] in E; [|discriminate E].
    destruct (create_rules l) as [rs'|e] eqn:EL; cbn [bind] in E; [|discriminate E]. injection E as <-.
    destruct (create_rule_spec t r n ER) as [M P]. cbn [is_whitespace_preserving]. rewrite M.
    unfold stripped; cbn [find]. destruct (pattern_matches (fst t) n); [exact P|apply (IH _ _ eq_refl)].
Qed.
Lemma create_rules_ok : forall l, Forall namespaced l <-> exists rs, create_rules l = Ok rs.
Proof.
  induction l as [|[[ns local] strip] l IH]; split.
  - intros _; exists []; reflexivity.
  - intros _; constructor.
  - intros F; inversion_clear F as [|? ? N1 F']. apply IH in F' as [rs E]. cbn [create_rules create_rule].
    unfold namespaced in N1; cbn [fst snd] in N1.
    destruct (str_eqb local (lit "*")) eqn:ES.
    + destruct ns; cbn [intern_string bind]; rewrite E; eexists; reflexivity.
    + destruct ns; cbn [intern_string bind]; [rewrite E; eexists; reflexivity|].
      destruct N1 as [N1|N1]; [rewrite N1, str_eqb_refl' in ES; discriminate ES|congruence].
  - intros [rs E]. cbn [create_rules create_rule] in E. unfold namespaced.
    destruct (str_eqb local (lit "*")) eqn:ES.
    + constructor; [left; cbn [fst snd]; apply str_eqb_true; exact ES|].
      apply IH. destruct ns; cbn [intern_string bind] in E; destruct (create_rules l); try discriminate E; eexists; reflexivity.
    + destruct ns; cbn [intern_string bind] in E; [|discriminate E]. constructor; [right; cbn [fst snd]; congruence|].
      apply IH. destruct (create_rules l); try discriminate E; eexists; reflexivity.
Qed.

(** ** The main invariant *)

Lemma all_Forall : forall (P : item -> Prop) l, (fix all l := match l with [] => True | x :: l' => P x /\ all l' end) l <-> Forall P l.
Proof.
  induction l as [|x l IH]; split; intros H; [constructor|exact I| |].
  - destruct H; constructor; [assumption|apply IH; assumption].
  - inversion_clear H; split; [assumption|apply IH; assumption].
Qed.

Definition fresh_entity (b : bool) : bool := false.

Lemma told_flushed_app : forall k b t rest, no_text t ->
  flat_map told (finish k (map inl b ++ inr t :: rest)) = flat_map told (flushed k b) ++ told t ++ flat_map told (finish k rest).
Proof. intros k b t rest NT. rewrite finish_chars_then by exact NT. rewrite flat_map_app; reflexivity. Qed.

Section Main.
  Variable tuples : list (option str * str * bool).
  Variable rules : list rule.
  Hypothesis HR : create_rules tuples = Ok rules.

  Lemma opened_keep : forall r n atts, (length (filter is_xml_space atts) <= 1)%nat ->
    peek (rd_preserve (opened rules r n atts)) = space_in (peek (rd_space r)) atts || negb (stripped tuples n)
    /\ peek (rd_space (opened rules r n atts)) = space_in (peek (rd_space r)) atts.
  Proof.
    intros r n atts L. unfold opened; cbn [rd_preserve rd_space peek hd]. rewrite (scan_space_spec atts _ L), (create_rules_spec _ _ n HR).
    split; [|reflexivity]. destruct (space_in _ _); reflexivity.
  Qed.

  Lemma reported_steps : forall l raws, reported l raws -> Forall single_space l -> forall r,
    exists b ev, steps rules r raws = (with_buffer r b, ev)
    /\ forall rest, content_events ev ++ flat_map told (finish (peek (rd_preserve r)) (map inl b ++ rest))
       = flat_map told (finish (peek (rd_preserve r)) (map inl (rd_buffer r) ++ flat_map (parts fresh_entity tuples (peek (rd_space r))) l ++ rest)).
  Proof.
    intros l raws H; induction H as [|n ns atts ct l rc raws HC IHC HL IHL|chunks l raws HL IHL|chunks l raws HL IHL|t d l raws HL IHL|s l raws HL IHL|ct l rc raws HC IHC HL IHL|n l raws HL IHL]; intros SS r.
    - exists (rd_buffer r), []; split; [destruct r; reflexivity|]. intros rest; reflexivity.
    - inversion_clear SS as [|? ? S1 SS']. cbn [single_space] in S1. destruct S1 as [L1 S1]. apply all_Forall in S1.
      destruct (open_tag rules r ns n atts) as (e1 & E1 & C1).
      destruct (opened_keep r n atts L1) as [K1 K2].
      destruct (IHC S1 (opened rules r n atts)) as (b2 & e2 & E2 & C2).
      destruct (end_spec rules (with_buffer (opened rules r n atts) b2) n) as (e3 & E3 & C3).
      destruct (IHL SS' (emptied r)) as (b5 & e5 & E5 & C5).
      pose proof (steps_ns_end rules (rev ns) (emptied r) eq_refl) as E4.
      exists b5. eexists; split.
      + change (map (fun d => RNsStart (fst d) (snd d)) ns ++ RStart n atts :: rc ++ REnd n :: map (fun d => RNsEnd (fst d)) (rev ns) ++ raws)
          with (map (fun d => RNsStart (fst d) (snd d)) ns ++ [RStart n atts] ++ rc ++ REnd n :: map (fun d => RNsEnd (fst d)) (rev ns) ++ raws).
        rewrite app_assoc, steps_app, E1, steps_app, E2.
        cbn [steps]. rewrite E3. cbn [with_buffer opened rd_buffer rd_space rd_preserve rd_contexts tl].
        change {| rd_buffer := []; rd_space := rd_space r; rd_preserve := rd_preserve r; rd_contexts := rd_contexts r |} with (emptied r).
        rewrite steps_app, E4, E5. reflexivity.
      + intros rest. rewrite !content_events_app, C1, C3.
        assert (NE : content_events (map (fun d => ENsEnd (fst d)) (rev ns)) = map (fun d => ENsEnd (fst d)) (rev ns))
          by (clear; generalize (rev ns) as m; induction m as [|x m IH]; [reflexivity|]; unfold content_events in *; cbn [map filter not_mark]; rewrite IH; reflexivity).
        rewrite NE. specialize (C2 []). rewrite app_nil_r in C2. rewrite K1, K2 in C2. cbn [opened rd_buffer map app] in C2. rewrite app_nil_r, finish_chars in C2.
        cbn [with_buffer rd_buffer rd_preserve] in *.
        change (rd_preserve (opened rules r n atts)) with ((if scan_space atts (peek (rd_space r)) then true else is_whitespace_preserving rules n) :: rd_preserve r) in *.
        cbn [flat_map parts app]. rewrite told_flushed_app by exact I.
        specialize (C5 rest). cbn [emptied rd_buffer rd_preserve rd_space map app] in C5. rewrite <- C5.
        cbn [told]. rewrite <- C2. rewrite <- K1. cbn [opened rd_preserve].
        rewrite <- !app_assoc. do 2 f_equal. cbn [app]. f_equal. rewrite <- !app_assoc. reflexivity.
    - inversion_clear SS as [|? ? S1 SS'].
      destruct (IHL SS' (with_buffer r (rd_buffer r ++ concat chunks))) as (b & ev & E & C). exists b, ev; split.
      + rewrite steps_app, steps_chars, E; reflexivity.
      + intros rest. specialize (C rest). cbn [with_buffer rd_buffer rd_preserve rd_space] in C. rewrite C.
        cbn [flat_map parts]. rewrite map_app, <- !app_assoc; reflexivity.
    - inversion_clear SS as [|? ? S1 SS'].
      destruct (IHL SS' (with_buffer r (rd_buffer r ++ concat chunks))) as (b & ev & E & C). exists b, (ECdataStart :: ECdataEnd :: ev); split.
      + cbn [steps step]. rewrite steps_app, steps_chars. cbn [steps step]. rewrite E; reflexivity.
      + intros rest. specialize (C rest). cbn [with_buffer rd_buffer rd_preserve rd_space] in C.
        change (content_events (ECdataStart :: ECdataEnd :: ev)) with (content_events ev). rewrite C.
        cbn [flat_map parts]. rewrite map_app, <- !app_assoc; reflexivity.
    - inversion_clear SS as [|? ? S1 SS']. destruct (flushing_spec r (EPI t d) eq_refl) as (e1 & E1 & C1).
      destruct (IHL SS' (emptied r)) as (b & ev & E & C). exists b. eexists; split.
      + cbn [steps step]. rewrite E1, E. reflexivity.
      + intros rest. rewrite content_events_app, C1. specialize (C rest). cbn [emptied rd_buffer rd_preserve rd_space map app] in C.
        cbn [flat_map parts app]. rewrite told_flushed_app by exact I. rewrite <- C, <- !app_assoc; reflexivity.
    - inversion_clear SS as [|? ? S1 SS']. destruct (flushing_spec r (EComment s) eq_refl) as (e1 & E1 & C1).
      destruct (IHL SS' (emptied r)) as (b & ev & E & C). exists b. eexists; split.
      + cbn [steps step]. rewrite E1, E. reflexivity.
      + intros rest. rewrite content_events_app, C1. specialize (C rest). cbn [emptied rd_buffer rd_preserve rd_space map app] in C.
        cbn [flat_map parts app]. rewrite told_flushed_app by exact I. rewrite <- C, <- !app_assoc; reflexivity.
    - inversion_clear SS as [|? ? S1 SS']. cbn [single_space] in S1. apply all_Forall in S1.
      destruct (IHC S1 (begin_context r)) as (b1 & e1 & E1 & C1).
      destruct (IHL SS' (with_buffer r b1)) as (b2 & e2 & E2 & C2). exists b2. eexists; split.
      + cbn [steps step]. rewrite steps_app, E1. cbn [steps step]. unfold end_context; cbn [with_buffer begin_context rd_buffer rd_space rd_preserve rd_contexts tl pred].
        change {| rd_buffer := b1; rd_space := rd_space r; rd_preserve := rd_preserve r; rd_contexts := rd_contexts r |} with (with_buffer r b1).
        rewrite E2. reflexivity.
      + intros rest. cbn [app]. rewrite content_events_app, <- app_assoc. specialize (C2 rest). cbn [with_buffer rd_buffer rd_preserve rd_space] in C2. rewrite C2.
        specialize (C1 (flat_map (parts fresh_entity tuples (peek (rd_space r))) l ++ rest)).
        cbn [begin_context rd_buffer rd_preserve rd_space peek hd] in C1. cbn [flat_map parts]. unfold fresh_entity at 2. rewrite <- app_assoc. exact C1.
    - inversion_clear SS as [|? ? S1 SS']. destruct (flushing_spec r (ESkipped n) eq_refl) as (e1 & E1 & C1).
      destruct (IHL SS' (emptied r)) as (b & ev & E & C). exists b. eexists; split.
      + cbn [steps step]. rewrite E1, E. reflexivity.
      + intros rest. rewrite content_events_app, C1. specialize (C rest). cbn [emptied rd_buffer rd_preserve rd_space map app] in C.
        cbn [flat_map parts app]. rewrite told_flushed_app by exact I. rewrite <- C, <- !app_assoc; reflexivity.
  Qed.

  (** A whole parse with a reader whose buffer is empty. *)
  Lemma parse_spec : forall l raws r, reported l raws -> Forall single_space l -> rd_buffer r = [] -> rd_contexts r = 0%nat ->
    exists ev, parse rules r raws true = (r, ev)
    /\ content_events ev = flat_map told (finish (peek (rd_preserve r)) (flat_map (parts fresh_entity tuples false) l)).
  Proof.
    intros l raws r HL SS EB EC. unfold parse.
    destruct (reported_steps l raws HL SS (begin_context r)) as (b & ev & E & C). rewrite E.
    destruct (flush_spec (with_buffer (begin_context r) b)) as (e2 & E2 & C2 & _). rewrite E2.
    eexists; split.
    - unfold destroy_contexts. cbn [emptied with_buffer begin_context rd_contexts]. rewrite EC. cbn [destroy end_context rd_buffer rd_space rd_preserve rd_contexts tl pred].
      destruct r; cbn in *; subst; reflexivity.
    - rewrite content_events_app, C2. cbn [with_buffer begin_context rd_buffer rd_preserve rd_space] in *.
      specialize (C []). rewrite !app_nil_r in C. rewrite <- finish_chars. etransitivity; [exact C|].
      cbn [begin_context rd_buffer rd_preserve rd_space peek hd]. rewrite EB; reflexivity.
  Qed.
End Main.

(** ** Entities *)

Section item_induction.
  Variable P : item -> Prop.
  Hypothesis HE : forall n ns atts ct, Forall P ct -> P (Elem n ns atts ct).
  Hypothesis HT : forall s, P (Text s).
  Hypothesis HCd : forall s, P (Cdata s).
  Hypothesis HI : forall t d, P (Instr t d).
  Hypothesis HCo : forall s, P (Comm s).
  Hypothesis HX : forall ct, Forall P ct -> P (External ct).
  Hypothesis HU : forall n, P (Unread n).
  Fixpoint item_ind' (i : item) : P i :=
    match i with
    | Elem n ns atts ct => HE n ns atts ct ((fix all l : Forall P l := match l with [] => Forall_nil P | x :: l' => Forall_cons x (item_ind' x) (all l') end) ct)
    | Text s => HT s
    | Cdata s => HCd s
    | Instr t d => HI t d
    | Comm s => HCo s
    | External ct => HX ct ((fix all l : Forall P l := match l with [] => Forall_nil P | x :: l' => Forall_cons x (item_ind' x) (all l') end) ct)
    | Unread n => HU n
    end.
End item_induction.

Lemma flat_map_same : forall {A B} (f g : A -> list B) l, Forall (fun x => f x = g x) l -> flat_map f l = flat_map g l.
Proof. induction l as [|x l IH]; intros F; [reflexivity|]; inversion_clear F; cbn [flat_map]; f_equal; auto. Qed.

Lemma parts_outside : forall rules i inh, entities_outside inh i -> parts fresh_entity rules inh i = parts inherited rules inh i.
Proof.
  intros rules; apply (item_ind' (fun i => forall inh, entities_outside inh i -> parts fresh_entity rules inh i = parts inherited rules inh i)); intros; try reflexivity.
  - cbn [entities_outside] in H0. apply all_Forall in H0. cbn [parts]. do 3 f_equal. f_equal.
    apply flat_map_same. rewrite Forall_forall in *. intros x HIn. apply H; [exact HIn|apply H0; exact HIn].
  - cbn [entities_outside] in H0. destruct H0 as [-> H0]. apply all_Forall in H0. cbn [parts].
    apply flat_map_same. rewrite Forall_forall in *. intros x HIn. unfold fresh_entity at 1, inherited at 1. apply H; [exact HIn|apply H0; exact HIn].
Qed.
