(** * What the HTML and XHTML printers write for a tree of calls *)
From Coq Require Import NArith ZArith String List Bool Lia Arith.
From Verif Require Import PyStr PyErr Utf8 SerModel SerSpec SerStream SerPrint HtModel HtSpec.
Import ListNotations.
Open Scope N_scope.

(** Induction over trees of calls. *)
Section CallInd.
  Variable P : call -> Prop.
  Hypothesis HE : forall ns q d a k, Forall P k -> P (CElem ns q d a k).
  Hypothesis HT : forall s, P (CText s).
  Hypothesis HC : forall s, P (CComment s).
  Hypothesis HP : forall t d, P (CPI t d).
  Fixpoint call_ind2 (n : call) : P n :=
    match n with
    | CElem ns q d a k => HE ns q d a k ((fix go l : Forall P l := match l with [] => Forall_nil _ | x :: l' => Forall_cons _ (call_ind2 x) (go l') end) k)
    | CText s => HT s
    | CComment s => HC s
    | CPI t d => HP t d
    end.
End CallInd.

(** ** Escaping *)
Fixpoint aesc (cd : codec) (m : emap) (s : str) : str :=
  match s with
  | [] => []
  | c :: s' =>
    (match emap_lookup m c with
     | Some (RStr t) => t
     | Some (RFun f) => f s 0%nat
     | None => escc cd c
     end) ++ aesc cd m s'
  end.
Definition good_map (m : emap) : Prop :=
  forall c r, emap_lookup m c = Some r -> (exists t, r = RStr t /\ Forall (fun d => d < 128) t) \/ r = RFun attr_amp_escape.

Lemma amp_ascii : forall s o, Forall (fun d => d < 128) (attr_amp_escape s o).
Proof. intros s o. unfold attr_amp_escape. destruct (prefixb _ _); ascii. Qed.
Lemma amp_off : forall s o, attr_amp_escape s o = attr_amp_escape (skipn o s) 0.
Proof. reflexivity. Qed.

Lemma aesc_loop_emits : forall m string s off chunk x, good_map m -> ready x -> skipn off string = s ->
  Forall (fun c => xml_char c = true) s -> Forall (fun c => xml_char c = true) chunk ->
  exists x', write_escape_loop x m string off s chunk = Ok x' /\
    emits x x' (flat_map (escc (x_cd x)) (rev chunk) ++ aesc (x_cd x) m s).
Proof.
  intros m string s. induction s as [|c s IH]; intros off chunk x Hm Hr Hk Hs Hc; cbn [write_escape_loop].
  - eexists; split; [reflexivity|]. cbn [aesc]. rewrite app_nil_r. destruct chunk as [|d chunk].
    + apply emits_nil.
    + apply write_escaped_emits; auto. now apply Forall_rev.
  - inversion Hs; subst.
    assert (Hk' : skipn (S off) string = s).
    { clear - Hk. revert string Hk. induction off as [|off IH]; intros [|d string] Hk; try discriminate Hk; cbn [skipn] in *.
      - now injection Hk.
      - now apply IH. }
    destruct (emap_lookup m c) as [r|] eqn:E.
    + set (t := match r with RStr t => t | RFun f => f (c :: s) 0%nat end).
      assert (Et : (match r with RStr t => t | RFun f => f string off end) = t).
      { destruct (Hm _ _ E) as [(u & -> & _)| ->]; [reflexivity|]. unfold t. rewrite amp_off, Hk. reflexivity. }
      assert (Ht : Forall (fun d => d < 128) t).
      { destruct (Hm _ _ E) as [(u & -> & Hu)| ->]; [exact Hu|apply amp_ascii]. }
      set (x1 := match chunk with [] => x | _ => write_escaped x (rev chunk) end).
      assert (E1 : emits x x1 (flat_map (escc (x_cd x)) (rev chunk))).
      { unfold x1. destruct chunk; [apply emits_nil|]. apply write_escaped_emits; auto. now apply Forall_rev. }
      destruct (write_ascii0_emits x1 t) as (x2 & W & E2); [eapply emits_ready; eauto|assumption|].
      destruct (IH (S off) [] x2) as (x3 & W3 & E3); auto.
      { eapply emits_ready; [eassumption|]. eapply emits_ready; eauto. }
      exists x3. split.
      * destruct r as [u|f]; cbn in Et |- *; fold x1; rewrite Et, W; cbn [bind]; exact W3.
      * assert (C1 := emits_cd _ _ _ E1). assert (C2 := emits_cd _ _ _ E2). rewrite C2, C1 in E3.
        cbn [flat_map rev app] in E3. cbn [aesc]. rewrite E.
        eapply emits_trans; [exact E1|]. eapply emits_trans; [|exact E3]. destruct r; exact E2.
    + destruct (IH (S off) (c :: chunk) x) as (x' & W & E'); auto.
      exists x'. split; [exact W|]. cbn [rev] in E'. rewrite flat_map_app in E'. cbn [flat_map] in E'. cbn [aesc].
      rewrite app_nil_r, <- app_assoc in E'. now rewrite E.
Qed.

Lemma p_aesc_out : forall cd p s m, goodp cd p -> good_map m -> Forall (fun c => xml_char c = true) s ->
  out p (aesc cd m s) (p_elem p) (p_level p) (p_can_indent p) (p_escape true p s m).
Proof.
  intros cd p s m [Hcd Hr] Hm Hs. subst cd.
  destruct (aesc_loop_emits m s s 0 [] (p_x p) Hm Hr eq_refl Hs) as (x' & W & E); [constructor|].
  exists x'. split; [exact E|]. unfold p_escape, write_escape. rewrite ready_flush, map_id_legal by assumption. rewrite W. reflexivity.
Qed.

(** ** Rendered trees *)
Inductive form := Full | Mini | Void.
Inductive dn :=
| DE (f : form) (q : str) (a : list (str * option str)) (k : list dn)
| DT (s : str)
| DC (d : str)
| DP (t d : str).
Section DnInd.
  Variable P : dn -> Prop.
  Hypothesis HE : forall f q a k, Forall P k -> P (DE f q a k).
  Hypothesis HT : forall s, P (DT s).
  Hypothesis HC : forall s, P (DC s).
  Hypothesis HP : forall t d, P (DP t d).
  Fixpoint dn_ind2 (n : dn) : P n :=
    match n with
    | DE f q a k => HE f q a k ((fix go l : Forall P l := match l with [] => Forall_nil _ | x :: l' => Forall_cons _ (dn_ind2 x) (go l') end) k)
    | DT s => HT s
    | DC s => HC s
    | DP t d => HP t d
    end.
End DnInd.

Definition apos_of (v : str) : bool := mem 34 v && negb (mem 39 v).
Definition quot_of (v : str) : N := if apos_of v then 39 else 34.
Definition vmap (m : maps) (v : str) : emap := if apos_of v then m_apos m else m_quot m.
Definition att_chars (cd : codec) (m : maps) (a : str * option str) : str :=
  32 :: fst a ++ match snd a with
                 | None => []
                 | Some v => 61 :: quot_of v :: aesc cd (vmap m v) v ++ [quot_of v]
                 end.
Definition close_of (f : form) (kids q : str) : str :=
  match f with
  | Mini => lit "/>"
  | Full => lit ">" ++ kids ++ lit "</" ++ q ++ lit ">"
  | Void => lit ">"
  end.
Fixpoint dchars (xml : bool) (cd : codec) (m : maps) (n : dn) : str :=
  match n with
  | DT s => aesc cd (m_text m) s
  | DC d => lit "<!--" ++ d ++ lit "-->"
  | DP t d => lit "<?" ++ t ++ (match d with [] => [] | _ => 32 :: d end) ++ (if xml then lit "?>" else lit ">")
  | DE f q a k => 60 :: q ++ flat_map (att_chars cd m) a ++ close_of f (flat_map (dchars xml cd m) k) q
  end.

Definition good_maps (m : maps) : Prop :=
  good_map (m_text m) /\ good_map (m_quot m) /\ good_map (m_apos m) /\
  emap_lookup (m_text m) 10 = None /\ emap_lookup (m_text m) 32 = None.

Lemma h_attr_out : forall cd m p a, good_maps m -> goodp cd p ->
  encode cd (fst a) <> None -> match snd a with Some v => chars v | None => True end ->
  out p (att_chars cd m a) (p_elem p) (p_level p) (p_can_indent p) (h_attr m p a).
Proof.
  intros cd m p [n o] (_ & Hq & Ha & _) Hg Hn Hv. cbn [fst snd] in *. unfold h_attr, att_chars. cbn [fst snd].
  change (32 :: n ++ ?X) with (lit " " ++ n ++ X).
  eapply out_bind; [exact Hg|eapply p_ascii_out; [exact Hg|ascii]|]. intros p1 H1 <- <- <-.
  eapply out_bind; [exact H1|eapply p_encode_out; [exact H1|exact Hn]|]. intros p2 H2 <- <- <-.
  destruct o as [v|]; [|apply out_ret].
  change (61 :: quot_of v :: aesc cd (vmap m v) v ++ [quot_of v]) with (lit "=" ++ [quot_of v] ++ aesc cd (vmap m v) v ++ [quot_of v]).
  unfold quot_of, vmap, apos_of. cbv zeta.
  eapply out_bind; [exact H2|eapply p_ascii_out; [exact H2|ascii]|]. intros p3 H3 <- <- <-.
  destruct (mem 34 v && negb (mem 39 v)).
  - eapply out_bind; [exact H3|eapply p_ascii_out; [exact H3|ascii]|]. intros p4 H4 <- <- <-.
    eapply out_bind; [exact H4|eapply p_aesc_out; [exact H4|exact Ha|exact Hv]|]. intros p5 H5 <- <- <-.
    eapply p_ascii_out; [exact H5|ascii].
  - eapply out_bind; [exact H3|eapply p_ascii_out; [exact H3|ascii]|]. intros p4 H4 <- <- <-.
    eapply out_bind; [exact H4|eapply p_aesc_out; [exact H4|exact Hq|exact Hv]|]. intros p5 H5 <- <- <-.
    eapply p_ascii_out; [exact H5|ascii].
Qed.

Definition wfa (cd : codec) (a : str * option str) : Prop :=
  encode cd (fst a) <> None /\ match snd a with Some v => chars v | None => True end.

Lemma h_attrs_out : forall cd m l p, good_maps m -> goodp cd p -> Forall (wfa cd) l ->
  out p (flat_map (att_chars cd m) l) (p_elem p) (p_level p) (p_can_indent p) (fold_r (h_attr m) p l).
Proof.
  induction l as [|a l IH]; intros p Hm Hg HF; cbn [fold_r flat_map]; [apply out_ret|].
  inversion HF as [|? ? [H1 H2] HF']; subst.
  eapply out_bind; [exact Hg|now apply h_attr_out|]. intros p1 H1' <- <- <-. now apply IH.
Qed.

Lemma x_start_out : forall cd m p q d a, good_maps m -> goodp cd p -> encode cd q <> None ->
  Forall (wfa cd) (map nsattr d ++ a) ->
  out p (pend p ++ 60 :: q ++ flat_map (att_chars cd m) (map nsattr d ++ a)) (Some q) (p_level p) (p_can_indent p)
    (x_start m q d a p).
Proof.
  intros cd m p q d a Hm Hg Hq HF. unfold x_start.
  change (60 :: q ++ ?X) with (lit "<" ++ q ++ X).
  eapply out_bind with (e := p_elem p); [exact Hg| |].
  { unfold pend. destruct (is_open p); [eapply p_ascii_out; [exact Hg|ascii]|apply out_ret]. }
  intros p0 H0 _ Hl0 Hc0.
  assert (H0' : goodp cd (set_elem p0 (Some q))) by exact H0.
  assert (HX : out (set_elem p0 (Some q)) (lit "<" ++ q ++ flat_map (att_chars cd m) (map nsattr d ++ a)) (Some q)
    (p_level p) (p_can_indent p)
    (bind (p_ascii (set_elem p0 (Some q)) (lit "<")) (fun p2 => bind (p_encode p2 q) (fun p3 => fold_r (h_attr m) p3 (map nsattr d ++ a))))).
  { eapply out_bind; [exact H0'|eapply p_ascii_out; [exact H0'|ascii]|].
    intros p2 H2 He2 Hl2 Hc2. cbn in He2, Hl2, Hc2.
    eapply out_bind; [exact H2|eapply p_encode_out; [exact H2|exact Hq]|].
    intros p3 H3 He3 Hl3 Hc3.
    rewrite <- Hl0, <- Hl2, <- Hl3, <- Hc0, <- Hc2, <- Hc3.
    replace (Some q) with (p_elem p3) by congruence. now apply h_attrs_out. }
  destruct HX as (x' & E & HX). exists x'. split; [exact E|exact HX].
Qed.

Lemma end_start_tag_out : forall cd p, goodp cd p ->
  out p (lit ">") None (p_level p) (p_can_indent p) (end_start_tag p).
Proof.
  intros cd p Hg. unfold end_start_tag. rewrite <- (app_nil_r (lit ">")).
  eapply out_bind; [exact Hg|eapply p_ascii_out; [exact Hg|ascii]|].
  intros p1 Hg1 He Hl Hc. rewrite <- Hl, <- Hc. apply out_set_elem.
Qed.

Lemma x_text_out : forall cd m p s, good_maps m -> goodp cd p -> okelem p -> chars s ->
  out p (pend p ++ aesc cd (m_text m) s) None (p_level p) (p_can_indent p) (x_text m s p).
Proof.
  intros cd m p s Hm Hg Ho Hs. unfold x_text.
  eapply out_bind; [exact Hg|eapply close_tag_out; [exact Hg|exact Ho]|]. intros p1 H1 <- <- <-.
  eapply p_aesc_out; [exact H1|apply Hm|exact Hs].
Qed.

Lemma html_pi_out : forall cd p t d, goodp cd p -> okelem p -> encode cd t <> None -> encode cd d <> None ->
  out p (pend p ++ lit "<?" ++ t ++ (match d with [] => [] | _ => 32 :: d end) ++ lit ">") None (p_level p) (p_can_indent p)
    (html_pi t d p).
Proof.
  intros cd p t d Hg Ho Ht Hd. unfold html_pi.
  eapply out_bind; [exact Hg|eapply close_tag_out; [exact Hg|exact Ho]|]. intros p1 H1 <- <- <-.
  eapply out_bind; [exact H1|eapply p_ascii_out; [exact H1|ascii]|]. intros p2 H2 <- <- <-.
  eapply out_bind; [exact H2|eapply p_encode_out; [exact H2|exact Ht]|]. intros p3 H3 <- <- <-.
  eapply out_bind with (e := p_elem p3) (l := p_level p3) (ci := p_can_indent p3); [exact H3| |].
  - destruct d as [|c d]; [apply out_ret|].
    change (32 :: c :: d) with (lit " " ++ (c :: d)).
    eapply out_bind; [exact H3|eapply p_ascii_out; [exact H3|ascii]|]. intros p4 H4 <- <- <-.
    eapply p_encode_out; [exact H4|exact Hd].
  - intros p5 H5 <- <- <-. eapply p_ascii_out; [exact H5|ascii].
Qed.

(** ** Steps of the whole state *)
Record sst := { s_inl : list bool; s_noi : list bool; s_forb : Z; s_end : bool; s_lev : Z; s_el : option str }.
Definition stt (h : hp) : sst :=
  {| s_inl := h_inline h; s_noi := h_noindent h; s_forb := h_forbidden h; s_end := h_endtag h;
     s_lev := p_level (h_p h); s_el := p_elem (h_p h) |}.
Definition with_el (s : sst) (e : option str) : sst :=
  {| s_inl := s_inl s; s_noi := s_noi s; s_forb := s_forb s; s_end := s_end s; s_lev := s_lev s; s_el := e |}.
Definition with_end (s : sst) (e : bool) : sst :=
  {| s_inl := s_inl s; s_noi := s_noi s; s_forb := s_forb s; s_end := e; s_lev := s_lev s; s_el := s_el s |}.

Section Steps.
Variables (cd : codec) (m : maps).
Hypothesis Hm : good_maps m.

Definition good (h : hp) : Prop := goodp cd (h_p h) /\ h_maps h = m.
Definition hstep (h : hp) (t : str) (s : sst) (r : result hp) : Prop :=
  exists h', r = Ok h' /\ good h' /\ emits (p_x (h_p h)) (p_x (h_p h')) t /\ stt h' = s.

Lemma hstep_ret : forall h, good h -> hstep h [] (stt h) (Ok h).
Proof. intros h Hg. exists h. repeat split; try apply Hg; try reflexivity. apply emits_nil. Qed.
Lemma hstep_bind : forall h t s r u s2 (f : hp -> result hp), hstep h t s r ->
  (forall h', good h' -> stt h' = s -> hstep h' u s2 (f h')) -> hstep h (t ++ u) s2 (bind r f).
Proof.
  intros h t s r u s2 f (h' & -> & Hg & He & Hs) Hf. cbn [bind].
  destruct (Hf h' Hg Hs) as (h2 & E2 & Hg2 & He2 & Hs2). exists h2. rewrite E2.
  repeat split; try apply Hg2; try assumption. eapply emits_trans; eauto.
Qed.
Lemma hstep_eq : forall h t s r t' s', hstep h t s r -> t = t' -> s = s' -> hstep h t' s' r.
Proof. intros h t s r t' s' H <- <-. exact H. Qed.
Lemma on_p_step : forall h t e l ci f, good h -> out (h_p h) t e l ci (f (h_p h)) ->
  hstep h t {| s_inl := h_inline h; s_noi := h_noindent h; s_forb := h_forbidden h; s_end := h_endtag h; s_lev := l; s_el := e |} (on_p h f).
Proof.
  intros h t e l ci f [[Hc Hr] Hg] (x' & E & ER). unfold on_p. rewrite ER. cbn [rmap].
  eexists. split; [reflexivity|]. split; [|split; [exact E|reflexivity]]. split; [|exact Hg]. split; cbn.
  - now rewrite (emits_cd _ _ _ E).
  - eapply emits_ready; eauto.
Qed.
Lemma on_p_step' : forall h t e f, good h -> out (h_p h) t e (p_level (h_p h)) (p_can_indent (h_p h)) (f (h_p h)) ->
  hstep h t (with_el (stt h) e) (on_p h f).
Proof. intros. eapply on_p_step; eauto. Qed.

Variables (low : str -> str) (kd : kind).
Hypothesis Hkd : kd <> HtmlStrip.
Definition xml : bool := negb (is_html kd).

Definition tatts (ns : option str) (q : str) (a : list (str * str)) : list (str * option str) :=
  if is_html kd then map (html_attribute low (low q)) a
  else if is_xhtml ns then map (xhtml_attribute q) a else map (fun x => (fst x, Some (snd x))) a.
Definition all_atts ns q d a : list (str * option str) := map nsattr d ++ tatts ns q a.
(** Is the start tag left open? *)
Definition sopen (ns : option str) (q : str) : bool := negb (is_html kd) && negb (is_xhtml ns && negb (isin q x_empty_elements)).
Definition voidq (q : str) : bool := is_html kd && isin (low q) forbidden_end_elements.
Definition form_of (ns : option str) (q : str) (k : list call) : form :=
  if voidq q then Void else if sopen ns q then match k with [] => Mini | _ => Full end else Full.
Fixpoint render (c : call) : dn :=
  match c with
  | CElem ns q d a k => DE (form_of ns q k) q (all_atts ns q d a) (map render k)
  | CText s => DT s
  | CComment s => DC s
  | CPI t d => DP t d
  end.

Lemma base_start_step : forall ns q d a h, good h -> okelem (h_p h) -> encode cd q <> None ->
  (is_html kd = true -> ns = None) -> Forall (wfa cd) (all_atts ns q d a) ->
  hstep h (pend (h_p h) ++ 60 :: q ++ flat_map (att_chars cd m) (all_atts ns q d a) ++ (if sopen ns q then [] else lit ">"))
    (with_el (stt h) (if sopen ns q then Some q else None)) (base_start low kd ns q d a h).
Proof.
  intros ns q d a h Hg Ho Hq Hns HF. destruct Hg as [Hgp Hgm].
  assert (Hg : good h) by (split; assumption).
  replace (pend (h_p h) ++ 60 :: q ++ flat_map (att_chars cd m) (all_atts ns q d a) ++ (if sopen ns q then [] else lit ">"))
    with ((pend (h_p h) ++ 60 :: q ++ flat_map (att_chars cd m) (all_atts ns q d a)) ++ (if sopen ns q then [] else lit ">"))
    by (rewrite <- !app_assoc; cbn [app]; rewrite <- !app_assoc; reflexivity).
  assert (HS : forall h1 at', h_p h1 = h_p h -> h_maps h1 = m -> stt h1 = stt h -> all_atts ns q d a = map nsattr d ++ at' ->
    hstep h (pend (h_p h) ++ 60 :: q ++ flat_map (att_chars cd m) (all_atts ns q d a)) (with_el (stt h) (Some q)) (on_p h1 (x_start m q d at'))).
  { intros h1 at' E1 E2 E3 E4. rewrite E4 in HF |- *.
    assert (Hg1 : good h1) by (split; [now rewrite E1|exact E2]).
    assert (HO := on_p_step' h1 (pend (h_p h1) ++ 60 :: q ++ flat_map (att_chars cd m) (map nsattr d ++ at')) (Some q) (x_start m q d at') Hg1).
    rewrite E3 in HO. rewrite E1 in HO.
    destruct HO as (h' & R1 & R2 & R3 & R4); [now apply x_start_out|].
    exists h'. split; [exact R1|]. split; [exact R2|]. split; [|exact R4]. now rewrite E1 in R3. }
  assert (HE : forall h1, good h1 -> stt h1 = with_el (stt h) (Some q) -> hstep h1 (lit ">") (with_el (stt h) None) (on_p h1 end_start_tag)).
  { intros h1 Hg1 E. eapply hstep_eq; [apply on_p_step'; [exact Hg1|eapply end_start_tag_out; apply Hg1]|reflexivity|]. rewrite E. reflexivity. }
  assert (HX : is_html kd = false -> hstep h ((pend (h_p h) ++ 60 :: q ++ flat_map (att_chars cd m) (all_atts ns q d a)) ++ (if sopen ns q then [] else lit ">"))
    (with_el (stt h) (if sopen ns q then Some q else None)) (xhtml_start ns q d a h)).
  { intro Hk. unfold xhtml_start. cbv zeta. rewrite Hgm. eapply hstep_bind.
    - apply HS; auto. unfold all_atts, tatts. now rewrite Hk.
    - intros h' Hg' E. unfold sopen. rewrite Hk. cbn [negb andb]. destruct (is_xhtml ns && negb (isin q x_empty_elements)); cbn [negb].
      + now apply HE.
      + eapply hstep_eq; [now apply hstep_ret|reflexivity|exact E]. }
  assert (HH : is_html kd = true -> hstep h ((pend (h_p h) ++ 60 :: q ++ flat_map (att_chars cd m) (all_atts ns q d a)) ++ (if sopen ns q then [] else lit ">"))
    (with_el (stt h) (if sopen ns q then Some q else None)) (html_start low false ns q d a h)).
  { intro Hk. rewrite (Hns Hk) in *. unfold sopen. rewrite Hk. cbn [negb andb]. unfold html_start. cbv zeta. rewrite Hgm. eapply hstep_bind.
    - apply HS.
      + destruct (isin (low q) no_escape_elements); reflexivity.
      + destruct (isin (low q) no_escape_elements); exact Hgm.
      + destruct (isin (low q) no_escape_elements); reflexivity.
      + unfold all_atts, tatts. now rewrite Hk.
    - exact HE. }
  unfold base_start. destruct kd; try (exfalso; now apply Hkd); (apply HH; reflexivity) || (apply HX; reflexivity).
Qed.

Lemma base_end_step : forall ns q h, good h -> okelem (h_p h) -> encode cd q <> None ->
  (is_html kd = true -> ns = None /\ p_elem (h_p h) = None) ->
  (is_open (h_p h) = true -> is_xhtml ns && isin q x_empty_elements = false) ->
  hstep h (if voidq q then [] else if is_open (h_p h) then lit "/>" else lit "</" ++ q ++ lit ">")
    (with_el (stt h) None) (base_end low kd ns q h).
Proof.
  intros ns q h Hg Ho Hq Hh Hx. unfold base_end, voidq.
  assert (HX : is_html kd = false -> hstep h (if is_open (h_p h) then lit "/>" else lit "</" ++ q ++ lit ">") (with_el (stt h) None) (xhtml_end ns q h)).
  { intro Hk. unfold xhtml_end.
    replace (is_open (h_p h) && isin q x_empty_elements && is_xhtml ns) with false.
    2:{ destruct (is_open (h_p h)); [|reflexivity]. specialize (Hx eq_refl). now destruct (is_xhtml ns), (isin q x_empty_elements). }
    eapply on_p_step'; [exact Hg|]. assert (HO := end_element0_out cd false (h_p h) q (proj1 Hg) Ho Hq).
    unfold pend in HO. destruct (is_open (h_p h)); exact HO. }
  assert (HH : is_html kd = true -> hstep h (if isin (low q) forbidden_end_elements then [] else if is_open (h_p h) then lit "/>" else lit "</" ++ q ++ lit ">") (with_el (stt h) None) (html_end low ns q h)).
  { intro Hk. destruct (Hh Hk) as [-> He]. unfold html_end. cbv zeta.
    assert (Eo : is_open (h_p h) = false) by (unfold is_open; now rewrite He). rewrite Eo.
    rewrite <- (app_nil_r (if isin _ forbidden_end_elements then _ else _)).
    eapply hstep_bind with (s := stt h).
    - destruct (isin (low q) forbidden_end_elements); [now apply hstep_ret|].
      assert (HO : out (h_p h) (lit "</" ++ q ++ lit ">") (p_elem (h_p h)) (p_level (h_p h)) (p_can_indent (h_p h))
        (bind (p_ascii (h_p h) (lit "</")) (fun p1 => bind (p_encode p1 q) (fun p2 => p_ascii p2 (lit ">"))))).
      { destruct Hg as [Hg _]. eapply out_bind; [exact Hg|eapply p_ascii_out; [exact Hg|ascii]|]. intros p1 H1 <- <- <-.
        eapply out_bind; [exact H1|eapply p_encode_out; [exact H1|exact Hq]|]. intros p2 H2 <- <- <-.
        eapply p_ascii_out; [exact H2|ascii]. }
      eapply hstep_eq; [eapply (on_p_step' h _ _ (fun p => bind (p_ascii p (lit "</")) (fun p1 => bind (p_encode p1 q) (fun p2 => p_ascii p2 (lit ">")))) Hg HO)|reflexivity|].
      reflexivity.
    - intros h1 Hg1 E. assert (Ew : with_el (stt h) None = stt h) by (unfold with_el, stt; cbn; now rewrite He).
      rewrite Ew, <- E. destruct (isin (low q) no_escape_elements); [|now apply hstep_ret].
      exists (set_noesc h1 (h_noesc h1 - 1)). repeat split; try apply Hg1. apply emits_nil. }
  destruct kd; try (exfalso; now apply Hkd); cbn [is_html andb] in *; auto.
Qed.

(** The calls that can be written. *)
Inductive pok : call -> Prop :=
| po_text : forall s, chars s -> pok (CText s)
| po_comment : forall s, encode cd s <> None -> pok (CComment s)
| po_pi : forall t d, encode cd t <> None -> encode cd d <> None -> pok (CPI t d)
| po_elem : forall ns q d a k, q <> [] -> encode cd q <> None -> Forall (wfa cd) (all_atts ns q d a) ->
    (is_html kd = true -> ns = None) -> (voidq q = true -> k = []) ->
    (kd = Xhtml -> is_xhtml ns && isin q x_empty_elements = true -> k <> []) ->
    Forall pok k -> pok (CElem ns q d a k).

Lemma okelem_el : forall h, okelem (h_p h) <-> s_el (stt h) <> Some [].
Proof. reflexivity. Qed.

Lemma pi_step : forall t d h, good h -> okelem (h_p h) -> encode cd t <> None -> encode cd d <> None ->
  hstep h (pend (h_p h) ++ dchars xml cd m (DP t d)) (with_el (stt h) None)
    (on_p h (if is_html kd then html_pi t d else processing_instruction0 t d)).
Proof.
  intros t d h Hg Ho Ht Hd. unfold xml. cbn [dchars]. apply on_p_step'; [exact Hg|].
  destruct (is_html kd); cbn [negb]; [apply (html_pi_out cd)|apply (pi0_out cd)]; auto; apply Hg.
Qed.
Lemma comment_step : forall d h, good h -> okelem (h_p h) -> encode cd d <> None ->
  hstep h (pend (h_p h) ++ dchars xml cd m (DC d)) (with_el (stt h) None) (on_p h (comment0 d)).
Proof. intros d h Hg Ho Hd. apply on_p_step'; [exact Hg|]. apply (comment0_out cd); auto; apply Hg. Qed.

(** What is before the children: the '>' of an open tag. *)
Definition pl (h : hp) (l : list call) : str := match l with [] => [] | _ => pend (h_p h) end.
Definition el_after (h : hp) (l : list call) : option str := match l with [] => p_elem (h_p h) | _ => None end.

Lemma h_print_elem : forall ns q d a k h, h_print low kd (CElem ns q d a k) h =
  bind (h_start low kd ns q d a h) (fun h1 => bind (h_print_all low kd k h1) (fun h2 => h_end low kd ns q h2)).
Proof.
  intros. cbn [h_print].
  assert (E : forall l g, (fix all (l : list call) (g : hp) : result hp :=
                  match l with [] => Ok g | c' :: l' => bind (h_print low kd c' g) (fun g1 => all l' g1) end) l g = h_print_all low kd l g).
  { induction l as [|c l IH]; intro g; [reflexivity|]. cbn [h_print_all]. destruct (h_print low kd c g); cbn [bind]; [apply IH|reflexivity]. }
  destruct (h_start low kd ns q d a h); cbn [bind]; [|reflexivity]. now rewrite E.
Qed.

(** *** The printers that do not indent *)
Definition plain_spec (c : call) : Prop := pok c -> forall h, good h -> okelem (h_p h) ->
  hstep h (pend (h_p h) ++ dchars xml cd m (render c)) (with_el (stt h) None) (h_print low kd c h).

Lemma plain_all : forall l, Forall plain_spec l -> Forall pok l -> forall h, good h -> okelem (h_p h) ->
  hstep h (pl h l ++ flat_map (dchars xml cd m) (map render l)) (with_el (stt h) (el_after h l)) (h_print_all low kd l h).
Proof.
  induction 1 as [|c l Hc Hl IH]; intros HP h Hg Ho; cbn [h_print_all map flat_map pl el_after].
  - eapply hstep_eq; [now apply hstep_ret|reflexivity|]. reflexivity.
  - inversion HP; subst. rewrite app_assoc. eapply hstep_bind; [now apply Hc|].
    intros h1 Hg1 E1.
    assert (Ee : p_elem (h_p h1) = None) by exact (f_equal s_el E1).
    eapply hstep_eq; [apply IH; auto; unfold okelem; rewrite Ee; discriminate| |].
    + unfold pl, pend, is_open. rewrite Ee. destruct l; reflexivity.
    + rewrite E1. unfold el_after. rewrite Ee. destruct l; reflexivity.
Qed.

Lemma plain_one : kd <> HtmlIndent -> kd <> XhtmlIndent -> forall c, plain_spec c.
Proof.
  intros K1 K2 c. induction c as [ns q d a k IH|s|s|t d] using call_ind2; intros HP h Hg Ho; inversion HP; subst.
  - rewrite h_print_elem.
    assert (ES : h_start low kd ns q d a h = base_start low kd ns q d a h) by (unfold h_start; destruct kd; congruence). rewrite ES.
    cbn [render dchars].
    set (A := flat_map (att_chars cd m) (all_atts ns q d a)).
    set (K := flat_map (dchars xml cd m) (map render k)).
    assert (EX : pend (h_p h) ++ 60 :: q ++ A ++ close_of (form_of ns q k) K q =
      (pend (h_p h) ++ 60 :: q ++ A ++ (if sopen ns q then [] else lit ">")) ++
      ((if sopen ns q then match k with [] => [] | _ => lit ">" end else []) ++ K) ++
      (if voidq q then [] else if sopen ns q && (match k with [] => true | _ => false end) then lit "/>" else lit "</" ++ q ++ lit ">")).
    { rewrite <- !app_assoc. f_equal. cbn [app]. f_equal. rewrite <- !app_assoc. do 2 f_equal.
      unfold form_of. destruct (voidq q) eqn:Ev.
      - assert (EK : K = []) by (unfold K; now rewrite (H8 eq_refl)). rewrite EK. assert (Es : sopen ns q = false).
        { unfold sopen. unfold voidq in Ev. destruct (is_html kd); [reflexivity|discriminate Ev]. }
        rewrite Es. reflexivity.
      - destruct (sopen ns q) eqn:Es; [|reflexivity]. destruct k; reflexivity. }
    rewrite EX. eapply hstep_bind; [apply base_start_step; auto|].
    intros h1 Hg1 E1.
    assert (Ee : p_elem (h_p h1) = if sopen ns q then Some q else None) by exact (f_equal s_el E1).
    assert (Ho1 : okelem (h_p h1)). { unfold okelem. rewrite Ee. destruct (sopen ns q); [|discriminate]. intro HH. now injection HH. }
    assert (Eo : is_open (h_p h1) = sopen ns q).
    { unfold is_open. rewrite Ee. destruct (sopen ns q); [|reflexivity]. destruct q; [now exfalso|reflexivity]. }
    eapply hstep_bind.
    + eapply hstep_eq; [apply (plain_all k IH H10 h1 Hg1 Ho1)| |reflexivity].
      unfold pl, pend. rewrite Eo. fold K. destruct k; [destruct (sopen ns q); reflexivity|]. destruct (sopen ns q); reflexivity.
    + intros h2 Hg2 E2.
      assert (Ee2 : p_elem (h_p h2) = el_after h1 k) by exact (f_equal s_el E2).
      assert (EE : h_end low kd ns q h2 = base_end low kd ns q h2) by (unfold h_end; destruct kd; congruence). rewrite EE.
      assert (Eo2 : is_open (h_p h2) = sopen ns q && match k with [] => true | _ => false end).
      { unfold is_open. rewrite Ee2. unfold el_after. destruct k.
        - unfold is_open in Eo. rewrite andb_true_r. exact Eo.
        - now rewrite andb_false_r. }
      eapply hstep_eq; [apply base_end_step; auto| |].
      * unfold okelem. rewrite Ee2. unfold el_after. destruct k; [exact Ho1|discriminate].
      * intro Hk. split; [now apply H7|]. rewrite Ee2. unfold el_after. destruct k; [|reflexivity]. rewrite Ee. unfold sopen. now rewrite Hk.
      * rewrite Eo2. intro HH. destruct k; [|now rewrite andb_false_r in HH]. rewrite andb_true_r in HH.
        destruct (is_xhtml ns && isin q x_empty_elements) eqn:Ex; [|reflexivity]. exfalso.
        assert (kd = Xhtml). { unfold sopen in HH. destruct kd; try discriminate HH; congruence. }
        now apply H9.
      * rewrite Eo2. reflexivity.
      * rewrite E2, E1. reflexivity.
  - cbn [render dchars h_print].
    assert (EX : h_text kd s h = on_p h (x_text m s)) by (unfold h_text; destruct Hg as [_ <-]; destruct kd; try reflexivity; congruence).
    rewrite EX. apply on_p_step'; [exact Hg|]. apply (x_text_out cd); auto; apply Hg.
  - cbn [render h_print]. assert (EX : h_comment kd s h = on_p h (comment0 s)) by (unfold h_comment; destruct kd; congruence).
    rewrite EX. now apply comment_step.
  - cbn [render h_print]. assert (EX : h_pi kd t d h = on_p h (if is_html kd then html_pi t d else processing_instruction0 t d)).
    { unfold h_pi; destruct kd; congruence. }
    rewrite EX. now apply pi_step.
Qed.

(** *** The printers that indent *)
Variable L : layout.
Hypothesis Hind : kd = HtmlIndent \/ kd = XhtmlIndent.
Hypothesis Haft : forall e s, after_text L e s = match kd with HtmlIndent => isspace s | _ => e end.
Inductive lok : call -> Prop :=
| lo_text : forall s, lok (CText s)
| lo_comment : forall s, lok (CComment s)
| lo_pi : forall t d, lok (CPI t d)
| lo_elem : forall ns q d a k, in_line L ns q = key_in (key_of low kd ns q) (inline_of kd) ->
    kept L ns q = key_in (key_of low kd ns q) (noindent_of kd) -> Forall lok k -> lok (CElem ns q d a k).

Definition at_ (s : sst) (depth : nat) (keep par : bool) : Prop :=
  (exists outer, s_inl s = negb par :: outer) /\ (s_forb s =? 0)%Z = negb keep /\ (0 <= s_forb s)%Z /\ s_lev s = Z.of_nat depth.
Lemma at_with : forall s d kp par e b, at_ s d kp par -> at_ (with_end (with_el s e) b) d kp par.
Proof. intros s d kp par e b H. exact H. Qed.
Lemma at_el : forall s d kp par e, at_ s d kp par -> at_ (with_el s e) d kp par.
Proof. intros s d kp par e H. exact H. Qed.

Definition brk (par keep : bool) (depth : nat) (c : call) : str := if par && negb keep && own_line L c then new_line depth else [].
Definition golist (depth : nat) (keep par : bool) (l : list call) : list call :=
  flat_map (fun x => (if par && negb keep && own_line L x then [CText (new_line depth)] else []) ++ [indented L depth keep x]) l.

Lemma indented_elem : forall depth keep ns q d a k,
  indented L depth keep (CElem ns q d a k) =
  let keep' := keep || kept L ns q in
  let par := negb (in_line L ns q) in
  CElem ns q d a (golist (S depth) keep' par k ++ (if par && negb keep' && fold_left (end_line L) k false then [CText (new_line depth)] else [])).
Proof.
  intros. cbn [indented]. cbv zeta. f_equal. generalize false.
  induction k as [|x k IH]; intro e; [reflexivity|]. cbn [golist flat_map fold_left]. rewrite IH.
  rewrite <- app_assoc. cbn [app]. rewrite <- !app_assoc. reflexivity.
Qed.

Lemma nl_ascii : forall d, Forall (fun c => c < 128) (new_line d).
Proof. intro d. unfold new_line. constructor; [reflexivity|]. apply Forall_forall. intros c Hc. apply repeat_spec in Hc. now subst. Qed.
Lemma nl_chars : forall d, sound_codec cd -> dchars xml cd m (DT (new_line d)) = new_line d.
Proof.
  intros d Hs. cbn [dchars]. destruct Hm as (_ & _ & _ & H10 & H32).
  assert (He : forall c, c < 128 -> escc cd c = [c]).
  { intros c Hc. unfold escc. destruct Hs as [Hs|(_ & Hs & _)].
    - now rewrite Hs.
    - specialize (Hs c Hc). destruct (cd c); [reflexivity|now exfalso]. }
  unfold new_line. cbn [aesc]. rewrite H10, He by reflexivity. cbn [app]. f_equal.
  induction (2 * d)%nat as [|n IH]; [reflexivity|]. cbn [repeat aesc]. rewrite H32, He by reflexivity. cbn [app]. now rewrite IH.
Qed.

Lemma newline_step : forall h d, good h -> s_lev (stt h) = Z.of_nat d -> hstep h (new_line d) (stt h) (h_newline h).
Proof.
  intros h d Hg Hl. unfold h_newline.
  eapply hstep_eq; [apply (on_p_step' h (new_line d) (p_elem (h_p h))); [exact Hg|]|reflexivity|reflexivity].
  unfold newline_indent. cbn in Hl. replace (Z.to_nat (p_level (h_p h))) with d by lia. apply (p_ascii_out cd (h_p h) (new_line d)); [apply Hg|apply nl_ascii].
Qed.

Lemma close_step : forall h, good h -> okelem (h_p h) -> hstep h (pend (h_p h)) (with_el (stt h) None) (on_p h close_tag).
Proof. intros h Hg Ho. apply on_p_step'; [exact Hg|]. apply (close_tag_out cd); [apply Hg|exact Ho]. Qed.

Definition indent_spec (c : call) : Prop := pok c -> lok c -> forall h depth keep par, good h -> okelem (h_p h) -> at_ (stt h) depth keep par ->
  hstep h (pend (h_p h) ++ brk par keep depth c ++ dchars xml cd m (render (indented L depth keep c)))
    (with_end (with_el (stt h) None) (end_line L (s_end (stt h)) c)) (h_print low kd c h).

Lemma indent_all : forall l, Forall indent_spec l -> Forall pok l -> Forall lok l -> forall h depth keep par,
  good h -> okelem (h_p h) -> at_ (stt h) depth keep par ->
  hstep h (pl h l ++ flat_map (dchars xml cd m) (map render (golist depth keep par l)))
    (with_end (with_el (stt h) (el_after h l)) (fold_left (end_line L) l (s_end (stt h)))) (h_print_all low kd l h).
Proof.
  induction 1 as [|c l Hc Hl IH]; intros HP HL h depth keep par Hg Ho Ha; cbn [h_print_all golist map flat_map pl el_after fold_left].
  - eapply hstep_eq; [now apply hstep_ret|reflexivity|]. reflexivity.
  - inversion HP; inversion HL; subst. rewrite map_app, flat_map_app, app_assoc. eapply hstep_bind.
    { eapply hstep_eq; [apply (Hc H1 H5 h depth keep par Hg Ho Ha)| |reflexivity]. f_equal.
      unfold brk. destruct (par && negb keep && own_line L c).
      - cbn [app map flat_map]. rewrite app_nil_r. cbn [render]. rewrite nl_chars; [reflexivity|destruct Hg as [[<- (_ & _ & _ & Hs)] _]; exact Hs].
      - cbn [app map flat_map]. now rewrite app_nil_r. }
    intros h1 Hg1 E1.
    assert (Ee : p_elem (h_p h1) = None) by exact (f_equal s_el E1).
    eapply hstep_eq; [apply (IH H2 H6 h1 depth keep par)| |].
    + exact Hg1.
    + unfold okelem. rewrite Ee. discriminate.
    + rewrite E1. exact Ha.
    + unfold pl, pend, is_open. rewrite Ee. destruct l; reflexivity.
    + rewrite E1. unfold el_after. rewrite Ee. destruct l; reflexivity.
Qed.

Lemma other_step : forall f t h depth keep par, good h -> okelem (h_p h) -> at_ (stt h) depth keep par ->
  (forall h1, good h1 -> p_elem (h_p h1) = None -> hstep h1 t (with_el (stt h1) None) (on_p h1 f)) ->
  hstep h (pend (h_p h) ++ (if par && negb keep then new_line depth else []) ++ t)
    (with_end (with_el (stt h) None) true) (indent_other f h).
Proof.
  intros f t h depth keep par Hg Ho ((outer & Ei) & Ef & _ & El) Hf. unfold indent_other.
  eapply hstep_bind; [now apply close_step|]. intros h0 Hg0 E0. cbv zeta.
  set (h1 := set_ind h0 (h_inline h0) (h_noindent h0) (h_forbidden h0) true).
  assert (Hg1 : good h1) by exact Hg0.
  assert (E1 : stt h1 = with_end (with_el (stt h) None) true) by (change (stt h1) with (with_end (stt h0) true); now rewrite E0).
  assert (Ei1 : h_inline h1 = negb par :: outer) by (change (s_inl (stt h1) = negb par :: outer); rewrite E1; exact Ei).
  assert (Ef1 : (h_forbidden h1 =? 0)%Z = negb keep) by (change ((s_forb (stt h1) =? 0)%Z = negb keep); rewrite E1; exact Ef).
  change (h_inline h0) with (h_inline h1) in Ei1.
  change (hstep h1 ((if par && negb keep then new_line depth else []) ++ t) (with_end (with_el (stt h) None) true)
    (match h_inline h1 with [] => Err IndexError | top :: _ => bind (if negb top && (h_forbidden h1 =? 0)%Z then h_newline h1 else Ok h1) (fun h2 => on_p h2 f) end)).
  rewrite Ei1, Ef1, negb_involutive. eapply hstep_bind with (s := stt h1).
  - destruct (par && negb keep); [|now apply hstep_ret]. apply newline_step; [exact Hg1|]. rewrite E1. exact El.
  - intros h2 Hg2 E2. eapply hstep_eq; [apply Hf; [exact Hg2|]|reflexivity|].
    + change (s_el (stt h2) = None). now rewrite E2, E1.
    + rewrite E2, E1. reflexivity.
Qed.

Lemma indent_one : forall c, indent_spec c.
Proof.
  intro c. induction c as [ns q d a k IH|s|s|t d] using call_ind2; intros HP HL h depth keep par Hg Ho Ha; inversion HP; inversion HL; subst.
  - rewrite h_print_elem, indented_elem. cbv zeta.
    assert (ES : h_start low kd ns q d a h = indent_start low kd ns q d a h) by (unfold h_start; destruct Hind as [-> | ->]; reflexivity). rewrite ES. clear ES.
    assert (EE : forall g, h_end low kd ns q g = indent_end low kd ns q g) by (intro g; unfold h_end; destruct Hind as [-> | ->]; reflexivity).
    set (keep' := keep || kept L ns q). set (par' := negb (in_line L ns q)).
    set (fin := par' && negb keep' && fold_left (end_line L) k false).
    set (k' := golist (S depth) keep' par' k ++ (if fin then [CText (new_line depth)] else [])).
    cbn [render dchars].
    set (A := flat_map (att_chars cd m) (all_atts ns q d a)).
    set (K := flat_map (dchars xml cd m) (map render (golist (S depth) keep' par' k))).
    assert (Hsnd : sound_codec cd) by (destruct Hg as [[<- (_ & _ & _ & Hs)] _]; exact Hs).
    assert (EK : flat_map (dchars xml cd m) (map render k') = K ++ (if fin then new_line depth else [])).
    { unfold k'. rewrite map_app, flat_map_app. fold K. f_equal. destruct fin; [|reflexivity]. cbn [map flat_map render]. rewrite nl_chars by exact Hsnd. apply app_nil_r. }
    assert (Ek : k = [] <-> k' = []).
    { unfold k'. split.
      - intros ->. unfold fin. cbn [fold_left]. rewrite andb_false_r. reflexivity.
      - intro HH. apply app_eq_nil in HH as [HH _]. destruct k as [|x k]; [reflexivity|]. cbn [golist flat_map] in HH.
        apply app_eq_nil in HH as [HH _]. apply app_eq_nil in HH as [_ HH]. discriminate HH. }
    assert (EF : form_of ns q k' = form_of ns q k).
    { unfold form_of. destruct (voidq q); [reflexivity|]. destruct (sopen ns q); [|reflexivity].
      destruct k as [|x k0]; [rewrite (proj1 Ek eq_refl); reflexivity|]. destruct k'; [discriminate (proj2 Ek eq_refl)|reflexivity]. }
    rewrite EF, EK.
    assert (EX : pend (h_p h) ++ brk par keep depth (CElem ns q d a k) ++ 60 :: q ++ A ++ close_of (form_of ns q k) (K ++ (if fin then new_line depth else [])) q =
      pend (h_p h) ++ (brk par keep depth (CElem ns q d a k) ++ 60 :: q ++ A ++ (if sopen ns q then [] else lit ">")) ++
      ((if sopen ns q then match k with [] => [] | _ => lit ">" end else []) ++ K) ++
      (if sopen ns q && (match k with [] => true | _ => false end) then lit "/>"
       else (if fin then new_line depth else []) ++ (if voidq q then [] else lit "</" ++ q ++ lit ">"))).
    { f_equal. rewrite <- !app_assoc. f_equal. cbn [app]. f_equal. rewrite <- !app_assoc. do 2 f_equal.
      assert (Ek0 : k = [] -> K = [] /\ fin = false) by (intros ->; unfold fin; cbn [fold_left]; rewrite andb_false_r; split; reflexivity).
      unfold form_of. destruct (voidq q) eqn:Ev.
      - destruct (Ek0 (H8 eq_refl)) as [-> ->]. assert (Es : sopen ns q = false).
        { unfold sopen. unfold voidq in Ev. destruct (is_html kd); [reflexivity|discriminate Ev]. }
        rewrite Es. reflexivity.
      - destruct (sopen ns q) eqn:Es.
        + destruct k.
          * destruct (Ek0 eq_refl) as [-> ->]. reflexivity.
          * cbn [close_of andb]. rewrite <- !app_assoc. reflexivity.
        + cbn [close_of andb]. rewrite <- !app_assoc. reflexivity. }
    rewrite EX. clear EX.
    (* the start tag *)
    set (top := in_line L ns q) in *.
    set (s1 := {| s_inl := top :: s_inl (stt h); s_noi := kept L ns q :: s_noi (stt h); s_forb := s_forb (stt h) + b2z (kept L ns q);
                  s_end := false; s_lev := Z.of_nat (S depth); s_el := if sopen ns q then Some q else None |}).
    destruct Ha as ((outer & Ei) & Ef & Hf & El).
    assert (HSt : hstep h (pend (h_p h) ++ brk par keep depth (CElem ns q d a k) ++ 60 :: q ++ A ++ (if sopen ns q then [] else lit ">")) s1
      (indent_start low kd ns q d a h)).
    { unfold indent_start. eapply hstep_bind; [now apply close_step|]. intros h0 Hg0 E0. cbv zeta.
      assert (Ei0 : h_inline h0 = negb par :: outer) by (change (s_inl (stt h0) = negb par :: outer); rewrite E0; exact Ei).
      assert (Ef0 : (h_forbidden h0 =? 0)%Z = negb keep) by (change ((s_forb (stt h0) =? 0)%Z = negb keep); rewrite E0; exact Ef).
      assert (Ee0 : p_elem (h_p h0) = None) by exact (f_equal s_el E0).
      rewrite Ei0, Ef0. match goal with H : top = key_in _ _ |- _ => rewrite <- H end.
      match goal with H : kept L ns q = _ |- _ => rewrite <- H end.
      eapply hstep_bind with (s := stt h0).
      { unfold brk. cbn [own_line]. fold top.
        replace (par && negb keep && negb top) with (negb top && negb (negb par) && negb keep) by (destruct par, keep, top; reflexivity).
        destruct (negb top && negb (negb par) && negb keep); [|now apply hstep_ret]. apply newline_step; [exact Hg0|]. rewrite E0. exact El. }
      intros h1 Hg1 E1. assert (Ee1 : p_elem (h_p h1) = None) by (change (s_el (stt h1) = None); rewrite E1; exact Ee0).
      rewrite <- (app_nil_r (60 :: _)). eapply hstep_bind.
      { eapply hstep_eq; [apply base_start_step; auto; unfold okelem; rewrite Ee1; discriminate| |reflexivity].
        unfold pend, is_open. rewrite Ee1. reflexivity. }
      intros h2 Hg2 E2. eexists. split; [reflexivity|]. split; [exact Hg2|]. split; [apply emits_nil|].
      rewrite E1, E0 in E2. unfold s1. unfold stt at 1. cbn.
      change (h_inline h2) with (s_inl (stt h2)). change (h_noindent h2) with (s_noi (stt h2)). change (h_forbidden h2) with (s_forb (stt h2)).
      change (p_level (h_p h2)) with (s_lev (stt h2)). change (p_elem (h_p h2)) with (s_el (stt h2)). rewrite E2. cbn [with_el s_inl s_noi s_forb s_lev s_el].
      rewrite El. f_equal. lia. }
    rewrite app_assoc. eapply hstep_bind; [exact HSt|]. clear HSt. intros h1 Hg1 E1.
    assert (Ee : p_elem (h_p h1) = if sopen ns q then Some q else None) by exact (f_equal s_el E1).
    assert (Ho1 : okelem (h_p h1)). { unfold okelem. rewrite Ee. destruct (sopen ns q); [|discriminate]. intro HH. now injection HH. }
    assert (Eo : is_open (h_p h1) = sopen ns q).
    { unfold is_open. rewrite Ee. destruct (sopen ns q); [|reflexivity]. destruct q; [now exfalso|reflexivity]. }
    eapply hstep_bind.
    { eapply hstep_eq; [apply (indent_all k IH)| |reflexivity].
      - assumption.
      - assumption.
      - exact Hg1.
      - exact Ho1.
      - rewrite E1. unfold at_, s1. cbn [s_inl s_forb s_lev]. split; [|split; [|split; [|reflexivity]]].
        + exists (s_inl (stt h)). instantiate (1 := par'). unfold par'. now rewrite negb_involutive.
        + instantiate (1 := keep'). unfold keep'. destruct (kept L ns q); cbn [b2z].
          * rewrite orb_true_r. apply Z.eqb_neq. lia.
          * rewrite orb_false_r, Z.add_0_r. exact Ef.
        + destruct (kept L ns q); cbn [b2z]; lia.
      - unfold pl, pend. rewrite Eo. fold K. destruct k; [destruct (sopen ns q); reflexivity|]. destruct (sopen ns q); reflexivity. }
    intros h2 Hg2 E2. rewrite EE. unfold indent_end. cbv zeta.
    set (h2' := set_p h2 (set_level (h_p h2) (p_level (h_p h2) - 1))).
    assert (Ee2 : p_elem (h_p h2) = el_after h1 k) by exact (f_equal s_el E2).
    assert (Eo2 : is_open (h_p h2) = sopen ns q && match k with [] => true | _ => false end).
    { unfold is_open. rewrite Ee2. unfold el_after. destruct k.
      - unfold is_open in Eo. rewrite andb_true_r. exact Eo.
      - now rewrite andb_false_r. }
    assert (Ei2 : h_inline h2' = top :: s_inl (stt h)) by (change (s_inl (stt h2) = top :: s_inl (stt h)); rewrite E2, E1; reflexivity).
    rewrite Ei2.
    set (h3 := set_ind h2' (s_inl (stt h)) (h_noindent h2') (h_forbidden h2') (h_endtag h2')).
    assert (Hg3 : good h3) by exact Hg2.
    set (s3 := {| s_inl := s_inl (stt h); s_noi := kept L ns q :: s_noi (stt h); s_forb := s_forb (stt h) + b2z (kept L ns q);
                  s_end := fold_left (end_line L) k false; s_lev := Z.of_nat depth; s_el := el_after h1 k |}).
    assert (E3 : stt h3 = s3).
    { unfold s3. unfold stt at 1. cbn.
      change (h_noindent h2) with (s_noi (stt h2)). change (h_forbidden h2) with (s_forb (stt h2)). change (h_endtag h2) with (s_end (stt h2)).
      change (p_level (h_p h2)) with (s_lev (stt h2)). change (p_elem (h_p h2)) with (s_el (stt h2)). rewrite E2, E1. cbn [with_el with_end s_inl s_noi s_forb s_lev s_el s_end s1].
      f_equal. lia. }
    assert (Ehk : sopen ns q && (match k with [] => true | _ => false end) = true -> is_html kd = false).
    { unfold sopen. destruct (is_html kd); [discriminate|reflexivity]. }
    change (is_open (h_p h3)) with (is_open (h_p h2)). rewrite Eo2.
    rewrite <- (app_nil_r (if sopen ns q && _ then _ else _)).
    eapply hstep_bind with (s := with_el s3 None).
    { change (hstep h3 (if sopen ns q && (match k with [] => true | _ => false end) then lit "/>" else (if fin then new_line depth else []) ++ (if voidq q then [] else lit "</" ++ q ++ lit ">"))
        (with_el s3 None)
        (if sopen ns q && (match k with [] => true | _ => false end) then on_p h3 (fun p => bind (p_ascii p (lit "/>")) (fun p1 => Ok (set_elem p1 None)))
         else bind (if negb top && (h_forbidden h3 =? 0)%Z && h_endtag h3 then h_newline h3 else Ok h3) (fun h4 => base_end low kd ns q h4))).
      destruct (sopen ns q && match k with [] => true | _ => false end) eqn:Eb.
      - rewrite <- E3. apply on_p_step'; [exact Hg3|]. rewrite <- (app_nil_r (lit "/>")).
        eapply out_bind; [apply Hg3|eapply p_ascii_out; [apply Hg3|ascii]|].
        intros p1 Hp1 He Hl Hc. rewrite <- Hl, <- Hc. apply out_set_elem.
      - assert (Ec : el_after h1 k = None).
        { unfold el_after. destruct k; [|reflexivity]. rewrite Ee. rewrite andb_true_r in Eb. now rewrite Eb. }
        eapply hstep_bind with (s := stt h3).
        + change (h_forbidden h3) with (s_forb (stt h3)). change (h_endtag h3) with (s_end (stt h3)). rewrite E3. cbn [s3 s_forb s_end].
          replace (negb top && (s_forb (stt h) + b2z (kept L ns q) =? 0)%Z && fold_left (end_line L) k false) with fin.
          * destruct fin; [|rewrite <- E3; now apply hstep_ret]. rewrite <- E3. apply newline_step; [exact Hg3|]. rewrite E3. reflexivity.
          * unfold fin, par'. do 2 f_equal. unfold keep'. destruct (kept L ns q); cbn [b2z].
            -- rewrite orb_true_r. symmetry. apply Z.eqb_neq. lia.
            -- rewrite orb_false_r, Z.add_0_r. symmetry. exact Ef.
        + intros h4 Hg4 E4. assert (Ee4 : p_elem (h_p h4) = None) by (change (s_el (stt h4) = None); rewrite E4, E3; exact Ec).
          assert (Eo4 : is_open (h_p h4) = false) by (unfold is_open; now rewrite Ee4).
          eapply hstep_eq; [apply base_end_step; auto| |].
          * unfold okelem. rewrite Ee4. discriminate.
          * rewrite Eo4. discriminate.
          * rewrite Eo4. reflexivity.
          * rewrite E4, E3. reflexivity. }
    intros h5 Hg5 E5.
    assert (En : h_noindent h5 = kept L ns q :: s_noi (stt h)) by (change (s_noi (stt h5) = kept L ns q :: s_noi (stt h)); rewrite E5; reflexivity).
    rewrite En. eexists. split; [reflexivity|]. split; [exact Hg5|]. split; [apply emits_nil|].
    unfold stt at 1. cbn. change (h_inline h5) with (s_inl (stt h5)). change (h_forbidden h5) with (s_forb (stt h5)).
    change (p_level (h_p h5)) with (s_lev (stt h5)). change (p_elem (h_p h5)) with (s_el (stt h5)). rewrite E5.
    cbn [with_el with_end s3 s_inl s_noi s_forb s_lev s_el s_end end_line].
    unfold with_end, with_el. cbn [s_inl s_noi s_forb s_lev s_el s_end]. rewrite <- El. unfold par'. f_equal. lia.
  - cbn [indented render dchars h_print end_line]. rewrite Haft. unfold brk. cbn [own_line]. rewrite andb_false_r. cbn [app].
    unfold h_text. cbv zeta.
    set (h0 := match kd with HtmlIndent => set_ind h (h_inline h) (h_noindent h) (h_forbidden h) (isspace s) | _ => h end).
    assert (Hg0 : good h0) by (unfold h0; destruct kd; exact Hg).
    assert (Ep : h_p h0 = h_p h) by (unfold h0; destruct kd; reflexivity).
    rewrite (proj2 Hg0).
    assert (HO := on_p_step' h0 (pend (h_p h0) ++ aesc cd (m_text m) s) None (x_text m s) Hg0).
    rewrite Ep in HO. destruct HO as (h' & R1 & R2 & R3 & R4); [apply x_text_out; auto; apply Hg|].
    exists h'. rewrite Ep in R3. repeat split; try assumption; try apply R2.
    rewrite R4. unfold h0. destruct Hind as [-> | ->]; reflexivity.
  - cbn [indented render h_print end_line]. unfold brk. cbn [own_line]. rewrite andb_true_r.
    assert (EX : h_comment kd s h = indent_other (comment0 s) h) by (unfold h_comment; destruct Hind as [-> | ->]; reflexivity).
    rewrite EX. apply other_step; auto. intros h1 Hg1 Ee1.
    eapply hstep_eq; [apply comment_step; auto; unfold okelem; rewrite Ee1; discriminate| |reflexivity].
    unfold pend, is_open. rewrite Ee1. reflexivity.
  - cbn [indented render h_print end_line]. unfold brk. cbn [own_line]. rewrite andb_true_r.
    assert (EX : h_pi kd t d h = indent_other (if is_html kd then html_pi t d else processing_instruction0 t d) h) by (unfold h_pi; destruct Hind as [-> | ->]; reflexivity).
    rewrite EX. apply other_step; auto. intros h1 Hg1 Ee1.
    eapply hstep_eq; [apply pi_step; auto; unfold okelem; rewrite Ee1; discriminate| |reflexivity].
    unfold pend, is_open. rewrite Ee1. reflexivity.
Qed.
End Steps.
