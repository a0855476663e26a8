(** * The visitor: what is written for a whole tree, in the three styles *)
From Coq Require Import NArith ZArith String List Bool Lia Arith Permutation.
From Verif Require Import PyStr PyErr SerModel SerSpec SerStream SerPrint.
Import ListNotations.
Open Scope N_scope.

Section V.
  Variable cd : codec.
  Variable ordn : list (option str * str) -> list (option str * str).
  Variable orda : list (str * option str) -> list (str * option str).
  Hypothesis ordn_ok : forall l, Permutation (ordn l) l.
  Hypothesis orda_ok : forall l, Permutation (orda l) l.

  (** The tree of qualified names that is written. *)
  Fixpoint printed (canon : bool) (chain : list nsdict) (cur : nsdict) (n : node) : rnode :=
    match n with
    | NText s => RText s
    | NComment s => RComment s
    | NPI t d => RPI t d
    | NElem ns q decls attrs kids =>
      let nss := visit_namespaces (decls :: chain) cur ns q attrs in
      RElem q (written_attrs canon (ordn nss) (map un_some (orda (visit_attributes attrs))))
              (map (printed canon (decls :: chain) (dupdate cur nss)) kids)
    end.

  Lemma aset_some : forall d k v, Forall (fun a => exists w, snd a = Some w) d ->
    Forall (fun a : str * option str => exists w, snd a = Some w) (aset d k v).
  Proof.
    induction d as [|[k' v'] d IH]; intros k v H; cbn [aset].
    - constructor; [cbn; eauto|constructor].
    - inversion H; subst. destruct (str_eqb k' k); constructor; cbn; eauto.
  Qed.
  Lemma visit_attributes_some : forall attrs, Forall (fun a : str * option str => exists w, snd a = Some w) (visit_attributes attrs).
  Proof.
    intro attrs. unfold visit_attributes.
    assert (H : Forall (fun a : str * option str => exists w, snd a = Some w) []) by constructor.
    revert H. generalize (@nil (str * option str)). induction attrs as [|a attrs IH]; intros d H; cbn [fold_left]; [assumption|].
    apply IH. destruct (ostr_eqb _ _); [assumption|]. now apply aset_some.
  Qed.
  Lemma orda_some : forall attrs, orda (visit_attributes attrs) = map some_att (map un_some (orda (visit_attributes attrs))).
  Proof.
    intro attrs. rewrite map_map. rewrite <- (map_id (orda _)) at 1. apply map_ext_in.
    intros [n v] Hin. apply (Permutation_in _ (orda_ok _)) in Hin.
    pose proof (visit_attributes_some attrs) as HF. rewrite Forall_forall in HF.
    destruct (HF _ Hin) as [w Hw]. cbn in Hw. subst. reflexivity.
  Qed.

  Lemma visit_kids : forall st chain cur l p,
    (fix visit_all (l : list node) (q : printer) : result printer :=
                  match l with
                  | [] => Ok q
                  | k :: l' => do q1 <- visit true st ordn orda chain cur k q ; visit_all l' q1
                  end) l p = visit_all true st ordn orda chain cur l p.
  Proof.
    induction l as [|k l IH]; intro p; [reflexivity|]. cbn [visit_all].
    destruct (visit true st ordn orda chain cur k p); cbn [bind]; [apply IH|reflexivity].
  Qed.

  Definition canonb (st : style) : bool := canon_of st.

  Lemma visit_out : forall st, st <> Pretty -> forall n chain cur p, goodp cd p -> okelem p ->
    wfr cd (printed (canonb st) chain cur n) ->
    out p (pend p ++ node_chars cd (canonb st) (printed (canonb st) chain cur n)) None (p_level p) (p_can_indent p)
      (visit true st ordn orda chain cur n p).
  Proof.
    intros st Hst. assert (Hse : forall q a b p, start_element true st q a b p = start_element0 true (canonb st) q a b p)
      by (destruct st; try congruence; reflexivity).
    assert (Hee : forall q p, end_element st q p = end_element0 (canonb st) q p) by (destruct st; try congruence; reflexivity).
    induction n as [ns q d a k IH|s|s|t d] using node_ind2; intros chain cur p Hg Ho Hw.
    - cbn [visit]. cbv zeta. rewrite Hse.
      set (nss := visit_namespaces (d :: chain) cur ns q a) in *.
      cbn [printed] in Hw |- *. cbv zeta in Hw |- *. fold nss in Hw |- *.
      set (wa := written_attrs (canonb st) (ordn nss) (map un_some (orda (visit_attributes a)))) in *.
      cbn [wfr] in Hw. destruct Hw as (Hq0 & Hq & Ha & Hk). apply wfr_all in Hk.
      rewrite (orda_some a).
      set (PK := map (printed (canonb st) (d :: chain) (dupdate cur nss)) k) in *.
      (* start tag *)
      assert (HS : out p (pend p ++ 60 :: q ++ attrs_chars cd (canonb st) wa) (Some q) (p_level p) (p_can_indent p)
                     (start_element0 true (canonb st) q (ordn nss) (map some_att (map un_some (orda (visit_attributes a)))) p)).
      { apply start_element0_out; auto. rewrite Forall_forall in Ha |- *. intros x Hx. apply Ha.
        unfold wa. eapply Permutation_in; [symmetry; apply written_attrs_perm|exact Hx]. }
      cbn [node_chars].
      (* children and end tag *)
      assert (HK : forall p1, goodp cd p1 -> p_elem p1 = Some q ->
        out p1 (match canonb st, PK with
                | false, [] => lit "/>"
                | _, _ => 62 :: flat_map (node_chars cd (canonb st)) PK ++ lit "</" ++ q ++ lit ">"
                end) None (p_level p1) (p_can_indent p1)
          (do p2 <- visit_all true st ordn orda (d :: chain) (dupdate cur nss) k p1; end_element st q p2)).
      { intros p1 Hg1 He1.
        assert (Hopen : is_open p1 = true) by (unfold is_open; rewrite He1; destruct q; congruence).
        assert (HA : out p1 (match PK with [] => [] | _ => 62 :: flat_map (node_chars cd (canonb st)) PK end)
                        (match PK with [] => Some q | _ => None end) (p_level p1) (p_can_indent p1)
                        (visit_all true st ordn orda (d :: chain) (dupdate cur nss) k p1)).
        { assert (HG : forall l p2, Forall (fun n => forall chain cur p, goodp cd p -> okelem p ->
              wfr cd (printed (canonb st) chain cur n) ->
              out p (pend p ++ node_chars cd (canonb st) (printed (canonb st) chain cur n)) None (p_level p) (p_can_indent p)
              (visit true st ordn orda chain cur n p)) l ->
              Forall (wfr cd) (map (printed (canonb st) (d :: chain) (dupdate cur nss)) l) ->
              goodp cd p2 -> okelem p2 ->
              out p2 (match l with [] => [] | _ => pend p2 ++ flat_map (node_chars cd (canonb st)) (map (printed (canonb st) (d :: chain) (dupdate cur nss)) l) end)
                (match l with [] => p_elem p2 | _ => None end) (p_level p2) (p_can_indent p2)
                (visit_all true st ordn orda (d :: chain) (dupdate cur nss) l p2)).
          { induction l as [|n l IHl]; intros p2 HF1 HF2 Hg2 Ho2; cbn [visit_all]; [apply out_ret|].
            inversion HF1 as [|? ? Hn Hl]; subst. cbn [map flat_map] in HF2 |- *. inversion HF2 as [|? ? Wn Wl]; subst.
            rewrite app_assoc. eapply out_bind; [exact Hg2|now apply Hn|]. intros p3 Hg3 He3 <- <-.
            assert (Ho3 : okelem p3) by (unfold okelem; congruence).
            specialize (IHl p3 Hl Wl Hg3 Ho3). unfold pend, is_open in IHl. rewrite He3 in IHl. destruct l; exact IHl. }
          unfold PK in *. destruct k as [|n k]; [cbn [map visit_all]; rewrite <- He1; apply out_ret|].
          specialize (HG (n :: k) p1 IH Hk Hg1). unfold pend in HG. rewrite Hopen in HG. apply HG.
          unfold okelem. rewrite He1. congruence. }
        destruct (canonb st) eqn:EC.
        - replace (62 :: flat_map (node_chars cd true) PK ++ lit "</" ++ q ++ lit ">")
            with ((match PK with [] => [] | _ => 62 :: flat_map (node_chars cd true) PK end) ++ ((match PK with [] => lit ">" | _ => [] end) ++ lit "</" ++ q ++ lit ">"))
            by (destruct PK; reflexivity).
          eapply out_bind; [exact Hg1|exact HA|]. intros p2 Hg2 He2 <- <-. rewrite Hee.
          assert (Ho2 : okelem p2) by (unfold okelem; rewrite He2; destruct PK, q; congruence).
          pose proof (end_element0_out cd true p2 q Hg2 Ho2 Hq) as HE. rewrite andb_false_r in HE.
          unfold pend, is_open in HE. rewrite He2 in HE.
          destruct PK; [destruct q; [congruence|]|]; exact HE.
        - destruct PK as [|x PK'] eqn:EPK.
          + change (lit "/>") with ([] ++ lit "/>"). eapply out_bind; [exact Hg1|exact HA|]. intros p2 Hg2 He2 <- <-. rewrite Hee.
            assert (Ho2 : okelem p2) by (unfold okelem; rewrite He2; destruct q; congruence).
            pose proof (end_element0_out cd false p2 q Hg2 Ho2 Hq) as HE.
            unfold is_open in HE. rewrite He2 in HE. destruct q; [congruence|]. exact HE.
          + change (62 :: flat_map (node_chars cd false) (x :: PK') ++ lit "</" ++ q ++ lit ">") with
              ((62 :: flat_map (node_chars cd false) (x :: PK')) ++ lit "</" ++ q ++ lit ">").
            eapply out_bind; [exact Hg1|exact HA|]. intros p2 Hg2 He2 <- <-. rewrite Hee.
            assert (Ho2 : okelem p2) by (unfold okelem; rewrite He2; congruence).
            pose proof (end_element0_out cd false p2 q Hg2 Ho2 Hq) as HE.
            unfold pend, is_open in HE. rewrite He2 in HE. exact HE. }
      match goal with |- out _ (pend p ++ 60 :: q ++ ?A ++ ?X) _ _ _ _ =>
        replace (pend p ++ 60 :: q ++ A ++ X) with ((pend p ++ 60 :: q ++ A) ++ X)
          by (rewrite <- (app_assoc (pend p)); cbn [app]; rewrite <- (app_assoc q); reflexivity) end.
      eapply out_bind; [exact Hg|exact HS|]. intros p1 Hg1 He1 <- <-. rewrite visit_kids. now apply HK.
    - cbn [visit printed node_chars]. replace (text true st s p) with (text0 true s false p) by (destruct st; try congruence; reflexivity).
      now apply text0_out.
    - cbn [visit printed node_chars]. replace (comment st s p) with (comment0 s p) by (destruct st; try congruence; reflexivity).
      now apply (comment0_out cd).
    - cbn [visit printed node_chars]. replace (processing_instruction st t d p) with (processing_instruction0 t d p) by (destruct st; try congruence; reflexivity).
      destruct Hw. now apply (pi0_out cd).
  Qed.

  Lemma visit_all_out : forall st, st <> Pretty -> forall chain cur l p, goodp cd p -> p_elem p = None ->
    Forall (wfr cd) (map (printed (canonb st) chain cur) l) ->
    out p (nodes_chars cd (canonb st) (map (printed (canonb st) chain cur) l)) None (p_level p) (p_can_indent p)
      (visit_all true st ordn orda chain cur l p).
  Proof.
    intros st Hst chain cur. induction l as [|n l IH]; intros p Hg He HF; cbn [visit_all map].
    - rewrite <- He. apply out_ret.
    - cbn [map] in HF. inversion HF; subst. unfold nodes_chars. cbn [flat_map].
      eapply out_bind; [exact Hg| |].
      + pose proof (visit_out st Hst n chain cur p Hg ltac:(unfold okelem; congruence) H1) as HV.
        unfold pend, is_open in HV. rewrite He in HV. exact HV.
      + intros p1 Hg1 He1 <- <-. now apply IH.
  Qed.
End V.

(** ** The indenting printer *)
Definition newline_text (lvl : Z) : rnode := RText (10 :: repeat 32 (2 * Z.to_nat lvl)).
Definition ind_at (ci : bool) (lvl : Z) : list rnode := if ci then [newline_text lvl] else [].

(** The tree with the white space added by xmlprettyprinter, and whether
    indentation is allowed after it. *)
Fixpoint indent (lvl : Z) (ci : bool) (n : rnode) : list rnode * bool :=
  match n with
  | RText s => ([RText s], false)
  | RElem q a k =>
    let fix go (ci : bool) (l : list rnode) : list rnode * bool :=
      match l with
      | [] => ([], ci)
      | x :: l' =>
        let (o, ci1) := indent (lvl + 1) ci x in
        let (o2, ci2) := go ci1 l' in (o ++ o2, ci2)
      end in
    let (k', ci') := go true k in
    (ind_at ci lvl ++ [RElem q a (match k with [] => [] | _ => k' ++ ind_at ci' lvl end)], true)
  | _ => (ind_at ci lvl ++ [n], true)
  end.
Fixpoint indent_all (lvl : Z) (ci : bool) (l : list rnode) : list rnode * bool :=
  match l with
  | [] => ([], ci)
  | x :: l' =>
    let (o, ci1) := indent lvl ci x in
    let (o2, ci2) := indent_all lvl ci1 l' in (o ++ o2, ci2)
  end.

Lemma nodes_chars_app : forall cd canon a b, nodes_chars cd canon (a ++ b) = nodes_chars cd canon a ++ nodes_chars cd canon b.
Proof. intros; unfold nodes_chars; apply flat_map_app. Qed.

Lemma esc_ws : forall cd c, sound_codec cd -> c = 10 \/ c = 32 -> esc cd text_entities c = [c].
Proof.
  intros cd c Hs Hc. assert (cd c <> None).
  { destruct Hs as [H|(_ & H & _)]; [rewrite H by (destruct Hc; subst; vm_compute; reflexivity); discriminate|].
    apply H. destruct Hc; subst; vm_compute; reflexivity. }
  unfold esc, text_entities, escc. destruct Hc; subst; cbn [emap_lookup N.eqb Pos.eqb]; destruct (cd _); congruence.
Qed.

Lemma ind_chars : forall cd ci lvl, sound_codec cd ->
  nodes_chars cd false (ind_at ci lvl) = if ci then 10 :: repeat 32 (2 * Z.to_nat lvl) else [].
Proof.
  intros cd [|] lvl Hs; [|reflexivity]. unfold ind_at, nodes_chars, newline_text. cbn [flat_map node_chars].
  rewrite app_nil_r. rewrite esc_ws by auto. cbn [app]. f_equal.
  generalize (2 * Z.to_nat lvl)%nat. induction n as [|n IH]; [reflexivity|].
  cbn [repeat flat_map]. rewrite esc_ws, IH by auto. reflexivity.
Qed.

Lemma ind_out : forall cd p, goodp cd p -> 
  out p (nodes_chars cd false (ind_at (p_can_indent p) (p_level p))) (p_elem p) (p_level p) (p_can_indent p)
    (if p_can_indent p then newline_indent p else Ok p).
Proof.
  intros cd p Hg. assert (Hs : sound_codec cd) by (destruct Hg as [<- (_ & _ & _ & H)]; exact H).
  rewrite ind_chars by assumption. destruct (p_can_indent p) eqn:E; rewrite <- E; [|apply out_ret].
  unfold newline_indent. eapply p_ascii_out; [exact Hg|].
  constructor; [vm_compute; reflexivity|]. apply Forall_forall. intros x Hx. apply repeat_spec in Hx. subst. vm_compute; reflexivity.
Qed.

Lemma indent_go : forall lvl l ci,
  (fix go (ci : bool) (l : list rnode) : list rnode * bool :=
      match l with
      | [] => ([], ci)
      | x :: l' =>
        let (o, ci1) := indent (lvl + 1) ci x in
        let (o2, ci2) := go ci1 l' in (o ++ o2, ci2)
      end) ci l = indent_all (lvl + 1) ci l.
Proof.
  induction l as [|x l IH]; intro ci; [reflexivity|]. cbn [indent_all].
  destruct (indent (lvl + 1) ci x) as [o ci1]. rewrite IH. reflexivity.
Qed.
Lemma indent_elem : forall lvl ci q a k, indent lvl ci (RElem q a k) =
  let (k', ci') := indent_all (lvl + 1) true k in
  (ind_at ci lvl ++ [RElem q a (match k with [] => [] | _ => k' ++ ind_at ci' lvl end)], true).
Proof. intros. cbn [indent]. rewrite indent_go. reflexivity. Qed.

Lemma indent_ne : forall lvl ci n, fst (indent lvl ci n) <> [].
Proof.
  intros lvl ci [q a k|s|s|t d|n p s]; [rewrite indent_elem; destruct (indent_all (lvl + 1) true k)|..]; cbn; unfold ind_at; destruct ci; discriminate.
Qed.

Section P.
  Variable cd : codec.
  Variable ordn : list (option str * str) -> list (option str * str).
  Variable orda : list (str * option str) -> list (str * option str).
  Hypothesis ordn_ok : forall l, Permutation (ordn l) l.
  Hypothesis orda_ok : forall l, Permutation (orda l) l.

  Definition pretty_spec (n : node) : Prop := forall chain cur p, goodp cd p -> okelem p ->
    wfr cd (printed ordn orda false chain cur n) ->
    out p (pend p ++ nodes_chars cd false (fst (indent (p_level p) (p_can_indent p) (printed ordn orda false chain cur n))))
      None (p_level p) (snd (indent (p_level p) (p_can_indent p) (printed ordn orda false chain cur n)))
      (visit true Pretty ordn orda chain cur n p).

  Lemma pretty_all : forall l, Forall pretty_spec l -> forall chain cur p, goodp cd p -> okelem p ->
    Forall (wfr cd) (map (printed ordn orda false chain cur) l) ->
    out p (match l with [] => [] | _ => pend p ++ nodes_chars cd false (fst (indent_all (p_level p) (p_can_indent p) (map (printed ordn orda false chain cur) l))) end)
      (match l with [] => p_elem p | _ => None end) (p_level p)
      (snd (indent_all (p_level p) (p_can_indent p) (map (printed ordn orda false chain cur) l)))
      (visit_all true Pretty ordn orda chain cur l p).
  Proof.
    induction 1 as [|n l Hn Hl IH]; intros chain cur p Hg Ho HF; cbn [visit_all map]; [apply out_ret|].
    cbn [map] in HF. inversion HF as [|? ? Wn Wl]; subst. cbn [indent_all].
    specialize (Hn chain cur p Hg Ho Wn).
    destruct (indent (p_level p) (p_can_indent p) (printed ordn orda false chain cur n)) as [o ci1]. cbn [fst snd] in Hn.
    destruct (indent_all (p_level p) ci1 (map (printed ordn orda false chain cur) l)) as [o2 ci2] eqn:E2. cbn [fst snd].
    rewrite nodes_chars_app, app_assoc.
    eapply out_bind; [exact Hg|exact Hn|]. intros p1 Hg1 He1 Hl1 Hc1.
    assert (Ho1 : okelem p1) by (unfold okelem; congruence).
    specialize (IH chain cur p1 Hg1 Ho1 Wl). rewrite Hl1, Hc1, E2 in IH. cbn [fst snd] in IH.
    unfold pend, is_open in IH. rewrite He1 in IH. destruct l; [|exact IH].
    cbn [map indent_all] in E2. injection E2 as <- <-. exact IH.
  Qed.

  Lemma indented_out : forall p f t, goodp cd p -> okelem p ->
    (forall p1, goodp cd p1 -> p_elem p1 = None -> out p1 t None (p_level p1) (p_can_indent p1) (f p1)) ->
    out p (pend p ++ nodes_chars cd false (ind_at (p_can_indent p) (p_level p)) ++ t) None (p_level p) true (indented f p).
  Proof.
    intros p f t Hg Ho Hf. unfold indented.
    eapply out_bind; [exact Hg|eapply close_tag_out; [exact Hg|exact Ho]|]. intros p1 H1 He1 <- <-.
    eapply out_bind; [exact H1|eapply ind_out; exact H1|]. intros p2 H2 He2 <- _.
    rewrite <- (app_nil_r t). eapply out_bind; [exact H2|apply Hf; [exact H2|congruence]|]. intros p3 H3 He3 <- Hc3.
    exists (p_x p3). split; [apply emits_nil|]. unfold set_indent. now rewrite He3.
  Qed.

  Lemma pretty_out : forall n, pretty_spec n.
  Proof.
    induction n as [ns q d a k IH|s|s|t d] using node_ind2; intros chain cur p Hg Ho Hw.
    - cbn [visit]. cbv zeta. cbn [start_element].
      set (nss := visit_namespaces (d :: chain) cur ns q a) in *.
      cbn [printed] in Hw |- *. cbv zeta in Hw |- *. fold nss in Hw |- *.
      set (wa := written_attrs false (ordn nss) (map un_some (orda (visit_attributes a)))) in *.
      cbn [wfr] in Hw. destruct Hw as (Hq0 & Hq & Ha & Hk). apply wfr_all in Hk.
      rewrite (orda_some orda orda_ok a).
      set (PK := map (printed ordn orda false (d :: chain) (dupdate cur nss)) k) in *.
      rewrite indent_elem. destruct (indent_all (p_level p + 1) true PK) as [k' ci'] eqn:EI. cbn [fst snd].
      rewrite nodes_chars_app. unfold nodes_chars at 2. cbn [flat_map node_chars]. rewrite app_nil_r.
      match goal with |- out _ (pend p ++ ?I ++ 60 :: q ++ ?A ++ ?X) _ _ _ _ =>
        replace (pend p ++ I ++ 60 :: q ++ A ++ X) with ((pend p ++ I ++ (60 :: q ++ A)) ++ X)
          by (rewrite <- (app_assoc (pend p)), <- (app_assoc I); cbn [app]; rewrite <- (app_assoc q); reflexivity) end.
      eapply out_bind with (e := Some q) (l := (p_level p + 1)%Z) (ci := true); [exact Hg| |].
      { eapply out_bind; [exact Hg|eapply close_tag_out; [exact Hg|exact Ho]|]. intros p1 H1 He1 <- <-.
        eapply out_bind; [exact H1|eapply ind_out; exact H1|]. intros p2 H2 He2 <- _.
        rewrite <- (app_nil_r (60 :: q ++ _)). eapply out_bind; [exact H2| |].
        - assert (Ho2 : okelem p2) by (unfold okelem; congruence).
          assert (HWF : Forall (wf_att cd) (map nsattr' (ordn nss) ++ map un_some (orda (visit_attributes a)))) by exact Ha.
          pose proof (start_element0_out cd false p2 q (ordn nss) (map un_some (orda (visit_attributes a))) H2 Ho2 Hq HWF) as HS.
          unfold pend, is_open in HS. rewrite He2, He1 in HS. exact HS.
        - intros p3 H3 He3 <- _. exists (p_x p3). split; [apply emits_nil|]. unfold set_indent. now rewrite He3. }
      intros p1 Hg1 He1 Hl1 Hc1. rewrite visit_kids.
      assert (Ho1 : okelem p1) by (unfold okelem; congruence).
      assert (Hopen : is_open p1 = true) by (unfold is_open; rewrite He1; destruct q; congruence).
      pose proof (pretty_all k IH (d :: chain) (dupdate cur nss) p1 Hg1 Ho1 Hk) as HA.
      fold PK in HA. rewrite Hl1, Hc1, EI in HA. cbn [fst snd] in HA. unfold pend in HA. rewrite Hopen in HA.
      destruct k as [|n0 k0].
      + unfold PK. cbn [map]. change (lit "/>") with ([] ++ lit "/>").
        eapply out_bind; [exact Hg1|exact HA|]. intros p2 Hg2 He2 Hl2 Hc2. cbn [end_element].
        set (p2' := set_indent p2 (p_level p2 - 1) (p_can_indent p2)).
        assert (Hop : is_open p2' = true) by (unfold is_open, p2'; cbn; rewrite He2, He1; destruct q; congruence).
        rewrite Hop, andb_false_r. cbn [bind].
        assert (Hg2' : goodp cd p2') by exact Hg2.
        assert (Ho2 : okelem p2') by (unfold okelem, p2'; cbn; rewrite He2, He1; congruence).
        pose proof (end_element0_out cd false p2' q Hg2' Ho2 Hq) as HE. rewrite Hop in HE. cbn [andb negb] in HE.
        destruct HE as (x' & E & HE). exists x'. split; [exact E|]. rewrite HE. cbn [bind]. unfold set_indent, p2'. cbn.
        do 2 f_equal. lia.
      + unfold PK in EI |- *. cbn [map].
        assert (Hk' : k' <> []).
        { intro Hn. subst k'. cbn [map indent_all] in EI. pose proof (indent_ne (p_level p + 1) true (printed ordn orda false (d :: chain) (dupdate cur nss) n0)) as HN.
          destruct (indent (p_level p + 1) true _) as [o c1]. destruct (indent_all _ c1 _) as [o2 c2]. injection EI as E1 _.
          cbn [fst] in HN. destruct o; [congruence|discriminate]. }
        destruct k' as [|x k']; [congruence|]. cbn [app].
        change (62 :: flat_map (node_chars cd false) (x :: k' ++ ind_at ci' (p_level p)) ++ lit "</" ++ q ++ lit ">")
          with ([62] ++ nodes_chars cd false ((x :: k') ++ ind_at ci' (p_level p)) ++ lit "</" ++ q ++ lit ">").
        rewrite nodes_chars_app, <- app_assoc, app_assoc.
        eapply out_bind; [exact Hg1|exact HA|]. intros p2 Hg2 He2 Hl2 Hc2. cbn [end_element].
        set (p2' := set_indent p2 (p_level p2 - 1) (p_can_indent p2)).
        assert (Hg2' : goodp cd p2') by exact Hg2.
        assert (Hop : is_open p2' = false) by (unfold is_open, p2'; cbn; now rewrite He2).
        rewrite Hop, andb_true_r.
        assert (HL : p_level p2' = p_level p) by (cbn; lia).
        assert (HC : p_can_indent p2' = ci') by exact Hc2.
        assert (HX : out p2' (nodes_chars cd false (ind_at ci' (p_level p)) ++ lit "</" ++ q ++ lit ">") None (p_level p) true
          (do p1 <- (if p_can_indent p2' then newline_indent p2' else Ok p2');
           do p3 <- end_element0 false q p1; Ok (set_indent p3 (p_level p3) true))).
        { rewrite <- HL, <- HC.
          eapply out_bind; [exact Hg2'|eapply ind_out; exact Hg2'|]. intros p3 Hg3 He3 <- _.
          rewrite <- (app_nil_r (lit "</" ++ q ++ lit ">")).
          assert (Ho3 : okelem p3) by (unfold okelem; rewrite He3; unfold p2'; cbn; congruence).
          eapply out_bind; [exact Hg3| |].
          - pose proof (end_element0_out cd false p3 q Hg3 Ho3 Hq) as HE.
            unfold pend, is_open in HE. rewrite He3 in HE. unfold p2' in HE. cbn [p_elem set_indent] in HE. rewrite He2 in HE. exact HE.
          - intros p4 H4 He4 <- _. exists (p_x p4). split; [apply emits_nil|]. unfold set_indent. now rewrite He4. }
        destruct HX as (x' & E & HX). exists x'. split; [exact E|exact HX].
    - cbn [visit printed indent fst snd]. unfold nodes_chars. cbn [flat_map node_chars]. rewrite app_nil_r. cbn [text].
      rewrite <- (app_nil_r (pend p ++ _)). eapply out_bind; [exact Hg|apply text0_out; [exact Hg|exact Ho|exact Hw]|].
      intros p1 H1 He1 <- _. exists (p_x p1). split; [apply emits_nil|]. unfold set_indent. now rewrite He1.
    - cbn [visit printed indent fst snd]. rewrite nodes_chars_app. unfold nodes_chars at 2. cbn [flat_map node_chars]. rewrite app_nil_r.
      cbn [comment]. apply indented_out; auto. intros p1 H1 He1.
      pose proof (comment0_out cd p1 s H1 ltac:(unfold okelem; congruence) Hw) as HC. unfold pend, is_open in HC. rewrite He1 in HC. exact HC.
    - cbn [visit printed indent fst snd]. rewrite nodes_chars_app. unfold nodes_chars at 2. cbn [flat_map node_chars]. rewrite app_nil_r.
      cbn [processing_instruction]. apply indented_out; auto. intros p1 H1 He1. destruct Hw as [Ht Hd].
      pose proof (pi0_out cd p1 t d H1 ltac:(unfold okelem; congruence) Ht Hd) as HC. unfold pend, is_open in HC. rewrite He1 in HC. exact HC.
  Qed.
End P.
