(** * What the plain and canonical printers write for a tree *)
From Coq Require Import NArith ZArith String List Bool Lia Arith Permutation.
From Verif Require Import PyStr PyErr SerModel SerSpec SerStream.
Import ListNotations.
Open Scope N_scope.

(** Induction over trees. *)
Section NodeInd.
  Variable P : node -> Prop.
  Hypothesis HE : forall ns q d a k, Forall P k -> P (NElem ns q d a k).
  Hypothesis HT : forall s, P (NText s).
  Hypothesis HC : forall s, P (NComment s).
  Hypothesis HP : forall t d, P (NPI t d).
  Fixpoint node_ind2 (n : node) : P n :=
    match n with
    | NElem ns q d a k => HE ns q d a k ((fix go l : Forall P l := match l with [] => Forall_nil _ | x :: l' => Forall_cons _ (node_ind2 x) (go l') end) k)
    | NText s => HT s
    | NComment s => HC s
    | NPI t d => HP t d
    end.
End NodeInd.
Section RnodeInd.
  Variable P : rnode -> Prop.
  Hypothesis HE : forall n a k, Forall P k -> P (RElem n a k).
  Hypothesis HT : forall s, P (RText s).
  Hypothesis HC : forall s, P (RComment s).
  Hypothesis HP : forall t d, P (RPI t d).
  Hypothesis HD : forall n p s, P (RDoctype n p s).
  Fixpoint rnode_ind2 (n : rnode) : P n :=
    match n with
    | RElem q a k => HE q a k ((fix go l : Forall P l := match l with [] => Forall_nil _ | x :: l' => Forall_cons _ (rnode_ind2 x) (go l') end) k)
    | RText s => HT s
    | RComment s => HC s
    | RPI t d => HP t d
    | RDoctype n p s => HD n p s
    end.
End RnodeInd.

Ltac ascii := repeat (constructor; [vm_compute; reflexivity|]); constructor.

Lemma plain_text : plain_map text_entities.
Proof.
  unfold plain_map, text_entities. cbn [emap_lookup]. intros c r.
  repeat match goal with |- context[if ?b then _ else _] => destruct b end; intro H; inversion H;
  (eexists; split; [reflexivity|]; ascii).
Qed.
Lemma plain_quot : plain_map attr_entities_quot.
Proof.
  unfold plain_map, attr_entities_quot. cbn [emap_lookup]. intros c r.
  repeat match goal with |- context[if ?b then _ else _] => destruct b end; intro H; inversion H;
  (eexists; split; [reflexivity|]; ascii).
Qed.
Lemma plain_apos : plain_map attr_entities_apos.
Proof.
  unfold plain_map, attr_entities_apos. cbn [emap_lookup]. intros c r.
  repeat match goal with |- context[if ?b then _ else _] => destruct b end; intro H; inversion H;
  (eexists; split; [reflexivity|]; ascii).
Qed.

(** ** Characters written for each construct *)
Definition use_apos (canon : bool) (v : str) : bool := negb canon && (mem 34 v && negb (mem 39 v)).
Definition quote_of (canon : bool) (v : str) : N := if use_apos canon v then 39 else 34.
Definition amap (canon : bool) (v : str) : emap := if use_apos canon v then attr_entities_apos else attr_entities_quot.
Definition attr_chars (cd : codec) (canon : bool) (a : str * str) : str :=
  32 :: fst a ++ 61 :: quote_of canon (snd a) :: flat_map (esc cd (amap canon (snd a))) (snd a) ++ [quote_of canon (snd a)].
Definition attrs_chars cd canon (l : list (str * str)) : str := flat_map (attr_chars cd canon) l.

Fixpoint node_chars (cd : codec) (canon : bool) (n : rnode) : str :=
  match n with
  | RText s => flat_map (esc cd text_entities) s
  | RComment d => lit "<!--" ++ d ++ lit "-->"
  | RPI t d => lit "<?" ++ t ++ (match d with [] => [] | _ => 32 :: d end) ++ lit "?>"
  | RDoctype n p s =>
    lit "<!DOCTYPE " ++ n ++
    (match p with Some (c :: p') => lit " PUBLIC """ ++ (c :: p') ++ lit """ """ | _ => lit " SYSTEM """ end)
    ++ oget s ++ lit """>" ++ [10]
  | RElem q a k =>
    60 :: q ++ attrs_chars cd canon a ++
    match canon, k with
    | false, [] => lit "/>"
    | _, _ => 62 :: flat_map (node_chars cd canon) k ++ lit "</" ++ q ++ lit ">"
    end
  end.
Definition nodes_chars cd canon (l : list rnode) : str := flat_map (node_chars cd canon) l.

(** Encodable names and contents, legal character data. *)
Definition wf_att (cd : codec) (a : str * str) : Prop :=
  encode cd (fst a) <> None /\ Forall (fun c => xml_char c = true) (snd a).
Fixpoint wfr (cd : codec) (n : rnode) : Prop :=
  match n with
  | RText s => Forall (fun c => xml_char c = true) s
  | RComment d => encode cd d <> None
  | RPI t d => encode cd t <> None /\ encode cd d <> None
  | RDoctype _ _ _ => False
  | RElem q a k =>
    q <> [] /\ encode cd q <> None /\ Forall (wf_att cd) a /\
    (fix all l := match l with [] => True | x :: l' => wfr cd x /\ all l' end) k
  end.
Lemma wfr_all : forall cd k,
  (fix all l := match l with [] => True | x :: l' => wfr cd x /\ all l' end) k <-> Forall (wfr cd) k.
Proof.
  induction k as [|x k IH]; [split; constructor|]. split.
  - intros [? ?]. constructor; [assumption|]. now apply IH.
  - inversion 1; subst. split; [assumption|]. now apply IH.
Qed.

(** ** Elementary steps *)
Definition okelem (p : printer) : Prop := p_elem p <> Some [].
Definition pend (p : printer) : str := if is_open p then lit ">" else [].

Lemma okelem_closed : forall p, okelem p -> is_open p = false -> p_elem p = None.
Proof. intros p H. unfold okelem, is_open in *. destruct (p_elem p) as [[|c s]|]; congruence. Qed.

Lemma close_tag_out : forall cd p, goodp cd p -> okelem p ->
  out p (pend p) None (p_level p) (p_can_indent p) (close_tag p).
Proof.
  intros cd p Hg Ho. unfold close_tag, pend. destruct (is_open p) eqn:E.
  - rewrite <- (app_nil_r (lit ">")). eapply out_bind; [exact Hg|eapply p_ascii_out; [exact Hg|ascii]|].
    intros p1 Hg1 He Hl Hc. rewrite <- Hl, <- Hc. apply out_set_elem.
  - rewrite <- (okelem_closed p Ho E). apply out_ret.
Qed.

Ltac chain Hg := eapply out_bind; [exact Hg| |].

Lemma write_attr_out : forall cd p n v, goodp cd p -> wf_att cd (n, v) ->
  out p (attr_chars cd false (n, v)) (p_elem p) (p_level p) (p_can_indent p) (write_attr true p (n, Some v)).
Proof.
  intros cd p n v Hg [Hn Hv]. cbn [fst snd] in *. unfold write_attr, attr_chars. cbn [fst snd].
  change (32 :: n ++ 61 :: quote_of false v :: flat_map (esc cd (amap false v)) v ++ [quote_of false v])
    with (lit " " ++ n ++ lit "=" ++ [quote_of false v] ++ flat_map (esc cd (amap false v)) v ++ [quote_of false v]).
  unfold quote_of, amap, use_apos. cbn [negb andb].
  eapply out_bind; [exact Hg|eapply p_ascii_out; [exact Hg|ascii]|]. intros p1 H1 <- <- <-.
  eapply out_bind; [exact H1|eapply p_encode_out; [exact H1|exact Hn]|]. intros p2 H2 <- <- <-.
  eapply out_bind; [exact H2|eapply p_ascii_out; [exact H2|ascii]|]. intros p3 H3 <- <- <-.
  destruct (mem 34 v && negb (mem 39 v)).
  - eapply out_bind; [exact H3|eapply p_ascii_out; [exact H3|ascii]|]. intros p4 H4 <- <- <-.
    eapply out_bind; [exact H4|eapply p_escape_out; [exact H4|apply plain_apos|exact Hv]|]. intros p5 H5 <- <- <-.
    eapply p_ascii_out; [exact H5|ascii].
  - eapply out_bind; [exact H3|eapply p_ascii_out; [exact H3|ascii]|]. intros p4 H4 <- <- <-.
    eapply out_bind; [exact H4|eapply p_escape_out; [exact H4|apply plain_quot|exact Hv]|]. intros p5 H5 <- <- <-.
    eapply p_ascii_out; [exact H5|ascii].
Qed.

Lemma write_attr_canon_out : forall cd p n v, goodp cd p -> wf_att cd (n, v) ->
  out p (attr_chars cd true (n, v)) (p_elem p) (p_level p) (p_can_indent p) (write_attr_canon true p (n, Some v)).
Proof.
  intros cd p n v Hg [Hn Hv]. cbn [fst snd] in *. unfold write_attr_canon, attr_chars. cbn [fst snd].
  unfold quote_of, amap, use_apos. cbn [negb andb].
  change (32 :: n ++ 61 :: 34 :: flat_map (esc cd attr_entities_quot) v ++ [34])
    with (lit " " ++ n ++ lit "=""" ++ flat_map (esc cd attr_entities_quot) v ++ lit """").
  eapply out_bind; [exact Hg|eapply p_ascii_out; [exact Hg|ascii]|]. intros p1 H1 <- <- <-.
  eapply out_bind; [exact H1|eapply p_encode_out; [exact H1|exact Hn]|]. intros p2 H2 <- <- <-.
  eapply out_bind; [exact H2|eapply p_ascii_out; [exact H2|ascii]|]. intros p3 H3 <- <- <-.
  eapply out_bind; [exact H3|eapply p_escape_out; [exact H3|apply plain_quot|exact Hv]|]. intros p4 H4 <- <- <-.
  eapply p_ascii_out; [exact H4|ascii].
Qed.

Definition some_att (a : str * str) : str * option str := (fst a, Some (snd a)).

Lemma fold_attrs_out : forall cd canon l p, goodp cd p -> Forall (wf_att cd) l ->
  out p (attrs_chars cd canon l) (p_elem p) (p_level p) (p_can_indent p)
    (fold_r (if canon then write_attr_canon true else write_attr true) p (map some_att l)).
Proof.
  induction l as [|[n v] l IH]; intros p Hg HF; cbn [map fold_r]; [apply out_ret|].
  inversion HF; subst. unfold attrs_chars. cbn [flat_map].
  change (flat_map (attr_chars cd canon) l) with (attrs_chars cd canon l).
  eapply out_bind; [exact Hg| |].
  - destruct canon; [apply write_attr_canon_out|apply write_attr_out]; assumption.
  - intros p1 H1' <- <- <-. now apply IH.
Qed.

Lemma fold_r_app : forall (f : printer -> str * option str -> result printer) a b p,
  fold_r f p (a ++ b) = bind (fold_r f p a) (fun q => fold_r f q b).
Proof.
  induction a as [|x a IH]; intros b p; cbn [app fold_r]; [reflexivity|].
  destruct (f p x) as [q|e]; cbn [bind]; [apply IH|reflexivity].
Qed.

Definition nsattr' (d : option str * str) : str * str := (fst (nsattr d), snd d).
Lemma nsattr_some : forall d, nsattr d = some_att (nsattr' d).
Proof. intros [p u]; reflexivity. Qed.

(** Insertion sort commutes with [some_att]. *)
Definition un_some (a : str * option str) : str * str := (fst a, oget (snd a)).
Lemma un_some_some : forall l, map un_some (map some_att l) = l.
Proof. intro l; rewrite map_map; rewrite <- (map_id l) at 2; apply map_ext; intros [n v]; reflexivity. Qed.
Lemma insert_attr_some : forall a l, exists l', insert_attr (some_att a) (map some_att l) = map some_att l' /\ Permutation l' (a :: l).
Proof.
  induction l as [|b l IH]; cbn [map insert_attr].
  - exists [a]. split; reflexivity.
  - destruct (attr_leb (some_att a) (some_att b)).
    + exists (a :: b :: l). split; reflexivity.
    + destruct IH as (l' & -> & HP). exists (b :: l'). split; [reflexivity|].
      rewrite HP. apply perm_swap.
Qed.
Lemma sort_attrs_some : forall l, exists l', sort_attrs (map some_att l) = map some_att l' /\ Permutation l' l.
Proof.
  induction l as [|a l IH]; cbn [map].
  - exists []. split; reflexivity.
  - unfold sort_attrs. cbn [fold_right]. fold (sort_attrs (map some_att l)).
    destruct IH as (l' & -> & HP). destruct (insert_attr_some a l') as (l2 & -> & HP2).
    exists l2. split; [reflexivity|]. rewrite HP2. now constructor.
Qed.

(** Attributes in the order they are written. *)
Definition written_attrs (canon : bool) (nsd : list (option str * str)) (atts : list (str * str)) : list (str * str) :=
  if canon then map un_some (sort_attrs (map nsattr nsd)) ++ map un_some (sort_attrs (map some_att atts))
  else map nsattr' nsd ++ atts.

Lemma written_attrs_perm : forall canon nsd atts, Permutation (written_attrs canon nsd atts) (map nsattr' nsd ++ atts).
Proof.
  intros [|] nsd atts; unfold written_attrs; [|reflexivity].
  rewrite (map_ext _ _ nsattr_some), <- (map_map nsattr' some_att).
  destruct (sort_attrs_some (map nsattr' nsd)) as (l1 & -> & P1).
  destruct (sort_attrs_some atts) as (l2 & -> & P2).
  rewrite !un_some_some. now apply Permutation_app.
Qed.

Lemma start_element0_out : forall cd canon p q nsd atts, goodp cd p -> okelem p -> encode cd q <> None ->
  Forall (wf_att cd) (map nsattr' nsd ++ atts) ->
  out p (pend p ++ 60 :: q ++ attrs_chars cd canon (written_attrs canon nsd atts)) (Some q) (p_level p) (p_can_indent p)
    (start_element0 true canon q nsd (map some_att atts) p).
Proof.
  intros cd canon p q nsd atts Hg Ho Hq HF. unfold start_element0.
  change (60 :: q ++ attrs_chars cd canon (written_attrs canon nsd atts))
    with (lit "<" ++ q ++ attrs_chars cd canon (written_attrs canon nsd atts)).
  eapply out_bind with (e := p_elem p); [exact Hg| |].
  { unfold pend. destruct (is_open p); [eapply p_ascii_out; [exact Hg|ascii]|apply out_ret]. }
  intros p0 H0 _ Hl0 Hc0. cbv zeta.
  assert (H0' : goodp cd (set_elem p0 (Some q))) by exact H0.
  assert (HX : out (set_elem p0 (Some q)) (lit "<" ++ q ++ attrs_chars cd canon (written_attrs canon nsd atts)) (Some q)
    (p_level p) (p_can_indent p)
    (bind (p_ascii (set_elem p0 (Some q)) (lit "<")) (fun p2 =>
     bind (p_encode p2 q) (fun p3 =>
     if canon
     then bind (fold_r (write_attr_canon true) p3 (sort_attrs (map nsattr nsd))) (fun p4 =>
          fold_r (write_attr_canon true) p4 (sort_attrs (map some_att atts)))
     else fold_r (write_attr true) p3 (map nsattr nsd ++ map some_att atts))))).
  { eapply out_bind; [exact H0'|eapply p_ascii_out; [exact H0'|ascii]|].
    intros p2 H2 He2 Hl2 Hc2. cbn in He2, Hl2, Hc2.
    eapply out_bind; [exact H2|eapply p_encode_out; [exact H2|exact Hq]|].
    intros p3 H3 He3 Hl3 Hc3.
    rewrite <- Hl0, <- Hl2, <- Hl3, <- Hc0, <- Hc2, <- Hc3.
    replace (Some q) with (p_elem p3) by congruence.
    pose proof (written_attrs_perm canon nsd atts) as HP.
    destruct canon.
    - rewrite <- fold_r_app. unfold written_attrs in HP |- *.
      rewrite (map_ext _ _ nsattr_some), <- (map_map nsattr' some_att) in HP |- *.
      destruct (sort_attrs_some (map nsattr' nsd)) as (l1 & E1 & P1).
      destruct (sort_attrs_some atts) as (l2 & E2 & P2).
      rewrite E1, E2 in HP |- *. rewrite !un_some_some in *. rewrite <- map_app.
      apply (fold_attrs_out cd true); [exact H3|].
      rewrite Forall_forall in HF |- *. intros a Ha. apply HF. eapply Permutation_in; eauto.
    - unfold written_attrs. rewrite (map_ext _ _ nsattr_some), <- (map_map nsattr' some_att), <- map_app.
      now apply (fold_attrs_out cd false). }
  destruct HX as (x' & E & HX). exists x'. split; [exact E|exact HX].
Qed.

Lemma end_element0_out : forall cd canon p q, goodp cd p -> okelem p -> encode cd q <> None ->
  out p (if is_open p && negb canon then lit "/>" else pend p ++ lit "</" ++ q ++ lit ">") None (p_level p) (p_can_indent p)
    (end_element0 canon q p).
Proof.
  intros cd canon p q Hg Ho Hq.
  assert (HF : forall p0, goodp cd p0 -> out p0 (lit "</" ++ q ++ lit ">") (p_elem p0) (p_level p0) (p_can_indent p0)
    (bind (p_ascii p0 (lit "</")) (fun p1 => bind (p_encode p1 q) (fun p2 => p_ascii p2 (lit ">"))))).
  { intros p0 H0. eapply out_bind; [exact H0|eapply p_ascii_out; [exact H0|ascii]|]. intros p1 H1 <- <- <-.
    eapply out_bind; [exact H1|eapply p_encode_out; [exact H1|exact Hq]|]. intros p2 H2 <- <- <-.
    eapply p_ascii_out; [exact H2|ascii]. }
  unfold end_element0, pend. destruct (is_open p) eqn:E; cbn [andb].
  - assert (Hg' : goodp cd (set_elem p None)) by exact Hg.
    destruct canon; cbn [negb].
    + assert (HX := out_bind cd (set_elem p None) (lit ">") None (p_level p) (p_can_indent p) _ (lit "</" ++ q ++ lit ">") None (p_level p) (p_can_indent p)
        (fun p1 => bind (p_ascii p1 (lit "</")) (fun p1 => bind (p_encode p1 q) (fun p2 => p_ascii p2 (lit ">")))) Hg' (p_ascii_out cd (set_elem p None) (lit ">") Hg' ltac:(ascii))).
      apply HX. intros p1 H1 <- <- <-. now apply HF.
    + exact (p_ascii_out cd (set_elem p None) (lit "/>") Hg' ltac:(ascii)).
  - cbn [app]. rewrite <- (okelem_closed p Ho E). now apply HF.
Qed.

Lemma text0_out : forall cd p s, goodp cd p -> okelem p -> Forall (fun c => xml_char c = true) s ->
  out p (pend p ++ flat_map (esc cd text_entities) s) None (p_level p) (p_can_indent p) (text0 true s false p).
Proof.
  intros cd p s Hg Ho Hs. unfold text0.
  eapply out_bind; [exact Hg|eapply close_tag_out; [exact Hg|exact Ho]|]. intros p1 H1 <- <- <-.
  eapply p_escape_out; [exact H1|apply plain_text|exact Hs].
Qed.

Lemma comment0_out : forall cd p d, goodp cd p -> okelem p -> encode cd d <> None ->
  out p (pend p ++ lit "<!--" ++ d ++ lit "-->") None (p_level p) (p_can_indent p) (comment0 d p).
Proof.
  intros cd p d Hg Ho Hs. unfold comment0.
  eapply out_bind; [exact Hg|eapply close_tag_out; [exact Hg|exact Ho]|]. intros p1 H1 <- <- <-.
  eapply out_bind; [exact H1|eapply p_ascii_out; [exact H1|ascii]|]. intros p2 H2 <- <- <-.
  eapply out_bind; [exact H2|eapply p_encode_out; [exact H2|exact Hs]|]. intros p3 H3 <- <- <-.
  eapply p_ascii_out; [exact H3|ascii].
Qed.

Lemma pi0_out : forall cd p t d, goodp cd p -> okelem p -> encode cd t <> None -> encode cd d <> None ->
  out p (pend p ++ lit "<?" ++ t ++ (match d with [] => [] | _ => 32 :: d end) ++ lit "?>") None (p_level p) (p_can_indent p)
    (processing_instruction0 t d p).
Proof.
  intros cd p t d Hg Ho Ht Hd. unfold processing_instruction0.
  eapply out_bind; [exact Hg|eapply close_tag_out; [exact Hg|exact Ho]|]. intros p1 H1 <- <- <-.
  eapply out_bind; [exact H1|eapply p_ascii_out; [exact H1|ascii]|]. intros p2 H2 <- <- <-.
  eapply out_bind; [exact H2|eapply p_encode_out; [exact H2|exact Ht]|]. intros p3 H3 <- <- <-.
  eapply out_bind with (e := p_elem p3) (l := p_level p3) (ci := p_can_indent p3); [exact H3| |].
  - destruct d as [|c d]; [apply out_ret|].
    change (32 :: c :: d) with (lit " " ++ (c :: d)).
    eapply out_bind; [exact H3|eapply p_ascii_out; [exact H3|ascii]|]. intros p4 H4 <- <- <-.
    eapply p_encode_out; [exact H4|exact Hd].
  - intros p5 H5 <- <- <-. eapply p_ascii_out; [exact H5|ascii].
Qed.

Lemma cdata0_out : forall cd p s, goodp cd p -> okelem p -> encode cd s <> None ->
  exists s0 rest, split_cdata s = s0 :: rest /\
  (Forall (fun w => encode cd w <> None) (s0 :: rest) ->
  out p (pend p ++ lit "<![CDATA[" ++ s0 ++ flat_map (fun w => lit "]]]]><![CDATA[>" ++ w) rest ++ lit "]]>")
    None (p_level p) (p_can_indent p) (cdata_section0 false s p)).
Proof.
  intros cd p s Hg Ho Hs. unfold cdata_section0. destruct (split_cdata s) as [|s0 rest] eqn:E.
  { exfalso. clear - E. destruct s as [|x [|y [|z s]]]; cbn in E; try discriminate.
    destruct ((x =? 93) && (y =? 93) && (z =? 62)); [discriminate|].
    destruct (match s with | z0 :: _ as s2 => _ | _ => _ end); discriminate. }
  exists s0, rest. split; [reflexivity|]. intro HF. inversion HF as [|? ? H0 HR]; subst.
  eapply out_bind; [exact Hg|eapply close_tag_out; [exact Hg|exact Ho]|]. intros p1 H1 <- <- <-.
  eapply out_bind; [exact H1|eapply p_ascii_out; [exact H1|ascii]|]. intros p2 H2 <- <- <-.
  eapply out_bind; [exact H2|eapply p_encode_out; [exact H2|exact H0]|]. intros p3 H3 <- <- <-.
  eapply out_bind with (e := p_elem p3) (l := p_level p3) (ci := p_can_indent p3); [exact H3| |].
  - clear - HR H3. revert p3 H3. induction HR as [|w rest Hw HR IH]; intros p3 H3; cbn [fold_r flat_map]; [apply out_ret|].
    eapply out_bind with (e := p_elem p3) (l := p_level p3) (ci := p_can_indent p3); [exact H3| |].
    + eapply out_bind; [exact H3|eapply p_ascii_out; [exact H3|ascii]|]. intros p4 H4 <- <- <-.
      eapply p_encode_out; [exact H4|exact Hw].
    + intros p4 H4 <- <- <-. now apply IH.
  - intros p5 H5 <- <- <-. eapply p_ascii_out; [exact H5|ascii].
Qed.
