(** * C65: copying *)
From Coq Require Import NArith ZArith String List Bool Lia Arith Permutation.
From Verif Require Import PyStr PyErr XsModel SerModel SerSpec SerStream SerPrint SerVisit SerRead SerTree SerNs SerTop SerDocs SerCodec SerProps XwModel XwSpec XwProofs XwTree XwProps XcModel XcSpec.
Import ListNotations.
Open Scope N_scope.

(** ** The copy as a tree asked of the writer *)
Definition to_watt (a : attr) : watt :=
  {| t_prefix := SerModel.prefix_of (a_qname a); t_local := local (a_qname a); t_ns := a_ns a; t_value := a_value a |}.
Fixpoint to_w (n : node) : wnode :=
  match n with
  | NElem ns q decls attrs kids =>
    WElem (SerModel.prefix_of q) (local q) ns (own_declarations decls) [] (map to_watt attrs) (map to_w kids)
  | NText s => WText s
  | NComment s => WComment s
  | NPI t d => WPI t d
  end.
Lemma qn_split : forall q, qn (SerModel.prefix_of q) (local q) = q.
Proof.
  intro q. unfold SerModel.prefix_of, local. destruct (break1 58 q) as [[p l]|] eqn:E; [|reflexivity].
  apply break1_Some in E as [-> _]. reflexivity.
Qed.
Lemma split_of_qn : forall p l, (forall q, p = Some q -> ncname q) -> ncname l -> SerModel.prefix_of (qn p l) = p /\ local (qn p l) = l.
Proof.
  intros p l Hp Hl. pose proof (split_qn p l Hp Hl) as E. unfold XsModel.split_qname in E. unfold SerModel.prefix_of, local.
  destruct (break1 58 (qn p l)) as [[a b]|]; injection E as <- <-; auto.
Qed.
Lemma calls_to_w : forall n, calls (to_w n) = copy_node n.
Proof.
  induction n as [ns q d a k IH|s|s|t d] using node_ind2; try reflexivity. cbn [to_w calls copy_node]. rewrite qn_split.
  change (map _ (@nil watt)) with (@nil ((str * option str) * str)). f_equal. f_equal.
  - rewrite map_map. apply map_ext. intro x. cbn [to_watt t_prefix t_local t_value t_ns]. now rewrite qn_split.
  - f_equal. induction IH as [|x k Hx Hk IHk]; [reflexivity|]. cbn [map flat_map]. now rewrite Hx, IHk.
Qed.
Lemma last_wins_nodup : forall l, NoDup (map ename l) -> last_wins l = l.
Proof.
  induction l as [|a l IH]; intro H; [reflexivity|]. cbn [map] in H. inversion H as [|? ? Hn Hd]; subst. cbn [last_wins].
  destruct (existsb (fun b => ename_eqb (ename a) (ename b)) l) eqn:E; [|now rewrite IH].
  exfalso. apply existsb_exists in E as (b & Hb & E). apply Hn. apply ename_eqb_eq in E.
  rewrite E. now apply in_map.
Qed.
Lemma source_ind2 : forall canon n, source canon n -> proper canon (to_w n) /\ (forall rest, meant (to_w n) rest = expanded n rest).
Proof.
  intros canon n. induction n as [ns q d a k IH|s|s|t d] using node_ind2; intro H; inversion H as [? H1 H2|? H1|? ? H1 H2|p l ? ? ? ? H1 H2 H3 H4 H5 H6 H7]; subst.
  - assert (Hp : forall r, p = Some r -> ncname r) by (intros r ->; destruct ns; [apply H2|contradiction]).
    destruct (split_of_qn p l Hp H1) as [E1 E2].
    assert (HK : Forall (proper canon) (map to_w k) /\ fold_right meant [] (map to_w k) = fold_right expanded [] k).
    { clear H. induction IH as [|x k Hx Hk IHk]; [split; [constructor|reflexivity]|]. inversion H7 as [|? ? G1 G2]; subst.
      destruct (IHk G2) as [A B]. destruct (Hx G1) as [C D]. split; [constructor; assumption|]. cbn [map fold_right]. now rewrite B, D. }
    destruct HK as [K1 K2]. split.
    + cbn [to_w]. rewrite E1, E2. constructor; try assumption.
      * unfold own_declarations. rewrite map_map. apply H4.
      * destruct H4 as [_ H4]. unfold own_declarations. rewrite Forall_forall in *. intros [kk v] Hin. apply in_map_iff in Hin as ([k' u] & [= <- <-] & Hin).
        specialize (H4 _ Hin). cbn [fst snd] in *. destruct H4 as [C H4]. destruct k' as [k'|]; cbn [binding]; [|tauto].
        destruct H4 as (A1 & A2 & A3 & A4 & A5). unfold uri. tauto.
      * cbn [app]. rewrite Forall_forall in *. intros w Hin. apply in_map_iff in Hin as (x & <- & Hin). destruct (H5 _ Hin) as (xp & xl & X1 & X2 & X3 & X4 & X5).
        unfold proper_att, to_watt. cbn [t_prefix t_local t_ns t_value]. destruct (split_of_qn xp xl X2 X3) as [Y1 Y2]. rewrite X1, Y1, Y2. auto.
    + intro rest. cbn [to_w meant expanded app]. rewrite K2. f_equal. f_equal. rewrite last_wins_nodup.
      * rewrite map_map. reflexivity.
      * rewrite map_map. exact H6.
  - split; [now constructor|reflexivity].
  - split; [now constructor|reflexivity].
  - split; [constructor; now rewrite H2|]. intro rest. cbn [to_w meant expanded]. now rewrite H2.
Qed.

Lemma all_proper : forall canon l, Forall (source canon) l -> Forall (proper canon) (map to_w l) /\ fold_right meant [] (map to_w l) = fold_right expanded [] l.
Proof.
  induction 1 as [|n l H _ [A B]]; [split; [constructor|reflexivity]|]. destruct (source_ind2 canon n H) as [C D].
  split; [now constructor|]. cbn [map fold_right]. now rewrite B, D.
Qed.
Lemma calls_all : forall l, flat_map calls (map to_w l) = flat_map copy_node l.
Proof. induction l as [|n l IH]; [reflexivity|]. cbn [map flat_map]. now rewrite calls_to_w, IH. Qed.
Lemma trim_pi : forall canon t d, source canon (NPI t d) -> trim d = d.
Proof. intros canon t d H. now inversion H. Qed.
Lemma enc_split : forall cd q, encode cd q <> None -> Forall (fun s => encode cd s <> None) (okey_strings (SerModel.prefix_of q) ++ [local q]).
Proof.
  intros cd q H. rewrite <- (qn_split q) in H. destruct (SerModel.prefix_of q) as [p|]; cbn [qn okey_strings app] in *.
  - change (58 :: local q) with ([58] ++ local q) in H. apply enc_app in H as [H1 H]. apply enc_app in H as [_ H]. repeat constructor; assumption.
  - repeat constructor; assumption.
Qed.
Lemma names_to_w : forall canon cd n, source canon n -> Forall (fun s => encode cd s <> None) (raw_strings n) -> Forall (fun s => encode cd s <> None) (names_of (to_w n)).
Proof.
  intros canon cd n. induction n as [ns q d a k IH|s|s|t d] using node_ind2; intros HS H; cbn [raw_strings to_w names_of] in *.
  - inversion H as [|? ? Hq H']; subst. apply Forall_app in H' as [Hd H']. apply Forall_app in H' as [Ha Hk].
    apply enc_split in Hq. apply Forall_app in Hq as [Q1 Q2]. apply Forall_app. split; [exact Q1|]. constructor; [now inversion Q2|].
    apply Forall_app. split; [|apply Forall_app; split].
    + clear - Hd. unfold own_declarations, decl_strings in *. induction d as [|[kk u] d IH]; [constructor|]. cbn [map flat_map fst snd] in *.
      apply Forall_app in Hd as [A B]. apply Forall_app. split; [destruct kk; exact A|now apply IH].
    + clear - Ha. cbn [app]. induction a as [|x a IH]; [constructor|]. cbn [map flat_map] in *. inversion Ha as [|? ? H1 H2]; subst.
      apply enc_split in H1. apply Forall_app in H1 as [A B]. change (to_watt x) with {| t_prefix := SerModel.prefix_of (a_qname x); t_local := local (a_qname x); t_ns := a_ns x; t_value := a_value x |}.
      cbn [t_local t_prefix]. constructor; [now inversion B|]. apply Forall_app. split; [exact A|now apply IH].
    + assert (HKs : Forall (source canon) k) by now inversion HS. clear - IH Hk HKs. induction IH as [|x k Hx _ IHk]; [constructor|]. cbn [map flat_map] in *.
      apply Forall_app in Hk as [A B]. inversion HKs; subst. apply Forall_app. split; [now apply Hx|now apply IHk].
  - constructor.
  - exact H.
  - rewrite (trim_pi _ _ _ HS). exact H.
Qed.
Definition raw_encodable (cd : codec) (nodes : list node) : Prop := Forall (fun s => encode cd s <> None) (flat_map raw_strings nodes).
Lemma all_encodable : forall canon cd l, Forall (source canon) l -> raw_encodable cd l -> encodable cd (map to_w l).
Proof.
  unfold raw_encodable, encodable. intros canon cd l HS. induction HS as [|n l H _ IH]; intro HE; [constructor|]. cbn [map flat_map] in *.
  apply Forall_app in HE as [A B]. apply Forall_app. split; [now apply (names_to_w canon)|now apply IH].
Qed.
Lemma kept_to_w : forall n sc r, bindings_kept sc r (to_w n) -> declarations_kept sc r n.
Proof.
  induction n as [ns q d a k IH|s|s|t d] using node_ind2; intros sc r H; inversion H as [? sc' ? ra rk ? ? ? ? ? ? ? Hq Hd Hb HF]; subst.
  rewrite qn_split. econstructor; [exact Hd| |].
  - intros kk u Hin Hn. apply Hb; [|exact Hn]. unfold own_declarations. change (kk, Some u) with ((fun d : option str * str => (fst d, Some (snd d))) (kk, u)). now apply in_map.
  - clear - HF IH. remember (elements rk) as rs eqn:E. clear E. revert rs HF. induction IH as [|x k Hx _ IHk]; intros rs HF; [inversion HF; constructor|].
    cbn [map filter] in *. destruct x; cbn [to_w welement nelement] in *; try (now apply IHk).
    inversion HF; subst. constructor; [now apply Hx|now apply IHk].
Qed.
Lemma all_kept : forall sc l rs, Forall2 (bindings_kept sc) rs (filter welement (map to_w l)) -> Forall2 (declarations_kept sc) rs (filter nelement l).
Proof.
  intros sc. induction l as [|x l IH]; intros rs HF; [inversion HF; constructor|]. cbn [map filter] in *.
  destruct x as [ns q d a k|s|s|t d]; cbn [nelement] in *; try (now apply IH).
  change (welement (to_w (NElem ns q d a k))) with true in HF. cbn iota in HF. inversion HF; subst. constructor; [now apply kept_to_w|now apply IH].
Qed.

(** ** The property *)
(** What "the calls [l] write a copy of [nodes]" means. *)
Definition writes_copy (cd : codec) (dec : list N -> option str) (st : style) (public : option str) (ordn : wdict -> wdict) (orda : wattrs -> wattrs) (encoding : str) (omit : bool)
  (l : list call) (nodes : list node) : Prop :=
  exists bs t rs xs, write true st public None ordn orda encoding omit (xmlstream_new cd) l = Ok bs /\
    dec bs = Some t /\ read_content t = Some rs /\ resolve_all scope0 rs = Some xs /\
    Forall2 same_tree xs (fold_right expanded [] nodes) /\
    Forall2 (declarations_kept scope0) (elements rs) (filter nelement nodes).

Lemma copied : forall cd dec st public ordn orda encoding omit nodes, st <> Pretty -> (st = Canon \/ omit = true) ->
  sound_codec cd -> decodes cd dec -> any_dict_order ordn orda ->
  Forall (source (canon_of st)) nodes -> raw_encodable cd nodes ->
  writes_copy cd dec st public ordn orda encoding omit (flat_map copy_node nodes) nodes.
Proof.
  intros cd dec st public ordn orda encoding omit nodes Hst Ho Hcd Hd HO HS HE. destruct (all_proper _ _ HS) as [HP HM].
  destruct (C64_written cd dec st public None ordn orda encoding omit (map to_w nodes) Hst Ho eq_refl Hcd Hd HO HP (all_encodable _ _ _ HS HE))
    as (bs & t & rs & xs & A & B & C & D & E & F).
  exists bs, t, rs, xs. rewrite calls_all in A. rewrite HM in E. repeat split; try assumption. now apply all_kept.
Qed.

(** xsl:copy-of of a node, of a node set or of the document writes those trees. *)
Theorem C65_copy_of : forall cd dec st public ordn orda encoding omit nodes, st <> Pretty -> (st = Canon \/ omit = true) ->
  sound_codec cd -> decodes cd dec -> any_dict_order ordn orda ->
  Forall (source (canon_of st)) nodes -> raw_encodable cd nodes ->
  writes_copy cd dec st public ordn orda encoding omit (copy_of (SNodeset (map INode nodes))) nodes /\
  writes_copy cd dec st public ordn orda encoding omit (copy_of (SNodeset [IDoc nodes])) nodes /\
  (forall n, nodes = [n] -> writes_copy cd dec st public ordn orda encoding omit (copy_of (SNode (INode n))) nodes).
Proof.
  intros cd dec st public ordn orda encoding omit nodes Hst Ho Hcd Hd HO HS HE.
  pose proof (copied cd dec st public ordn orda encoding omit nodes Hst Ho Hcd Hd HO HS HE) as H.
  assert (E : copy_nodes (map INode nodes) = flat_map copy_node nodes).
  { clear. unfold copy_nodes. induction nodes as [|n l IH]; [reflexivity|]. cbn [map flat_map copy_item]. now rewrite IH. }
  split; [cbn [copy_of]; now rewrite E|]. split; [unfold copy_of, copy_nodes; cbn [flat_map copy_item]; now rewrite app_nil_r|].
  intros n ->. cbn [flat_map] in H. rewrite app_nil_r in H. exact H.
Qed.
Print Assumptions C65_copy_of.

(** Inside an element: copied attributes become its attributes (the last of the
    same expanded name counts), copied nodes its content. *)
Fixpoint last_of_name (l : list attr) : list attr :=
  match l with
  | [] => []
  | a :: l' => if existsb (fun b => ename_eqb (att_name a) (att_name b)) l' then last_of_name l' else a :: last_of_name l'
  end.
Theorem C65_into_element : forall cd dec st public ordn orda encoding omit p l ns atts nodes, st <> Pretty -> (st = Canon \/ omit = true) ->
  sound_codec cd -> decodes cd dec -> any_dict_order ordn orda ->
  ncname l -> binding p ns -> ns <> Some [] -> Forall source_att atts -> Forall (source (canon_of st)) nodes ->
  raw_encodable cd (NElem None (qn p l) [] atts nodes :: nil) ->
  exists bs t rs xs, write true st public None ordn orda encoding omit (xmlstream_new cd)
      (StartElement (qn p l) ns [] [] :: copy_of (SNodeset (map IAttr atts ++ map INode nodes)) ++ [EndElement (qn p l)]) = Ok bs /\
    dec bs = Some t /\ read_content t = Some rs /\ resolve_all scope0 rs = Some xs /\
    Forall2 same_tree xs [XElem ns l (map (fun a => (att_name a, a_value a)) (last_of_name atts)) (fold_right expanded [] nodes)].
Proof.
  intros cd dec st public ordn orda encoding omit p l ns atts nodes Hst Ho Hcd Hd HO Hl Hb Hns HA HS HE.
  assert (Hp : forall r, p = Some r -> ncname r) by (intros r ->; destruct ns; [apply Hb|contradiction]).
  destruct (all_proper _ _ HS) as [HP HM].
  assert (P1 : proper (canon_of st) (WElem p l ns [] [] (map to_watt atts) (map to_w nodes))).
  { constructor; try assumption; [constructor|constructor|]. cbn [app]. rewrite Forall_forall in *. intros w Hin. apply in_map_iff in Hin as (x & <- & Hin).
    destruct (HA _ Hin) as (xp & xl & X1 & X2 & X3 & X4 & X5). unfold proper_att, to_watt. cbn [t_prefix t_local t_ns t_value].
    destruct (split_of_qn xp xl X2 X3) as [Y1 Y2]. rewrite X1, Y1, Y2. auto. }
  assert (P2 : encodable cd [WElem p l ns [] [] (map to_watt atts) (map to_w nodes)]).
  { unfold encodable, raw_encodable in *. cbn [flat_map raw_strings names_of app] in *. rewrite app_nil_r in *. inversion HE as [|? ? H1 H2]; subst.
    cbn [decl_strings flat_map app] in H2. apply Forall_app in H2 as [H2 H3]. apply enc_split in H1. destruct (split_of_qn p l Hp Hl) as [-> E2] in H1. rewrite E2 in H1.
    apply Forall_app in H1 as [H1 H1']. apply Forall_app. split; [exact H1|]. constructor; [now inversion H1'|]. apply Forall_app. split.
    - clear - H2. induction atts as [|x a IH]; [constructor|]. cbn [map flat_map] in *. inversion H2 as [|? ? G1 G2]; subst.
      apply enc_split in G1. apply Forall_app in G1 as [A B]. cbn [to_watt t_local t_prefix]. constructor; [now inversion B|]. apply Forall_app. split; [exact A|now apply IH].
    - exact (all_encodable _ _ _ HS H3). }
  destruct (C64_written cd dec st public None ordn orda encoding omit [WElem p l ns [] [] (map to_watt atts) (map to_w nodes)] Hst Ho eq_refl Hcd Hd HO)
    as (bs & t & rs & xs & A & B & C & D & E & F); [constructor; [exact P1|constructor]|exact P2|].
  exists bs, t, rs, xs. repeat split; try assumption.
  - rewrite <- A. f_equal. cbn [flat_map calls]. rewrite app_nil_r. cbn [map]. f_equal. rewrite app_assoc. f_equal. cbn [copy_of]. unfold copy_nodes. rewrite flat_map_app, calls_all. f_equal.
    + rewrite map_map. clear. induction atts as [|x a IH]; [reflexivity|]. cbn [map flat_map copy_item app]. f_equal; [cbn [to_watt t_prefix t_local t_value t_ns]; now rewrite qn_split|exact IH].
    + clear. induction nodes as [|n k IH]; [reflexivity|]. cbn [map flat_map copy_item]. now rewrite IH.
  - cbn [fold_right meant app] in E. rewrite HM in E. assert (EL : map (fun a => (ename a, t_value a)) (last_wins (map to_watt atts)) = map (fun a => (att_name a, a_value a)) (last_of_name atts)); [|now rewrite EL in E].
    clear. induction atts as [|x a IH]; [reflexivity|]. cbn [map last_wins last_of_name].
    assert (EX : existsb (fun b => ename_eqb (ename (to_watt x)) (ename b)) (map to_watt a) = existsb (fun b => ename_eqb (att_name x) (att_name b)) a).
    { clear IH. induction a as [|y a IH]; [reflexivity|]. cbn [map existsb]. now rewrite IH. }
    rewrite EX. destruct (existsb _ a); [exact IH|]. cbn [map]. now rewrite IH.
Qed.
Print Assumptions C65_into_element.

(** ** The identity transformation *)
Lemma identity_elem : forall ns q d a k, identity (NElem ns q d a k) =
  bind (concat_results (map (fun x => xsl_copy (Ok []) (IAttr x)) a ++ map identity k)) (fun b => Ok (StartElement q ns (own_declarations d) [] :: b ++ [EndElement q])).
Proof. reflexivity. Qed.
Lemma concat_oks : forall (l : list (list call)), concat_results (map Ok l) = Ok (concat l).
Proof. induction l as [|a l IH]; [reflexivity|]. cbn [map concat_results concat bind]. now rewrite IH. Qed.
Lemma identity_calls : forall n, identity n = Ok (copy_node (comments_as_text n)).
Proof.
  induction n as [ns q d a k IH|s|s|t d] using node_ind2; try reflexivity. rewrite identity_elem.
  assert (EK : map identity k = map Ok (map (fun n => copy_node (comments_as_text n)) k)).
  { induction IH as [|x k Hx _ IHk]; [reflexivity|]. cbn [map]. now rewrite Hx, IHk. }
  assert (EA : map (fun x => xsl_copy (Ok []) (IAttr x)) a = map Ok (map (fun x => [copy_attribute x]) a)) by (rewrite map_map; reflexivity).
  rewrite EK, EA, <- map_app, concat_oks. cbn [bind comments_as_text copy_node]. f_equal. f_equal. rewrite concat_app, <- app_assoc. f_equal.
  - clear. induction a as [|x a IH]; [reflexivity|]. cbn [map concat app]. now rewrite IH.
  - f_equal. clear. induction k as [|x k IH]; [reflexivity|]. cbn [map concat flat_map]. now rewrite IH.
Qed.
Lemma no_comments_same : forall n, no_comments n -> comments_as_text n = n.
Proof.
  induction n as [ns q d a k IH|s|s|t d] using node_ind2; intro H; try reflexivity; [|contradiction H]. cbn [comments_as_text]. f_equal. cbn [no_comments] in H.
  induction IH as [|x k Hx _ IHk]; [reflexivity|]. destruct H as [H1 H2]. cbn [map]. now rewrite Hx, IHk.
Qed.
(** The identity transformation writes the document with each comment turned
    into text; a document without comments is copied. *)
Theorem C65_identity_partial : forall cd dec st public ordn orda encoding omit doc, st <> Pretty -> (st = Canon \/ omit = true) ->
  sound_codec cd -> decodes cd dec -> any_dict_order ordn orda ->
  Forall (source (canon_of st)) (map comments_as_text doc) -> raw_encodable cd (map comments_as_text doc) ->
  exists l, identity_document doc = Ok l /\
    writes_copy cd dec st public ordn orda encoding omit l (map comments_as_text doc) /\
    (Forall no_comments doc -> writes_copy cd dec st public ordn orda encoding omit l doc).
Proof.
  intros cd dec st public ordn orda encoding omit doc Hst Ho Hcd Hd HO HS HE.
  exists (flat_map copy_node (map comments_as_text doc)).
  assert (EI : identity_document doc = Ok (flat_map copy_node (map comments_as_text doc))).
  { unfold identity_document. assert (map identity doc = map Ok (map copy_node (map comments_as_text doc))) as ->.
    { rewrite !map_map. apply map_ext. intro n. apply identity_calls. }
    rewrite concat_oks. f_equal. symmetry. apply flat_map_concat_map. }
  pose proof (copied cd dec st public ordn orda encoding omit _ Hst Ho Hcd Hd HO HS HE) as H. split; [exact EI|]. split; [exact H|].
  intro HN. assert (ED : map comments_as_text doc = doc).
  { clear - HN. induction HN as [|n l Hn _ IH]; [reflexivity|]. cbn [map]. now rewrite IH, no_comments_same. }
  rewrite ED in H |- *. exact H.
Qed.
Print Assumptions C65_identity_partial.
(** On every document without comments the two ways of copying agree. *)
Theorem C65_agree : forall doc, Forall no_comments doc -> identity_document doc = Ok (copy_of (SNodeset [IDoc doc])).
Proof.
  intros doc HN. unfold identity_document, copy_of, copy_nodes. cbn [flat_map copy_item]. rewrite app_nil_r.
  assert (map identity doc = map Ok (map copy_node doc)) as ->.
  { induction HN as [|n l Hn _ IH]; [reflexivity|]. cbn [map]. rewrite IH, identity_calls. now rewrite no_comments_same. }
  rewrite concat_oks. f_equal. symmetry. apply flat_map_concat_map.
Qed.
Print Assumptions C65_agree.

(** ** Cases *)
Definition at1 (u : option str) (q v : str) : attr := {| a_ns := u; a_qname := q; a_value := v |}.
Definition ctree : node :=
  NElem (Some (lit "urn:a")) (qn (Some (lit "p")) (lit "e")) [(Some (lit "p"), lit "urn:a"); (None, lit "urn:d")]
    [at1 None (lit "x") (lit "1<"); at1 (Some (lit "urn:b")) (lit "p:x") (lit "2")]
    [NText (lit "a&"); NElem None (qn None (lit "k")) [] [] [NPI (lit "t") (lit "d")]; NText (lit "z")].
Example C65_case_source : Forall (source true) [ctree; NComment (lit "c")] /\ raw_encodable utf8_codec [ctree; NComment (lit "c")].
Proof.
  split; [|repeat (constructor; [vm_compute; discriminate|]); constructor].
  assert (HC : source true (NComment (lit "c"))) by (apply so_comment; easy_proper).
  assert (HT : forall s, chars s -> contains [13; 10] s = false -> source true (NText s)) by (intros; now apply so_text).
  assert (HK : source true (NElem None (qn None (lit "k")) [] [] [NPI (lit "t") (lit "d")])).
  { apply so_elem; [easy_proper|easy_proper|discriminate|split; [constructor|constructor]|constructor|constructor|].
    constructor; [apply so_pi; [easy_proper|reflexivity]|constructor]. }
  assert (HE : source true ctree).
  { unfold ctree. apply so_elem.
    - easy_proper.
    - easy_proper.
    - discriminate.
    - split; easy_proper.
    - constructor; [|constructor; [|constructor]].
      + exists None, (lit "x"). split; [reflexivity|]. cbn [at1 a_ns a_value]. easy_proper.
      + exists (Some (lit "p")), (lit "x"). split; [reflexivity|]. cbn [at1 a_ns a_value]. easy_proper.
    - repeat constructor; cbn; intuition discriminate.
    - constructor; [apply HT; easy_proper|]. constructor; [exact HK|]. constructor; [apply HT; easy_proper|constructor]. }
  constructor; [exact HE|constructor; [exact HC|constructor]].
Qed.
Example C65_case : to_bytes Plain (copy_of (SNodeset [INode ctree; INode (NComment (lit "c"))])) =
    Ok (lit "<p:e xmlns=""urn:d"" xmlns:p=""urn:a"" xmlns:org.4suite.4xslt.ns0=""urn:b"" x=""1&lt;"" org.4suite.4xslt.ns0:x=""2"">a&amp;<k xmlns=""""><?t d?></k>z</p:e><!--c-->") /\
  identity_document [ctree] = Ok (copy_node ctree) /\ no_comments ctree.
Proof. split; [vm_compute; reflexivity|]. split; [vm_compute; reflexivity|]. cbn. tauto. Qed.
Example C65_case_into : to_bytes Plain (StartElement (lit "r") None [] [] :: copy_of (SNodeset (map IAttr [at1 None (lit "x") (lit "1"); at1 None (lit "x") (lit "2")] ++ map INode [NText (lit "t")])) ++ [EndElement (lit "r")]) =
  Ok (lit "<r x=""2"">t</r>").
Proof. vm_compute. reflexivity. Qed.

(** ** Where copying falls short *)
(** xsl:copy turns a comment into text. *)
Theorem C65_comment_refuted : exists l, identity_document [NElem None (lit "a") [] [] [NComment (lit "c")]] = Ok l /\
  to_bytes Plain l = Ok (lit "<a>c</a>").
Proof. eexists. split; [vm_compute; reflexivity|]. vm_compute; reflexivity. Qed.
Print Assumptions C65_comment_refuted.
(** xsl:copy of a namespace node, as in a template that matches it by
    select="namespace::*", fails. *)
Theorem C65_copy_namespace_refuted : forall body name value, xsl_copy body (INs name value) = Err AttributeError.
Proof. reflexivity. Qed.
Print Assumptions C65_copy_namespace_refuted.
(** Namespace nodes that an element has from its ancestors are not copied with
    it: here [b] in the source has the binding of q, its copy has not. *)
Theorem C65_inherited_namespace_refuted :
  let b := NElem None (lit "b") [] [] [] in
  let a := NElem None (lit "a") [(Some (lit "q"), lit "urn:q")] [] [b] in
  declared scope0 [(Some (lit "q"), lit "urn:q")] (Some (lit "q")) = Some (lit "urn:q") /\
  to_bytes Plain (copy_of (SNodeset [INode a])) = Ok (lit "<a xmlns:q=""urn:q""><b/></a>") /\
  to_bytes Plain (copy_of (SNodeset [INode b])) = Ok (lit "<b/>").
Proof. cbv zeta. repeat split; vm_compute; reflexivity. Qed.
Print Assumptions C65_inherited_namespace_refuted.
(** White space at the end of a processing instruction's data is lost. *)
Theorem C65_pi_space_refuted : legal_pi (lit "t") (lit "d ") /\
  to_bytes Plain (copy_of (SNodeset [INode (NPI (lit "t") (lit "d "))])) = Ok (lit "<?t d?>").
Proof. split; [easy_proper|vm_compute; reflexivity]. Qed.
Print Assumptions C65_pi_space_refuted.
