(** * Properties of the structure writer (C78, C79) *)
From Coq Require Import NArith ZArith String List Bool Lia Arith Permutation.
From Verif Require Import PyStr PyErr Utf8 XsModel SerModel SerSpec SerStream SerRead SerTree SerNs SwModel SwSpec SwWrite SwNs SwProofs SwAgain SerProps SerCodec.
Import ListNotations.
Open Scope N_scope.

(** ** C78: the document written is the structure fed *)
Theorem C78_feed_partial : forall cd dec indent enc content xs,
  sound_codec cd -> decodes cd dec -> legal_encname enc ->
  Forall (legal_struct scope0) content -> denotes scope0 content xs ->
  (exists u n a k, joined_all xs = [XElem u n a k]) ->
  Forall (fun s => encode cd s <> None) (flat_map name_strings content) ->
  exists bs t l l' ys,
    struct_encode true indent false enc (xmlstream_new cd) (ORoot content) = Ok bs /\
    dec bs = Some t /\ read_document t = Some (Some (lit "1.0", enc), l') /\
    (if indent then Forall2 spaced1 l l' else l' = l) /\
    resolve_all scope0 l = Some ys /\ Forall2 same_tree ys (joined_all xs).
Proof.
  intros cd dec ind enc content xs H1 H2 H3 H4 H5 H6 H7.
  destruct (feed_document cd dec ind enc content xs H1 H2 H3 H4 H5 H6 H7) as (bs & E & t & l & l' & ys & R). exists bs, t, l, l', ys. split; assumption.
Qed.
Print Assumptions C78_feed_partial.

(** An attribute whose value is None is left out, the others stay. *)
Theorem C78_attributes : forall ns q given content, exists atts,
  new_E ns q given content = OE ns q atts content /\
  forall k v, In (k, v) atts <-> In (k, Some v) given.
Proof.
  intros ns q given content. eexists. split; [reflexivity|]. intros k v.
  induction given as [|[k' [w|]] given IH]; cbn [new_attributes In]; [reflexivity| |].
  - rewrite IH. split; (intros [E|H]; [left; congruence|now right]).
  - rewrite IH. split; [now right|]. intros [E|H]; [discriminate|exact H].
Qed.
Print Assumptions C78_attributes.

(** A structure with a default namespace, a prefix declared by NS and used
    below, an element that leaves the default namespace, text from several
    sources and an iterator. *)
Definition struct1 : obj :=
  OE (Some (lit "urn:d")) (lit "a") [((None, lit "k"), lit "<1"); ((Some (lit "urn:p"), lit "p:k"), lit "2")]
    [ONS (lit "p") (lit "urn:p");
     OE None (lit "p:b") [] [OText (lit "x&"); OOther false (lit "0")];
     OSeq true [OE None (lit "c") [] []; OE (Some []) (lit "d") [] [OE None (lit "e") [] []]];
     OCall (OText (lit "t"))].
Definition tree1' : xnode :=
  XElem (Some (lit "urn:d")) (lit "a") [((None, lit "k"), lit "<1"); ((Some (lit "urn:p"), lit "k"), lit "2")]
    [XElem (Some (lit "urn:p")) (lit "b") [] [XText (lit "x&"); XText (lit "0")];
     XElem (Some (lit "urn:d")) (lit "c") [] []; XElem None (lit "d") [] [XElem None (lit "e") [] []];
     XText (lit "t")].
Lemma struct1_legal : legal_struct scope0 struct1.
Proof.
  unfold struct1. eapply ls_elem; [apply heads_ns, heads_other; discriminate|reflexivity|reflexivity|discriminate| |discriminate| | | | |].
  - split; [repeat constructor; cbn; intuition discriminate|]. repeat constructor; try (vm_compute; congruence); try (vm_compute; intuition discriminate).
  - repeat constructor.
  - repeat constructor; cbn; intuition discriminate.
  - vm_compute. repeat constructor; cbn; intuition discriminate.
  - intros x r E. injection E as <- _. exact I.
  - repeat constructor.
    + eapply ls_elem; [apply heads_other; discriminate|reflexivity|reflexivity|discriminate| | | | | | |]; try constructor.
      * constructor.
      * constructor.
      * intros p _ E. injection E as <-. vm_compute. discriminate.
      * intros x r E. injection E as <- _. exact I.
      * repeat constructor.
      * repeat constructor.
    + eapply ls_elem; [apply heads_nil|reflexivity|reflexivity|discriminate| | | | | | |]; try constructor; try constructor; try discriminate.
    + eapply ls_elem; [apply heads_other; discriminate|reflexivity|reflexivity|discriminate| |discriminate| | | | |].
      * split; [repeat constructor; intros []|]. repeat constructor; vm_compute; discriminate.
      * constructor.
      * constructor.
      * constructor.
      * intros x r E. injection E as <- _. exact I.
      * repeat constructor. eapply ls_elem; [apply heads_nil|reflexivity|reflexivity|discriminate| | | | | | |]; try constructor; try constructor; try discriminate.
Qed.
Lemma struct1_denotes : denotes scope0 [struct1] [tree1'].
Proof.
  unfold struct1, tree1'.
  refine (dn_elem _ _ _ _ _ _ _ _ _ _ _ (heads_ns _ _ _ _ _ (heads_other _ _ _)) eq_refl _ (dn_nil _)); [discriminate|].
  refine (dn_elem _ _ _ _ _ _ _ _ _ _ _ (heads_other _ _ _) eq_refl _ _); [discriminate|repeat constructor|].
  refine (dn_seq _ _ _ _ [_; _] _ _ (dn_call _ _ _ [_] _ (dn_text _ _ _ _ (dn_nil _)) (dn_nil _))).
  refine (dn_elem _ _ _ _ _ _ _ _ _ _ _ heads_nil eq_refl (dn_nil _) _).
  refine (dn_elem _ _ _ _ _ _ _ _ _ _ _ (heads_other _ _ _) eq_refl _ (dn_nil _)); [discriminate|].
  refine (dn_elem _ _ _ _ _ _ _ _ _ _ _ heads_nil eq_refl (dn_nil _) (dn_nil _)).
Qed.
Example C78_case : Forall (legal_struct scope0) [struct1] /\ denotes scope0 [struct1] [tree1'] /\
  (exists u n a k, joined_all [tree1'] = [XElem u n a k]) /\
  Forall (fun s => encode utf8_codec s <> None) (flat_map name_strings [struct1]) /\
  struct_encode true false false (lit "utf-8") (xmlstream_new utf8_codec) (ORoot [struct1]) =
    Ok (lit "<?xml version=""1.0"" encoding=""utf-8""?>" ++ [10] ++
        lit "<a xmlns:p=""urn:p"" xmlns=""urn:d"" k=""&lt;1"" p:k=""2""><p:b>x&amp;0</p:b><c/><d xmlns=""""><e/></d>t</a>").
Proof.
  split; [repeat constructor; apply struct1_legal|]. split; [apply struct1_denotes|].
  split; [eexists _, _, _, _; reflexivity|]. split; [|vm_compute; reflexivity].
  repeat constructor; vm_compute; discriminate.
Qed.

(** Content that begins with something false is lost: E(u'a', u'', E(u'b')). *)
Theorem C78_false_lead_refuted :
  struct_encode true false false (lit "utf-8") (xmlstream_new utf8_codec)
    (ORoot [OE None (lit "a") [] [OText []; OE None (lit "b") [] []]]) =
  Ok (lit "<?xml version=""1.0"" encoding=""utf-8""?>" ++ [10] ++ lit "<a/>").
Proof. vm_compute. reflexivity. Qed.
Print Assumptions C78_false_lead_refuted.
(** An element with a namespace that also declares its prefix has the same
    declaration twice: E((u'urn:x', u'p:a'), NS(u'p', u'urn:x')). *)
Theorem C78_twice_declared_refuted : exists bs,
  struct_encode true false false (lit "utf-8") (xmlstream_new utf8_codec)
    (ORoot [OE (Some (lit "urn:x")) (lit "p:a") [] [ONS (lit "p") (lit "urn:x")]]) = Ok bs /\
  read_document bs = None.
Proof. eexists. split; [vm_compute; reflexivity|]. vm_compute. reflexivity. Qed.
Print Assumptions C78_twice_declared_refuted.
(** Below the prefix with its own namespace, a declaration of the prefix moves
    the element to another namespace. *)
Theorem C78_redeclared_refuted : exists bs l n a,
  struct_encode true false false (lit "utf-8") (xmlstream_new utf8_codec)
    (ORoot [OE (Some (lit "urn:x")) (lit "p:a") [] [OE (Some (lit "urn:x")) (lit "p:b") [] [ONS (lit "p") (lit "urn:y")]]]) = Ok bs /\
  read_document bs = Some (Some (lit "1.0", lit "utf-8"), l) /\
  resolve_all scope0 l = Some [XElem (Some (lit "urn:x")) n a [XElem (Some (lit "urn:y")) (lit "b") [] []]].
Proof. do 4 eexists. split; [vm_compute; reflexivity|]. split; [vm_compute; reflexivity|]. vm_compute. reflexivity. Qed.
Print Assumptions C78_redeclared_refuted.
(** The namespace of an attribute is not declared. *)
Theorem C78_attribute_refuted : exists bs l,
  struct_encode true false false (lit "utf-8") (xmlstream_new utf8_codec)
    (ORoot [OE None (lit "a") [((Some (lit "urn:x"), lit "p:k"), lit "v")] []]) = Ok bs /\
  read_document bs = Some (Some (lit "1.0", lit "utf-8"), l) /\ resolve_all scope0 l = None.
Proof. do 2 eexists. split; [vm_compute; reflexivity|]. split; [vm_compute; reflexivity|]. vm_compute. reflexivity. Qed.
Print Assumptions C78_attribute_refuted.
(** The canonical printer cannot be asked for. *)
Theorem C78_canonical_refuted : forall wide enc x o, struct_encode wide false true enc x o = Err AttributeError.
Proof. reflexivity. Qed.
Print Assumptions C78_canonical_refuted.

(** ** C79: a structure can be fed again *)
Theorem C79_again_partial : forall cd dec indent enc content xs,
  sound_codec cd -> decodes cd dec -> legal_encname enc ->
  Forall (legal_struct scope0) content -> Forall settled content -> denotes scope0 content xs ->
  (exists u n a k, joined_all xs = [XElem u n a k]) ->
  Forall (fun s => encode cd s <> None) (flat_map name_strings content) ->
  exists bs t l l' ys,
    struct_encode true indent false enc (xmlstream_new cd) (fed [] (ORoot content)) = Ok bs /\
    dec bs = Some t /\ read_document t = Some (Some (lit "1.0", enc), l') /\
    (if indent then Forall2 spaced1 l l' else l' = l) /\
    resolve_all scope0 l = Some ys /\ Forall2 same_tree ys (joined_all xs).
Proof.
  intros cd dec ind enc content xs H1 H2 H3 H4 HS H5 H6 H7.
  assert (HM : Forall again content) by (apply Forall_forall; intros; apply all_again).
  destruct (again_all content HM scope0 [] H4 HS agree2_0) as [A1 A2].
  change (fed [] (ORoot content)) with (ORoot (map (fed []) content)). apply C78_feed_partial; auto.
  replace (flat_map name_strings (map (fed []) content)) with (flat_map name_strings content); [exact H7|].
  clear. induction content as [|o l IH]; [reflexivity|]. cbn [map flat_map]. now rewrite fed_names, IH.
Qed.
Print Assumptions C79_again_partial.
Example C79_case : Forall settled [struct1] /\ fed [] (ORoot [struct1]) <> ORoot [struct1].
Proof.
  split; [|vm_compute; discriminate]. constructor; [|constructor]. unfold struct1.
  econstructor; [apply heads_ns, heads_other; discriminate|discriminate|]. repeat constructor.
  - econstructor; [apply heads_other; discriminate| |repeat constructor]. intros _. split; [intros []|vm_compute; discriminate].
  - econstructor; [apply heads_nil| |constructor]. intros _. split; [intros []|discriminate].
  - econstructor; [apply heads_other; discriminate|discriminate|]. repeat constructor.
    econstructor; [apply heads_nil| |constructor]. intros _. split; [intros []|discriminate].
Qed.
(** E(u'p:a', NS(u'p', u'urn:x')) is written well once; the second time the
    document is not well-formed. *)
Theorem C79_own_prefix_refuted : exists bs l bs2,
  let s := ORoot [OE None (lit "p:a") [] [ONS (lit "p") (lit "urn:x")]] in
  struct_encode true false false (lit "utf-8") (xmlstream_new utf8_codec) s = Ok bs /\
  read_document bs = Some (Some (lit "1.0", lit "utf-8"), l) /\
  resolve_all scope0 l = Some [XElem (Some (lit "urn:x")) (lit "a") [] []] /\
  struct_encode true false false (lit "utf-8") (xmlstream_new utf8_codec) (fed [] s) = Ok bs2 /\
  read_document bs2 = None.
Proof. do 3 eexists. cbv zeta. split; [vm_compute; reflexivity|]. split; [vm_compute; reflexivity|]. split; [vm_compute; reflexivity|]. split; [vm_compute; reflexivity|]. vm_compute. reflexivity. Qed.
Print Assumptions C79_own_prefix_refuted.
(** An element used in two places keeps the namespace of the first:
    x = E(u'b'), fed inside E((u'urn:x', u'a'), x) and then by itself. *)
Theorem C79_moved_refuted : exists bs l,
  let x' := match fed [] (OE (Some (lit "urn:x")) (lit "a") [] [OE None (lit "b") [] []]) with OE _ _ _ [x'] => x' | o => o end in
  struct_encode true false false (lit "utf-8") (xmlstream_new utf8_codec) (ORoot [x']) = Ok bs /\
  read_document bs = Some (Some (lit "1.0", lit "utf-8"), l) /\
  resolve_all scope0 l = Some [XElem (Some (lit "urn:x")) (lit "b") [] []] /\
  denotes scope0 [OE None (lit "b") [] []] [XElem None (lit "b") [] []].
Proof.
  do 2 eexists. cbv zeta. split; [vm_compute; reflexivity|]. split; [vm_compute; reflexivity|]. split; [vm_compute; reflexivity|].
  refine (dn_elem _ _ _ _ _ _ _ _ _ _ _ heads_nil eq_refl (dn_nil _) (dn_nil _)).
Qed.
Print Assumptions C79_moved_refuted.
