(** * Properties of feeding with a cursor (C80) *)
From Coq Require Import NArith ZArith String List Bool Lia Arith Permutation.
From Verif Require Import PyStr PyErr Utf8 XsModel SerModel SerSpec SerStream SerRead SerTree SerNs SwModel SwSpec SwWrite SwNs SwProofs SwProps SwCoModel SwCoSpec SwCoProofs SwCoWrite SerCodec.
Import ListNotations.
Open Scope N_scope.

(** ** C80: sending to a cursor and closing *)
Theorem C80_cofeed_partial : forall cd dec indent enc content vs xs,
  sound_codec cd -> decodes cd dec -> legal_encname enc ->
  list_sum (map cursors content) = 1%nat -> (forall p u r, vs <> ONS p u :: r) ->
  Forall (legal_struct scope0) (map (filled vs) content) -> denotes scope0 (map (filled vs) content) xs ->
  (exists u n a k, joined_all xs = [XElem u n a k]) ->
  Forall (fun s => encode cd s <> None) (flat_map name_strings (map (filled vs) content)) ->
  exists bs t l l' ys,
    co_encode true indent false enc (xmlstream_new cd) (CRoot content) vs = Ok bs /\
    dec bs = Some t /\ read_document t = Some (Some (lit "1.0", enc), l') /\
    (if indent then Forall2 spaced1 l l' else l' = l) /\
    resolve_all scope0 l = Some ys /\ Forall2 same_tree ys (joined_all xs).
Proof.
  intros cd dec ind enc content vs xs H1 H2 H3 H4 H5 H6 H7 H8 H9.
  destruct (co_document cd dec ind enc content vs xs H1 H2 H3 H4 H5 H6 H7 H8 H9) as (bs & E & t & l & l' & ys & R). exists bs, t, l, l', ys. split; assumption.
Qed.
Print Assumptions C80_cofeed_partial.

(** The structure of C78 with the element p:b as the cursor, and with the cursor
    two levels down. *)
Definition co1 : cobj :=
  CElem (Some (lit "urn:d")) (lit "a") [((None, lit "k"), lit "<1"); ((Some (lit "urn:p"), lit "p:k"), lit "2")]
    [CItem (ONS (lit "p") (lit "urn:p")); CCursor None (lit "p:b") [];
     CItem (OSeq true [OE None (lit "c") [] []; OE (Some []) (lit "d") [] [OE None (lit "e") [] []]]);
     CItem (OCall (OText (lit "t")))].
Definition sent1 : list obj := [OText (lit "x&"); OOther false (lit "0")].
Example C80_case : list_sum (map cursors [co1]) = 1%nat /\ (forall p u r, sent1 <> ONS p u :: r) /\
  Forall (legal_struct scope0) (map (filled sent1) [co1]) /\ denotes scope0 (map (filled sent1) [co1]) [tree1'] /\
  co_encode true false false (lit "utf-8") (xmlstream_new utf8_codec) (CRoot [co1]) sent1 =
    struct_encode true false false (lit "utf-8") (xmlstream_new utf8_codec) (ORoot [struct1]).
Proof.
  split; [reflexivity|]. split; [discriminate|]. split; [repeat constructor; apply struct1_legal|]. split; [apply struct1_denotes|]. vm_compute. reflexivity.
Qed.
Example C80_deep :
  co_encode true true false (lit "utf-8") (xmlstream_new utf8_codec)
    (CRoot [CElem (Some (lit "urn:p")) (lit "p:a") [] [CElem None (lit "b") [] [CItem (OText (lit "t")); CCursor (Some (lit "urn:p")) (lit "p:c") []; CElem None (lit "d") [] []]; CElem None (lit "e") [] []]])
    [OE None (lit "p:x") [] []; OSeq false [OE None (lit "y") [] []]] =
  Ok (lit "<?xml version=""1.0"" encoding=""utf-8""?>" ++ [10] ++
      lit "<p:a xmlns:p=""urn:p"">" ++ [10] ++ lit "  <b>t<p:c xmlns:p=""urn:p"">" ++ [10] ++ lit "      <p:x/>" ++ [10] ++ lit "      <y/>" ++ [10] ++
      lit "    </p:c>" ++ [10] ++ lit "    <d/>" ++ [10] ++ lit "  </b>" ++ [10] ++ lit "  <e/>" ++ [10] ++ lit "</p:a>").
Proof. vm_compute. reflexivity. Qed.

(** A declaration that is sent is not written, so that the prefix is unbound. *)
Theorem C80_ns_refuted : exists bs l,
  co_encode true false false (lit "utf-8") (xmlstream_new utf8_codec) (CRoot [CCursor None (lit "a") []])
    [ONS (lit "p") (lit "urn:p"); OE None (lit "p:b") [] []] = Ok bs /\
  read_document bs = Some (Some (lit "1.0", lit "utf-8"), l) /\ resolve_all scope0 l = None.
Proof. do 2 eexists. split; [vm_compute; reflexivity|]. split; [vm_compute; reflexivity|]. vm_compute. reflexivity. Qed.
Print Assumptions C80_ns_refuted.
(** A structure without a cursor raises StopIteration instead of being written. *)
Theorem C80_no_cursor_refuted : forall vs,
  co_encode true false false (lit "utf-8") (xmlstream_new utf8_codec) (CRoot [CElem None (lit "a") [] []]) vs = Err StopIteration.
Proof. intro vs. vm_compute. reflexivity. Qed.
Print Assumptions C80_no_cursor_refuted.
(** With a second cursor close raises RuntimeError and the document has no end. *)
Theorem C80_two_cursors_refuted :
  co_encode true false false (lit "utf-8") (xmlstream_new utf8_codec)
    (CRoot [CElem None (lit "a") [] [CCursor None (lit "b") []; CCursor None (lit "c") []]]) [OText (lit "x")] = Err RuntimeError.
Proof. vm_compute. reflexivity. Qed.
Print Assumptions C80_two_cursors_refuted.
