(** * Proofs about [OpModel] *)
From Coq Require Import NArith ZArith String List Bool Lia Arith Permutation.
From Verif Require Import PyStr PyErr SerModel SerSpec SerStream SerTree XsModel XwModel XwSpec XwTree XwProps HtModel HtSpec HtPrint HtTop OpModel OpSpec.
Import ListNotations.
Open Scope N_scope.
Local Opaque maps_32 maps_40 maps_xhtml.

Section Op.
Variables (low : str -> str) (codecs : str -> option codec) (ordn : wdict -> wdict) (orda : wattrs -> wattrs).
Notation op_call := (op_call low ordn orda).
Notation op_calls := (op_calls low ordn orda).
Notation op_end := (op_end low ordn orda).
Notation op_start := (op_start codecs).
Notation finalize := (finalize low codecs ordn orda).
Notation proxy_call := (proxy_call low codecs ordn orda).
Notation proxy_calls := (proxy_calls low codecs ordn orda).
Notation proxy_end := (proxy_end low codecs ordn orda).
Notation transform := (transform low codecs ordn orda).
Notation abandoned := (abandoned low codecs ordn orda).

(** ** The writer of a known class *)
Definition direct (ps : params) (l : list ocall) : params * result (list N) :=
  match lookup ps with
  | Err e => (ps, Err e)
  | Ok c => let (ps2, r) := op_start c ps in (ps2, bind r (fun w => bind (op_calls ps2 l w) op_end))
  end.

Lemma op_calls_app : forall ps a b w, op_calls ps (a ++ b) w = bind (op_calls ps a w) (op_calls ps b).
Proof. intros ps a b. induction a as [|c a IH]; intro w; [reflexivity|]. cbn [app OpModel.op_calls]. destruct (op_call ps c w); [|reflexivity]. cbn [bind]. apply IH. Qed.
Lemma calls_real : forall ps l w, proxy_calls ps l (PReal w) = (ps, bind (op_calls ps l w) (fun w1 => Ok (PReal w1))).
Proof.
  intros ps l. induction l as [|c l IH]; intro w; [reflexivity|]. cbn [OpModel.proxy_calls OpModel.op_calls OpModel.proxy_call].
  destruct (op_call ps c w) as [w1|e]; [|reflexivity]. cbn [bind]. apply IH.
Qed.
Lemma transform_declared : forall ps l m, o_method ps = Some m -> transform ps l = direct ps l.
Proof.
  intros ps l m H. unfold OpModel.transform, open_writer, direct. rewrite H. destruct (lookup ps) as [c|e]; [|reflexivity].
  destruct (op_start c ps) as [ps2 [w|e]]; [|reflexivity]. cbn [bind]. rewrite calls_real. destruct (op_calls ps2 l w) as [w1|e]; reflexivity.
Qed.
Lemma finalize_none : forall ps m s, o_method ps = None ->
  finalize ps m s = match lookup (set_method ps (Some (None, m))) with
                    | Err e => (set_method ps (Some (None, m)), Err e)
                    | Ok c => let (ps2, r) := op_start c (set_method ps (Some (None, m))) in (ps2, bind r (fun w => bind (op_calls ps2 s w) (fun w1 => Ok (PReal w1))))
                    end.
Proof. intros ps m s H. unfold OpModel.finalize. rewrite H. reflexivity. Qed.
Definition finish (r : params * result pw) : params * result (list N) :=
  match r with (ps, Err e) => (ps, Err e) | (ps, Ok p) => proxy_end ps p end.
Lemma finish_finalize : forall ps m s l, o_method ps = None ->
  finish (match finalize ps m s with (ps1, Ok p1) => proxy_calls ps1 l p1 | (ps1, Err e) => (ps1, Err e) end) =
  direct (set_method ps (Some (None, m))) (s ++ l).
Proof.
  intros ps m s l H. rewrite finalize_none by assumption. unfold direct. destruct (lookup _) as [c|e]; [|reflexivity].
  destruct (op_start c _) as [ps2 [w|e]]; [|reflexivity]. cbn [bind]. rewrite op_calls_app. destruct (op_calls ps2 s w) as [w1|e]; [|reflexivity]. cbn [bind].
  rewrite calls_real. destruct (op_calls ps2 l w1) as [w2|e]; reflexivity.
Qed.
Lemma default_quiet : forall s l, existsb settles s = false -> default_method (s ++ l) = default_method l.
Proof.
  induction s as [|c s IH]; intros l H; [reflexivity|]. cbn [existsb] in H. apply orb_false_elim in H as [H1 H2]. cbn [app]. destruct c; cbn [settles] in H1; try discriminate H1; cbn [default_method]; auto.
  apply negb_false_iff in H1. rewrite H1. auto.
Qed.
Lemma white_space : forall s, isspace s = forallb white s.
Proof. reflexivity. Qed.

Variable Hlow : lowers_names low.
Lemma low_is : forall s, str_eqb (low s) (lit "html") = str_eqb (lower s) (lit "html").
Proof.
  intro s. destruct Hlow as (_ & H & _). destruct (str_eqb_spec (low s) (lit "html")) as [E|E], (str_eqb_spec (lower s) (lit "html")) as [F|F]; try reflexivity.
  - apply H in E. contradiction.
  - apply H in F. contradiction.
Qed.
Lemma low_head : forall s, str_eqb (low s) (lit "head") = is_head s.
Proof.
  intro s. unfold is_head. destruct Hlow as (_ & _ & H). destruct (str_eqb_spec (low s) (lit "head")) as [E|E], (str_eqb_spec (lower s) (lit "head")) as [F|F]; try reflexivity.
  - apply H in E. contradiction.
  - apply H in F. contradiction.
Qed.

Lemma proxy_direct : forall l ps s, o_method ps = None -> existsb settles s = false ->
  finish (proxy_calls ps l (PBuf s)) = direct (set_method ps (Some (None, default_method l))) (s ++ l).
Proof.
  induction l as [|c l IH]; intros ps s Hm Hs.
  - cbn [OpModel.proxy_calls finish OpModel.proxy_end default_method]. rewrite <- (finish_finalize ps (lit "xml") s [] Hm). rewrite finalize_none by assumption.
    destruct (lookup _) as [c|e]; [|reflexivity]. destruct (op_start c _) as [ps2 [w|e]]; [|reflexivity]. cbn [bind]. destruct (op_calls ps2 s w) as [w1|e]; reflexivity.
  - cbn [OpModel.proxy_calls].
    assert (HB : forall c', existsb settles [c'] = false -> existsb settles (s ++ [c']) = false) by (intros c' Hc'; rewrite existsb_app, Hs, Hc'; reflexivity).
    assert (HA : forall m, m = default_method (c :: l) -> finish (match finalize ps m (s ++ [c]) with (ps1, Ok p1) => proxy_calls ps1 l p1 | (ps1, Err e) => (ps1, Err e) end) =
      direct (set_method ps (Some (None, default_method (c :: l)))) (s ++ c :: l)).
    { intros m ->. rewrite finish_finalize by assumption. now rewrite <- app_assoc. }
    assert (HI : settles c = false -> finish (proxy_calls ps l (PBuf (s ++ [c]))) = direct (set_method ps (Some (None, default_method (c :: l)))) (s ++ c :: l)).
    { intro Hc. assert (E1 : existsb settles [c] = false) by (cbn [existsb]; now rewrite Hc). rewrite IH by auto.
      rewrite <- app_assoc. cbn [app]. rewrite <- (default_quiet [c] l E1). reflexivity. }
    destruct c as [n [u|] d a|n v u|p u|n u|x|x|t x]; cbn [OpModel.proxy_call].
    + apply HA. reflexivity.
    + apply HA. cbn [default_method]. now rewrite low_is.
    + apply HI. reflexivity.
    + apply HI. reflexivity.
    + apply HI. reflexivity.
    + rewrite white_space. destruct (forallb white x) eqn:E.
      * apply HI. cbn [settles]. now rewrite E.
      * apply HA. cbn [default_method]. now rewrite E.
    + apply HI. reflexivity.
    + apply HI. reflexivity.
Qed.
Lemma transform_default : forall ps l, o_method ps = None -> transform ps l = transform (set_method ps (Some (None, default_method l))) l.
Proof.
  intros ps l H. rewrite (transform_declared (set_method ps _) l (None, default_method l) eq_refl).
  pose proof (proxy_direct l ps [] H eq_refl) as E. cbn [app] in E. rewrite <- E. unfold OpModel.transform, open_writer. rewrite H. unfold finish. destruct (proxy_calls ps l (PBuf [])) as [ps2 [p|e]]; reflexivity.
Qed.

(** ** Runs one after the other *)
Lemma start_method : forall c ps, o_method (fst (op_start c ps)) = o_method ps /\ o_cdata (fst (op_start c ps)) = o_cdata ps.
Proof.
  intros c ps. destruct c; cbn [OpModel.op_start]; unfold xml_start, html_start_document, text_start_document; cbv zeta;
    repeat match goal with |- context [if ?b then _ else _] => destruct b end; split; reflexivity.
Qed.
Lemma start_again : forall c ps, op_start c (fst (op_start c ps)) = op_start c ps.
Proof.
  assert (HX : forall cd ps, xml_start codecs cd (fst (xml_start codecs cd ps)) = xml_start codecs cd ps).
  { intros cd ps. unfold xml_start. cbv zeta.
    destruct (dflt (o_canonical ps) false) eqn:EC.
    - destruct (str_eqb (dflt (o_version ps) (lit "1.0")) (lit "1.0")) eqn:EV; cbn [fst set_all o_version o_media o_canonical o_encoding o_omit o_indent o_bom o_standalone dflt o_method o_public o_system o_cdata]; rewrite EV; reflexivity.
    - destruct (ascii_only (dflt (o_encoding ps) (lit "UTF-8"))) eqn:EA; cbn [fst set_all o_version o_media o_canonical o_encoding o_omit o_indent o_bom o_standalone dflt o_method o_public o_system o_cdata]; rewrite EA; reflexivity. }
  intros c ps. destruct c; cbn [OpModel.op_start]; auto.
  - unfold html_start_document. cbv zeta. destruct (ascii_only (dflt (o_version ps) (lit "4.0"))) eqn:EV.
    + destruct (ascii_only (dflt (o_encoding ps) (lit "iso-8859-1"))) eqn:EA; cbn [fst set_all o_version o_media o_canonical o_encoding o_omit o_indent o_bom o_standalone dflt o_method o_public o_system o_cdata]; rewrite EV, EA; reflexivity.
    + cbn [fst set_all o_version o_media o_canonical o_encoding o_omit o_indent o_bom o_standalone dflt o_method o_public o_system o_cdata]. rewrite EV. reflexivity.
Qed.
(** The output parameters once the writer of the declared method has started. *)
Definition started (ps : params) : params := match lookup ps with Ok c => fst (op_start c ps) | Err _ => ps end.
Lemma lookup_started : forall ps, lookup (started ps) = lookup ps.
Proof.
  intro ps. unfold started. destruct (lookup ps) as [c|e] eqn:E; [|exact E]. destruct (start_method c ps) as [H1 H2]. unfold lookup in *. rewrite H1, H2. exact E.
Qed.
Lemma direct_started : forall ps l, direct (started ps) l = direct ps l.
Proof.
  intros ps l. unfold direct. rewrite lookup_started. unfold started. destruct (lookup ps) as [c|e] eqn:E; [|reflexivity]. now rewrite start_again.
Qed.
Lemma direct_params : forall ps l, fst (direct ps l) = started ps.
Proof. intros ps l. unfold direct, started. destruct (lookup ps) as [c|e]; [|reflexivity]. destruct (op_start c ps). reflexivity. Qed.
Lemma started_method : forall ps, o_method (started ps) = o_method ps.
Proof. intro ps. unfold started. destruct (lookup ps) as [c|e]; [|reflexivity]. apply start_method. Qed.
Lemma started_started : forall ps, started (started ps) = started ps.
Proof. intro ps. unfold started at 1. rewrite lookup_started. unfold started. destruct (lookup ps) as [c|e] eqn:E; [|reflexivity]. now rewrite start_again. Qed.
Lemma abandoned_declared : forall ps l m, o_method ps = Some m -> abandoned ps l = started ps.
Proof.
  intros ps l m H. unfold OpModel.abandoned, open_writer, started. rewrite H. destruct (lookup ps) as [c|e]; [|reflexivity].
  destruct (op_start c ps) as [ps2 [w|e]]; [|reflexivity]. cbn [bind]. rewrite calls_real. reflexivity.
Qed.
Lemma abandoned_default : forall ps l, o_method ps = None ->
  abandoned ps l = if existsb settles l then started (set_method ps (Some (None, default_method l))) else ps.
Proof.
  intros ps l H. unfold OpModel.abandoned, open_writer. rewrite H.
  assert (HG : forall l s, existsb settles s = false -> fst (proxy_calls ps l (PBuf s)) = if existsb settles l then started (set_method ps (Some (None, default_method l))) else ps).
  { clear l. induction l as [|c l IH]; intros s Hs; [reflexivity|]. cbn [OpModel.proxy_calls existsb].
    assert (HB : forall m, fst (match finalize ps m (s ++ [c]) with (ps1, Ok p1) => proxy_calls ps1 l p1 | (ps1, Err e) => (ps1, Err e) end) = started (set_method ps (Some (None, m)))).
    { intro m. rewrite finalize_none by assumption. unfold started. destruct (lookup _) as [c'|e]; [|reflexivity].
      destruct (op_start c' _) as [ps2 [w|e]]; [|reflexivity]. cbn [bind]. destruct (op_calls ps2 (s ++ [c]) w) as [w1|e]; [|reflexivity]. cbn [bind]. rewrite calls_real. reflexivity. }
    assert (HI : settles c = false -> fst (proxy_calls ps l (PBuf (s ++ [c]))) = if existsb settles l then started (set_method ps (Some (None, default_method (c :: l)))) else ps).
    { intro Hc. assert (E1 : existsb settles [c] = false) by (cbn [existsb]; now rewrite Hc). rewrite IH by (rewrite existsb_app, Hs, E1; reflexivity).
      rewrite <- (default_quiet [c] l E1). reflexivity. }
    destruct c as [n [u|] d a|n v u|p u|n u|x|x|t x]; cbn [OpModel.proxy_call settles orb].
    + apply HB.
    + cbn [default_method]. rewrite <- low_is. apply HB.
    + apply HI. reflexivity.
    + apply HI. reflexivity.
    + apply HI. reflexivity.
    + rewrite white_space. destruct (forallb white x) eqn:E; cbn [negb orb].
      * apply HI. cbn [settles]. now rewrite E.
      * cbn [default_method]. rewrite E. apply HB.
    + apply HI. reflexivity.
    + apply HI. reflexivity. }
  apply HG. reflexivity.
Qed.

(** ** Text output *)
Lemma plain_calls : forall ps cd l out, op_calls ps l (WPlain cd out) =
  match encode cd (text_of l) with Some b => Ok (WPlain cd (out ++ b)) | None => Err UnicodeEncodeError end.
Proof.
  intros ps cd l. induction l as [|c l IH]; intro out; [cbn; now rewrite app_nil_r|]. cbn [OpModel.op_calls OpModel.op_call].
  destruct c as [n u d a|n v u|p u|n u|x|x|t x]; cbn [text_of flat_map]; fold (text_of l); try (cbn [bind app]; apply IH).
  rewrite encode_app. destruct (encode cd x) as [b|]; [|reflexivity]. cbn [bind]. rewrite IH. destruct (encode cd (text_of l)); [|reflexivity]. now rewrite app_assoc.
Qed.

(** ** XML output *)
Lemma xml_calls : forall ps st l w, op_calls ps l (WXml false st w) =
  rmap (WXml false st) (run true st (o_public ps) (o_system ps) ordn orda (map xw_call l) w).
Proof.
  intros ps st l. induction l as [|c l IH]; intro w; [reflexivity|]. cbn [OpModel.op_calls OpModel.op_call map run].
  destruct (do_call _ _ _ _ _ _ (xw_call c) w) as [w1|e]; [|reflexivity]. cbn [bind].
  assert ((match c with OStart _ _ _ _ => Ok (WXml false st w1) | _ => Ok (WXml false st w1) end) = Ok (WXml false st w1)) as -> by (destruct c; reflexivity).
  cbn [bind]. apply IH.
Qed.
End Op.

Section Xml.
Variables (low : str -> str) (codecs : str -> option codec) (ordn : wdict -> wdict) (orda : wattrs -> wattrs).
Lemma xml_direct : forall ps l cd omit, o_method ps = Some (None, lit "xml") -> plain_xml ps -> o_omit ps = omit ->
  forallb (fun c => c <? 128) (encoding_of (lit "UTF-8") ps) = true -> codecs (encoding_of (lit "UTF-8") ps) = Some cd ->
  snd (transform low codecs ordn orda ps l) =
  write true Plain (o_public ps) (o_system ps) ordn orda (encoding_of (lit "UTF-8") ps) (dflt omit false) (xmlstream_new cd) (map xw_call l).
Proof.
  intros ps l cd omit Hm (HV & HC & HI & HS & HD & _) <- HE Hcd. rewrite (transform_declared _ _ _ _ _ _ _ Hm). unfold direct, lookup. rewrite Hm. cbn [str_eqb lit].
  change (str_eqb (lit "xml") (lit "text")) with false. change (str_eqb (lit "xml") (lit "html")) with false. change (str_eqb (lit "xml") (lit "xml")) with true. cbn iota.
  rewrite HD. cbn [op_start]. unfold xml_start. cbv zeta. fold (encoding_of (lit "UTF-8") ps).
  assert (dflt (o_version ps) (lit "1.0") = lit "1.0") as -> by (destruct (o_version ps) as [v|]; [apply HV; reflexivity|reflexivity]).
  assert (dflt (o_canonical ps) false = false) as -> by (destruct (o_canonical ps) as [v|]; [apply HC; reflexivity|reflexivity]).
  assert (dflt (o_indent ps) false = false) as -> by (destruct (o_indent ps) as [v|]; [apply HI; reflexivity|reflexivity]).
  change (dflt (o_encoding ps) (lit "UTF-8")) with (encoding_of (lit "UTF-8") ps).
  unfold ascii_only at 1. rewrite HE. cbn [snd]. unfold xml_open. rewrite Hcd, HS. unfold write, writer_start. cbn [canon_of orb negb].
  change (ascii_only (lit "1.0")) with true. cbn iota.
  assert (HX : forall p, xml_declaration (encoding_of (lit "UTF-8") ps) (lit "1.0") None p = start_document false (encoding_of (lit "UTF-8") ps) (lit "1.0") p).
  { intro p. unfold xml_declaration, start_document. destruct (p_ascii p _) as [p1|e]; reflexivity. }
  rewrite HX. destruct (dflt (o_omit ps) false).
  - cbn [bind]. rewrite xml_calls. cbn [set_all o_public o_system]. fold namespaces0. fold (writer0 (printer_new (xmlstream_new cd)) true). destruct (run _ _ _ _ _ _ _ _) as [w|e]; reflexivity.
  - destruct (start_document _ _ _ _) as [p|e]; [|reflexivity]. cbn [bind]. rewrite xml_calls. cbn [set_all o_public o_system]. fold namespaces0. fold (writer0 p true). destruct (run _ _ _ _ _ _ _ _) as [w|e]; reflexivity.
Qed.
End Xml.
