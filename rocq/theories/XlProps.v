(** * C67: elements and attributes made by a stylesheet; C68: their namespaces *)
From Coq Require Import NArith ZArith String List Bool Lia Arith Permutation Sorted.
From Verif Require Import PyStr PyErr XsModel SerModel SerSpec SerStream SerPrint SerVisit SerRead SerTree SerNs SerTop SerDocs SerCodec SerProps XwModel XwSpec XwProofs XwTree XwProps XcModel XcSpec XcProps XlModel XlSpec XlProofs.
Import ListNotations.
Open Scope N_scope.

(** ** C67 *)
(** C67: what literal result elements, xsl:element, xsl:attribute and attribute
    sets are to give is what they write: instantiating the content of a template
    ends, and the output reads back as the trees it is to give. *)
Theorem C67_constructed_partial : forall env (global : env) sets e body kids cd dec st public system ordn orda encoding omit,
  NoDup (map s_name sets) -> gives_all env global sets e body [] kids ->
  st <> Pretty -> (st = Canon \/ omit = true) -> truthy system = false -> sound_codec cd -> decodes cd dec -> any_dict_order ordn orda ->
  Forall (proper (canon_of st)) kids -> encodable cd kids ->
  exists cs bs t l xs,
    (exists f0, forall f, (f0 <= f)%nat -> inst_all global sets f e body = Ok cs) /\
    write true st public system ordn orda encoding omit (xmlstream_new cd) cs = Ok bs /\
    dec bs = Some t /\ read_content t = Some l /\ resolve_all scope0 l = Some xs /\
    Forall2 same_tree xs (fold_right meant [] kids) /\
    Forall2 (bindings_kept scope0) (elements l) (filter welement kids).
Proof.
  intros env global sets e body kids cd dec st public system ordn orda encoding omit HN HG Hst Ho Hsys Hcd Hd HO HP HE.
  destruct (inst_mut env global sets HN) as (_ & HA & _). destruct (HA _ _ _ _ HG) as [f0 F].
  destruct (C64_written cd dec st public system ordn orda encoding omit kids Hst Ho Hsys Hcd Hd HO HP HE) as (bs & t & l & xs & H).
  exists (flat_map calls kids), bs, t, l, xs. split; [exists f0; exact F|exact H].
Qed.
Print Assumptions C67_constructed_partial.

(** Of attributes of the same name the last counts: those of the content of the
    element, then the others; between the literal attributes and those of the
    sets there is no order to see if their names are different. *)
Lemma last_wins_split : forall l1 l2, last_wins (l1 ++ l2) = filter (fun a => negb (existsb (fun b => ename_eqb (ename a) (ename b)) l2)) (last_wins l1) ++ last_wins l2.
Proof.
  induction l1 as [|a l1 IH]; intro l2; [reflexivity|]. cbn [app last_wins]. rewrite existsb_app, IH.
  destruct (existsb (fun b => ename_eqb (ename a) (ename b)) l1); cbn [orb]; [reflexivity|]. cbn [filter].
  destruct (existsb (fun b => ename_eqb (ename a) (ename b)) l2); reflexivity.
Qed.
Lemma last_wins_In : forall l a, In a (last_wins l) -> In a l.
Proof.
  induction l as [|x l IH]; intros a H; [exact H|]. cbn [last_wins] in H. destruct (existsb _ l); [right; auto|]. destruct H as [<-|H]; [now left|right; auto].
Qed.
Theorem C67_attribute_order : forall lits satts batts : list watt,
  (forall a b, In a lits -> In b satts -> ename a <> ename b) ->
  Permutation (last_wins (lits ++ satts ++ batts)) (last_wins (satts ++ lits ++ batts)) /\
  (forall a, In a (last_wins (lits ++ satts ++ batts)) -> forall b, In b batts -> ename b = ename a -> In a batts).
Proof.
  intros lits satts batts H. split.
  - rewrite !last_wins_split.
    assert (E : forall l1 l2 l3 : list watt, (forall a b, In a l1 -> In b l2 -> ename a <> ename b) ->
      filter (fun a => negb (existsb (fun b => ename_eqb (ename a) (ename b)) (l2 ++ l3))) (last_wins l1) = filter (fun a => negb (existsb (fun b => ename_eqb (ename a) (ename b)) l3)) (last_wins l1)).
    { intros l1 l2 l3 HD. apply filter_ext_in. intros a Ha. rewrite existsb_app. replace (existsb (fun b => ename_eqb (ename a) (ename b)) l2) with false; [reflexivity|].
      symmetry. apply not_true_is_false. intro HX. apply existsb_exists in HX as (b & Hb & Eb). apply ename_eqb_eq in Eb. exact (HD a b (last_wins_In _ _ Ha) Hb Eb). }
    rewrite (E lits satts batts H), (E satts lits batts (fun a b Ha Hb Eb => H b a Hb Ha (eq_sym Eb))). rewrite !app_assoc. apply Permutation_app_tail, Permutation_app_comm.
  - intros a Ha b Hb Eb. rewrite app_assoc, last_wins_split in Ha. apply in_app_or in Ha as [Ha|Ha]; [|now apply last_wins_In].
    apply filter_In in Ha as [_ Ha]. exfalso. apply negb_true_iff in Ha. assert (existsb (fun b0 => ename_eqb (ename a) (ename b0)) batts = true); [|congruence].
    apply existsb_exists. exists b. split; [exact Hb|]. now apply ename_eqb_eq.
Qed.
Print Assumptions C67_attribute_order.

(** C67: errors.  An undefined attribute set, an undeclared prefix, an attribute
    called xmlns and elements, attributes or comments inside xsl:attribute are
    refused. *)
Theorem C67_refused : forall env (global : env) sets f e,
  (forall q ns nss attrs n uses body a, literal_attrs e attrs = Ok a -> (forall d, In d sets -> s_name d <> n) ->
     inst global sets (S (S f)) e (Literal q ns nss attrs (n :: uses) body) = Err UndefinedSet) /\
  (forall nm nsmap uses body p l, nm e = Ok (p, l) -> wget nsmap p = None -> inst global sets (S f) e (Element nm None nsmap uses body) = Err UndefinedPrefixErr) /\
  (forall nm nsmap body p l, nm e = Ok (Some p, l) -> p <> [] -> wget nsmap (Some p) = None -> inst global sets (S f) e (AttributeI nm None nsmap body) = Err UndefinedPrefixErr) /\
  (forall nm nsa nsmap body, nm e = Ok (None, lit "xmlns") -> inst global sets (S f) e (AttributeI nm nsa nsmap body) = Err BadAttributeName) /\
  (forall nm nsmap body l c1 c c2, nm e = Ok (None, l) -> l <> lit "xmlns" -> inst_all global sets f e body = Ok (c1 ++ c :: c2) ->
     Forall (fun x => match x with Text _ => True | _ => False end) c1 -> match c with Text _ | PI _ _ => False | _ => True end ->
     inst global sets (S f) e (AttributeI nm None nsmap body) = Err NonTextInAttribute).
Proof.
  intros env global sets f e. split; [|split; [|split; [|split]]].
  - intros q ns nss attrs n uses body a Ha Hn. cbn [inst]. rewrite Ha. cbn [bind map concat_results].
    replace (find_set sets n) with (@None (set_def env)); [reflexivity|]. symmetry. clear - Hn. induction sets as [|d l IH]; [reflexivity|]. cbn [find_set]. rewrite IH by (intros; apply Hn; now right).
    destruct (wkey_eqb_spec (s_name d) n) as [E|]; [|reflexivity]. exfalso. apply (Hn d); [now left|exact E].
  - intros nm nsmap uses body p l Hn Hw. cbn [inst]. rewrite Hn. cbn [bind fst]. unfold element_namespace. rewrite Hw. reflexivity.
  - intros nm nsmap body p l Hn Hp Hw. cbn [inst]. rewrite Hn. cbn [bind fst snd]. destruct p as [|c p]; [contradiction|]. unfold attribute_namespace. rewrite Hw. reflexivity.
  - intros nm nsa nsmap body Hn. cbn [inst]. rewrite Hn. reflexivity.
  - intros nm nsmap body l c1 c c2 Hn Hl HB H1 Hc. cbn [inst]. rewrite Hn. cbn [bind fst snd]. destruct (str_eqb_spec l (lit "xmlns")); [contradiction|]. cbn [attribute_namespace bind].
    unfold inst_all in HB. rewrite HB. cbn [bind].
    assert (E : text_of (c1 ++ c :: c2) = Err NonTextInAttribute); [|now rewrite E].
    clear HB. induction H1 as [|x c1 Hx _ IH]; [destruct c; try contradiction; reflexivity|]. destruct x; try contradiction. cbn [app text_of]. rewrite IH. reflexivity.
Qed.
Print Assumptions C67_refused.

(** ** A case of C67 *)
Notation un := bool (only parsing).  (* environments: [false] is the global one *)
Definition const {A : Type} (x : A) : un -> result A := fun _ => Ok x.
Definition tx (s : string) : instr un := Leaf (fun _ => Ok [Text (lit s)]).
Definition xattr (n v : string) : instr un := AttributeI (const (@None str, lit n)) None [] [tx v].
Definition set1 : set_def un := {| s_name := (None, lit "s"); s_uses := [(None, lit "base")];
  s_body := [AttributeI (const (@None str, lit "who")) None [] [Leaf (fun b : un => Ok [Text (if b then lit "local" else lit "global")])]] |}.
Definition set0 : set_def un := {| s_name := (None, lit "base"); s_uses := []; s_body := [xattr "who" "base"; xattr "k" "1"] |}.
Definition body1 : list (instr un) :=
  [Literal (lit "p:a") (Some (lit "urn:p")) [(Some (lit "p"), Some (lit "urn:p"))] [((lit "id", None), const (lit "7"))] [(None, lit "s")]
     [AttributeI (const (Some (lit "q"), lit "x")) (Some (const (lit "urn:q"))) [] [tx "u"; tx "v"];
      Element (const (Some (lit "p"), lit "b")) None [(Some (lit "p"), Some (lit "urn:p"))] [] [xattr "k" "2"; tx "t"]]].
Definition wa (p : option str) (l : string) (ns : option str) (v : string) : watt := {| t_prefix := p; t_local := lit l; t_ns := ns; t_value := lit v |}.
Definition kids1 : list wnode :=
  [WElem (Some (lit "p")) (lit "a") (Some (lit "urn:p")) [(Some (lit "p"), Some (lit "urn:p"))] []
     [wa None "id" None "7"; wa None "who" None "base"; wa None "k" None "1"; wa None "who" None "global"; wa (Some (lit "q")) "x" (Some (lit "urn:q")) "uv"]
     [WElem (Some (lit "p")) (lit "b") (Some (lit "urn:p")) [] [] [wa None "k" None "2"] [WText (lit "t")]]].
Lemma gives_text : forall gl sets (e : un) s, gives un gl sets e (tx s) [] [WText (lit s)].
Proof. intros. apply g_leaf. reflexivity. Qed.
Lemma gives_xattr : forall gl sets (e : un) n v, lit n <> lit "xmlns" -> gives un gl sets e (xattr n v) [wa None n None v] [].
Proof.
  intros gl sets e n v Hn. unfold wa. assert (E : lit v = text_value [WText (lit v)]) by (cbn; now rewrite app_nil_r). rewrite E. eapply g_attribute; [reflexivity|discriminate|auto|reflexivity| |reflexivity].
  change (@nil watt) with (@nil watt ++ []). change [WText (lit v)] with ([WText (lit v)] ++ []). eapply ga_cons; [apply gives_text|apply ga_nil|now right].
Qed.
Example C67_case : gives_all un false [set0; set1] true body1 [] kids1 /\ NoDup (map s_name [set0; set1]) /\ Forall (proper false) kids1 /\
  (exists cs, inst_all false [set0; set1] 6 true body1 = Ok cs /\ to_bytes Plain cs =
     Ok (lit "<p:a xmlns:p=""urn:p"" xmlns:q=""urn:q"" id=""7"" who=""global"" k=""1"" q:x=""uv""><p:b k=""2"">t</p:b></p:a>")).
Proof.
  split; [|split; [|split]].
  - unfold body1, kids1. change (@nil watt) with (@nil watt ++ []) at 1.
    match goal with |- gives_all _ _ _ _ [?i] ([] ++ []) [?k] => change [k] with ([k] ++ []) end.
    eapply ga_cons; [|apply ga_nil|now right].
    apply (g_literal un false [set0; set1] true (Some (lit "p")) (lit "a") (Some (lit "urn:p")) _ _ [wa None "id" None "7"] _ [wa None "who" None "base"; wa None "k" None "1"; wa None "who" None "global"] _ [wa (Some (lit "q")) "x" (Some (lit "urn:q")) "uv"]).
    + constructor; [|constructor]. exists (lit "7"). repeat split.
    + change [wa None "who" None "base"; wa None "k" None "1"; wa None "who" None "global"] with ([wa None "who" None "base"; wa None "k" None "1"; wa None "who" None "global"] ++ []).
      apply sg_cons; [vm_compute; discriminate| |apply sg_nil].
      replace (defs_of un [set0; set1] (None, lit "s")) with [set1] by (vm_compute; reflexivity).
      change ([wa None "who" None "base"; wa None "k" None "1"; wa None "who" None "global"]) with (([wa None "who" None "base"; wa None "k" None "1"] ++ [wa None "who" None "global"]) ++ []).
      apply dg_cons; [| |apply dg_nil].
      * cbn [s_uses set1]. change [wa None "who" None "base"; wa None "k" None "1"] with ([wa None "who" None "base"; wa None "k" None "1"] ++ []).
        apply sg_cons; [vm_compute; discriminate| |apply sg_nil].
        replace (defs_of un [set0; set1] (None, lit "base")) with [set0] by (vm_compute; reflexivity).
        change [wa None "who" None "base"; wa None "k" None "1"] with (([] ++ [wa None "who" None "base"; wa None "k" None "1"]) ++ []).
        apply dg_cons; [apply sg_nil| |apply dg_nil]. cbn [s_body set0].
        change [wa None "who" None "base"; wa None "k" None "1"] with ([wa None "who" None "base"] ++ [wa None "k" None "1"]). change (@nil wnode) with (@nil wnode ++ []).
        eapply ga_cons; [apply gives_xattr; vm_compute; discriminate| |now left].
        change [wa None "k" None "1"] with ([wa None "k" None "1"] ++ []). change (@nil wnode) with (@nil wnode ++ []).
        eapply ga_cons; [apply gives_xattr; vm_compute; discriminate|apply ga_nil|now left].
      * cbn [s_body set1]. change [wa None "who" None "global"] with ([wa None "who" None "global"] ++ []). change (@nil wnode) with (@nil wnode ++ []).
        eapply ga_cons; [|apply ga_nil|now left].
        change (wa None "who" None "global") with {| t_prefix := None; t_local := lit "who"; t_ns := None; t_value := text_value [WText (lit "global")] |}.
        eapply g_attribute; [reflexivity|discriminate|intros _; vm_compute; discriminate|reflexivity| |reflexivity].
        change (@nil watt) with (@nil watt ++ []). change [WText (lit "global")] with ([WText (lit "global")] ++ []). eapply ga_cons; [apply g_leaf; reflexivity|apply ga_nil|now right].
    + change [wa (Some (lit "q")) "x" (Some (lit "urn:q")) "uv"] with ([wa (Some (lit "q")) "x" (Some (lit "urn:q")) "uv"] ++ []).
      match goal with |- gives_all _ _ _ _ _ _ ?k => change k with ([] ++ k) end.
      eapply ga_cons; [| |now left].
      * change (wa (Some (lit "q")) "x" (Some (lit "urn:q")) "uv") with {| t_prefix := Some (lit "q"); t_local := lit "x"; t_ns := Some (lit "urn:q"); t_value := text_value [WText (lit "u"); WText (lit "v")] |}.
        eapply g_attribute; [reflexivity|discriminate|discriminate|exists (lit "urn:q"); split; reflexivity| |reflexivity].
        change (@nil watt) with (@nil watt ++ []). change [WText (lit "u"); WText (lit "v")] with ([WText (lit "u")] ++ [WText (lit "v")]). eapply ga_cons; [apply gives_text| |now right].
        change (@nil watt) with (@nil watt ++ []). change [WText (lit "v")] with ([WText (lit "v")] ++ []). eapply ga_cons; [apply gives_text|apply ga_nil|now right].
      * change (@nil watt) with (@nil watt ++ []). match goal with |- gives_all _ _ _ _ _ _ [?k] => change [k] with ([k] ++ []) end.
        eapply ga_cons; [|apply ga_nil|now right].
        apply (g_element un false [set0; set1] true _ None _ [] _ (Some (lit "p")) (lit "b") (Some (lit "urn:p")) [] [wa None "k" None "2"]); [reflexivity|discriminate|reflexivity|apply sg_nil|].
        change [wa None "k" None "2"] with ([wa None "k" None "2"] ++ []). change [WText (lit "t")] with ([] ++ [WText (lit "t")]).
        eapply ga_cons; [apply gives_xattr; vm_compute; discriminate| |now left].
        change (@nil watt) with (@nil watt ++ []). change [WText (lit "t")] with ([WText (lit "t")] ++ []). eapply ga_cons; [apply gives_text|apply ga_nil|now right].
  - repeat constructor; cbn; intuition discriminate.
  - unfold kids1, wa. constructor; [|constructor]. easy_proper.
  - eexists. split; [vm_compute; reflexivity|]. vm_compute; reflexivity.
Qed.

(** ** Where C67 fails *)
(** An attribute of the literal element is to replace one of the same name from a
    set it uses (XSLT 1.0, 7.1.4); it is the one of the set that is written. *)
Definition set_x : set_def un := {| s_name := (None, lit "s"); s_uses := []; s_body := [xattr "x" "set"] |}.
Theorem C67_literal_attribute_refuted : exists cs,
  inst_all false [set_x] 5 true [Literal (lit "a") None [] [((lit "x", None), const (lit "literal"))] [(None, lit "s")] []] = Ok cs /\
  to_bytes Plain cs = Ok (lit "<a x=""set""/>").
Proof. eexists. split; [vm_compute; reflexivity|]. vm_compute; reflexivity. Qed.
Print Assumptions C67_literal_attribute_refuted.
(** Definitions of the same name are to be merged; all but the last are lost. *)
Theorem C67_merged_refuted :
  gives_all un false [set_x; {| s_name := (None, lit "s"); s_uses := []; s_body := [xattr "y" "2"] |}] true [Literal (lit "a") None [] [] [(None, lit "s")] []] []
    [WElem None (lit "a") None [] [] [wa None "x" None "set"; wa None "y" None "2"] []] /\
  exists cs, inst_all false [set_x; {| s_name := (None, lit "s"); s_uses := []; s_body := [xattr "y" "2"] |}] 5 true [Literal (lit "a") None [] [] [(None, lit "s")] []] = Ok cs /\
  to_bytes Plain cs = Ok (lit "<a y=""2""/>").
Proof.
  split; [|eexists; split; [vm_compute; reflexivity|]; vm_compute; reflexivity].
  change (@nil watt) with (@nil watt ++ []) at 1. match goal with |- gives_all _ _ _ _ _ _ [?k] => change [k] with ([k] ++ []) end.
  eapply ga_cons; [|apply ga_nil|now right].
  apply (g_literal un _ _ true None (lit "a") None [] [] [] _ [wa None "x" None "set"; wa None "y" None "2"] [] []); [constructor| |apply ga_nil].
  change [wa None "x" None "set"; wa None "y" None "2"] with ((([] ++ [wa None "x" None "set"]) ++ (([] ++ [wa None "y" None "2"]) ++ [])) ++ []).
  apply sg_cons; [vm_compute; discriminate| |apply sg_nil].
  match goal with |- defs_give _ _ _ (defs_of _ ?l _) _ => change (defs_of un l (None, lit "s")) with l end.
  assert (E : forall gl sets n v, lit n <> lit "xmlns" -> gives_all un gl sets gl [xattr n v] [wa None n None v] []).
  { intros gl sets n v Hn. change [wa None n None v] with ([wa None n None v] ++ []). change (@nil wnode) with (@nil wnode ++ []). eapply ga_cons; [now apply gives_xattr|apply ga_nil|now left]. }
  apply dg_cons; [apply sg_nil|apply E; vm_compute; discriminate|].
  apply dg_cons; [apply sg_nil|apply E; vm_compute; discriminate|apply dg_nil].
Qed.
Print Assumptions C67_merged_refuted.
(** Circular use of attribute sets is not noticed: it never ends. *)
Definition set_a : set_def un := {| s_name := (None, lit "a"); s_uses := [(None, lit "b")]; s_body := [] |}.
Definition set_b : set_def un := {| s_name := (None, lit "b"); s_uses := [(None, lit "a")]; s_body := [] |}.
Theorem C67_circular_refuted : forall f, inst_all false [set_a; set_b] f true [Literal (lit "e") None [] [] [(None, lit "a")] []] = Err TooDeep.
Proof.
  assert (H : forall f m, use_sets false [set_a; set_b] f m [(None, lit "a")] = Err TooDeep /\ use_sets false [set_a; set_b] f m [(None, lit "b")] = Err TooDeep).
  { induction f as [|f IH]; intro m; [split; reflexivity|]. rewrite !use_sets_S. cbn [map].
    replace (find_set [set_a; set_b] (None, lit "a")) with (Some set_a) by (vm_compute; reflexivity).
    replace (find_set [set_a; set_b] (None, lit "b")) with (Some set_b) by (vm_compute; reflexivity).
    unfold set_result. change (s_uses set_a) with [(@None str, lit "b")]. change (s_uses set_b) with [(@None str, lit "a")]. rewrite (proj1 (IH NameError)), (proj2 (IH NameError)). split; reflexivity. }
  intros [|f]; [reflexivity|]. unfold inst_all. cbn [map]. 
  assert (E : inst false [set_a; set_b] (S f) true (Literal (lit "e") None [] [] [(None, lit "a")] []) = Err TooDeep).
  { transitivity (do a <- literal_attrs true [] ; do s <- use_sets false [set_a; set_b] f UndefinedSet [(None, lit "a")] ; do b <- concat_results [] ; Ok (StartElement (lit "e") None [] [] :: a ++ s ++ b ++ [EndElement (lit "e")])); [reflexivity|].
    rewrite (proj1 (H f _)). reflexivity. }
  rewrite E. reflexivity.
Qed.
Print Assumptions C67_circular_refuted.
(** An unknown set used by a set is not reported as such. *)
Theorem C67_unknown_nested_refuted :
  inst_all false [set_a] 5 true [Literal (lit "e") None [] [] [(None, lit "a")] []] = Err NameError.
Proof. vm_compute; reflexivity. Qed.
Print Assumptions C67_unknown_nested_refuted.
(** A processing instruction inside xsl:attribute is dropped without an error. *)
Theorem C67_pi_refuted : exists cs,
  inst_all false [] 5 true [Literal (lit "e") None [] [] [] [AttributeI (const (@None str, lit "x")) None [] [tx "u"; Leaf (fun _ => Ok [PI (lit "t") (lit "d")])]]] = Ok cs /\
  to_bytes Plain cs = Ok (lit "<e x=""u""/>").
Proof. eexists. split; [vm_compute; reflexivity|]. vm_compute; reflexivity. Qed.
Print Assumptions C67_pi_refuted.
(** [<xsl:element name="p:e" namespace=""/>] writes a document that is not
    namespace-well-formed. *)
Theorem C67_empty_namespace_refuted : exists cs,
  inst_all false [] 5 true [Element (const (Some (lit "p"), lit "e")) (Some (const (@nil N))) [] [] []] = Ok cs /\
  to_bytes Plain cs = Ok (lit "<p:e xmlns:p=""""/>").
Proof. eexists. split; [vm_compute; reflexivity|]. vm_compute; reflexivity. Qed.
Print Assumptions C67_empty_namespace_refuted.
