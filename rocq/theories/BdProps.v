(** * C66: the bindery gives the XML names of a document as Python attributes *)
From Coq Require Import NArith ZArith String List Bool Lia Arith.
From Verif Require Import PyStr PyErr BdModel BdSpec BdProofs.
Import ListNotations.
Open Scope N_scope.

(** ** Lemmas on positions *)
Lemma positions_shift : forall nm l j, positions nm l (S j) = map S (positions nm l j).
Proof. induction l as [|k l IH]; intro j; [reflexivity|]. cbn [positions]. destruct (is_named nm k); cbn [map]; now rewrite IH. Qed.
Lemma positions_remove0 : forall nm l i rest, positions nm l 0 = i :: rest -> positions nm (remove_nth i l) 0 = map pred rest.
Proof.
  induction l as [|k l IH]; intros i rest H; [discriminate|]. cbn [positions] in H. destruct (is_named nm k) eqn:E.
  - injection H as <- <-. cbn [remove_nth]. rewrite positions_shift, map_map, map_id. reflexivity.
  - rewrite positions_shift in H. destruct (positions nm l 0) as [|i0 rest0] eqn:P; [discriminate|]. cbn [map] in H. injection H as <- <-.
    cbn [remove_nth positions]. rewrite E, positions_shift, (IH i0 rest0 eq_refl). rewrite !map_map. apply map_ext_in. intros x Hx.
    assert (0 < x)%nat; [|cbn; lia].
    clear - P Hx. rewrite positions_eq in P.
    assert (NoDup (i0 :: rest0)) as ND by (rewrite <- P; unfold positions_of; apply NoDup_filter, seq_NoDup).
    assert (HS : forall l a b, positions nm l 0 = a :: b -> forall x, In x b -> (a < x)%nat).
    { clear. induction l as [|k l IH]; intros a b H x Hx; [discriminate|]. cbn [positions] in H. rewrite positions_shift in H. destruct (is_named nm k).
      - injection H as <- <-. apply in_map_iff in Hx as (y & <- & _). lia.
      - destruct (positions nm l 0) as [|a0 b0] eqn:P; [discriminate|]. injection H as <- <-. apply in_map_iff in Hx as (y & <- & Hy). pose proof (IH _ _ eq_refl y Hy). lia. }
    rewrite <- positions_eq in P. pose proof (HS _ _ _ P x Hx). lia.
Qed.
Lemma positions_app : forall nm k e j, positions nm (k ++ [e]) j = positions nm k j ++ (if is_named nm e then [(j + List.length k)%nat] else []).
Proof.
  induction k as [|x k IH]; intros e j; cbn [app positions List.length].
  - rewrite Nat.add_0_r. now destruct (is_named nm e).
  - rewrite IH. replace (S j + List.length k)%nat with (j + S (List.length k))%nat by lia. now destruct (is_named nm x).
Qed.
Lemma remove_nth_spec : forall l i, remove_nth i l = firstn i l ++ skipn (S i) l.
Proof. induction l as [|y l IH]; intros [|i]; cbn; auto. now rewrite IH. Qed.

(** ** Python names *)
Lemma id_char_spec : forall c, id_char c = letter c || digit c.
Proof. intro c. unfold id_char, letter, digit. destruct ((97 <=? c) && (c <=? 122)), ((65 <=? c) && (c <=? 90)), ((48 <=? c) && (c <=? 57)), (c =? 95); reflexivity. Qed.
Lemma replace_ids : forall local, Forall (fun c => letter c || digit c = true) (replace_pat local).
Proof.
  induction local as [|c l IH]; [constructor|]. cbn [replace_pat flat_map]. apply Forall_app. split; [|exact IH].
  destruct (id_char c) eqn:E; [constructor; [now rewrite <- id_char_spec|constructor]|]. apply Forall_forall. intros x Hx. apply repeat_spec in Hx. now subst.
Qed.
Lemma underscores_ids : forall k, Forall (fun c => letter c || digit c = true) (repeat 95 k).
Proof. intro k. apply Forall_forall. intros x Hx. apply repeat_spec in Hx. now subst. Qed.

(** C66: the Python name of every XML name is found, is an identifier, is none
    of the reserved names and none of those the user excluded; a local name that
    is itself such an identifier is kept as it is. *)
Theorem C66_python_name : forall exclude local,
  exists p, pname exclude local = Ok p /\ ~ In p (reserved_names ++ exclude) /\
    (plain_start local -> identifier p) /\
    (identifier local -> ~ In local (reserved_names ++ exclude) -> p = local).
Proof.
  intros exclude local. destruct (py_spec exclude local) as (k & A & B & C). exists (py exclude local). split; [exact B|]. split; [exact C|]. split.
  - intro HS. rewrite A. destruct local as [|c l]; [contradiction|]. cbn in HS. cbn [replace_pat flat_map].
    pose proof (replace_ids l) as R. fold (replace_pat l). destruct (id_char c) eqn:E.
    + cbn [app identifier]. split; [rewrite id_char_spec, HS, orb_false_r in E; exact E|]. apply Forall_app. split; [exact R|apply underscores_ids].
    + assert (U : exists m, utf8_length c = S m) by (unfold utf8_length; destruct (c <? 128); [eauto|]; destruct (c <? 2048); [eauto|]; destruct (c <? 65536); eauto).
      destruct U as [m ->]. cbn [repeat app identifier]. split; [reflexivity|]. rewrite !Forall_app. split; [split; [apply underscores_ids|exact R]|apply underscores_ids].
  - intros HI HN. assert (R : replace_pat local = local).
    { assert (HF : Forall (fun c => letter c || digit c = true) local).
      { destruct local as [|c l]; [constructor|]. destruct HI as [H1 H2]. constructor; [now rewrite H1|exact H2]. }
      clear - HF. induction HF as [|c l Hc _ IH]; [reflexivity|]. cbn [replace_pat flat_map]. rewrite id_char_spec, Hc. cbn [app]. f_equal. exact IH. }
    unfold py, pname. rewrite R. destruct (List.length (reserved_names ++ exclude)); cbn [add_underscores];
      (destruct (str_mem local (reserved_names ++ exclude)) eqn:E; [apply str_mem_In in E; contradiction|reflexivity]).
Qed.
Print Assumptions C66_python_name.
Example C66_case_python_name :
  map (py [lit "spam"]) [lit "a-b"; lit "class"; lit "spam"; 233 :: lit "t"; lit "title"]
  = [lit "a_b"; lit "class_"; lit "spam_"; lit "__t"; lit "title"].
Proof. vm_compute. reflexivity. Qed.

(** ** Reading *)
(** C66: whatever program ran, what a Python name gives on a node of the
    document is what an XML name with that Python name stands for; and if the
    names used in the elements of that name have different Python names, every
    child element and every attribute of the node is found under its own. *)
Theorem C66_access_partial : forall exclude doc prog r doc' path obj c,
  session exclude doc prog = Ok (r, doc') -> at_path path doc' = Some obj -> class_of obj = Some c ->
  (forall p v, get_named r obj p = Ok v -> exists d, In (c, d) (session_uses exclude doc prog) /\ p = py exclude (snd (descr_name d)) /\ meaning obj d v) /\
  (clash_free exclude c (session_uses exclude doc prog) ->
   (forall k nm, In k (kids_of obj) -> elem_name k = Some nm -> ~ library_name (py exclude (snd nm)) ->
      exists i, get_named r obj (py exclude (snd nm)) = Ok (VChild i) /\ nth_error (positions_of nm (kids_of obj)) 0 = Some i) /\
   (forall f m pr atts kids nm s, obj = BElem f m pr atts kids -> In (nm, s) atts -> ~ library_name (py exclude (snd nm)) ->
      exists s', get_named r obj (py exclude (snd nm)) = Ok (VString s') /\ In (nm, s') atts)).
Proof.
  intros exclude doc prog r doc' path obj c HS HP Hc. pose proof (at_path_good _ _ _ _ _ _ (session_good _ _ _ _ _ HS) HP) as G. split.
  - intros p v H. destruct (get_sound _ _ _ _ _ _ _ Hc G H) as (d & _ & A & B & C). exists d. auto.
  - intro HF. split.
    + intros k nm Hk Hn Hl.
      assert (HD : In (c, DElem nm) (own_uses obj ++ flat_map (child_use c) (kids_of obj))).
      { apply in_or_app. right. apply in_flat_map. exists k. split; [exact Hk|]. unfold child_use. rewrite Hn. now left. }
      pose proof (present_readable exclude _ _ _ _ _ Hc G HF HD (fun H => Hl (class_keys_library _ H))) as L.
      destruct (read_of_lookup exclude r obj c (DElem nm) Hc L Logic.I) as (v & A & B). cbn [meaning] in B.
      destruct (positions_of nm (kids_of obj)) as [|i rest] eqn:P.
      * exfalso. apply In_nth_error in Hk as [i Hi]. assert (In i []) as []. rewrite <- P. apply positions_In. exists k. auto.
      * subst v. exists i. auto.
    + intros f m pr atts kids nm s E HI Hl. subst obj. injection Hc as <-.
      assert (HD : In (CElem f m, DAttr nm) (own_uses (BElem f m pr atts kids) ++ flat_map (child_use (CElem f m)) kids)).
      { apply in_or_app. left. cbn [own_uses]. apply in_map_iff. exists (nm, s). auto. }
      pose proof (present_readable exclude _ _ (BElem f m pr atts kids) _ _ eq_refl G HF HD (fun H => Hl (class_keys_library _ H))) as L.
      destruct (read_of_lookup exclude r (BElem f m pr atts kids) (CElem f m) (DAttr nm) eq_refl L ltac:(discriminate)) as (v & A & B). cbn [meaning] in B.
      destruct v as [i|s'|]; [contradiction| |].
      * exists s'. auto.
      * exfalso. apply B. apply in_map_iff. exists (nm, s). auto.
Qed.
Print Assumptions C66_access_partial.

(** C66: iterating over a child gives the children of its name, in order; so do
    its length and its indexing if it has no prefix (from the end for a negative
    index). *)
Theorem C66_siblings_partial : forall siblings j f nm pr atts kids,
  nth_error siblings j = Some (BElem f nm pr atts kids) ->
  iterate siblings (BElem f nm pr atts kids) = positions_of nm siblings /\
  (pr = None ->
   len siblings (BElem f nm pr atts kids) = List.length (positions_of nm siblings) /\ (0 < len siblings (BElem f nm pr atts kids))%nat /\
   forall k i, getitem_int siblings (BElem f nm pr atts kids) k = Ok i <->
     exists m, nth_error (positions_of nm siblings) m = Some i /\
       (k = Z.of_nat m \/ (k < 0)%Z /\ (k + Z.of_nat (List.length (positions_of nm siblings)))%Z = Z.of_nat m)).
Proof.
  intros siblings j f [ns local] pr atts kids H. split; [apply positions_eq|]. intros ->. unfold len, getitem_int, by_qname, qname_of.
  rewrite positions_eq. split; [reflexivity|]. split.
  - assert (HI : In j (positions_of (ns, local) siblings)) by (apply positions_In; eexists; split; [exact H|reflexivity]).
    destruct (positions_of (ns, local) siblings); [contradiction|cbn; lia].
  - intros k i. unfold py_index. set (l := positions_of (ns, local) siblings). destruct (Z.ltb_spec k 0) as [Hk|Hk].
    + destruct (Z.ltb_spec (k + Z.of_nat (List.length l)) 0) as [Hk'|Hk'].
      * split; [discriminate|]. intros (m & _ & [E|[_ E]]); lia.
      * split.
        -- intro E. exists (Z.to_nat (k + Z.of_nat (List.length l))). destruct (nth_error l _) as [x|]; [|discriminate]. injection E as ->. split; [reflexivity|]. right. lia.
        -- intros (m & E & [Hm|[_ Hm]]); [lia|]. rewrite Hm, Nat2Z.id, E. reflexivity.
    + destruct (Z.ltb_spec k 0) as [Hk'|_]; [lia|]. split.
      * intro E. exists (Z.to_nat k). destruct (nth_error l _) as [x|]; [|discriminate]. injection E as ->. split; [reflexivity|]. left. lia.
      * intros (m & E & [Hm|[Hm _]]); [|lia]. rewrite Hm, Nat2Z.id, E. reflexivity.
Qed.
Print Assumptions C66_siblings_partial.

(** ** Changing *)
(** A name known in the class is bound to its own descriptor. *)
Lemma known : forall exclude u r obj c d v, class_of obj = Some c -> good exclude u r obj -> clash_free exclude c u -> In (c, d) u ->
  get_named r obj (py exclude (snd (descr_name d))) = Ok v -> lookup r c (py exclude (snd (descr_name d))) = Some d /\ meaning obj d v.
Proof.
  intros exclude u r obj c d v Hc G HF Hd H. destruct (get_sound _ _ _ _ _ _ _ Hc G H) as (d' & L & A & B & C).
  assert (d = d') as <- by (apply HF; assumption). auto.
Qed.
Lemma container : forall obj c, class_of obj = Some c -> is_container obj = true.
Proof. intros [] c H; try discriminate; reflexivity. Qed.

(** C66: assigning text to the Python name of a child element replaces the
    content of the first child of that name and nothing else in the document; if
    there is none, a new child with that text is added at the end.  The name then
    gives that child. *)
Theorem C66_set_element_partial : forall exclude doc prog r doc' path obj c nm s v,
  session exclude doc prog = Ok (r, doc') -> at_path path doc' = Some obj -> class_of obj = Some c ->
  clash_free exclude c (session_uses exclude doc prog) -> In (c, DElem nm) (session_uses exclude doc prog) ->
  get_named r obj (py exclude (snd nm)) = Ok v ->
  (forall i k, v = VChild i -> nth_error (kids_of obj) i = Some k ->
     let obj' := with_kids obj (set_nth i (with_kids k [BText s]) (kids_of obj)) in
     step exclude path (SetNamed (py exclude (snd nm)) (Str s)) r doc' = (r, replace_at path obj' doc', None) /\
     get_named r obj' (py exclude (snd nm)) = Ok (VChild i) /\ nth_error (kids_of obj') i = Some (with_kids k [BText s])) /\
  (v = VNone -> (forall d, In (CElem (fac_of obj) nm, d) (session_uses exclude doc prog) -> py exclude (snd (descr_name d)) <> lit "factory_entity") ->
     let new := BElem (fac_of obj) nm None [] [BText s] in
     let obj' := with_kids obj (kids_of obj ++ [new]) in
     exists r', step exclude path (SetNamed (py exclude (snd nm)) (Str s)) r doc' = (r', replace_at path obj' doc', None) /\
     get_named r' obj' (py exclude (snd nm)) = Ok (VChild (List.length (kids_of obj))) /\ nth_error (kids_of obj') (List.length (kids_of obj)) = Some new).
Proof.
  intros exclude doc prog r doc' path obj c nm s v HS HP Hc HF HU HG.
  pose proof (at_path_good _ _ _ _ _ _ (session_good _ _ _ _ _ HS) HP) as G.
  destruct (known _ _ _ _ _ (DElem nm) _ Hc G HF HU HG) as [L M]. cbn [meaning descr_name] in L, M. split.
  - intros i k -> Hk. assert (HPos : exists rest, positions_of nm (kids_of obj) = i :: rest).
    { destruct (positions_of nm (kids_of obj)) as [|i0 rest]; [discriminate|]. injection M as ->. now exists rest. }
    destruct HPos as [rest HPos].
    assert (HK : kids_of (with_kids obj (set_nth i (with_kids k [BText s]) (kids_of obj))) = set_nth i (with_kids k [BText s]) (kids_of obj)) by (eapply kids_with; exact Hc).
    split; [|split].
    + apply (step_at _ _ _ _ _ _ _ _ _ HP (container _ _ Hc)). cbn [do_op]. unfold set_named. rewrite Hc, L, find_eq, HPos. unfold refill_child, refill. now rewrite Hk.
    + unfold get_named. rewrite class_with_kids, Hc, L, HK, find_eq.
      rewrite (positions_set nm (kids_of obj) i _ k Hk (elem_name_kids _ _)), HPos. reflexivity.
    + rewrite HK, nth_set_nth, Nat.eqb_refl, Hk. reflexivity.
  - intros -> Hfe. assert (HPos : positions_of nm (kids_of obj) = []) by (destruct (positions_of nm (kids_of obj)); [reflexivity|discriminate]).
    assert (HN : new_element r (fac_of obj) nm = Ok tt).
    { unfold new_element. destruct (lookup r (CElem (fac_of obj) nm) (lit "factory_entity")) as [d|] eqn:E; [|reflexivity].
      destruct (lookup_used _ _ _ _ _ _ _ G E) as [A B]. exfalso. apply (Hfe d B). unfold pyd in A. now symmetry. }
    assert (HB : bind_name exclude r c (DElem nm) = r).
    { unfold bind_name. cbn [descr_name]. rewrite L. now destruct (str_mem (py exclude (snd nm)) class_keys). }
    assert (HK : kids_of (with_kids obj (kids_of obj ++ [BElem (fac_of obj) nm None [] [BText s]])) = kids_of obj ++ [BElem (fac_of obj) nm None [] [BText s]]) by (eapply kids_with; exact Hc).
    exists r. split; [|split].
    + apply (step_at _ _ _ _ _ _ _ _ _ HP (container _ _ Hc)). cbn [do_op]. unfold set_named. rewrite Hc, L, find_eq, HPos. unfold append_new. rewrite HN.
      unfold append_child, inserted. rewrite Hc. cbn [child_inserted]. now rewrite HB.
    + unfold get_named. rewrite class_with_kids, Hc, L, HK. rewrite find_positions, positions_app, positions_eq, HPos. cbn [is_named app]. now rewrite name_eqb_refl.
    + rewrite HK, nth_error_app2, Nat.sub_diag by lia. reflexivity.
Qed.
Print Assumptions C66_set_element_partial.

(** C66: assigning text to the Python name of an attribute sets that attribute
    and nothing else; reading gives the text back. *)
Theorem C66_set_attribute_partial : forall exclude doc prog r doc' path f m pr atts kids nm s v,
  session exclude doc prog = Ok (r, doc') -> at_path path doc' = Some (BElem f m pr atts kids) ->
  clash_free exclude (CElem f m) (session_uses exclude doc prog) -> In (CElem f m, DAttr nm) (session_uses exclude doc prog) ->
  get_named r (BElem f m pr atts kids) (py exclude (snd nm)) = Ok v ->
  exists r' atts', step exclude path (SetNamed (py exclude (snd nm)) (Str s)) r doc' = (r', replace_at path (BElem f m pr atts' kids) doc', None) /\
    get_named r' (BElem f m pr atts' kids) (py exclude (snd nm)) = Ok (VString s) /\
    getitem_name (BElem f m pr atts' kids) FAttr nm = Ok (VString s) /\
    forall x, x <> nm -> getitem_name (BElem f m pr atts' kids) FAttr x = getitem_name (BElem f m pr atts kids) FAttr x.
Proof.
  intros exclude doc prog r doc' path f m pr atts kids nm s v HS HP HF HU HG.
  pose proof (at_path_good _ _ _ _ _ _ (session_good _ _ _ _ _ HS) HP) as G.
  destruct (known _ _ _ (BElem f m pr atts kids) (CElem f m) (DAttr nm) _ eq_refl G HF HU HG) as [L _]. cbn [descr_name] in L.
  assert (HB : bind_name exclude r (CElem f m) (DAttr nm) = r).
  { unfold bind_name. cbn [descr_name]. rewrite L. now destruct (str_mem (py exclude (snd nm)) class_keys). }
  exists r, (attr_set atts nm s). split; [|split; [|split]].
  - apply (step_at _ _ _ _ _ _ _ _ _ HP eq_refl). cbn [do_op]. unfold set_named. cbn [class_of]. rewrite L. cbn [set_attr]. now rewrite HB.
  - unfold get_named. cbn [class_of]. rewrite L. cbn [atts_of]. now rewrite attr_get_set.
  - unfold getitem_name. cbn [atts_of]. now rewrite attr_get_set.
  - intros x Hx. unfold getitem_name. cbn [atts_of]. now rewrite attr_get_set_other.
Qed.
Print Assumptions C66_set_attribute_partial.

(** C66: deleting by Python name removes the first child of that name (the name
    then gives the next one, or None), or the attribute, and nothing else. *)
Theorem C66_delete_partial : forall exclude doc prog r doc' path obj c d v,
  session exclude doc prog = Ok (r, doc') -> at_path path doc' = Some obj -> class_of obj = Some c ->
  clash_free exclude c (session_uses exclude doc prog) -> In (c, d) (session_uses exclude doc prog) ->
  get_named r obj (py exclude (snd (descr_name d))) = Ok v -> v <> VNone ->
  exists obj', step exclude path (DelNamed (py exclude (snd (descr_name d)))) r doc' = (r, replace_at path obj' doc', None) /\
    match d with
    | DElem nm =>
      exists i, v = VChild i /\ obj' = with_kids obj (firstn i (kids_of obj) ++ skipn (S i) (kids_of obj)) /\
        get_named r obj' (py exclude (snd nm)) = Ok (match nth_error (positions_of nm (kids_of obj)) 1 with Some j => VChild (pred j) | None => VNone end)
    | DAttr nm =>
      (forall x, getitem_name obj' FAttr x = if name_eqb x nm then Err KeyError else getitem_name obj FAttr x) /\ kids_of obj' = kids_of obj /\ class_of obj' = Some c /\
      get_named r obj' (py exclude (snd nm)) = Ok VNone
    end.
Proof.
  intros exclude doc prog r doc' path obj c d v HS HP Hc HF HU HG HV.
  pose proof (at_path_good _ _ _ _ _ _ (session_good _ _ _ _ _ HS) HP) as G.
  destruct (known _ _ _ _ _ d _ Hc G HF HU HG) as [L M]. destruct d as [nm|nm]; cbn [meaning descr_name] in *.
  - destruct (positions_of nm (kids_of obj)) as [|i rest] eqn:P; [contradiction|].
    exists (with_kids obj (remove_nth i (kids_of obj))). split.
    + apply (step_at _ _ _ _ _ _ _ _ _ HP (container _ _ Hc)). cbn [do_op]. unfold del_named. now rewrite Hc, L, find_eq, P.
    + exists i. split; [exact M|]. split; [now rewrite remove_nth_spec|].
      unfold get_named. rewrite class_with_kids, Hc, L, find_positions. erewrite kids_with by exact Hc.
      rewrite <- positions_eq in P. rewrite (positions_remove0 _ _ _ _ P). destruct rest; reflexivity.
  - destruct obj as [|f m pr a k| |]; try contradiction; injection Hc as <-.
    assert (HA : exists w, attr_get a nm = Some w).
    { unfold get_named in HG. cbn [class_of] in HG. rewrite L in HG. cbn [atts_of] in HG. destruct (attr_get a nm) as [w|]; [now exists w|]. injection HG as <-. contradiction. }
    destruct HA as [w HA]. exists (BElem f m pr (attr_del a nm) k). split; [|split; [|split; [|split]]].
    + apply (step_at _ _ _ _ _ _ _ _ _ HP eq_refl). cbn [do_op]. unfold del_named. cbn [class_of]. rewrite L. cbn [atts_of]. now rewrite HA.
    + intro x. unfold getitem_name. cbn [atts_of]. rewrite attr_get_del. destruct (name_eqb x nm); reflexivity.
    + reflexivity.
    + reflexivity.
    + unfold get_named. cbn [class_of]. rewrite L. cbn [atts_of]. now rewrite attr_get_del, name_eqb_refl.
Qed.
Print Assumptions C66_delete_partial.

(** C66: access by the XML name: an attribute of that name comes first, then the
    first child of that name; the node type can be forced.  Item assignment with
    the type forced to element, or on a document, refills the first child of that
    name or adds one. *)
Theorem C66_items_partial : forall exclude r obj c nm f s,
  class_of obj = Some c ->
  (getitem_name obj f nm =
   match match f with FElem => None | _ => match obj with BElem _ _ _ a _ => find (fun x => name_eqb (fst x) nm) a | _ => None end end, f with
   | Some (_, v), _ => Ok (VString v)
   | None, FAttr => Err KeyError
   | None, _ => Ok (match nth_error (positions_of nm (kids_of obj)) 0 with Some i => VChild i | None => VNone end)
   end) /\
  (forall i k, f = FElem \/ (f = FNone /\ exists g, c = CDoc g) -> nth_error (positions_of nm (kids_of obj)) 0 = Some i -> nth_error (kids_of obj) i = Some k ->
     setitem_name exclude r obj f nm (Str s) = (r, with_kids obj (set_nth i (with_kids k [BText s]) (kids_of obj)), None)) /\
  (f = FElem \/ (f = FNone /\ exists g, c = CDoc g) -> nth_error (positions_of nm (kids_of obj)) 0 = None -> new_element r (fac_of obj) nm = Ok tt ->
     exists r', setitem_name exclude r obj f nm (Str s) = (r', with_kids obj (kids_of obj ++ [BElem (fac_of obj) nm None [] [BText s]]), None)).
Proof.
  intros exclude r obj c nm f s Hc.
  assert (HFd : forall a, attr_get a nm = match find (fun x => name_eqb (fst x) nm) a with Some (_, v) => Some v | None => None end).
  { induction a as [|[m w] a IH]; [reflexivity|]. cbn [attr_get find fst]. destruct (name_eqb m nm); [reflexivity|exact IH]. }
  assert (HE : f = FElem \/ (f = FNone /\ exists g, c = CDoc g) -> forall v, setitem_name exclude r obj f nm v =
    match nth_error (positions_of nm (kids_of obj)) 0 with Some i => refill_child r obj i v | None => append_new exclude r obj nm v end).
  { intros H v. unfold setitem_name. rewrite find_eq. assert (HX : forall (A : Type) (l : list nat) (x : nat -> A) (y : A), match match l with i :: _ => Some i | [] => None end with Some i => x i | None => y end = match nth_error l 0 with Some i => x i | None => y end) by (intros A [|? ?] x y; reflexivity).
    destruct H as [->|[-> [g ->]]]; [apply HX|]. destruct obj; try discriminate. cbn [atts_of]. apply HX. }
  split; [|split].
  - unfold getitem_name. rewrite find_eq. destruct obj as [g k|g m pr a k| |]; try discriminate; cbn [atts_of kids_of].
    + destruct f; try reflexivity; destruct (positions_of nm k); reflexivity.
    + rewrite HFd. destruct (find (fun x => name_eqb (fst x) nm) a) as [[n0 v0]|]; destruct f; try reflexivity; destruct (positions_of nm k); reflexivity.
  - intros i k Hf Hi Hk. rewrite (HE Hf), Hi. unfold refill_child, refill. now rewrite Hk.
  - intros Hf Hi HN. rewrite (HE Hf), Hi. unfold append_new. rewrite HN. unfold append_child. eexists. reflexivity.
Qed.
Print Assumptions C66_items_partial.

(** ** A session *)
Definition n (s : string) : name := (None, lit s).
Definition el (s : string) (a : list (name * str)) (k : list bnode) : bnode := BElem 0 (n s) None a k.
Definition t (s : string) : bnode := BText (lit s).
Definition doc0 : bnode := BDoc 0 [el "a" [(n "id", lit "7")] [el "b" [] [t "spam"]; t " "; el "c" [] []; el "b" [] [t "eggs"]]].
Definition prog0 : list (list nat * op) := [([0%nat], SetNamed (lit "c") (Str (lit "new"))); ([0%nat], SetNamed (lit "id") (Str (lit "8"))); ([0%nat], DelNamed (lit "b"))].
Definition doc1 : bnode := BDoc 0 [el "a" [(n "id", lit "8")] [t " "; el "c" [] [t "new"]; el "b" [] [t "eggs"]]].
Lemma clash_free_by : forall exclude c l, forallb (fun x => forallb (fun y => negb (cls_eqb (fst x) c && cls_eqb (fst y) c && str_eqb (py exclude (snd (descr_name (snd x)))) (py exclude (snd (descr_name (snd y)))))
    || match snd x, snd y with DElem a, DElem b | DAttr a, DAttr b => name_eqb a b | _, _ => false end) l) l = true -> clash_free exclude c l.
Proof.
  intros exclude c l H d d' H1 H2 E. rewrite forallb_forall in H. specialize (H _ H1). rewrite forallb_forall in H. specialize (H _ H2). cbn [fst snd] in H.
  rewrite E in H. destruct (cls_eqb_spec c c); [|congruence]. destruct (str_eqb_spec (py exclude (snd (descr_name d'))) (py exclude (snd (descr_name d')))); [|congruence].
  cbn [andb negb orb] in H. destruct d, d'; try discriminate; destruct (name_eqb_spec nm nm0); congruence.
Qed.
Example C66_case_session : exists r, session [] doc0 prog0 = Ok (r, doc1) /\ clash_free [] (CElem 0 (n "a")) (session_uses [] doc0 prog0) /\
  In (CElem 0 (n "a"), DElem (n "b")) (session_uses [] doc0 prog0) /\ In (CElem 0 (n "a"), DAttr (n "id")) (session_uses [] doc0 prog0) /\
  at_path [0%nat] doc1 = Some (el "a" [(n "id", lit "8")] [t " "; el "c" [] [t "new"]; el "b" [] [t "eggs"]]) /\
  get_named r (el "a" [(n "id", lit "8")] [t " "; el "c" [] [t "new"]; el "b" [] [t "eggs"]]) (lit "b") = Ok (VChild 2) /\
  get_named r (el "a" [(n "id", lit "8")] [t " "; el "c" [] [t "new"]; el "b" [] [t "eggs"]]) (lit "id") = Ok (VString (lit "8")).
Proof.
  eexists. split; [vm_compute; reflexivity|]. split; [apply clash_free_by; vm_compute; reflexivity|].
  split; [vm_compute; tauto|]. split; [vm_compute; tauto|]. split; [vm_compute; reflexivity|]. split; vm_compute; reflexivity.
Qed.
Example C66_case_siblings : let l := [el "b" [] []; t " "; el "b" [] [t "x"]; el "c" [] []; el "b" [] []] in
  iterate l (el "b" [] []) = [0; 2; 4]%nat /\ len l (el "b" [] []) = 3%nat /\ getitem_int l (el "b" [] []) (-1) = Ok 4%nat /\ getitem_int l (el "b" [] []) 3 = Err IndexError.
Proof. vm_compute. auto. Qed.

(** ** What does not hold *)
(** Two XML names with one Python name: the second is out of reach (the loop that
    should find another name is "while not True"). *)
Definition clash_doc : bnode := BDoc 0 [el "r" [] [el "a-b" [] [t "1"]; el "a_b" [] [t "2"]]].
Theorem C66_clash_refuted : exists r, session [] clash_doc [] = Ok (r, clash_doc) /\
  forall p, get_named r (el "r" [] [el "a-b" [] [t "1"]; el "a_b" [] [t "2"]]) p <> Ok (VChild 1).
Proof.
  eexists. split; [vm_compute; reflexivity|]. intros p H.
  assert (HS : session [] clash_doc [] = Ok ([(CElem 0 (n "r"), lit "a_b", DElem (n "a-b")); (CDoc 0, lit "r", DElem (n "r"))], clash_doc)) by (vm_compute; reflexivity).
  unfold get_named in H. cbn [class_of el] in H.
  match type of H with match lookup ?r ?c p with _ => _ end = _ => destruct (lookup r c p) as [d|] eqn:L; [|discriminate] end.
  apply lookup_In in L. destruct L as [E|[E|[]]]; [|discriminate E]. injection E as _ <-. vm_compute in H. discriminate H.
Qed.
Print Assumptions C66_clash_refuted.
(** An attribute and a child element of the same name: the name gives the
    attribute, and the child is out of reach (by name). *)
Definition both_doc : bnode := BDoc 0 [el "r" [(n "x", lit "1")] [el "x" [] [t "2"]]].
Theorem C66_attribute_child_clash_refuted : exists r, session [] both_doc [] = Ok (r, both_doc) /\
  get_named r (el "r" [(n "x", lit "1")] [el "x" [] [t "2"]]) (lit "x") = Ok (VString (lit "1")).
Proof. eexists. split; [vm_compute; reflexivity|]. vm_compute. reflexivity. Qed.
Print Assumptions C66_attribute_child_clash_refuted.
(** An element with a prefix has length 0 (and so is false) and cannot be indexed. *)
Definition pref : bnode := BElem 0 (Some (lit "urn:x"), lit "b") (Some (lit "p")) [] [t "spam"].
Theorem C66_prefix_refuted : iterate [pref] pref = [0%nat] /\ len [pref] pref = 0%nat /\ getitem_int [pref] pref 0 = Err IndexError.
Proof. vm_compute. auto. Qed.
Print Assumptions C66_prefix_refuted.
(** doc.a[u'b'] = u'eggs' on <a><b>spam</b></a> does not refill b, as the
    documentation says, but gives a an attribute b. *)
Theorem C66_setitem_refuted : let doc := BDoc 0 [el "a" [] [el "b" [] [t "spam"]]] in
  exists r, session [] doc [([0%nat], SetItem FNone (n "b") (Str (lit "eggs")))] = Ok (r, BDoc 0 [el "a" [(n "b", lit "eggs")] [el "b" [] [t "spam"]]]).
Proof. eexists. vm_compute. reflexivity. Qed.
Print Assumptions C66_setitem_refuted.
(** del elem[u'id'] leaves the attribute in place, without an error. *)
Theorem C66_delitem_refuted : forall exclude r f m pr atts kids nm, positions_of nm kids = [] ->
  delitem_name r (BElem f m pr atts kids) FNone nm = (r, BElem f m pr atts kids, None) /\
  delitem_name r (BElem f m pr atts kids) FAttr nm = (r, BElem f m pr atts kids, Some KeyError) /\
  do_op exclude (DelItem FNone nm) r (BElem f m pr atts kids) = (r, BElem f m pr atts kids, None).
Proof. intros exclude r f m pr atts kids nm H. cbn [do_op]. unfold delitem_name. cbn [kids_of]. rewrite find_eq, H. auto. Qed.
Print Assumptions C66_delitem_refuted.
(** A failed assignment has already emptied the element. *)
Theorem C66_failed_set_refuted : exists r doc r' , session [] doc [] = Ok (r, doc) /\
  doc = BDoc 0 [el "a" [] [t "spam"]] /\ step [] [] (SetNamed (lit "a") NotString) r doc = (r', BDoc 0 [el "a" [] []], Some TypeError).
Proof. eexists. eexists. eexists. split; [|split; [reflexivity|]]; vm_compute; reflexivity. Qed.
Print Assumptions C66_failed_set_refuted.
(** A child or attribute called factory_entity: the second element of the
    parent's name cannot be parsed. *)
Theorem C66_factory_entity_refuted :
  session [] (BDoc 0 [el "r" [] [el "x" [(n "factory_entity", lit "1")] []; el "x" [] []]]) [] = Err KeyError /\
  session [] (BDoc 0 [el "r" [] [el "x" [] [el "factory_entity" [] []]; el "x" [] []]]) [] = Err AttributeError.
Proof. vm_compute. auto. Qed.
Print Assumptions C66_factory_entity_refuted.
