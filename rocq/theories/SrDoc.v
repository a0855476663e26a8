(** * Documents, and the cache *)
From Coq Require Import NArith ZArith String List Bool Lia Arith Permutation.
From Verif Require Import PyStr PyErr DtdModel DtdSpec DtdDfa DtdProps SrModel SrSpec SrMatch SrAttrs SrRead.
Import ListNotations.
Local Open Scope nat_scope.

Section D.
Variable w : world.
Hypothesis G : good_world w.

(** ** The document without the cache *)
Definition rdoc (e : elem) (kids : list snode) : result xnode :=
  do d <- compile (w_order w) m_root ;
  do k <- find_class w (root_level d) e ;
  do s <- start_element w (root_level d) new_reader e k ;
  do lr <- rns w kids (snd (fst s)) (snd s) ;
  do nodes <- finish w (fst lr) e ;
  match r_sheet (snd lr) with
  | Some i => if i =? l_id (fst lr) then Ok (XElem e nodes) else Err NotModelled
  | None =>
    match l_kind (fst lr) with
    | KLiteral =>
      match attr (e_attrs e) (Some XSL_NAMESPACE) (lit "version") with
      | None => Err LITERAL_RESULT_MISSING_VERSION
      | Some v => match w_number w v with Some NOne | Some NOther => Ok (XElem sheet_elem [XElem template_elem [XElem e nodes]]) | _ => Err INVALID_ATTR end
      end
    | _ => Err AssertionError
    end
  end.
Lemma root_proper : proper m_root.
Proof. cbn. intuition. Qed.
Lemma root_inhabited : inhabited m_root.
Proof. cbn. intuition discriminate. Qed.
Lemma root_step d n : compile (w_order w) m_root = Ok d -> (lookup (nth 0 d []) (EName n) <> None <-> sheet_name n \/ n = RESULT_ELEMENT).
Proof.
  intros C. destruct (compile_ok w G m_root root_proper) as (d' & C' & _ & V). rewrite C in C'. injection C' as <-. specialize (V root_inhabited [EName n]).
  assert (~ In EFinal [EName n]) as NF by (intros [H|[]]; discriminate). specialize (V NF). cbn [walk] in V.
  assert (lookup (nth 0 d []) (EName n) <> None <-> exists u, matches m_root ([EName n] ++ u)) as ->. { rewrite <- V. destruct (lookup (nth 0 d []) (EName n)); split; congruence. }
  split.
  - intros (u & M). apply matches_one in M; [|reflexivity]. apply once_alt_iff in M. destruct M as (c & [<-|[<-|[<-|[]]]] & M).
    + apply matches_one in M; [|reflexivity]. apply once_name_iff in M. injection M as -> _. left. left. reflexivity.
    + apply matches_one in M; [|reflexivity]. apply once_name_iff in M. injection M as -> _. left. right. reflexivity.
    + apply rep_name in M. inversion M as [|x y E1 E2]. injection E1 as ->. right. reflexivity.
  - intros [[-> | ->]| ->]; exists []; cbn [app]; (apply matches_one; [reflexivity|]); apply once_alt_iff.
    + exists (CName One (lit "stylesheet")). split; [left; reflexivity|]. apply matches_one; [reflexivity|constructor].
    + exists (CName One (lit "transform")). split; [right; left; reflexivity|]. apply matches_one; [reflexivity|constructor].
    + exists m_result_elements. split; [right; right; left; reflexivity|]. apply rep_name. auto.
Qed.
Lemma root_role e q : role_of w nowhere e = Some q -> q = RXsl (e_local e) /\ in_xsl e = true /\ row attribute_table (e_local e) <> None \/ q = RLiteral /\ in_xsl e = false.
Proof.
  unfold role_of, nowhere. cbn [x_fc x_exts existsb]. destruct (in_xsl e); [|intros H; injection H as <-; auto].
  destruct (row attribute_table (e_local e)); [|discriminate]. intros H. injection H as <-. left. split; [reflexivity|]. split; [reflexivity|discriminate].
Qed.
Lemma static_not_ok {A} k er (a : A) : static k er = Ok a -> False.
Proof. unfold static. destruct k; discriminate. Qed.
Definition sheetb (q : role) : bool := is_sheet (kind_of q).
Lemma start_root e q d d2 s : compile (w_order w) m_root = Ok d -> distinct_attributes e -> role_of w nowhere e = Some q ->
  (start_element w (root_level d) new_reader e (entry_of q d2) = Ok s <->
   (sheetb q = true \/ q = RLiteral) /\ attributes_ok w nowhere e q /\ exists l1,
     s = (l1, {| l_id := 1; l_kind := kind_of q; l_dfa := d2; l_at := 0; l_vars := []; l_own := false; l_fc := x_fc (inside w nowhere e q); l_exts := x_exts (inside w nowhere e q); l_nodes := [] |},
          {| r_next := 2; r_sheet := if sheetb q then Some 1 else None; r_globals := [] |}) /\ exists k, l1 = at_state (root_level d) k /\ lookup (nth 0 d []) (EName (token_of q)) = Some k).
Proof.
  intros C ND Eq. unfold start_element. cbn [c_token c_kind c_dfa entry_of root_level l_at l_dfa l_kind l_fc l_exts l_id l_vars new_reader r_next r_sheet r_globals].
  rewrite bind_ok. fold (sheetb q).
  assert (sheetb q = true \/ q = RLiteral <-> lookup (nth 0 d []) (EName (token_of q)) <> None) as TK.
  { rewrite (root_step d (token_of q) C). destruct (root_role e q Eq) as [(-> & _ & R)|(-> & _)]; cbn [token_of].
    - unfold sheetb, sheet_name. cbn [kind_of is_sheet]. rewrite orb_true_iff, !str_eqb_eq. split; [intros [H|H]; [auto|discriminate]|]. intros [H|H]; [auto|].
      exfalso. rewrite H in R. apply R. reflexivity.
    - split; auto. }
  assert (forall m : mode, match kind_of q, (if sheetb q then Some 1 else None) with KLiteral, Some s0 => if (s0 =? 0) && match e_ns e with None | Some [] => true | _ => false end && negb (fst m) then static KRoot ILLEGAL_ELEMENT_CHILD else Ok tt | _, _ => Ok tt end = Ok tt) as NM.
  { intros m. destruct q; try reflexivity. }
  split.
  - intros (l1 & H1 & H2). destruct (lookup (nth 0 d []) (EName (token_of q))) as [k|] eqn:L; [|discriminate]. injection H1 as <-.
    apply bind_ok in H2. destruct H2 as (m & H2 & H3). apply (attributes_iff w nowhere e q d2 m ND Eq) in H2. destruct H2 as [H2 ->]. rewrite NM in H3. cbn [bind] in H3. injection H3 as <-.
    split; [apply TK; discriminate|]. split; [exact H2|]. eexists. split; [reflexivity|]. exists k. auto.
  - intros (Q & A & l1 & -> & k & -> & L). rewrite L. exists (at_state (root_level d) k). split; [reflexivity|]. apply bind_ok. exists (x_fc (inside w nowhere e q), x_exts (inside w nowhere e q)).
    split; [apply (attributes_iff w nowhere e q d2 _ ND Eq); auto|]. rewrite NM. reflexivity.
Qed.
Definition made_sheet (e : elem) (kids : list snode) : xnode :=
  if in_xsl e then XElem e (map (made w) kids) else XElem sheet_elem [XElem template_elem [made w (SElem e kids)]].
Lemma made_xsl e kids : in_xsl e = true -> made_sheet e kids = XElem e (map (made w) kids).
Proof. unfold made_sheet. intros ->. reflexivity. Qed.
Lemma made_literal e kids : in_xsl e = false -> made_sheet e kids = XElem sheet_elem [XElem template_elem [XElem e (wrap w (any_declared w kids) (map (made w) kids))]].
Proof. unfold made_sheet. intros ->. rewrite made_elem. reflexivity. Qed.
Theorem rdoc_iff e kids t : distinct_attributes e -> Forall node_ok kids -> version_not_zero w e -> (rdoc e kids = Ok t <-> stylesheet_ok w e kids /\ t = made_sheet e kids).
Proof.
  intros ND OK NZ. unfold rdoc, stylesheet_ok. rewrite bind_ok.
  assert (Forall (reads w) kids) as RK by (eapply Forall_impl; [|exact OK]; intros x; apply reads_all; exact G).
  assert (forall q d2, role_of w nowhere e = Some q -> related
     {| l_id := 1; l_kind := kind_of q; l_dfa := d2; l_at := 0; l_vars := []; l_own := false; l_fc := x_fc (inside w nowhere e q); l_exts := x_exts (inside w nowhere e q); l_nodes := [] |}
     {| r_next := 2; r_sheet := if sheetb q then Some 1 else None; r_globals := [] |} (inside w nowhere e q) /\ x_top (inside w nowhere e q) = sheetb q) as RL.
  { intros q d2 Eq. assert (x_top (inside w nowhere e q) = sheetb q) as TS by (unfold sheetb, is_sheet; cbn [x_top inside]; destruct q; reflexivity).
    split; [|exact TS]. unfold related. cbn [l_fc l_exts l_kind l_id r_sheet r_next]. split; [reflexivity|]. split; [reflexivity|]. split; [destruct q; discriminate|].
    rewrite TS. destruct (sheetb q); split; auto; intros s E; [injection E as <-; lia|discriminate]. }
  assert (forall q, role_of w nowhere e = Some q -> namespace_ok w nowhere e q) as NS.
  { intros q _. destruct q; cbn [namespace_ok]; auto. intros C. discriminate. }
  split.
  - intros (d & C & H). apply bind_ok in H. destruct H as (en & H1 & H2).
    apply (find_class_iff w (root_level d) nowhere e en eq_refl eq_refl) in H1. destruct H1 as (q & d2 & Eq & C2 & ->).
    apply bind_ok in H2. destruct H2 as (s & H2 & H3). apply (start_root e q d d2 s C ND Eq) in H2. destruct H2 as (Q & A & l1 & -> & k & -> & L). cbn [fst snd] in H3.
    apply bind_ok in H3. destruct H3 as ([c1 r1] & H3 & H4). destruct (RL q d2 Eq) as [R TS]. apply (rns_iff w kids RK _ _ _ _ _ R) in H3. rewrite TS in H3. destruct H3 as (b & Ad & Cs & V & -> & ->).
    cbn [fst snd] in H4. apply bind_ok in H4. destruct H4 as (nodes & H4 & H5). apply finish_iff in H4. destruct H4 as [Cm ->].
    cbn [afters l_kind l_dfa l_at l_own l_nodes l_id afters_reader r_sheet l_vars r_globals app] in *.
    assert (correct w nowhere (SElem e kids)) as Co.
    { apply correct_elem. exists q. split; [exact Eq|]. split; [exact A|]. split; [apply NS; exact Eq|]. split; [|exact Cs]. apply (content_iff w G nowhere e q d2 _ Eq C2); [apply plain_items|]. exists b. auto. }
    destruct (root_role e q Eq) as [(-> & IX & _)|(-> & IX)]; [rewrite (made_xsl e kids IX)|rewrite (made_literal e kids IX)].
    + destruct Q as [Q|Q]; [|discriminate Q]. rewrite Q in *. cbn [Nat.eqb wrap] in H5. injection H5 as <-. apply sibling_global in V. destruct V as (V1 & V2 & _).
      split; [|reflexivity]. split; [exact Co|]. left. split; [|auto]. split; [exact IX|]. unfold sheetb in Q. cbn [kind_of is_sheet] in Q. rewrite orb_true_iff, !str_eqb_eq in Q. exact Q.
    + cbn [sheetb kind_of is_sheet orb] in *. unfold sheetb in H5. cbn [kind_of is_sheet] in H5.
      destruct (attr (e_attrs e) (Some XSL_NAMESPACE) (lit "version")) as [v|] eqn:Av; [|discriminate]. pose proof (proj2 (unshadowed_elem w [] e kids) (proj1 (sibling_local w [] [] kids) V)) as V1.
      assert (t = XElem sheet_elem [XElem template_elem [XElem e (wrap w (any_declared w kids) (map (made w) kids))]]) as Et.
      { destruct (w_number w v) as [[| |]|]; congruence. }
      split; [|exact Et]. split; [exact Co|]. right. split; [exact IX|]. split; [exact V1|]. congruence.
  - intros [[Co D] ->]. apply correct_elem in Co. destruct Co as (q & Eq & A & N & Ct & Cs).
    destruct (compile_ok w G m_root root_proper) as (d & C & _). destruct (compile_ok w G (model_of q) (role_proper w nowhere e q G Eq)) as (d2 & C2 & _).
    exists d. split; [exact C|]. apply bind_ok. exists (entry_of q d2). split; [apply (find_class_iff w (root_level d) nowhere e _ eq_refl eq_refl); eauto|].
    apply (content_iff w G nowhere e q d2 _ Eq C2) in Ct; [|apply plain_items]. destruct Ct as (b & Ad & Cm). destruct (RL q d2 Eq) as [R TS].
    assert (sheetb q = true \/ q = RLiteral) as Q.
    { destruct (root_role e q Eq) as [(-> & IX & _)|(-> & IX)]; [left|auto]. destruct D as [((_ & SN) & _)|(IX' & _)]; [|congruence]. unfold sheetb. cbn [kind_of is_sheet]. rewrite orb_true_iff, !str_eqb_eq. exact SN. }
    assert (exists k, lookup (nth 0 d []) (EName (token_of q)) = Some k) as (k & L).
    { assert (lookup (nth 0 d []) (EName (token_of q)) <> None) as L; [|destruct (lookup (nth 0 d []) (EName (token_of q))); eauto; congruence]. apply (root_step d _ C). destruct Q as [Q| ->]; [|right; reflexivity]. left.
      destruct (root_role e q Eq) as [(-> & _ & _)|(-> & _)]; [|discriminate Q]. unfold sheetb in Q. cbn [kind_of is_sheet] in Q. rewrite orb_true_iff, !str_eqb_eq in Q. exact Q. }
    apply bind_ok. eexists. split; [apply (start_root e q d d2 _ C ND Eq); eauto 10|]. cbn [fst snd].
    apply bind_ok. eexists (_, _). split.
    { apply (rns_iff w kids RK _ _ _ _ _ R). exists b. split; [exact Ad|]. split; [exact Cs|]. split; [|split; reflexivity]. rewrite TS. cbn [l_vars r_globals].
      destruct (root_role e q Eq) as [(-> & IX & _)|(-> & IX)].
      - destruct Q as [Q|Q]; [|discriminate Q]. rewrite Q. destruct D as [(_ & D1 & D2)|(IX' & _)]; [|congruence]. apply sibling_global. auto.
      - destruct D as [((IX' & _) & _)|(_ & D & _)]; [congruence|]. apply (sibling_local w _ []). apply unshadowed_elem in D. exact D. }
    cbn [fst snd]. rewrite TS. apply bind_ok. eexists. split; [apply finish_iff; split; [exact Cm|reflexivity]|].
    cbn [afters l_kind l_dfa l_at l_own l_nodes l_id afters_reader r_sheet l_vars r_globals app orb].
    destruct (root_role e q Eq) as [(-> & IX & _)|(-> & IX)]; [rewrite (made_xsl e kids IX)|rewrite (made_literal e kids IX)].
    + destruct Q as [Q|Q]; [|discriminate Q]. rewrite Q. reflexivity.
    + unfold sheetb. cbn [kind_of is_sheet]. destruct D as [((IX' & _) & _)|(_ & _ & D)]; [congruence|].
      destruct (attr (e_attrs e) (Some XSL_NAMESPACE) (lit "version")) as [v|] eqn:Av; [|congruence]. specialize (NZ IX v Av).
      assert (w_number w v <> None) as NV.
      { cbn [attributes_ok] in A. apply (attr_in _ _ _ _ ND) in Av. destruct (A _ _ _ Av) as [A1 _]. destruct (A1 eq_refl) as [_ A2]. exact A2. }
      destruct (w_number w v) as [[| |]|]; [reflexivity|congruence|reflexivity|congruence].
Qed.

(** ** insertChild *)
Lemma insert_zero l x : w_high w = 0%Z -> insert_first w l x = x :: l.
Proof.
  intros H. unfold insert_first. rewrite H. unfold insert_child. change (0 * 2 ^ 32)%Z with 0%Z. cbv zeta. change (0 <? 0)%Z with false. cbv iota.
  assert ((Z.of_nat (length l) <? 0)%Z = false) as -> by (apply Z.ltb_ge; lia). reflexivity.
Qed.
Lemma wrap_built kids nodes : w_high w = 0%Z -> wrap w (any_declared w kids) nodes = match declared w kids with [] => nodes | _ => XPush :: nodes ++ [XPop] end.
Proof. intros H. unfold wrap, any_declared. destruct (declared w kids); [reflexivity|]. rewrite (insert_zero _ _ H). reflexivity. Qed.
Lemma made_built x : w_high w = 0%Z -> made w x = built w x.
Proof.
  intros H. induction x as [d|e kids IH] using snode_ind2; [reflexivity|]. rewrite made_elem.
  change (built w (SElem e kids)) with (XElem e (match declared w kids with [] => map (built w) kids | _ => XPush :: map (built w) kids ++ [XPop] end)).
  rewrite (wrap_built kids _ H). assert (map (made w) kids = map (built w) kids) as -> by (apply map_ext_in; rewrite Forall_forall in IH; exact IH). reflexivity.
Qed.
Lemma made_built_sheet e kids : w_high w = 0%Z -> made_sheet e kids = built_sheet w e kids.
Proof.
  intros H. unfold made_sheet, built_sheet. rewrite (made_built _ H). destruct (in_xsl e); [|reflexivity]. f_equal. apply map_ext. intros x. apply made_built. exact H.
Qed.
End D.
