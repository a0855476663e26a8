(** * Proofs about [OpModel]: the HTML writer *)
From Coq Require Import NArith ZArith String List Bool Lia Arith Permutation.
From Verif Require Import PyStr PyErr SerModel SerSpec SerStream SerTree XsModel XwModel XwSpec XwProofs XwTree XwProps HtModel HtSpec HtPrint HtTop HtProps OpModel OpSpec OpProofs.
Import ListNotations.
Open Scope N_scope.
Local Opaque maps_32 maps_40 maps_xhtml.

Section Run.
Variables (low : str -> str) (ordn : wdict -> wdict) (orda : wattrs -> wattrs) (public system : option str) (k : kind) (p0 : printer) (m : str).
Hypothesis Hlow : lowers_names low.
Hypothesis Hord : any_dict_order ordn orda.
Hypothesis Hpub : truthy public = false.
Hypothesis Hsys : truthy system = false.
Hypothesis Hk : k = Html \/ k = HtmlIndent.

Notation html_call := (html_call low ordn orda public system k).
Notation html_complete := (html_complete low ordn orda k).
Fixpoint html_calls (l : list ocall) (w : hwriter) : result hwriter :=
  match l with
  | [] => Ok w
  | c :: l' => bind (html_call c w) (html_calls l')
  end.
Lemma html_calls_app : forall a b w, html_calls (a ++ b) w = bind (html_calls a w) (html_calls b).
Proof. intros a b. induction a as [|c a IH]; intro w; [reflexivity|]. cbn [app html_calls]. destruct (html_call c w); [|reflexivity]. cbn [bind]. apply IH. Qed.

(** Between two tags, and in a start tag. *)
Definition ready (need : bool) (n : nat) (head : bool) (h : hp) : hwriter :=
  {| hw_w := {| w_p := p0; w_need_doctype := need; w_name := None; w_nss := repeat namespaces0 (S n); w_atts := [] |};
     hw_ns := None; hw_h := h; hw_head := head; hw_meta := m |}.
Definition pending (n : nat) (head : bool) (h : hp) (q : str) (A : wattrs) : hwriter :=
  {| hw_w := {| w_p := p0; w_need_doctype := false; w_name := Some q; w_nss := repeat namespaces0 (S (S n)); w_atts := A |};
     hw_ns := None; hw_h := h; hw_head := head; hw_meta := m |}.
Lemma complete_ready : forall need n head h, html_complete (ready need n head h) = Ok (ready need n head h).
Proof. intros. unfold OpModel.html_complete, base_complete. cbn [ready hw_w hw_head w_name truthy andb bind]. destruct head; reflexivity. Qed.
Lemma no_new : new_namespaces ordn namespaces0 namespaces0 = [].
Proof.
  unfold new_namespaces. assert (HF : forall l, (forall x, In x l -> In x namespaces0) ->
    filter (fun kv => match wget namespaces0 (fst kv) with None => true | Some v => negb (okey_eqb v (snd kv)) end) l = []).
  { induction l as [|x l IH]; intro H; [reflexivity|]. cbn [filter]. assert (match wget namespaces0 (fst x) with None => true | Some v => negb (okey_eqb v (snd x)) end = false) as ->.
    - destruct (H x (or_introl eq_refl)) as [<-|[<-|[<-|[]]]]; vm_compute; reflexivity.
    - apply IH. intros y Hy. apply H. now right. }
  rewrite HF; [reflexivity|]. intros x Hx. apply (Permutation_in x (proj1 Hord namespaces0) Hx).
Qed.
(** What is printed once the start tag is complete. *)
Definition meta_call : HtModel.call := CElem None (lit "meta") [] (meta_attributes m) [].
Definition opened (head : bool) (q : str) (a : list (str * str)) (h : hp) : result hp :=
  bind (h_start low k None q [] a h) (fun h1 => if head && is_head q then h_print low k meta_call h1 else Ok h1).
Lemma complete_pending : forall n head h q A, q <> [] ->
  html_complete (pending n head h q A) = bind (opened head q (map snd (orda A)) h) (fun h1 => Ok (ready false (S n) (head && negb (is_head q)) h1)).
Proof.
  intros n head h q A Hq. unfold OpModel.html_complete, base_complete. cbn [pending hw_w hw_ns hw_h hw_head hw_meta w_name w_nss w_atts w_need_doctype w_p oget].
  assert (truthy (Some q) = true) as -> by (destruct q; [congruence|reflexivity]). cbn [andb repeat]. rewrite no_new. rewrite (low_head low Hlow).
  unfold opened, meta_call. destruct head; cbn [andb].
  - destruct (h_start low k None q [] _ h) as [h1|e]; [|reflexivity]. cbn [bind]. destruct (is_head q); [|reflexivity]. cbn [negb andb hw_set hw_h hw_meta hw_w hw_ns].
    rewrite h_print_elem. cbn [h_print_all]. destruct (h_start low k None (lit "meta") [] _ h1) as [h2|e]; [|reflexivity]. cbn [bind].
    destruct (h_end low k None (lit "meta") h2) as [h3|e]; reflexivity.
  - destruct (h_start low k None q [] _ h) as [h1|e]; reflexivity.
Qed.
Lemma complete_twice : forall n head h q A c, q <> [] -> match c with OAttr _ _ _ | ONs _ _ => False | _ => True end ->
  html_call c (pending n head h q A) = bind (html_complete (pending n head h q A)) (html_call c).
Proof.
  intros n head h q A c Hq Hc. rewrite complete_pending by assumption. destruct c; try (destruct Hc; fail); cbn [OpModel.html_call]; rewrite complete_pending by assumption;
    (destruct (opened head q _ h) as [h1|e]; [cbn [bind OpModel.html_call]; rewrite complete_ready; reflexivity|reflexivity]).
Qed.

(** ** Attributes *)
Definition key_of (a : str * str) : wkey * (str * str) := ((None, fst a), a).
Lemma split_none : forall q, ~ In 58 q -> XsModel.split_qname q = (None, q).
Proof. intros q H. unfold XsModel.split_qname. now rewrite break_none58. Qed.
Lemma wput_new : forall A a, ~ In (fst a) (map fst A) -> wput (map key_of A) (None, fst a) (fst a, snd a) = map key_of (A ++ [a]).
Proof.
  induction A as [|b A IH]; intros a H; [destruct a; reflexivity|]. cbn [map key_of wput app]. cbn [map In] in H.
  assert (wkey_eqb (None, fst b) (None, fst a) = false) as ->.
  { unfold wkey_eqb. cbn [fst snd okey_eqb andb]. destruct (str_eqb_spec (fst b) (fst a)) as [E|E]; [exfalso; tauto|reflexivity]. }
  rewrite IH by tauto. reflexivity.
Qed.
Lemma attribute_pending : forall n head h q A a, q <> [] -> ~ In 58 (fst a) -> ~ In (fst a) (map fst A) ->
  w_attribute ordn (fst a) (snd a) None (hw_w (pending n head h q (map key_of A))) = Ok (hw_w (pending n head h q (map key_of (A ++ [a])))).
Proof.
  intros n head h q A a Hq Hc Hi. unfold w_attribute. cbn [pending hw_w w_name w_p w_need_doctype w_nss w_atts].
  assert (truthy (Some q) = true) as -> by (destruct q; [congruence|reflexivity]). cbn [negb]. rewrite split_none by assumption. now rewrite wput_new.
Qed.
Lemma attributes_pending : forall n head h q l A, q <> [] -> Forall (fun x => ~ In 58 (fst x)) l -> NoDup (map fst (A ++ l)) ->
  w_attributes ordn (map (fun a => ((fst a, None), snd a)) l) (hw_w (pending n head h q (map key_of A))) = Ok (hw_w (pending n head h q (map key_of (A ++ l)))).
Proof.
  intros n head h q l. induction l as [|a l IH]; intros A Hq HF HN; [now rewrite app_nil_r|]. inversion HF as [|? ? Ha HF']; subst. cbn [map w_attributes].
  rewrite attribute_pending; auto.
  - cbn [bind]. assert (EA : A ++ a :: l = (A ++ [a]) ++ l) by now rewrite <- app_assoc. rewrite EA in HN |- *. now apply IH.
  - rewrite map_app in HN. cbn [map] in HN. apply NoDup_remove_2 in HN. intro Hi. apply HN. apply in_or_app. now left.
Qed.
Lemma attribute_calls : forall n head h q l A, q <> [] -> Forall (fun x => ~ In 58 (fst x)) l -> NoDup (map fst (A ++ l)) ->
  html_calls (map (fun a => OAttr (fst a) (snd a) None) l) (pending n head h q (map key_of A)) = Ok (pending n head h q (map key_of (A ++ l))).
Proof.
  intros n head h q l. induction l as [|a l IH]; intros A Hq HF HN; [now rewrite app_nil_r|]. inversion HF as [|? ? Ha HF']; subst. cbn [map html_calls OpModel.html_call].
  rewrite attribute_pending; auto.
  - cbn [bind]. assert (EA : A ++ a :: l = (A ++ [a]) ++ l) by now rewrite <- app_assoc. rewrite EA in HN |- *. now apply IH.
  - rewrite map_app in HN. cbn [map] in HN. apply NoDup_remove_2 in HN. intro Hi. apply HN. apply in_or_app. now left.
Qed.

(** ** The page with its attributes in the order of iteration *)
Definition order (a : list (str * str)) : list (str * str) := map snd (orda (map key_of a)).
Lemma order_perm : forall a, Permutation a (order a).
Proof.
  intro a. unfold order. apply Permutation_sym. eapply Permutation_trans; [apply Permutation_map, (proj2 Hord)|]. rewrite map_map. cbn [key_of snd]. rewrite map_id. apply Permutation_refl.
Qed.
Fixpoint ordered (c : HtModel.call) : HtModel.call :=
  match c with
  | CElem ns q d a l => CElem ns q d (order a) (map ordered l)
  | _ => c
  end.
Lemma with_meta_elem : forall mc todo ns q d a l, with_meta mc todo (CElem ns q d a l) =
  (fst (all_with_meta mc (todo && negb (todo && is_head q)) l),
   CElem ns q d a (if todo && is_head q then mc :: snd (all_with_meta mc (todo && negb (todo && is_head q)) l) else snd (all_with_meta mc (todo && negb (todo && is_head q)) l))).
Proof.
  intros. cbn [with_meta].
  assert (E : forall l t, (fix all (todo : bool) (l : list HtModel.call) : bool * list HtModel.call :=
                  match l with
                  | [] => (todo, [])
                  | c' :: l' =>
                    let r1 := with_meta mc todo c' in
                    let r2 := all (fst r1) l' in
                    (fst r2, snd r1 :: snd r2)
                  end) t l = all_with_meta mc t l).
  { clear. induction l as [|c l IH]; intro t; [reflexivity|]. cbn [all_with_meta]. cbv zeta. now rewrite IH. }
  cbv zeta. now rewrite E.
Qed.

Definition quiet (h : hp) : Prop := is_open (h_p h) = false.
Definition elem (c : HtModel.call) : bool := match c with CElem _ _ _ _ _ => true | _ => false end.
Lemma doctype_nothing : forall h q, quiet h -> h_doctype k q public system h = Ok h.
Proof.
  intros h q H. unfold h_doctype, on_p, doctype, close_tag. rewrite Hpub, Hsys, H. rewrite andb_false_r. cbn [andb bind rmap]. destruct h; reflexivity.
Qed.
Lemma rmap_quiet : forall h (r : result printer) h', (forall p, r = Ok p -> is_open p = false) -> rmap (set_p h) r = Ok h' -> quiet h'.
Proof. intros h r h' H E. destruct r as [p|e]; [|discriminate E]. cbn [rmap] in E. injection E as <-. unfold quiet. cbn [set_p h_p]. now apply H. Qed.
Lemma set_x_open : forall p x, is_open (set_x p x) = is_open p.
Proof. reflexivity. Qed.
Lemma ascii_open : forall p s p', p_ascii p s = Ok p' -> is_open p' = is_open p.
Proof. intros p s p' H. unfold p_ascii in H. destruct (write_ascii _ _) as [x|e]; [|discriminate H]. cbn [rmap] in H. injection H as <-. reflexivity. Qed.
Lemma encode_open : forall p s p', p_encode p s = Ok p' -> is_open p' = is_open p.
Proof. intros p s p' H. unfold p_encode in H. destruct (write_encode _ _) as [x|e]; [|discriminate H]. cbn [rmap] in H. injection H as <-. reflexivity. Qed.
Lemma escape_open : forall p s e p', p_escape true p s e = Ok p' -> is_open p' = is_open p.
Proof. intros p s e p' H. unfold p_escape in H. destruct (write_escape _ _ _ _) as [x|e']; [|discriminate H]. cbn [rmap] in H. injection H as <-. reflexivity. Qed.
Lemma close_open : forall p p', close_tag p = Ok p' -> is_open p' = false.
Proof.
  intros p p' H. unfold close_tag in H. destruct (is_open p) eqn:E; [|injection H as <-; exact E]. destruct (p_ascii p (lit ">")) as [p1|e]; [|discriminate H]. cbn [bind] in H. injection H as <-. reflexivity.
Qed.
Ltac opens := repeat match goal with
  | H : bind ?r _ = Ok _ |- _ => let E := fresh "E" in destruct r eqn:E; [|discriminate H]; cbn [bind] in H
  end.
Lemma comment_open : forall d p p', comment0 d p = Ok p' -> is_open p' = false.
Proof.
  intros d p p' H. unfold comment0 in H. opens. apply close_open in E. apply ascii_open in E0, H. apply encode_open in E1. congruence.
Qed.
Lemma pi_open : forall t d p p', html_pi t d p = Ok p' -> is_open p' = false.
Proof.
  intros t d p p' H. unfold html_pi in H. opens. apply close_open in E. apply ascii_open in E0, H. apply encode_open in E1. destruct d as [|c d].
  - injection E2 as <-. congruence.
  - opens. apply ascii_open in E3. apply encode_open in E2. congruence.
Qed.
Lemma text_open : forall e d p p', x_text e d p = Ok p' -> is_open p' = false.
Proof. intros e d p p' H. unfold x_text in H. opens. apply close_open in E. apply escape_open in H. congruence. Qed.
Lemma on_p_quiet : forall f h h', (forall p p', f p = Ok p' -> is_open p' = false) -> on_p h f = Ok h' -> quiet h'.
Proof. intros f h h' H E. unfold on_p in E. eapply rmap_quiet; [|exact E]. intros p Hp. eapply H. exact Hp. Qed.
Lemma other_quiet : forall f h h', (forall p p', f p = Ok p' -> is_open p' = false) -> indent_other f h = Ok h' -> quiet h'.
Proof.
  intros f h h' H E. unfold indent_other in E. opens. destruct (h_inline _) as [|t r]; [discriminate E|]. opens. eapply on_p_quiet; [exact H|exact E].
Qed.
Lemma print_quiet : forall c h h', elem c = false -> h_print low k c h = Ok h' -> quiet h'.
Proof.
  intros c h h' He H. assert (HI : is_html k = true) by (destruct Hk as [-> | ->]; reflexivity). destruct c as [ns q d a l|s|s|t d]; [discriminate He| | |]; cbn [h_print] in H.
  - unfold h_text in H. eapply on_p_quiet; [|exact H]. apply text_open.
  - unfold h_comment in H. destruct Hk as [-> | ->]; [eapply on_p_quiet|eapply other_quiet]; try exact H; apply comment_open.
  - unfold h_pi in H. rewrite HI in H. destruct Hk as [-> | ->]; [eapply on_p_quiet|eapply other_quiet]; try exact H; apply pi_open.
Qed.

Lemma nodup_first : forall (A : Type) (a b : list A), NoDup (a ++ b) -> NoDup a.
Proof.
  intros A a b. induction a as [|x a IH]; intro H; [constructor|]. cbn [app] in H. inversion H as [|? ? H1 H2]; subst. constructor; [|auto]. intro Hi. apply H1. apply in_or_app. now left.
Qed.

(** ** One node, and several *)
Definition printed (need : bool) (n : nat) (head : bool) (h : hp) (c : HtModel.call) : result hwriter :=
  bind (h_print low k (snd (with_meta meta_call head (ordered c))) h)
    (fun h1 => Ok (ready (need && negb (elem c)) n (fst (with_meta meta_call head (ordered c))) h1)).
Definition printed_all (n : nat) (head : bool) (h : hp) (l : list HtModel.call) : result hwriter :=
  bind (h_print_all low k (snd (all_with_meta meta_call head (map ordered l))) h)
    (fun h1 => Ok (ready false n (fst (all_with_meta meta_call head (map ordered l))) h1)).
Lemma all_printed : forall l ls, Forall2 makes l ls -> Forall simple l ->
  Forall (fun c => forall os, makes c os -> simple c -> forall need n head h, (need = true -> quiet h) -> html_calls os (ready need n head h) = printed need n head h c) l ->
  forall n head h, html_calls (concat ls) (ready false n head h) = printed_all n head h l.
Proof.
  intros l ls HM. induction HM as [|c os l ls Hc HM IH]; intros HS HF n head h; [reflexivity|].
  inversion HS as [|? ? HS1 HS2]; subst. inversion HF as [|? ? HF1 HF2]; subst. cbn [concat]. rewrite html_calls_app. rewrite (HF1 os Hc HS1) by (intro; discriminate).
  unfold printed, printed_all. cbn [map all_with_meta h_print_all andb fst snd]. destruct (h_print low k _ h) as [h1|e]; [|reflexivity]. cbn [bind]. rewrite (IH HS2 HF2). reflexivity.
Qed.
Lemma is_content_first : forall c os, makes c os -> exists o os', os = o :: os' /\ match o with OAttr _ _ _ | ONs _ _ => False | _ => True end.
Proof. intros c os H. destruct H; eexists; eexists; (split; [reflexivity|exact Logic.I]). Qed.
Lemma complete_first : forall ks q n head h A e, q <> [] -> (exists l, Forall2 makes l ks) ->
  html_calls (concat ks ++ [OEnd q e]) (pending n head h q A) = bind (html_complete (pending n head h q A)) (html_calls (concat ks ++ [OEnd q e])).
Proof.
  intros ks q n head h A e Hq (l & HM). destruct HM as [|c os l ks Hc HM].
  - cbn [concat app html_calls]. rewrite complete_twice by (auto; exact Logic.I). destruct (html_complete _) as [w|ex]; reflexivity.
  - destruct (is_content_first c os Hc) as (o & os' & -> & Ho). cbn [concat app html_calls]. rewrite complete_twice by assumption. destruct (html_complete _) as [w|ex]; reflexivity.
Qed.
Lemma one_printed : forall c os, makes c os -> simple c -> forall need n head h, (need = true -> quiet h) -> html_calls os (ready need n head h) = printed need n head h c.
Proof.
  induction c as [ns q d a l IH|s|s|t d] using call_ind2; intros os HM HS need n head h Hq.
  - inversion HM as [| | |? a1 a2 ? ks HK]; subst. inversion HS as [| | |? ? ? Hne Hcol Hac HN HSk]; subst.
    cbn [html_calls OpModel.html_call]. rewrite complete_ready. cbn [bind ready hw_w hw_h w_need_doctype w_nss w_p w_atts].
    assert ((if need then h_doctype k q public system h else Ok h) = Ok h) as -> by (destruct need; [apply doctype_nothing; auto|reflexivity]). cbn [bind repeat].
    rewrite split_none by assumption. cbn [fst].
    change (wset (wupdate namespaces0 []) None None) with namespaces0. apply Forall_app in Hac as [Hac1 Hac2].
    change ({| w_p := p0; w_need_doctype := false; w_name := Some q; w_nss := namespaces0 :: namespaces0 :: repeat namespaces0 n; w_atts := [] |})
      with (hw_w (pending n head h q (map key_of []))).
    rewrite attributes_pending; auto; [|rewrite app_nil_l; rewrite map_app in HN; now apply nodup_first in HN]. unfold hw_set. cbn [bind app ready hw_head hw_meta].
    change {| hw_w := hw_w (pending n head h q (map key_of a1)); hw_ns := None; hw_h := h; hw_head := head; hw_meta := m |} with (pending n head h q (map key_of a1)).
    rewrite html_calls_app, attribute_calls by auto. cbn [bind]. rewrite complete_first by eauto. rewrite complete_pending by assumption.
    unfold printed. cbn [ordered]. fold (order (a1 ++ a2)). rewrite with_meta_elem. cbn [fst snd]. rewrite h_print_elem. unfold opened.
    destruct (h_start low k None q [] (order (a1 ++ a2)) h) as [h1|e]; [|reflexivity]. cbn [bind elem negb andb]. rewrite andb_false_r.
    assert (EH : head && negb (is_head q) = head && negb (head && is_head q)) by (destruct head, (is_head q); reflexivity). rewrite EH.
    assert (HB : forall h2, html_calls (concat ks ++ [OEnd q None]) (ready false (S n) (head && negb (head && is_head q)) h2) =
      bind (h_print_all low k (snd (all_with_meta meta_call (head && negb (head && is_head q)) (map ordered l))) h2)
        (fun h3 => bind (h_end low k None q h3) (fun h4 => Ok (ready false n (fst (all_with_meta meta_call (head && negb (head && is_head q)) (map ordered l))) h4)))).
    { intro h2. rewrite html_calls_app. rewrite (all_printed l ks HK HSk IH). unfold printed_all. destruct (h_print_all low k _ h2) as [h3|e]; [|reflexivity]. cbn [bind html_calls OpModel.html_call].
      rewrite complete_ready. cbn [bind ready hw_h hw_w w_nss repeat]. destruct (h_end low k None q h3) as [h4|e]; reflexivity. }
    destruct (head && is_head q) eqn:EI.
    + cbn [h_print_all]. destruct (h_print low k meta_call h1) as [h2|e]; [|reflexivity]. cbn [bind]. rewrite HB.
      destruct (h_print_all low k _ h2) as [h3|e]; [|reflexivity]. cbn [bind]. destruct (h_end low k None q h3) as [h4|e]; reflexivity.
    + cbn [bind]. rewrite HB. destruct (h_print_all low k _ h1) as [h3|e]; [|reflexivity]. cbn [bind]. destruct (h_end low k None q h3) as [h4|e]; reflexivity.
  - inversion HM; subst. cbn [html_calls OpModel.html_call]. rewrite complete_ready. cbn [bind]. unfold printed. cbn [ordered with_meta snd fst h_print elem negb ready hw_h]. rewrite andb_true_r. destruct (h_text k s h) as [h1|e]; reflexivity.
  - inversion HM; subst. cbn [html_calls OpModel.html_call]. rewrite complete_ready. cbn [bind]. unfold printed. cbn [ordered with_meta snd fst h_print elem negb ready hw_h]. rewrite andb_true_r. destruct (h_comment k s h) as [h1|e]; reflexivity.
  - inversion HM; subst. inversion HS as [| |? ? HT|]; subst. cbn [html_calls OpModel.html_call]. rewrite complete_ready. cbn [bind]. rewrite strip_trim, HT. unfold printed. cbn [ordered with_meta snd fst h_print elem negb ready hw_h]. rewrite andb_true_r. destruct (h_pi k t d h) as [h1|e]; reflexivity.
Qed.
Lemma doc_printed : forall l ls, Forall2 makes l ls -> Forall simple l -> forall need head h, (need = true -> quiet h) ->
  bind (html_calls (concat ls) (ready need 0 head h)) (fun w => bind (html_complete w) (fun w1 => Ok (hw_h w1))) =
  h_print_all low k (snd (all_with_meta meta_call head (map ordered l))) h.
Proof.
  intros l ls HM. induction HM as [|c os l ls Hc HM IH]; intros HS need head h Hq.
  - cbn [concat html_calls bind map all_with_meta snd h_print_all]. rewrite complete_ready. reflexivity.
  - inversion HS as [|? ? HS1 HS2]; subst. cbn [concat]. rewrite html_calls_app. rewrite (one_printed c os Hc HS1 need 0%nat head h Hq).
    unfold printed. cbn [map all_with_meta fst snd h_print_all]. destruct (h_print low k _ h) as [h1|e] eqn:E; [|reflexivity]. cbn [bind].
    apply (IH HS2). intro Hn. apply andb_true_iff in Hn as [Hn1 Hn2]. apply negb_true_iff in Hn2. apply (print_quiet (snd (with_meta meta_call head (ordered c))) h h1); [|exact E].
    destruct c; [discriminate Hn2| | |]; reflexivity.
Qed.
End Run.

(** ** Conditions on the page are kept *)
Section Kept.
Variables (orda : wattrs -> wattrs) (mc : HtModel.call).
Hypothesis Hord : forall l, Permutation (orda l) l.
Notation ordered := (ordered orda).
Notation order := (order orda).
Lemma order_perm' : forall a, Permutation a (order a).
Proof. intro a. apply (order_perm (fun d => d) orda). split; [intro; apply Permutation_refl|exact Hord]. Qed.
Lemma ordered_ok : forall c, html_ok c -> html_ok (ordered c).
Proof.
  induction c as [ns q d a l IH|s|s|t d] using call_ind2; intro H; try exact H. inversion H as [| | |? ? ? ? H1 H2 H3 H4 H5 H6 H7]; subst. cbn [OpHtml.ordered]. constructor; auto.
  - eapply Permutation_Forall; [apply order_perm'|exact H4].
  - intro He. rewrite (H5 He). reflexivity.
  - intro Hc. specialize (H6 Hc). clear -H6. induction H6 as [|c l (s & -> & Hs) H6 IH]; [constructor|]. cbn [map OpHtml.ordered]. constructor; [eauto|exact IH].
  - clear -IH H7. induction H7 as [|c l Hc H7 IH2]; [constructor|]. inversion IH; subst. cbn [map]. constructor; auto.
Qed.
Lemma ordered_raw : forall (P : str -> Prop) c, Forall P (raw c) -> Forall P (raw (ordered c)).
Proof.
  intro P. induction c as [ns q d a l IH|s|s|t d] using call_ind2; intro H; try exact H. cbn [OpHtml.ordered raw] in *. inversion H as [|? ? H1 H2]; subst.
  apply Forall_app in H2 as [H2 H3]. apply Forall_app in H3 as [H3 H4]. constructor; [exact H1|]. apply Forall_app. split; [exact H2|]. apply Forall_app. split.
  - eapply Permutation_Forall; [apply Permutation_map, order_perm'|exact H3].
  - clear -IH H4. induction l as [|c l IHl]; [constructor|]. cbn [map flat_map] in *. inversion IH; subst. apply Forall_app in H4 as [H4 H5]. apply Forall_app. split; auto.
Qed.
Lemma awm_raw_aux : forall (P : str -> Prop) l, Forall (fun c => forall t, Forall P (raw c) -> Forall P (raw (snd (with_meta mc t c)))) l ->
  forall t, Forall P (flat_map raw l) -> Forall P (flat_map raw (snd (all_with_meta mc t l))).
Proof.
  intros P l H. induction H as [|c l Hc H IH]; intros t HF; [constructor|]. cbn [all_with_meta flat_map snd] in *. apply Forall_app in HF as [H1 H2]. apply Forall_app. split; auto.
Qed.
Lemma meta_raw : forall (P : str -> Prop) c t, Forall P (raw mc) -> Forall P (raw c) -> Forall P (raw (snd (with_meta mc t c))).
Proof.
  intros P c t Hm. revert t. induction c as [ns q d a l IH|s|s|x d] using call_ind2; intros t H; try exact H. rewrite with_meta_elem. cbn [snd raw] in *. inversion H as [|? ? H1 H2]; subst.
  apply Forall_app in H2 as [H2 H3]. apply Forall_app in H3 as [H3 H4]. constructor; [exact H1|]. apply Forall_app. split; [exact H2|]. apply Forall_app. split; [exact H3|].
  pose proof (awm_raw_aux P l IH (t && negb (t && is_head q)) H4) as H5. destruct (t && is_head q); [|exact H5]. cbn [flat_map]. apply Forall_app. auto.
Qed.
Lemma head_content : forall q, is_head q = true -> empty_element q = false /\ cdata_element q = false.
Proof. intros q H. unfold is_head in H. destruct (str_eqb_spec (lower q) (lit "head")) as [E|E]; [|discriminate H]. unfold empty_element, cdata_element. rewrite E. split; vm_compute; reflexivity. Qed.
Lemma awm_ok_aux : forall l, Forall (fun c => forall t, html_ok c -> html_ok (snd (with_meta mc t c))) l -> forall t, Forall html_ok l -> Forall html_ok (snd (all_with_meta mc t l)).
Proof.
  intros l H. induction H as [|c l Hc H IH]; intros t HF; [constructor|]. cbn [all_with_meta snd]. inversion HF; subst. constructor; auto.
Qed.
Lemma meta_ok : forall c t, html_ok mc -> html_ok c -> html_ok (snd (with_meta mc t c)).
Proof.
  intros c t Hm. revert t. induction c as [ns q d a l IH|s|s|x d] using call_ind2; intros t H; try exact H. rewrite with_meta_elem. cbn [snd]. inversion H as [| | |? ? ? ? H1 H2 H3 H4 H5 H6 H7]; subst.
  pose proof (awm_ok_aux l IH (t && negb (t && is_head q)) H7) as HK. destruct (t && is_head q) eqn:E.
  - apply andb_true_iff in E as [_ E]. apply head_content in E as [E1 E2]. constructor; auto; intro HX; congruence.
  - constructor; auto.
    + intro He. rewrite (H5 He). reflexivity.
    + intro Hc. specialize (H6 Hc). clear -H6. generalize (t && negb false). induction H6 as [|c l (s & -> & Hs) H6 IH]; intro b; [constructor|]. cbn [all_with_meta with_meta fst snd]. constructor; eauto.
Qed.
Lemma reordered_refl : forall c, reordered c c.
Proof.
  induction c as [ns q d a l IH|s|s|x d] using call_ind2; constructor; [apply Permutation_refl|]. induction IH; constructor; auto.
Qed.
Lemma awm_reordered_aux : forall l, Forall (fun c => forall t, fst (with_meta mc t c) = fst (with_meta mc t (ordered c)) /\ reordered (snd (with_meta mc t c)) (snd (with_meta mc t (ordered c)))) l ->
  forall t, fst (all_with_meta mc t l) = fst (all_with_meta mc t (map ordered l)) /\ Forall2 reordered (snd (all_with_meta mc t l)) (snd (all_with_meta mc t (map ordered l))).
Proof.
  intros l H. induction H as [|c l Hc H IH]; intro t; [split; [reflexivity|constructor]|]. cbn [all_with_meta map fst snd]. destruct (Hc t) as [E1 E2]. rewrite <- E1. destruct (IH (fst (with_meta mc t c))) as [E3 E4]. split; [exact E3|constructor; assumption].
Qed.
Lemma meta_reordered : forall c t, fst (with_meta mc t c) = fst (with_meta mc t (ordered c)) /\ reordered (snd (with_meta mc t c)) (snd (with_meta mc t (ordered c))).
Proof.
  induction c as [ns q d a l IH|s|s|x d] using call_ind2; intro t; try (split; [reflexivity|constructor]). cbn [OpHtml.ordered]. rewrite !with_meta_elem. cbn [fst snd].
  destruct (awm_reordered_aux l IH (t && negb (t && is_head q))) as [E1 E2]. split; [exact E1|]. constructor; [apply order_perm'|]. destruct (t && is_head q); [constructor; [apply reordered_refl|]|]; exact E2.
Qed.
End Kept.

(** ** The whole output *)
Lemma op_html_calls : forall low ordn orda ps k l w, op_calls low ordn orda ps l (WHtml k w) =
  rmap (WHtml k) (html_calls low ordn orda (o_public ps) (o_system ps) k l w).
Proof.
  intros low ordn orda ps k l. induction l as [|c l IH]; intro w; [reflexivity|]. cbn [op_calls op_call html_calls]. destruct (html_call low ordn orda _ _ k c w) as [w1|e]; [|reflexivity]. cbn [bind]. apply IH.
Qed.
Definition html_kind (ps : params) : kind := if indent_html ps then HtmlIndent else Html.
Lemma html_direct : forall low codecs ordn orda ps l ls cd, lowers_names low -> any_dict_order ordn orda -> o_method ps = Some (None, lit "html") -> no_doctype ps ->
  ascii (version_of (lit "4.0") ps) -> ascii (encoding_of (lit "iso-8859-1") ps) -> codecs (encoding_of (lit "iso-8859-1") ps) = Some cd ->
  Forall2 makes l ls -> Forall simple l ->
  snd (transform low codecs ordn orda ps (concat ls)) =
  h_output low (html_kind ps) (xmlstream_new cd) (Some (version_of (lit "4.0") ps)) (encoding_of (lit "iso-8859-1") ps)
    (snd (all_with_meta (meta (media_of (lit "text/html") ps) (encoding_of (lit "iso-8859-1") ps)) true (map (ordered orda) l))).
Proof.
  intros low codecs ordn orda ps l ls cd HL HO Hm (HP & HS) HV HE Hcd HM HSi. rewrite (transform_declared _ _ _ _ _ _ _ Hm). unfold direct, lookup. rewrite Hm.
  change (str_eqb (lit "html") (lit "text")) with false. change (str_eqb (lit "html") (lit "html")) with true. cbn iota. cbn [op_start]. unfold html_start_document. cbv zeta.
  change (dflt (o_version ps) (lit "4.0")) with (version_of (lit "4.0") ps). change (dflt (o_encoding ps) (lit "iso-8859-1")) with (encoding_of (lit "iso-8859-1") ps).
  change (dflt (o_media ps) (lit "text/html")) with (media_of (lit "text/html") ps). change (dflt (o_indent ps) true) with (indent_html ps).
  set (V := version_of _ ps) in *. set (E := encoding_of _ ps) in *. set (M := media_of _ ps).
  assert (HA : forall s, ascii s -> ascii_only s = true).
  { intros s Hs. apply forallb_forall. intros c Hc. apply N.ltb_lt. unfold ascii in Hs. rewrite Forall_forall in Hs. auto. }
  rewrite (HA V HV), (HA E HE). cbn [snd]. rewrite Hcd. fold (html_kind ps).
  assert (HK : html_kind ps = Html \/ html_kind ps = HtmlIndent) by (unfold html_kind; destruct (indent_html ps); auto).
  assert (HT : truthy (o_public ps) = false /\ truthy (o_system ps) = false).
  { split; [destruct (o_public ps) as [s|]; [rewrite (HP s eq_refl)|]|destruct (o_system ps) as [s|]; [rewrite (HS s eq_refl)|]]; reflexivity. }
  destruct HT as [HT1 HT2].
  assert (is_html (html_kind ps) = true) as HI by (destruct HK as [-> | ->]; reflexivity).
  unfold h_output. unfold h_start_document. rewrite HI. set (h0 := set_maps _ _). cbn [bind]. rewrite op_html_calls. cbn [set_all o_public o_system].
  pose proof (doc_printed low ordn orda (o_public ps) (o_system ps) (html_kind ps) (printer_new (xmlstream_new cd)) (M ++ lit "; charset=" ++ E) HL HO HT1 HT2 HK l ls HM HSi true true h0 (fun _ => eq_refl)) as D.
  change (meta_call (M ++ lit "; charset=" ++ E)) with (meta M E) in D. rewrite <- D. clear D.
  change {| hw_w := writer0 (printer_new (xmlstream_new cd)) true; hw_ns := None; hw_h := h0; hw_head := true; hw_meta := M ++ lit "; charset=" ++ E |}
    with (ready (printer_new (xmlstream_new cd)) (M ++ lit "; charset=" ++ E) true 0 true h0).
  destruct (html_calls low ordn orda (o_public ps) (o_system ps) (html_kind ps) (concat ls) _) as [w|e]; [|reflexivity]. cbn [rmap bind op_end].
  destruct (html_complete low ordn orda (html_kind ps) w) as [w1|e]; [|reflexivity]. cbn [bind]. destruct (on_p (hw_h w1) (end_document false)) as [h|e]; reflexivity.
Qed.
