(** * Proofs about the instructions that make elements and attributes *)
From Coq Require Import NArith ZArith String List Bool Lia Arith Permutation.
From Verif Require Import PyStr PyErr XsModel SerModel SerSpec SerTree SerNs SerProps XwModel XwSpec XwProofs XwProps XcModel XcSpec XcProps XlModel XlSpec.
Import ListNotations.
Open Scope N_scope.

Scheme gives_m := Induction for gives Sort Prop
  with gives_all_m := Induction for gives_all Sort Prop
  with sets_give_m := Induction for sets_give Sort Prop
  with defs_give_m := Induction for defs_give Sort Prop.
Combined Scheme gives_mut from gives_m, gives_all_m, sets_give_m, defs_give_m.

Definition acall (a : watt) : call := Attribute (qn (t_prefix a) (t_local a)) (t_value a) (t_ns a).

Lemma concat_results_app : forall l1 l2 a b, concat_results l1 = Ok a -> concat_results l2 = Ok b -> concat_results (l1 ++ l2) = Ok (a ++ b).
Proof.
  induction l1 as [|r l1 IH]; intros l2 a b H1 H2; cbn [concat_results app] in *; [injection H1 as <-; exact H2|].
  destruct r as [x|e]; [|discriminate]. cbn [bind] in *. destruct (concat_results l1) as [y|e] eqn:E; [|discriminate]. cbn [bind] in H1. injection H1 as <-.
  rewrite (IH _ _ _ eq_refl H2). cbn [bind]. now rewrite app_assoc.
Qed.
Lemma qualify_qn : forall p l, fine_prefix p -> qualify p l = qn p l.
Proof. intros [[|c p]|] l H; [now destruct H| |]; reflexivity. Qed.
Lemma text_of_texts : forall ws, forallb is_wtext ws = true -> text_of (flat_map calls ws) = Ok (text_value ws).
Proof.
  induction ws as [|w ws IH]; intro H; [reflexivity|]. cbn [forallb] in H. apply andb_prop in H as [H1 H2]. destruct w; try discriminate.
  cbn [flat_map calls app text_of]. rewrite (IH H2). reflexivity.
Qed.

Section Main.
  Variable env : Type.
  Variable global : env.
  Variable sets : list (set_def env).
  Hypothesis Hsets : NoDup (map s_name sets).

  Lemma sname_eqb_spec : forall a b : sname, reflect (a = b) (wkey_eqb a b).
  Proof. exact wkey_eqb_spec. Qed.
  Lemma ename_wkey : forall a b : sname, ename_eqb a b = wkey_eqb a b.
  Proof.
    intros a b. destruct (sname_eqb_spec a b) as [E|Hn]; [now apply ename_eqb_eq|].
    destruct (ename_eqb a b) eqn:E; [|reflexivity]. apply ename_eqb_eq in E. contradiction.
  Qed.
  Lemma find_defs : forall n, defs_of env sets n = match find_set sets n with Some d => [d] | None => [] end.
  Proof.
    intro n. unfold defs_of. induction sets as [|d l IH]; [reflexivity|]. cbn [map] in Hsets. inversion Hsets as [|? ? Hd Hl]; subst. cbn [filter find_set]. rewrite (IH Hl), ename_wkey.
    destruct (sname_eqb_spec (s_name d) n) as [E|E]; [|now destruct (find_set l n)].
    destruct (find_set l n) as [d'|] eqn:F; [|reflexivity]. exfalso. apply Hd. rewrite E.
    assert (HF : find_set l n = Some d' -> In n (map s_name l)).
    { clear. induction l as [|x l IH]; [discriminate|]. cbn [find_set map]. destruct (find_set l n) as [y|]; [intros [= ->]; right; now apply IH|].
      destruct (sname_eqb_spec (s_name x) n) as [E|]; [left; exact E|discriminate]. }
    now apply HF.
  Qed.
  Definition set_result (f : nat) (d : set_def env) : result (list call) :=
    do u <- use_sets global sets f NameError (s_uses d) ; do b <- concat_results (map (inst global sets f global) (s_body d)) ; Ok (u ++ b).
  Lemma use_sets_S : forall k missing uses, use_sets global sets (S k) missing uses =
    concat_results (map (fun n => match find_set sets n with None => Err missing | Some d => set_result k d end) uses).
  Proof. reflexivity. Qed.
  Lemma namespace_elem : forall nsa nsmap e p ns, namespace_for env false nsa nsmap e p ns -> element_namespace nsa nsmap e p = Ok ns.
  Proof.
    intros nsa nsmap e p ns H. unfold namespace_for in H. unfold element_namespace. destruct nsa as [f|].
    - destruct H as (s & Hs & ->). rewrite Hs. cbn [bind named]. destruct s; reflexivity.
    - destruct p; rewrite H; reflexivity.
  Qed.
  Lemma namespace_attr : forall nsa nsmap e p ns, namespace_for env true nsa nsmap e p ns -> attribute_namespace nsa nsmap e p = Ok ns.
  Proof.
    intros nsa nsmap e p ns H. unfold namespace_for in H. unfold attribute_namespace. destruct nsa as [f|].
    - destruct H as (s & Hs & ->). rewrite Hs. cbn [bind named]. destruct s; reflexivity.
    - destruct p; rewrite H; reflexivity.
  Qed.
  Lemma inst_mut :
    (forall e i a k, gives env global sets e i a k -> exists f0, forall f, (f0 <= f)%nat -> inst global sets f e i = Ok (map acall a ++ flat_map calls k)) /\
    (forall e b a k, gives_all env global sets e b a k -> exists f0, forall f, (f0 <= f)%nat -> inst_all global sets f e b = Ok (map acall a ++ flat_map calls k)) /\
    (forall uses a, sets_give env global sets uses a -> exists f0, forall f, (f0 <= f)%nat -> forall missing, use_sets global sets f missing uses = Ok (map acall a)) /\
    (forall ds a, defs_give env global sets ds a -> exists f0, forall f, (f0 <= f)%nat -> concat_results (map (set_result f) ds) = Ok (map acall a)).
  Proof.
    apply gives_mut.
    - intros e f ws H. exists 1%nat. intros [|k] Hk; [lia|]. cbn [inst map app]. exact H.
    - intros e p l ns nss attrs lits uses satts body batts kids HA HS [f1 F1] HB [f2 F2]. exists (S (f1 + f2)). intros [|k] Hk; [lia|]. cbn [inst].
      assert (EA : literal_attrs e attrs = Ok (map acall lits)).
      { clear - HA. induction HA as [|[[q ns] v] w la lw (s & H1 & H2 & H3) _ IH]; [reflexivity|]. cbn [literal_attrs map]. cbn [fst snd] in H1, H2, H3. rewrite H1. cbn [bind]. rewrite IH. cbn [bind].
        rewrite H2 in H3 |- *. cbn [t_prefix t_local] in H3. subst q. reflexivity. }
      rewrite EA. cbn [bind]. rewrite (F1 k ltac:(lia)). cbn [bind]. specialize (F2 k ltac:(lia)). unfold inst_all in F2. rewrite F2. cbn [bind map app flat_map calls].
      f_equal. rewrite !app_nil_r. f_equal. rewrite !map_app, <- !app_assoc. reflexivity.
    - intros e nm nsa nsmap uses body p l ns satts batts kids Hn Hp Hns HS [f1 F1] HB [f2 F2]. exists (S (f1 + f2)). intros [|k] Hk; [lia|]. cbn [inst].
      rewrite Hn. cbn [bind fst snd]. rewrite (namespace_elem _ _ _ _ _ Hns). cbn [bind]. rewrite (F1 k ltac:(lia)). cbn [bind]. specialize (F2 k ltac:(lia)). unfold inst_all in F2. rewrite F2. cbn [bind map app flat_map calls].
      rewrite (qualify_qn _ _ Hp). f_equal. rewrite !app_nil_r. f_equal. rewrite !map_app, <- !app_assoc. reflexivity.
    - intros e nm nsa nsmap body p l ns content Hn Hp Hx Hns HB [f2 F2] HT. exists (S f2). intros [|k] Hk; [lia|]. cbn [inst].
      rewrite Hn. cbn [bind fst snd].
      assert (EX : match p with Some (_ :: _) => false | _ => str_eqb l (lit "xmlns") end = false).
      { destruct p as [[|c p]|]; [now destruct Hp|reflexivity|]. destruct (str_eqb_spec l (lit "xmlns")); [now destruct (Hx eq_refl)|reflexivity]. }
      rewrite EX, (namespace_attr _ _ _ _ _ Hns). cbn [bind]. specialize (F2 k ltac:(lia)). unfold inst_all in F2. rewrite F2. cbn [bind map app].
      rewrite (text_of_texts _ HT). cbn [bind flat_map]. rewrite (qualify_qn _ _ Hp). reflexivity.
    - intro e. exists O. intros f _. reflexivity.
    - intros e i body a k a' k' HI [f1 F1] HB [f2 F2] HK. exists (f1 + f2)%nat. intros f Hf. unfold inst_all in *. cbn [map concat_results].
      rewrite (F1 f ltac:(lia)). cbn [bind]. rewrite (F2 f ltac:(lia)). cbn [bind]. f_equal. rewrite map_app, flat_map_app.
      destruct HK as [-> | ->]; cbn [flat_map map app]; rewrite ?app_nil_r, <- ?app_assoc; reflexivity.
    - exists O. intros [|f] _ missing; reflexivity.
    - intros n uses a a' HN HD [f1 F1] HS [f2 F2]. exists (S (f1 + f2)). intros [|k] Hk missing; [lia|]. rewrite use_sets_S. cbn [map concat_results].
      rewrite find_defs in HN, F1. destruct (find_set sets n) as [d|]; [|now destruct HN].
      specialize (F1 k ltac:(lia)). cbn [map concat_results] in F1. destruct (set_result k d) as [x|]; [|discriminate]. cbn [bind] in F1 |- *. rewrite app_nil_r in F1. injection F1 as ->.
      specialize (F2 (S k) ltac:(lia) missing). rewrite use_sets_S in F2. rewrite F2. cbn [bind]. now rewrite map_app.
    - exists O. intros f _. reflexivity.
    - intros d ds u a a' HU [f1 F1] HB [f2 F2] HD [f3 F3]. exists (f1 + f2 + f3)%nat. intros f Hf. cbn [map concat_results]. unfold set_result at 1.
      rewrite (F1 f ltac:(lia)). cbn [bind]. specialize (F2 f ltac:(lia)). unfold inst_all in F2. rewrite F2. cbn [bind flat_map]. rewrite (F3 f ltac:(lia)). cbn [bind].
      f_equal. rewrite !map_app, app_nil_r. reflexivity.
  Qed.
End Main.
