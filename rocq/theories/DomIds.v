(** * Node identifiers *)
From Coq Require Import NArith ZArith String List Bool Lia Arith.
From Verif Require Import PyStr PyErr DomModel DomSpec DomCells DomInv DomOps DomStep DomOrder.
From Verif Require SerModel SerSpec SerStream.
Import ListNotations.
Local Open Scope nat_scope.

(** ** Decimal numbers *)
Lemma dec_same n : dec_str n = SerModel.dec_str n.
Proof. reflexivity. Qed.
Lemma dec_inj m n : dec_str m = dec_str n -> m = n.
Proof.
  intros E. apply (f_equal (SerSpec.number 10 false 0)) in E. rewrite !dec_same in E.
  pose proof (SerStream.number_dec_str m) as H1. pose proof (SerStream.number_dec_str n) as H2.
  enough (Some m = Some n) as X by now injection X. exact (eq_trans (eq_sym H1) (eq_trans E H2)).
Qed.
Lemma dec_digits n : Forall (fun c => (48 <= c <= 57)%N) (dec_str n).
Proof. rewrite dec_same. apply SerStream.dec_str_digits. Qed.

(** ** Segments: a letter and a number each *)
Definition seg (x : N * N) : str := fst x :: dec_str (snd x).
Definition letter (c : N) : Prop := (57 < c)%N.
Lemma digits_split (a b a' b' : str) : Forall (fun c => (48 <= c <= 57)%N) a -> Forall (fun c => (48 <= c <= 57)%N) b ->
  (match a' with [] => True | c :: _ => letter c end) -> (match b' with [] => True | c :: _ => letter c end) -> a ++ a' = b ++ b' -> a = b /\ a' = b'.
Proof.
  intros Ha. revert b. induction Ha as [|c a Hc Ha IH]; intros b Hb La Lb E.
  - destruct Hb as [|d b Hd Hb]; [auto|]. cbn in E. subst a'. unfold letter in La. lia.
  - destruct Hb as [|d b Hd Hb]; cbn in E.
    + subst b'. unfold letter in Lb. lia.
    + injection E as -> E. destruct (IH b Hb La Lb E) as [-> ->]. auto.
Qed.
Definition letters (l : list (N * N)) : Prop := Forall (fun x => letter (fst x)) l.
Lemma seg_head l : letters l -> match flat_map seg l with [] => True | c :: _ => letter c end.
Proof. intros H. destruct H as [|x l Hx _]; cbn; [exact I|exact Hx]. Qed.
Lemma segs_inj l : letters l -> forall m, letters m -> flat_map seg l = flat_map seg m -> l = m.
Proof.
  intros H. induction H as [|x l Hx Hl IH]; intros m Hm E; destruct Hm as [|y m Hy Hm]; cbn in E; try discriminate; [reflexivity|].
  injection E as E1 E2. apply digits_split in E2; [|apply dec_digits|apply dec_digits|now apply seg_head|now apply seg_head].
  destruct E2 as [E2 E3]. apply dec_inj in E2. f_equal; [destruct x, y; cbn in *; congruence|auto].
Qed.

(** ** The segments of a node *)
Inductive ident (addr : nat -> N) (s : store) : nat -> list (N * N) -> Prop :=
| ident_root i n : get s i = Some n -> n_parent n = None -> ident addr s i [(typecode (n_kind n), if kind_eqb (n_kind n) KEntity then n_index n else addr i)]
| ident_step i n p l k : get s i = Some n -> n_parent n = Some p -> ident addr s p l ->
    nth_error (if kind_eqb (n_kind n) KAttr then attrs_of s p else kids s p) k = Some i ->
    ident addr s i (l ++ [(typecode (n_kind n), N.of_nat (if kind_eqb (n_kind n) KAttr then S k else k))]).
Lemma typecode_letter k : letter (typecode k).
Proof. destruct k; unfold letter; cbn; lia. Qed.
Lemma typecode_inj a b : typecode a = typecode b -> a = b.
Proof. destruct a, b; cbn; congruence. Qed.
Lemma ident_letters addr s i l : ident addr s i l -> letters l.
Proof.
  intros H. induction H as [i n G P|i n p l k G P H IH E]; [constructor; [apply typecode_letter|constructor]|].
  apply Forall_app. split; [exact IH|]. constructor; [apply typecode_letter|constructor].
Qed.
Lemma ident_nonempty addr s i l : ident addr s i l -> l <> [].
Proof. intros H. destruct H; [discriminate|]. destruct l; discriminate. Qed.
Lemma ident_inj addr s : forest s -> (forall i j, addr i = addr j -> i = j) -> forall i l, ident addr s i l -> forall j, ident addr s j l -> i = j.
Proof.
  intros F A i l H. induction H as [i n G P|i n p l k G P H IH E]; intros j H'.
  - inversion H' as [j' m G' P' E0 E1|j' m p' l' k' G' P' H1 E' E0 E1].
    + subst j'. assert (n_kind m = n_kind n) as KE by (apply typecode_inj; congruence). rewrite KE in *.
      destruct (kind_eqb (n_kind n) KEntity) eqn:K; [|apply A; congruence].
      apply (f_index s F i j (n_index n)); unfold index_of_entity, doc_index; rewrite ?G, ?G', ?KE, K; [reflexivity|f_equal; congruence].
    + exfalso. apply ident_nonempty in H1. destruct l' as [|x [|]]; [congruence|discriminate|discriminate].
  - inversion H' as [j' m G' P' E0 E1|j' m p' l' k' G' P' H1 E' E0 E1].
    + exfalso. apply ident_nonempty in H. destruct l as [|x [|]]; [congruence|discriminate|discriminate].
    + subst j'. apply app_inj_tail in E1. destruct E1 as [-> E1]. injection E1 as T N. apply typecode_inj in T. rewrite T in *.
      assert (p' = p) as -> by (symmetry; now apply IH). assert (k' = k) as -> by (destruct (kind_eqb (n_kind n) KAttr); lia). congruence.
Qed.

Lemma index_of_nth l c : forall i m, NoDup l -> nth_error l i = Some c -> index_of l c m = Some (m + i).
Proof.
  induction l as [|x l IH]; intros i m D; [destruct i; discriminate|]. inversion D; subst. destruct i as [|i]; cbn.
  - intros [= ->]. rewrite Nat.eqb_refl. f_equal. lia.
  - intros E. destruct (Nat.eqb_spec x c) as [->|]; [apply nth_error_In in E; contradiction|]. rewrite (IH i (S m)); [f_equal; lia|assumption|assumption].
Qed.
Lemma generate_ok addr s : forest s -> forall fuel i vis, exists_node s i -> NoDup vis -> (forall v, In v vis -> exists_node s v /\ above (parent_of s) i v) ->
  length (s_nodes s) < fuel + length vis -> exists l, generate_id fuel addr s i = Ok (flat_map seg l) /\ ident addr s i l.
Proof.
  intros F. induction fuel as [|f IH]; intros i vis Hi Hd Hv Hf.
  - exfalso. assert (length vis <= length (seq 0 (length (s_nodes s)))) as X.
    { apply NoDup_incl_length; [exact Hd|]. intros v V. apply in_seq. destruct (Hv v V). unfold exists_node in *. lia. }
    rewrite seq_length in X. cbn in Hf. lia.
  - destruct (get_ex s i Hi) as [n G]. cbn [generate_id]. rewrite G. destruct (n_parent n) as [p|] eqn:P.
    2:{ eexists. split; [|exact (ident_root addr s i n G P)]. cbn [flat_map]. rewrite app_nil_r. reflexivity. }
    assert (parent_of s i = Some p) as PO by (rewrite (parent_of_get s i n G); exact P).
    destruct (IH p (i :: vis)) as [l [E ID]].
    + destruct (f_parent s F p i PO) as [k [K _]]. eapply kind_exists; eauto.
    + constructor; [|exact Hd]. intro V. destruct (Hv i V) as [_ A]. exact (f_acyclic s F i A).
    + intros v [<-|V]; [split; [exact Hi|now apply above_parent]|]. destruct (Hv v V) as [A B]. split; [exact A|]. eapply above_trans; [apply above_parent; exact PO|exact B].
    + cbn. lia.
    + rewrite E. cbn [bind]. destruct (sibling_get s p i F PO) as [pn [GP [C H]]]. rewrite GP.
      destruct (kind_eqb (n_kind n) KAttr) eqn:KA.
      * assert (kind_of s i = Some KAttr) as K by (rewrite (kind_get s i n G); destruct (n_kind n); cbn in KA; try discriminate; reflexivity).
        assert (In i (attrs_of s p)) as I by (apply (f_alink s F); auto). pose proof (f_aparent s F p i I) as KP.
        rewrite (kind_get s p pn GP) in KP. injection KP as KP. rewrite KP. cbn [kind_eqb andb].
        apply In_nth_error in I. destruct I as [j J].
        assert (n_attrs pn = attrs_of s p) as AE by (unfold attrs_of; now rewrite GP). rewrite AE, (index_of_nth _ _ j 0 (f_anodup s F p) J). cbn [option_map].
        eexists. split; [|eapply (ident_step addr s i n p l j G P ID); rewrite KA; exact J]. rewrite flat_map_app, KA. cbn [flat_map]. rewrite app_nil_r. reflexivity.
      * rewrite andb_false_r. assert (In i (kids s p)) as I by (apply (f_link s F); split; [exact PO|]; rewrite (kind_get s i n G); destruct (n_kind n); cbn in KA; discriminate).
        apply In_nth_error in I. destruct I as [j J]. rewrite C, (lfind_nth _ _ j i (f_nodup s F p) H J).
        eexists. split; [|eapply (ident_step addr s i n p l j G P ID); rewrite KA; exact J]. rewrite flat_map_app, KA. cbn [flat_map]. rewrite app_nil_r. reflexivity.
Qed.
Lemma get_id_ok addr s i : forest s -> exists_node s i -> exists l, get_id addr s i = Ok (flat_map seg l) /\ ident addr s i l.
Proof. intros F H. apply (generate_ok addr s F _ i [] H); [constructor|intros v []|cbn; lia]. Qed.
Lemma get_id_inj addr s i j : forest s -> (forall i j, addr i = addr j -> i = j) -> exists_node s i -> exists_node s j -> get_id addr s i = get_id addr s j -> i = j.
Proof.
  intros F A Hi Hj E. destruct (get_id_ok addr s i F Hi) as [l [E1 I1]]. destruct (get_id_ok addr s j F Hj) as [m [E2 I2]].
  rewrite E1, E2 in E. injection E as E. apply segs_inj in E; [|eapply ident_letters; eauto|eapply ident_letters; eauto]. subst m. eapply ident_inj; eauto.
Qed.
