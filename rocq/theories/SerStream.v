(** * Lemmas about the encoding stream and the printers' elementary writes *)
From Coq Require Import NArith ZArith String List Bool Lia Arith.
From Verif Require Import PyStr PyErr SerModel SerSpec.
Import ListNotations.
Open Scope N_scope.

(** ** Codecs *)
Definition ascii_superset (cd : codec) : Prop := forall c, c < 128 -> cd c = Some [c].
Definition wide_codec (cd : codec) : Prop :=
  ascii_safe cd = false /\ (forall c, c < 128 -> cd c <> None) /\ (forall c, xml_char c = true -> cd c <> None).
Definition sound_codec (cd : codec) : Prop := ascii_superset cd \/ wide_codec cd.

Lemma legal_is_xml_char : forall c, legal_xml_char true c = xml_char c.
Proof.
  intro c. unfold legal_xml_char, legal_ucs2, legal_ucs4, xml_char, between. reflexivity.
Qed.

Lemma encode_app : forall cd a b, encode cd (a ++ b) =
  match encode cd a, encode cd b with Some x, Some y => Some (x ++ y) | _, _ => None end.
Proof.
  induction a as [|c a IH]; intro b; simpl.
  - destruct (encode cd b); reflexivity.
  - rewrite IH. destruct (cd c), (encode cd a), (encode cd b); try reflexivity.
    now rewrite app_assoc.
Qed.

Lemma encode_Some : forall cd s, (forall c, In c s -> cd c <> None) -> exists bs, encode cd s = Some bs.
Proof.
  induction s as [|c s IH]; simpl; intro H; [eauto|].
  destruct (cd c) eqn:E; [|exfalso; eapply H; eauto].
  destruct IH as [bs ->]; [intros; apply H; auto|]. eauto.
Qed.

Lemma encode_None : forall cd s, encode cd s = None -> exists c, In c s /\ cd c = None.
Proof.
  induction s as [|c s IH]; simpl; [discriminate|].
  destruct (cd c) eqn:E; [|eauto]. destruct (encode cd s); [discriminate|].
  intros _. destruct IH as (d & ? & ?); auto. eauto.
Qed.

Lemma encode_In : forall cd s bs c, encode cd s = Some bs -> In c s -> cd c <> None.
Proof.
  induction s as [|d s IH]; simpl; intros bs c H Hin; [tauto|].
  destruct (cd d) eqn:E; [|discriminate]. destruct (encode cd s) eqn:E2; [|discriminate].
  destruct Hin as [->|Hin]; [congruence|eauto].
Qed.

Lemma encode_ascii : forall cd s, ascii_superset cd -> Forall (fun c => c < 128) s -> encode cd s = Some s.
Proof.
  intros cd s H. induction 1 as [|c s Hc Hs IH]; [reflexivity|].
  cbn [encode]. rewrite H by assumption. now rewrite IH.
Qed.

Lemma sound_ascii : forall cd s, sound_codec cd -> Forall (fun c => c < 128) s -> exists bs, encode cd s = Some bs.
Proof.
  intros cd s [H|(_ & H & _)] Hs.
  - exists s. now apply encode_ascii.
  - apply encode_Some. intros c Hc. apply H. rewrite Forall_forall in Hs. auto.
Qed.

Lemma ascii_from_ok : forall n k, k + N.of_nat n <= 128 -> Forall (fun c => c < 128) (ascii_from n k).
Proof.
  induction n as [|n IH]; intros k H; cbn [ascii_from]; constructor; [lia|]. apply IH. lia.
Qed.
Lemma ascii_superset_safe : forall cd, ascii_superset cd -> ascii_safe cd = true.
Proof.
  intros cd H. unfold ascii_safe. rewrite encode_ascii; [reflexivity|assumption|].
  apply ascii_from_ok. vm_compute. discriminate.
Qed.

(** ** Emitted characters *)
Definition emits (x x' : xmlstream) (t : str) : Prop :=
  exists bs, encode (x_cd x) t = Some bs /\ x' = write_func x bs.
Definition ready (x : xmlstream) : Prop :=
  x_bom_le x = false /\ x_bom_be x = false /\ x_ascii_safe x = ascii_safe (x_cd x) /\ sound_codec (x_cd x).

Lemma write_func_nil : forall x, write_func x [] = x.
Proof. destruct x; unfold write_func; simpl; now rewrite app_nil_r. Qed.
Lemma write_func_app : forall x a b, write_func (write_func x a) b = write_func x (a ++ b).
Proof. destruct x; unfold write_func; simpl; intros; now rewrite app_assoc. Qed.

Lemma emits_nil : forall x, emits x x [].
Proof. intro x. exists []. split; [reflexivity|]. symmetry; apply write_func_nil. Qed.
Lemma emits_cd : forall x x' t, emits x x' t -> x_cd x' = x_cd x.
Proof. intros x x' t (bs & _ & ->). reflexivity. Qed.
Lemma emits_ready : forall x x' t, emits x x' t -> ready x -> ready x'.
Proof. intros x x' t (bs & _ & ->) H. exact H. Qed.
Lemma emits_trans : forall x y z a b, emits x y a -> emits y z b -> emits x z (a ++ b).
Proof.
  intros x y z a b (b1 & E1 & ->) (b2 & E2 & ->). exists (b1 ++ b2). split.
  - rewrite encode_app, E1. cbn in E2. now rewrite E2.
  - apply write_func_app.
Qed.
Lemma emits_out : forall x x' t, emits x x' t -> exists bs, encode (x_cd x) t = Some bs /\ x_out x' = x_out x ++ bs.
Proof. intros x x' t (bs & E & ->). eauto. Qed.

Lemma ready_flush : forall x, ready x -> flush_bom x = x.
Proof. intros x (H1 & H2 & _). unfold flush_bom. now rewrite H1, H2. Qed.

Lemma write_ascii0_emits : forall x t, ready x -> Forall (fun c => c < 128) t ->
  exists x', write_ascii0 x t = Ok x' /\ emits x x' t.
Proof.
  intros x t (H1 & H2 & H3 & H4) Ht. unfold write_ascii0.
  destruct (x_ascii_safe x) eqn:E.
  - destruct H4 as [H4|(H4 & _)]; [|congruence].
    exists (write_func x t). split; [reflexivity|]. exists t. split; [now apply encode_ascii|reflexivity].
  - unfold write_encode0. destruct (sound_ascii _ _ H4 Ht) as [bs Hbs]. rewrite Hbs.
    exists (write_func x bs). split; [reflexivity|]. exists bs; auto.
Qed.
Lemma write_ascii_emits : forall x t, ready x -> Forall (fun c => c < 128) t ->
  exists x', write_ascii x t = Ok x' /\ emits x x' t.
Proof. intros. unfold write_ascii. rewrite ready_flush by assumption. now apply write_ascii0_emits. Qed.
Lemma write_encode_emits : forall x t, ready x -> encode (x_cd x) t <> None ->
  exists x', write_encode x t = Ok x' /\ emits x x' t.
Proof.
  intros x t Hr H. unfold write_encode. rewrite ready_flush by assumption. unfold write_encode0.
  destruct (encode (x_cd x) t) as [bs|] eqn:E; [|congruence].
  exists (write_func x bs). split; [reflexivity|]. exists bs; auto.
Qed.
Lemma write_encode_fails : forall x t, ready x -> encode (x_cd x) t = None -> write_encode x t = Err ValueError.
Proof.
  intros x t Hr H. unfold write_encode. rewrite ready_flush by assumption. unfold write_encode0. now rewrite H.
Qed.

(** ** Decimal character references *)
Lemma dec_loop_app : forall f n acc, dec_loop f n acc = dec_loop f n [] ++ acc.
Proof.
  induction f as [|f IH]; intros n acc; cbn [dec_loop]; [reflexivity|].
  destruct (n <? 10); [reflexivity|].
  rewrite IH. rewrite (IH (n / 10) [48 + n mod 10]). now rewrite <- app_assoc.
Qed.
Lemma dec_loop_digits : forall f n acc, Forall (fun c => 48 <= c <= 57) acc ->
  Forall (fun c => 48 <= c <= 57) (dec_loop f n acc).
Proof.
  induction f as [|f IH]; intros n acc H; cbn [dec_loop]; [assumption|].
  assert (n mod 10 < 10) by (apply N.mod_lt; lia). remember (n mod 10) as r.
  assert (Forall (fun c => 48 <= c <= 57) ((48 + r) :: acc)) by (constructor; [lia|assumption]).
  destruct (n <? 10); auto.
Qed.
Lemma number_dec_app : forall a b k, number 10 false k (a ++ b) =
  match number 10 false k a with Some m => number 10 false m b | None => None end.
Proof.
  induction a as [|c a IH]; intros b k; cbn [number app]; [reflexivity|].
  destruct (digit_val false c); [apply IH|reflexivity].
Qed.
Lemma number_dec_loop : forall f n, n < 10 ^ N.of_nat f -> (0 < f)%nat -> number 10 false 0 (dec_loop f n []) = Some n.
Proof.
  induction f as [|f IH]; intros n Hn Hf; [lia|]. cbn [dec_loop].
  assert (Hd : forall k, number 10 false k [48 + n mod 10] = Some (k * 10 + n mod 10)).
  { intro k. cbn [number]. assert (n mod 10 < 10) by (apply N.mod_lt; lia). remember (n mod 10) as r.
    unfold digit_val, between.
    destruct (N.leb_spec 48 (48 + r)); [|lia]. destruct (N.leb_spec (48 + r) 57); [|lia].
    cbn [andb]. f_equal. lia. }
  destruct (N.ltb_spec n 10).
  - rewrite Hd. f_equal. rewrite N.mod_small by assumption. lia.
  - rewrite dec_loop_app, number_dec_app.
    assert (n / 10 < 10 ^ N.of_nat f).
    { apply N.div_lt_upper_bound; [lia|]. rewrite Nat2N.inj_succ, N.pow_succ_r' in Hn. lia. }
    rewrite IH.
    + rewrite Hd. f_equal. pose proof (N.div_mod n 10). lia.
    + assumption.
    + destruct f; [|lia]. cbn in Hn. lia.
Qed.
Lemma size_bound : forall n, n < 10 ^ N.of_nat (S (N.size_nat n)).
Proof.
  intro n. assert (n < 2 ^ N.of_nat (S (N.size_nat n))).
  { destruct n as [|p]; [vm_compute; reflexivity|].
    pose proof (N.size_gt (N.pos p)). 
    assert (N.of_nat (N.size_nat (N.pos p)) = N.size (N.pos p)) as Hsz by
      (clear; cbn; induction p; cbn; lia).
    rewrite Nat2N.inj_succ, N.pow_succ_r', Hsz. lia. }
  eapply N.lt_le_trans; [eassumption|]. apply N.pow_le_mono_l. lia.
Qed.
Lemma number_dec_str : forall n, number 10 false 0 (dec_str n) = Some n.
Proof. intro n. apply number_dec_loop; [apply size_bound|lia]. Qed.
Lemma dec_str_digits : forall n, Forall (fun c => 48 <= c <= 57) (dec_str n).
Proof. intro n. apply dec_loop_digits. constructor. Qed.
Lemma dec_str_nonempty : forall n, dec_str n <> [].
Proof.
  intro n. unfold dec_str. cbn [dec_loop]. destruct (n <? 10); [discriminate|].
  rewrite dec_loop_app. destruct (dec_loop _ _ []); discriminate.
Qed.
Lemma charref_ascii : forall c, Forall (fun d => d < 128) (charref c).
Proof.
  intro c. unfold charref. rewrite !Forall_app. repeat split.
  - repeat constructor; vm_compute; reflexivity.
  - eapply Forall_impl; [|apply dec_str_digits]. cbv beta; intros; lia.
  - repeat constructor; vm_compute; reflexivity.
Qed.

(** ** Escaping *)
Definition escc (cd : codec) (c : N) : str := match cd c with Some _ => [c] | None => charref c end.
Definition esc (cd : codec) (m : emap) (c : N) : str :=
  match emap_lookup m c with
  | Some (RStr t) => t
  | Some (RFun _) => []
  | None => escc cd c
  end.
Definition plain_map (m : emap) : Prop :=
  forall c r, emap_lookup m c = Some r -> exists t, r = RStr t /\ Forall (fun d => d < 128) t.

Lemma encode_1 : forall cd c, encode cd [c] = cd c.
Proof. intros; cbn. destruct (cd c); [now rewrite app_nil_r|reflexivity]. Qed.

Lemma write_escaped_chars_emits : forall s x, ascii_superset (x_cd x) ->
  emits x (write_escaped_chars x s) (flat_map (escc (x_cd x)) s).
Proof.
  induction s as [|c s IH]; intros x H; cbn [write_escaped_chars flat_map]; [apply emits_nil|].
  rewrite encode_1. unfold escc at 1. destruct (x_cd x c) as [bs|] eqn:E.
  - eapply emits_trans; [|apply (IH (write_func x bs)); exact H].
    exists bs. rewrite encode_1. auto.
  - eapply emits_trans; [|apply (IH (write_func x (charref c))); exact H].
    exists (charref c). split; [|reflexivity]. apply encode_ascii; auto using charref_ascii.
Qed.

Lemma escc_id : forall cd s, (forall c, In c s -> cd c <> None) -> flat_map (escc cd) s = s.
Proof.
  induction s as [|c s IH]; intro H; cbn [flat_map]; [reflexivity|].
  rewrite IH by (intros; apply H; now right). unfold escc.
  destruct (cd c) eqn:E; [reflexivity|]. exfalso. eapply H; [now left|assumption].
Qed.

Lemma write_escaped_emits : forall s x, ready x -> Forall (fun c => xml_char c = true) s ->
  emits x (write_escaped x s) (flat_map (escc (x_cd x)) s).
Proof.
  intros s x (_ & _ & _ & Hs) Hl. unfold write_escaped. destruct (encode (x_cd x) s) as [bs|] eqn:E.
  - rewrite escc_id; [exists bs; auto|]. intros c Hc. eapply encode_In; eauto.
  - destruct Hs as [Hs|(_ & _ & Hs)].
    + now apply write_escaped_chars_emits.
    + exfalso. apply encode_None in E as (c & Hc & E). rewrite Forall_forall in Hl. eapply Hs; eauto.
Qed.

Lemma escape_loop_emits : forall m string s off chunk x, plain_map m -> ready x ->
  Forall (fun c => xml_char c = true) s -> Forall (fun c => xml_char c = true) chunk ->
  exists x', write_escape_loop x m string off s chunk = Ok x' /\
    emits x x' (flat_map (escc (x_cd x)) (rev chunk) ++ flat_map (esc (x_cd x) m) s).
Proof.
  intros m string s. induction s as [|c s IH]; intros off chunk x Hm Hr Hs Hc; cbn [write_escape_loop].
  - eexists; split; [reflexivity|]. cbn [flat_map]. rewrite app_nil_r. destruct chunk as [|d chunk].
    + apply emits_nil.
    + apply write_escaped_emits; auto. now apply Forall_rev.
  - inversion Hs; subst. destruct (emap_lookup m c) as [r|] eqn:E.
    + destruct (Hm _ _ E) as (t & -> & Ht).
      set (x1 := match chunk with [] => x | _ => write_escaped x (rev chunk) end).
      assert (E1 : emits x x1 (flat_map (escc (x_cd x)) (rev chunk))).
      { unfold x1. destruct chunk; [apply emits_nil|]. apply write_escaped_emits; auto. now apply Forall_rev. }
      destruct (write_ascii0_emits x1 t) as (x2 & W & E2); [eapply emits_ready; eauto|assumption|].
      rewrite W. cbn [bind].
      destruct (IH (S off) [] x2) as (x3 & W3 & E3); auto.
      { eapply emits_ready; [eassumption|]. eapply emits_ready; eauto. }
      exists x3. split; [exact W3|].
      assert (C1 := emits_cd _ _ _ E1). assert (C2 := emits_cd _ _ _ E2). rewrite C2, C1 in E3.
      cbn [flat_map rev app] in E3 |- *. unfold esc at 1. rewrite E.
      eapply emits_trans; [exact E1|]. eapply emits_trans; eauto.
    + destruct (IH (S off) (c :: chunk) x) as (x' & W & E'); auto.
      exists x'. split; [exact W|]. cbn [rev] in E'. rewrite flat_map_app in E'. cbn [flat_map] in E' |- *.
      rewrite app_nil_r, <- app_assoc in E'. unfold esc at 1. now rewrite E.
Qed.

Lemma map_id_legal : forall s, Forall (fun c => xml_char c = true) s ->
  map (fun c => if legal_xml_char true c then c else 63) s = s.
Proof.
  induction 1 as [|c s H Hs IH]; [reflexivity|]. cbn [map]. rewrite IH, legal_is_xml_char, H. reflexivity.
Qed.

Lemma write_escape_emits : forall m s x, plain_map m -> ready x -> Forall (fun c => xml_char c = true) s ->
  exists x', write_escape true x s m = Ok x' /\ emits x x' (flat_map (esc (x_cd x) m) s).
Proof.
  intros m s x Hm Hr Hs. unfold write_escape. rewrite ready_flush, map_id_legal by assumption.
  destruct (escape_loop_emits m s s 0 [] x Hm Hr Hs) as (x' & W & E); [constructor|].
  exists x'. split; assumption.
Qed.

(** ** Steps of a printer *)

(** [r] is the state [p] after emitting [t], with the given new values. *)
Definition out (p : printer) (t : str) (e : option str) (l : Z) (ci : bool) (r : result printer) : Prop :=
  exists x', emits (p_x p) x' t /\ r = Ok {| p_x := x'; p_elem := e; p_level := l; p_can_indent := ci |}.
Definition goodp (cd : codec) (p : printer) : Prop := x_cd (p_x p) = cd /\ ready (p_x p).

Lemma out_ret : forall p, out p [] (p_elem p) (p_level p) (p_can_indent p) (Ok p).
Proof. intro p. exists (p_x p). split; [apply emits_nil|]. destruct p; reflexivity. Qed.
Lemma out_set_elem : forall p e, out p [] e (p_level p) (p_can_indent p) (Ok (set_elem p e)).
Proof. intros p e. exists (p_x p). split; [apply emits_nil|]. reflexivity. Qed.

Lemma out_bind : forall cd p t e l ci r u e2 l2 ci2 k, goodp cd p ->
  out p t e l ci r ->
  (forall p1, goodp cd p1 -> p_elem p1 = e -> p_level p1 = l -> p_can_indent p1 = ci -> out p1 u e2 l2 ci2 (k p1)) ->
  out p (t ++ u) e2 l2 ci2 (bind r k).
Proof.
  intros cd p t e l ci r u e2 l2 ci2 k [Hcd Hr] (x' & E & ->) Hk. cbn [bind].
  destruct (Hk {| p_x := x'; p_elem := e; p_level := l; p_can_indent := ci |}) as (x2 & E2 & ->); try reflexivity.
  - split; [cbn; now rewrite (emits_cd _ _ _ E)|cbn; eapply emits_ready; eauto].
  - exists x2. split; [|reflexivity]. eapply emits_trans; eauto.
Qed.

Lemma out_step : forall p t e l ci r, out p t e l ci r -> exists p', r = Ok p' /\
  emits (p_x p) (p_x p') t /\ p_elem p' = e /\ p_level p' = l /\ p_can_indent p' = ci.
Proof. intros p t e l ci r (x' & E & ->). eexists; split; [reflexivity|]. cbn; auto. Qed.

Lemma p_ascii_out : forall cd p t, goodp cd p -> Forall (fun c => c < 128) t ->
  out p t (p_elem p) (p_level p) (p_can_indent p) (p_ascii p t).
Proof.
  intros cd p t [Hcd Hr] Ht. destruct (write_ascii_emits (p_x p) t Hr Ht) as (x' & W & E).
  exists x'. split; [exact E|]. unfold p_ascii. rewrite W. reflexivity.
Qed.
Lemma p_encode_out : forall cd p t, goodp cd p -> encode cd t <> None ->
  out p t (p_elem p) (p_level p) (p_can_indent p) (p_encode p t).
Proof.
  intros cd p t [Hcd Hr] Ht. subst cd. destruct (write_encode_emits (p_x p) t Hr Ht) as (x' & W & E).
  exists x'. split; [exact E|]. unfold p_encode. rewrite W. reflexivity.
Qed.
Lemma p_escape_out : forall cd p s m, goodp cd p -> plain_map m -> Forall (fun c => xml_char c = true) s ->
  out p (flat_map (esc cd m) s) (p_elem p) (p_level p) (p_can_indent p) (p_escape true p s m).
Proof.
  intros cd p s m [Hcd Hr] Hm Hs. subst cd. destruct (write_escape_emits m s (p_x p) Hm Hr Hs) as (x' & W & E).
  exists x'. split; [exact E|]. unfold p_escape. rewrite W. reflexivity.
Qed.
