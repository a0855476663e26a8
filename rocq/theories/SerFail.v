(** * What success of the serializer tells: every name was encodable *)
From Coq Require Import NArith ZArith String List Bool Lia Arith Permutation.
From Verif Require Import PyStr PyErr Utf8 SerModel SerSpec SerStream SerPrint SerVisit SerRead SerTree SerNs.
Import ListNotations.
Open Scope N_scope.

Definition needs (cd : codec) (Q : Prop) (f : printer -> result printer) : Prop :=
  forall p, x_cd (p_x p) = cd -> match f p with Ok p' => Q /\ x_cd (p_x p') = cd | Err e => e = ValueError end.

Lemma needs_weak : forall cd (Q R : Prop) f, needs cd Q f -> (Q -> R) -> needs cd R f.
Proof. intros cd Q R f H HI p Hp. specialize (H p Hp). destruct (f p); [|assumption]. destruct H; auto. Qed.
Lemma needs_ret : forall cd, needs cd True Ok.
Proof. intros cd p Hp. auto. Qed.
Lemma needs_bind : forall cd Q R f g, needs cd Q f -> needs cd R g -> needs cd (Q /\ R) (fun p => bind (f p) g).
Proof.
  intros cd Q R f g Hf Hg p Hp. specialize (Hf p Hp). destruct (f p) as [p1|e]; cbn [bind]; [|assumption].
  destruct Hf as [HQ H1]. specialize (Hg p1 H1). destruct (g p1); [|assumption]. tauto.
Qed.
(** The continuation may look at the printer it starts from. *)
Lemma needs_bind2 : forall cd Q R f (g : printer -> printer -> result printer), needs cd Q f -> (forall p, needs cd R (g p)) ->
  needs cd (Q /\ R) (fun p => bind (f p) (g p)).
Proof.
  intros cd Q R f g Hf Hg p Hp. specialize (Hf p Hp). destruct (f p) as [p1|e]; cbn [bind]; [|assumption].
  destruct Hf as [HQ H1]. specialize (Hg p p1 H1). destruct (g p p1); [|assumption]. tauto.
Qed.
Lemma needs_if : forall cd Q (b : printer -> bool) f g, needs cd Q f -> needs cd Q g -> needs cd Q (fun p => if b p then f p else g p).
Proof. intros cd Q b f g Hf Hg p Hp. destruct (b p); [now apply Hf|now apply Hg]. Qed.
Lemma needs_pure : forall cd (h : printer -> printer), (forall p, x_cd (p_x (h p)) = x_cd (p_x p)) -> needs cd True (fun p => Ok (h p)).
Proof. intros cd h H p Hp. rewrite H. auto. Qed.
Lemma needs_pre : forall cd Q (h : printer -> printer) f, (forall p, x_cd (p_x (h p)) = x_cd (p_x p)) -> needs cd Q f -> needs cd Q (fun p => f (h p)).
Proof. intros cd Q h f H Hf p Hp. apply Hf. now rewrite H. Qed.

Lemma flush_cd : forall x, x_cd (flush_bom x) = x_cd x.
Proof. intro x. unfold flush_bom. destruct (_ || _); reflexivity. Qed.
Lemma needs_encode : forall cd s, needs cd (encode cd s <> None) (fun p => p_encode p s).
Proof.
  intros cd s p Hp. unfold p_encode, write_encode, write_encode0. rewrite flush_cd, Hp.
  destruct (encode cd s) eqn:E; cbn; [|reflexivity]. split; [discriminate|]. now rewrite flush_cd.
Qed.
Lemma needs_ascii : forall cd s, needs cd True (fun p => p_ascii p s).
Proof.
  intros cd s p Hp. unfold p_ascii, write_ascii, write_ascii0, write_encode0. rewrite flush_cd, Hp.
  destruct (x_ascii_safe _); cbn; [rewrite flush_cd; auto|]. destruct (encode cd s); cbn; [|reflexivity]. rewrite flush_cd; auto.
Qed.
Lemma escaped_chars_cd : forall s x, x_cd (write_escaped_chars x s) = x_cd x.
Proof. induction s as [|c s IH]; intro x; [reflexivity|]. cbn [write_escaped_chars]. now rewrite IH. Qed.
Lemma escaped_cd : forall s x, x_cd (write_escaped x s) = x_cd x.
Proof. intros s x. unfold write_escaped. destruct (encode _ _); [reflexivity|apply escaped_chars_cd]. Qed.
Lemma escape_loop_cd : forall m string s off chunk x,
  match write_escape_loop x m string off s chunk with Ok x' => x_cd x' = x_cd x | Err e => e = ValueError end.
Proof.
  intros m string s. induction s as [|c s IH]; intros off chunk x; cbn [write_escape_loop].
  - destruct chunk; [reflexivity|apply escaped_cd].
  - destruct (emap_lookup m c) as [r|]; [|apply IH].
    set (x1 := match chunk with [] => x | _ => _ end). assert (H1 : x_cd x1 = x_cd x) by (unfold x1; destruct chunk; [reflexivity|apply escaped_cd]).
    set (data := match r with RStr t => t | RFun f => f string off end).
    unfold write_ascii0, write_encode0. destruct (x_ascii_safe x1); cbn [bind].
    + specialize (IH (S off) [] (write_func x1 data)). destruct (write_escape_loop _ _ _ _ _ _); [|assumption]. now rewrite IH.
    + destruct (encode (x_cd x1) data); cbn [bind]; [|reflexivity].
      specialize (IH (S off) [] (write_func x1 l)). destruct (write_escape_loop _ _ _ _ _ _); [|assumption]. now rewrite IH.
Qed.
Lemma needs_escape : forall cd wide s m, needs cd True (fun p => p_escape wide p s m).
Proof.
  intros cd wide s m p Hp. unfold p_escape, write_escape. cbv zeta.
  pose proof (escape_loop_cd m (map (fun c => if legal_xml_char wide c then c else 63) s) (map (fun c => if legal_xml_char wide c then c else 63) s) 0 [] (flush_bom (p_x p))) as H.
  destruct (write_escape_loop _ _ _ _ _ _); cbn; [|assumption]. rewrite H, flush_cd. auto.
Qed.

Ltac need :=
  lazymatch goal with
  | |- needs _ _ (fun p => bind (p_ascii p ?s) _) => eapply needs_bind; [apply needs_ascii|]
  | |- needs _ _ (fun p => bind (p_encode p ?s) _) => eapply needs_bind; [apply needs_encode|]
  | |- needs _ _ (fun p => bind (p_escape ?w p ?s ?m) _) => eapply needs_bind; [apply needs_escape|]
  | |- needs _ _ (fun p => p_ascii p _) => apply needs_ascii
  | |- needs _ _ (fun p => p_encode p _) => apply needs_encode
  | |- needs _ _ (fun p => p_escape _ p _ _) => apply needs_escape
  | |- needs _ _ Ok => apply needs_ret
  | |- needs _ _ (fun p => Ok p) => apply needs_ret
  | |- needs _ _ (fun p => Ok (set_elem p _)) => apply needs_pure; reflexivity
  | |- needs _ _ (fun p => Ok (set_indent p _ _)) => apply needs_pure; reflexivity
  end.

Lemma needs_close : forall cd, needs cd True close_tag.
Proof.
  intro cd. unfold close_tag. apply needs_if; [|need]. eapply needs_weak; [need; need|trivial].
Qed.
Definition eatt (cd : codec) (a : str * option str) : Prop := encode cd (fst a) <> None.
Lemma needs_write_attr : forall cd wide n v, needs cd (encode cd n <> None) (fun p => write_attr wide p (n, Some v)).
Proof. intros cd wide n v. unfold write_attr. cbn [fst snd]. cbv zeta. eapply needs_weak; [repeat need|]. tauto. Qed.
Lemma needs_write_attr_canon : forall cd wide n v, needs cd (encode cd n <> None) (fun p => write_attr_canon wide p (n, Some v)).
Proof. intros cd wide n v. unfold write_attr_canon. cbn [fst snd]. eapply needs_weak; [repeat need|]. tauto. Qed.
Lemma needs_fold : forall cd (f : printer -> str * option str -> result printer),
  (forall n v, needs cd (encode cd n <> None) (fun p => f p (n, Some v))) ->
  forall l, Forall (fun a : str * option str => exists w, snd a = Some w) l -> needs cd (Forall (eatt cd) l) (fun p => fold_r f p l).
Proof.
  intros cd f Hf l Hl. induction Hl as [|[n o] l [w Hw] Hl IH]; cbn [fold_r].
  - eapply needs_weak; [need|]. constructor.
  - cbn [snd] in Hw. subst o. eapply needs_weak; [eapply needs_bind; [apply Hf|exact IH]|]. intros [H1 H2]. constructor; assumption.
Qed.

Definition all_some (l : list (str * option str)) : Prop := Forall (fun a : str * option str => exists w, snd a = Some w) l.
Lemma sort_perm : forall l, Permutation (sort_attrs l) l.
Proof.
  assert (HI : forall a l, Permutation (insert_attr a l) (a :: l)).
  { induction l as [|b l IH]; cbn [insert_attr]; [reflexivity|]. destruct (attr_leb a b); [reflexivity|]. rewrite IH. apply perm_swap. }
  induction l as [|a l IH]; [reflexivity|]. cbn [sort_attrs fold_right]. fold (sort_attrs l). rewrite HI. now constructor.
Qed.
Lemma all_some_perm : forall a b, Permutation a b -> all_some a -> all_some b.
Proof. intros a b P H. unfold all_some. now rewrite <- P. Qed.
Lemma nsattr_all_some : forall l, all_some (map nsattr l).
Proof. intro l. apply Forall_forall. intros x Hx. apply in_map_iff in Hx as (y & <- & _). unfold nsattr. cbn. eauto. Qed.
Lemma all_some_un : forall l, all_some l -> map some_att (map un_some l) = l.
Proof. induction 1 as [|[n o] l [w Hw] Hl IH]; [reflexivity|]. cbn in Hw. subst o. cbn [map]. rewrite IH. reflexivity. Qed.
Lemma eatt_un : forall cd l, Forall (eatt cd) l -> Forall (fun a => encode cd (fst a) <> None) (map un_some l).
Proof. intros cd l H. apply Forall_forall. intros x Hx. apply in_map_iff in Hx as (y & <- & Hy). rewrite Forall_forall in H. exact (H _ Hy). Qed.

Lemma needs_start0 : forall cd wide canon q nsd atts, all_some atts ->
  needs cd (encode cd q <> None /\ Forall (fun a => encode cd (fst a) <> None) (written_attrs canon nsd (map un_some atts)))
    (start_element0 wide canon q nsd atts).
Proof.
  intros cd wide canon q nsd atts Ha. unfold start_element0.
  eapply needs_weak.
  - eapply needs_bind2; [apply needs_if; [apply needs_ascii|apply needs_ret]|]. intros _. cbv beta zeta.
    apply (needs_pre cd _ (fun p => set_elem p (Some q)) (fun p0 => bind (p_ascii p0 (lit "<")) _)); [reflexivity|].
    need. need.
    instantiate (1 := Forall (fun a => encode cd (fst a) <> None) (written_attrs canon nsd (map un_some atts))).
    destruct canon; unfold written_attrs.
    + eapply needs_weak.
      * eapply needs_bind; apply needs_fold; [apply needs_write_attr_canon| |apply needs_write_attr_canon|].
        -- eapply all_some_perm; [symmetry; apply sort_perm|apply nsattr_all_some].
        -- eapply all_some_perm; [symmetry; apply sort_perm|exact Ha].
      * intros [H1 H2]. rewrite all_some_un by assumption. apply Forall_app. split; now apply eatt_un.
    + eapply needs_weak.
      * apply needs_fold; [apply needs_write_attr|]. apply Forall_app. split; [apply nsattr_all_some|exact Ha].
      * intro H. apply Forall_app in H as [H1 H2]. apply Forall_app. split; [|now apply eatt_un].
        apply Forall_forall. intros x Hx. apply in_map_iff in Hx as (y & <- & Hy). rewrite Forall_forall in H1.
        apply (H1 (nsattr y)). now apply in_map.
  - tauto.
Qed.
Lemma needs_end0 : forall cd canon q, needs cd True (end_element0 canon q).
Proof.
  intros cd canon q. unfold end_element0. cbv zeta. apply needs_if.
  - destruct canon.
    + apply (needs_pre cd True (fun p => set_elem p None) (fun p0 => bind (p_ascii p0 (lit ">")) _)); [reflexivity|].
      eapply needs_weak; [repeat need|]. trivial.
    + apply (needs_pre cd True (fun p => set_elem p None) (fun p0 => p_ascii p0 (lit "/>"))); [reflexivity|apply needs_ascii].
  - eapply needs_weak; [repeat need|]. trivial.
Qed.
Lemma needs_text0 : forall cd wide s, needs cd True (text0 wide s false).
Proof. intros. unfold text0. eapply needs_weak; [eapply needs_bind; [apply needs_close|need]|trivial]. Qed.
Lemma needs_comment0 : forall cd d, needs cd (encode cd d <> None) (comment0 d).
Proof. intros. unfold comment0. eapply needs_weak; [eapply needs_bind; [apply needs_close|repeat need]|tauto]. Qed.
Lemma needs_pi0 : forall cd t d, needs cd (encode cd t <> None /\ encode cd d <> None) (processing_instruction0 t d).
Proof.
  intros. unfold processing_instruction0. eapply needs_weak.
  - eapply needs_bind; [apply needs_close|]. need. need. eapply needs_bind2; [|intros _; need].
    instantiate (1 := encode cd d <> None). destruct d.
    + eapply needs_weak; [need|]. discriminate.
    + eapply needs_weak; [repeat need|]. tauto.
  - tauto.
Qed.
Lemma needs_newline : forall cd, needs cd True newline_indent.
Proof. intros cd p Hp. unfold newline_indent. now apply needs_ascii. Qed.
Lemma needs_indented : forall cd Q f, needs cd Q f -> needs cd Q (indented f).
Proof.
  intros cd Q f Hf. unfold indented. eapply needs_weak.
  - eapply needs_bind; [apply needs_close|]. eapply needs_bind; [apply needs_if; [apply needs_newline|need]|].
    eapply needs_bind; [exact Hf|]. apply (needs_pure cd (fun p2 => set_indent p2 (p_level p2) true)). reflexivity.
  - tauto.
Qed.

(** The names and unescaped contents that are written. *)
Fixpoint encs (cd : codec) (n : rnode) : Prop :=
  match n with
  | RText s => True
  | RComment d => encode cd d <> None
  | RPI t d => encode cd t <> None /\ encode cd d <> None
  | RDoctype _ _ _ => True
  | RElem q a k =>
    (encode cd q <> None /\ Forall (fun a => encode cd (fst a) <> None) a) /\
    (fix all l := match l with [] => True | x :: l' => encs cd x /\ all l' end) k
  end.
Lemma encs_all : forall cd k,
  (fix all l := match l with [] => True | x :: l' => encs cd x /\ all l' end) k <-> Forall (encs cd) k.
Proof.
  induction k as [|x k IH]; split; intro H; [constructor|exact I| |].
  - constructor; [exact (proj1 H)|]. apply IH. exact (proj2 H).
  - inversion H; subst. split; [assumption|]. now apply IH.
Qed.

Section Needs.
  Variable cd : codec.
  Variable ordn : list (option str * str) -> list (option str * str).
  Variable orda : list (str * option str) -> list (str * option str).
  Hypothesis orda_ok : forall l, Permutation (orda l) l.

  Lemma needs_start : forall wide st q nsd atts, all_some atts ->
    needs cd (encode cd q <> None /\ Forall (fun a => encode cd (fst a) <> None) (written_attrs (canon_of st) nsd (map un_some atts)))
      (start_element wide st q nsd atts).
  Proof.
    intros wide st q nsd atts Ha. destruct st; [now apply needs_start0|now apply needs_start0|].
    unfold start_element. eapply needs_weak.
    - eapply needs_bind; [apply needs_close|]. eapply needs_bind; [apply needs_if; [apply needs_newline|need]|].
      eapply needs_bind; [apply needs_start0; exact Ha|].
      apply (needs_pure cd (fun p2 => set_indent p2 (p_level p2 + 1) true)). reflexivity.
    - cbn [canon_of]. tauto.
  Qed.
  Lemma needs_end : forall st q, needs cd True (end_element st q).
  Proof.
    intros st q. destruct st; [apply needs_end0|apply needs_end0|]. unfold end_element.
    apply (needs_pre cd True (fun p => set_indent p (p_level p - 1) (p_can_indent p))
      (fun p0 => bind (if p_can_indent p0 && negb (is_open p0) then newline_indent p0 else Ok p0) _)); [reflexivity|].
    eapply needs_weak.
    - eapply needs_bind; [apply (needs_if cd True (fun p0 => p_can_indent p0 && negb (is_open p0))); [apply needs_newline|need]|].
      eapply needs_bind; [apply needs_end0|]. apply (needs_pure cd (fun p2 => set_indent p2 (p_level p2) true)). reflexivity.
    - trivial.
  Qed.
  Lemma needs_text : forall wide st s, needs cd True (text wide st s).
  Proof.
    intros wide st s. destruct st; try apply needs_text0. unfold text. eapply needs_weak.
    - eapply needs_bind; [apply needs_text0|]. apply (needs_pure cd (fun p2 => set_indent p2 (p_level p2) false)). reflexivity.
    - trivial.
  Qed.
  Lemma needs_comment : forall st d, needs cd (encode cd d <> None) (comment st d).
  Proof. intros [] d; [apply needs_comment0|apply needs_comment0|apply needs_indented, needs_comment0]. Qed.
  Lemma needs_pi : forall st t d, needs cd (encode cd t <> None /\ encode cd d <> None) (processing_instruction st t d).
  Proof. intros [] t d; [apply needs_pi0|apply needs_pi0|apply needs_indented, needs_pi0]. Qed.

  Lemma orda_all_some : forall attrs, all_some (orda (visit_attributes attrs)).
  Proof. intro attrs. eapply all_some_perm; [symmetry; apply orda_ok|apply visit_attributes_some]. Qed.

  Lemma needs_visit : forall wide st n chain cur, needs cd (encs cd (printed ordn orda (canon_of st) chain cur n)) (visit wide st ordn orda chain cur n).
  Proof.
    intros wide st n. induction n as [ns q d a k IH|s|s|t d] using node_ind2; intros chain cur; cbn [visit printed].
    - cbv zeta. set (nss := visit_namespaces (d :: chain) cur ns q a). cbn [encs]. eapply needs_bind; [apply needs_start; apply orda_all_some|].
      eapply needs_weak.
      + eapply needs_bind; [|apply needs_end].
        instantiate (1 := Forall (encs cd) (map (printed ordn orda (canon_of st) (d :: chain) (dupdate cur nss)) k)).
        clearbody nss. clear - IH. induction k as [|n k IHk]; [eapply needs_weak; [apply needs_ret|constructor]|].
        inversion IH as [|? ? Hn Hk]; subst. eapply needs_weak; [eapply needs_bind; [apply Hn|apply IHk, Hk]|].
        intros [H1 H2]. cbn [map]. constructor; assumption.
      + intros [H _]. now apply encs_all.
    - apply needs_text.
    - apply needs_comment.
    - apply needs_pi.
  Qed.
  Lemma needs_visit_all : forall wide st chain cur l, needs cd (Forall (encs cd) (map (printed ordn orda (canon_of st) chain cur) l))
    (visit_all wide st ordn orda chain cur l).
  Proof.
    intros wide st chain cur l. induction l as [|n l IH]; cbn [visit_all]; [eapply needs_weak; [apply needs_ret|constructor]|].
    eapply needs_weak; [eapply needs_bind; [apply needs_visit|exact IH]|]. intros [H1 H2]. cbn [map]. constructor; assumption.
  Qed.
End Needs.

Lemma legal_encs_wfr : forall cd n, legal n -> encs cd n -> wfr cd n.
Proof.
  intros cd n. induction n as [q a k IH|s|d|t d|x y z] using rnode_ind2; intros Hl He; inversion Hl as [? Hs|? Hd|? ? Hp|? ? ? Hq Ha Hk]; subst; cbn [wfr encs] in *; try assumption.
  destruct He as [[E1 E2] E3]. split; [intro; subst; discriminate|]. split; [assumption|]. split.
  - destruct Ha as [HA _]. rewrite Forall_forall in *. intros x Hx. split; [now apply E2|]. now apply HA.
  - apply wfr_all. apply encs_all in E3. rewrite Forall_forall in *. intros x Hx. apply IH; auto.
Qed.
