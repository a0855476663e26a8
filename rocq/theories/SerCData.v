(** * CDATA sections and canonical output *)
From Coq Require Import NArith ZArith String List Bool Lia Arith Permutation.
From Verif Require Import PyStr PyErr Utf8 SerModel SerSpec SerStream SerPrint SerVisit SerRead SerTree SerNs SerTop SerFail SerDoc SerDocs.
Import ListNotations.
Open Scope N_scope.

(** ** Splitting *)
Definition join (ws : list str) : str :=
  match ws with [] => [] | w :: ws => w ++ flat_map (fun w => lit "]]>" ++ w) ws end.
Lemma split_cdata_ne : forall s, exists w ws, split_cdata s = w :: ws.
Proof.
  assert (H : forall n s, (length s <= n)%nat -> exists w ws, split_cdata s = w :: ws).
  { induction n as [|n IH]; intros [|x s] Hn; try (cbn in Hn; lia); try (cbn; eauto; fail).
    cbn [length] in Hn. destruct s as [|y [|z s]].
    - cbn. eauto.
    - destruct (IH [y]) as (w & ws & E); [cbn in *; lia|]. change (split_cdata [x; y]) with (match split_cdata [y] with [] => [[x]] | w :: ws => (x :: w) :: ws end).
      rewrite E. eauto.
    - change (split_cdata (x :: y :: z :: s)) with (if (x =? 93) && (y =? 93) && (z =? 62) then [] :: split_cdata s
        else match split_cdata (y :: z :: s) with [] => [[x]] | w :: ws => (x :: w) :: ws end).
      destruct ((x =? 93) && (y =? 93) && (z =? 62)); [eauto|]. destruct (IH (y :: z :: s)) as (w & ws & E); [cbn in *; lia|]. rewrite E. eauto. }
  intro s. exact (H (length s) s (le_n _)).
Qed.
Lemma split_cdata_eq : forall x s, split_cdata (x :: s) =
  if prefixb (lit "]]>") (x :: s) then [] :: split_cdata (skipn 2 s)
  else match split_cdata s with [] => [[x]] | w :: ws => (x :: w) :: ws end.
Proof.
  intros x s. destruct s as [|y [|z s]].
  - change (prefixb (lit "]]>") [x]) with ((93 =? x) && false). rewrite andb_false_r. reflexivity.
  - change (prefixb (lit "]]>") [x; y]) with ((93 =? x) && ((93 =? y) && false)). rewrite !andb_false_r. reflexivity.
  - change (prefixb (lit "]]>") (x :: y :: z :: s)) with ((93 =? x) && ((93 =? y) && ((62 =? z) && true))).
    rewrite andb_true_r, andb_assoc, (N.eqb_sym 93 x), (N.eqb_sym 93 y), (N.eqb_sym 62 z). reflexivity.
Qed.
Lemma split_join : forall s, join (split_cdata s) = s.
Proof.
  assert (H : forall n s, (length s <= n)%nat -> join (split_cdata s) = s).
  { induction n as [|n IH]; intros [|x s] Hn; try (cbn in Hn; lia); try reflexivity. cbn [length] in Hn. rewrite split_cdata_eq.
    destruct (prefixb (lit "]]>") (x :: s)) eqn:E.
    - apply prefixb_spec in E as [r E]. destruct s as [|y [|z s]]; try discriminate. injection E as -> -> -> ->. cbn [skipn].
      assert (Hr : join (split_cdata r) = r) by (apply IH; cbn in Hn; lia). destruct (split_cdata_ne r) as (w & ws & Ew).
      rewrite Ew in Hr |- *. cbn [join app flat_map] in *. rewrite <- app_assoc. rewrite Hr. reflexivity.
    - assert (Hs : join (split_cdata s) = s) by (apply IH; lia). destruct (split_cdata_ne s) as (w & ws & Ew). rewrite Ew in Hs |- *.
      cbn [join app] in *. now rewrite Hs. }
  intro s. exact (H (length s) s (le_n _)).
Qed.
Lemma prefixb_short : forall p a b, prefixb p a = true -> prefixb p (a ++ b) = true.
Proof. intros p a b H. apply prefixb_spec in H as [r ->]. apply prefixb_spec. exists (r ++ b). now rewrite app_assoc. Qed.
Lemma split_pieces : forall s, Forall (fun w => contains (lit "]]>") w = false) (split_cdata s).
Proof.
  assert (H : forall n s, (length s <= n)%nat -> Forall (fun w => contains (lit "]]>") w = false) (split_cdata s)).
  { induction n as [|n IH]; intros [|x s] Hn; try (cbn in Hn; lia); try (repeat constructor; fail). cbn [length] in Hn. rewrite split_cdata_eq.
    destruct (prefixb (lit "]]>") (x :: s)) eqn:E.
    - constructor; [reflexivity|]. apply IH. rewrite skipn_length. lia.
    - assert (Hs := IH s ltac:(lia)). assert (HJ := split_join s). destruct (split_cdata_ne s) as (w & ws & Ew). rewrite Ew in Hs, HJ |- *.
      inversion Hs; subst. constructor; [|assumption]. cbn [contains]. rewrite H1, orb_false_r.
      destruct (prefixb (lit "]]>") (x :: w)) eqn:E2; [|reflexivity].
      apply (prefixb_short _ _ (flat_map (fun w => lit "]]>" ++ w) ws)) in E2. cbn [join] in E. cbn [app] in E2. congruence. }
  intro s. exact (H (length s) s (le_n _)).
Qed.
Lemma contains_brackets : forall w, contains (lit "]]>") w = false -> contains (lit "]]>") (w ++ lit "]]") = false.
Proof.
  induction w as [|c w IH]; intro H; [reflexivity|]. cbn [contains app] in *. apply orb_false_iff in H as [H1 H2]. rewrite IH by assumption.
  rewrite orb_false_r. destruct (prefixb (lit "]]>") (c :: w ++ lit "]]")) eqn:E; [|reflexivity]. exfalso.
  apply prefixb_spec in E as [r E]. destruct w as [|d [|e w]].
  - discriminate.
  - discriminate.
  - injection E as -> -> -> _. discriminate H1.
Qed.
Lemma contains_gt : forall w, contains (lit "]]>") (62 :: w) = contains (lit "]]>") w.
Proof. intro w. reflexivity. Qed.

(** The written sections. *)
Definition cd_tail (rest : list str) : str := flat_map (fun w => lit "]]]]><![CDATA[>" ++ w) rest ++ lit "]]>".
Definition cd_chars (ws : list str) : str :=
  match ws with [] => [] | w :: ws => lit "<![CDATA[" ++ w ++ cd_tail ws end.

(** Contents of the sections after a first piece [w]. *)
Fixpoint sections (w : str) (rest : list str) : list str :=
  match rest with [] => [w] | w2 :: rest' => (w ++ lit "]]") :: sections (62 :: w2) rest' end.
Lemma cd_tail_cons : forall w rest, cd_tail (w :: rest) = lit "]]]]><![CDATA[" ++ (62 :: w) ++ cd_tail rest.
Proof. intros. unfold cd_tail. cbn [flat_map]. rewrite <- !app_assoc. reflexivity. Qed.
Lemma cd_break : forall w rest, contains (lit "]]>") w = false -> exists d r,
  break_sub (lit "]]>") (w ++ cd_tail rest) = Some (d, r) /\
  ((rest = [] /\ d = w /\ r = []) \/ (exists w2 rest', rest = w2 :: rest' /\ d = w ++ lit "]]" /\ r = lit "<![CDATA[" ++ (62 :: w2) ++ cd_tail rest')).
Proof.
  intros w [|w2 rest] H.
  - exists w, []. split; [|left; auto]. unfold cd_tail. cbn [flat_map app]. rewrite <- (app_nil_r (lit "]]>")). now apply break_cdata.
  - rewrite cd_tail_cons. exists (w ++ lit "]]"), (lit "<![CDATA[" ++ (62 :: w2) ++ cd_tail rest). split; [|right; eauto 10].
    change (lit "]]]]><![CDATA[" ++ ?x) with (lit "]]" ++ lit "]]>" ++ lit "<![CDATA[" ++ x). rewrite app_assoc. apply break_cdata. now apply contains_brackets.
Qed.
Definition sections_text (w : str) (rest : list str) : str := concat (sections w rest).
Lemma sections_join : forall rest w, sections_text w rest = w ++ flat_map (fun w => lit "]]>" ++ w) rest.
Proof.
  unfold sections_text. induction rest as [|w2 rest IH]; intro w; cbn [sections concat flat_map]; [reflexivity|]. rewrite IH.
  rewrite <- !app_assoc. reflexivity.
Qed.

Lemma cdata_text_ok : forall rest w f, contains (lit "]]>") w = false -> Forall (fun w => contains (lit "]]>") w = false) rest ->
  (length rest < f)%nat -> cdata_text f (lit "<![CDATA[" ++ w ++ cd_tail rest) = Some (sections_text w rest).
Proof.
  induction rest as [|w2 rest IH]; intros w f Hw Hr Hf; (destruct f as [|f]; [cbn in Hf; lia|]).
  - change (cdata_text (S f) (lit "<![CDATA[" ++ w ++ cd_tail [])) with
      (match break_sub (lit "]]>") (w ++ cd_tail []) with Some (d, r) => option_map (app d) (cdata_text f r) | None => None end).
    destruct (cd_break w [] Hw) as (d & r & -> & [(_ & -> & ->)|(w2 & rest' & E & _)]); [|discriminate].
    destruct f; reflexivity.
  - change (cdata_text (S f) (lit "<![CDATA[" ++ w ++ cd_tail (w2 :: rest))) with
      (match break_sub (lit "]]>") (w ++ cd_tail (w2 :: rest)) with Some (d, r) => option_map (app d) (cdata_text f r) | None => None end).
    destruct (cd_break w (w2 :: rest) Hw) as (d & r & -> & [(E & _)|(w2' & rest' & E & -> & ->)]); [discriminate|]. injection E as <- <-.
    inversion Hr; subst. rewrite IH; [reflexivity|now rewrite contains_gt|assumption|cbn in Hf; lia].
Qed.

(** Reading them as content. *)
Lemma read_cdata : forall d X r, chars d -> break_sub (lit "]]>") X = Some (d, r) -> read_markup (lit "![CDATA[" ++ X) = Some ([TText d], r).
Proof.
  intros d X r Hd E. change (read_markup (lit "![CDATA[" ++ X)) with
    (match break_sub (lit "]]>") X with Some (d, r) => if forallb xml_char d then Some ([TText d], r) else None | None => None end).
  rewrite E, chars_forallb by assumption. reflexivity.
Qed.
Lemma lex_lt : forall f m, lex (S f) (60 :: m) = match read_markup m with
  | Some (toks, r) => match lex f r with Some rest => Some (TText [] :: toks ++ rest) | None => None end | None => None end.
Proof. reflexivity. Qed.
Lemma lex_cdata : forall rest w, chars w -> Forall chars rest -> contains (lit "]]>") w = false -> Forall (fun w => contains (lit "]]>") w = false) rest ->
  lex (2 + length rest) (lit "<![CDATA[" ++ w ++ cd_tail rest) = Some (flat_map (fun d => [TText []; TText d]) (sections w rest) ++ [TText []]).
Proof.
  induction rest as [|w2 rest IH]; intros w Hc Hcr Hw Hr; cbn [length Nat.add].
  - destruct (cd_break w [] Hw) as (d & r & E & [(_ & -> & ->)|(w2 & rest' & E2 & _)]); [|discriminate].
    change (lit "<![CDATA[" ++ w ++ cd_tail []) with (60 :: lit "![CDATA[" ++ w ++ cd_tail []). rewrite lex_lt.
    rewrite (read_cdata w _ [] Hc E). reflexivity.
  - destruct (cd_break w (w2 :: rest) Hw) as (d & r & E & [(E2 & _)|(w2' & rest' & E2 & -> & ->)]); [discriminate|]. injection E2 as <- <-.
    inversion Hr; subst. inversion Hcr; subst.
    change (lit "<![CDATA[" ++ w ++ cd_tail (w2 :: rest)) with (60 :: lit "![CDATA[" ++ w ++ cd_tail (w2 :: rest)). rewrite lex_lt.
    rewrite (read_cdata (w ++ lit "]]") _ (lit "<![CDATA[" ++ (62 :: w2) ++ cd_tail rest)); [| |exact E].
    2:{ apply chars_app. split; [assumption|litchars]. }
    change (S (S (length rest))) with (2 + length rest)%nat. rewrite IH; [reflexivity| |assumption|now rewrite contains_gt|assumption].
    constructor; [reflexivity|assumption].
Qed.
Lemma build_texts : forall l, builds true (flat_map (fun d => [TText []; TText d]) l ++ [TText []]) (add_text (concat l) []) None [].
Proof.
  induction l as [|d l IH]; cbn [flat_map app concat].
  - exists 2%nat. reflexivity.
  - rewrite add_text_app. apply (builds_text true [] _ (add_text d (add_text (concat l) []))). apply builds_text. exact IH.
Qed.
Lemma chars_join : forall ws, chars (join ws) -> Forall chars ws.
Proof.
  intros [|w ws] H; [constructor|]. cbn [join] in H. apply chars_app in H as [H1 H2]. constructor; [assumption|].
  induction ws as [|x ws IH]; [constructor|]. cbn [flat_map] in H2. rewrite <- app_assoc, !chars_app in H2. destruct H2 as (_ & H2 & H3). constructor; auto.
Qed.
Lemma cd_no_cr : forall ws, ~ In 13 (join ws) -> ~ In 13 (cd_chars ws).
Proof.
  intros [|w ws] H Hin; [destruct Hin|]. cbn [join cd_chars] in *. rewrite !in_app_iff in *. destruct Hin as [Hin|[Hin|Hin]]; [cbn in Hin; intuition discriminate|tauto|].
  assert (H2 : ~ In 13 (flat_map (fun w => lit "]]>" ++ w) ws)) by tauto. clear H. unfold cd_tail in Hin. rewrite in_app_iff in Hin.
  destruct Hin as [Hin|Hin]; [|cbn in Hin; intuition discriminate]. apply H2. rewrite in_flat_map in *. destruct Hin as (x & Hx & Hin). exists x. split; [assumption|].
  rewrite in_app_iff in *. destruct Hin as [Hin|Hin]; [cbn in Hin; intuition discriminate|now right].
Qed.
Lemma read_cdata_sections : forall s, chars s -> ~ In 13 s -> read_content (cd_chars (split_cdata s)) = Some (add_text s []).
Proof.
  intros s Hc Hcr. unfold read_content. rewrite norm_eol_id by (apply cd_no_cr; now rewrite split_join).
  assert (HJ := split_join s). assert (HP := split_pieces s). destruct (split_cdata_ne s) as (w & ws & E). rewrite E in *.
  assert (HC : Forall chars (w :: ws)) by (apply chars_join; now rewrite HJ). apply Forall_cons_iff in HC as [HC1 HC2]. apply Forall_cons_iff in HP as [HP1 HP2]. rewrite <- HJ. cbn [cd_chars].
  erewrite lex_mono; [|apply lex_cdata; assumption|].
  - destruct (build_texts (sections w ws)) as [f B]. apply build_enough in B. rewrite B. fold (sections_text w ws). rewrite sections_join. cbn [join]. reflexivity.
  - rewrite !app_length. change (length (lit "<![CDATA[")) with 9%nat. assert (length ws <= length (cd_tail ws))%nat.
    { unfold cd_tail. rewrite app_length. clear. induction ws as [|x ws IH]; cbn [flat_map length]; [lia|]. rewrite !app_length. change (length (lit "]]]]><![CDATA[>")) with 15%nat. lia. }
    lia.
Qed.

(** Writing them. *)
Lemma needs_cdata : forall cd s, needs cd (Forall (fun w => encode cd w <> None) (split_cdata s)) (cdata_section0 false s).
Proof.
  intros cd s. unfold cdata_section0. destruct (split_cdata_ne s) as (w & ws & E). rewrite E.
  eapply needs_weak.
  - eapply needs_bind; [apply needs_close|]. need. need. eapply needs_bind; [|need].
    instantiate (1 := Forall (fun w => encode cd w <> None) ws). clear E. induction ws as [|x ws IH]; cbn [fold_r]; [eapply needs_weak; [need|constructor]|].
    eapply needs_weak; [eapply needs_bind; [|exact IH]|].
    + instantiate (1 := encode cd x <> None). eapply needs_weak; [repeat need|]. tauto.
    + intros [H1 H2]. constructor; assumption.
  - intros (_ & _ & H1 & H2 & _). constructor; assumption.
Qed.
Lemma cdata_out : forall cd p s, goodp cd p -> okelem p -> Forall (fun w => encode cd w <> None) (split_cdata s) ->
  out p (pend p ++ cd_chars (split_cdata s)) None (p_level p) (p_can_indent p) (cdata_section0 false s p).
Proof.
  intros cd p s Hg Ho He. unfold cdata_section0. destruct (split_cdata_ne s) as (w & ws & E). rewrite E in *. inversion He; subst.
  eapply out_bind; [exact Hg|eapply close_tag_out; [exact Hg|exact Ho]|]. intros p1 H1' <- <- <-. cbn [cd_chars].
  eapply out_bind; [exact H1'|eapply p_ascii_out; [exact H1'|ascii]|]. intros p2 G2 <- <- <-.
  eapply out_bind; [exact G2|eapply p_encode_out; [exact G2|assumption]|]. intros p3 G3 <- <- <-. unfold cd_tail.
  eapply out_bind with (e := p_elem p3) (l := p_level p3) (ci := p_can_indent p3); [exact G3| |].
  - clear - G3 H2. revert p3 G3. induction H2 as [|x ws Hx Hws IH]; intros p3 G3; cbn [fold_r flat_map]; [apply out_ret|].
    eapply out_bind with (e := p_elem p3) (l := p_level p3) (ci := p_can_indent p3); [exact G3| |].
    + eapply out_bind; [exact G3|eapply p_ascii_out; [exact G3|ascii]|]. intros p4 G4 <- <- <-. eapply p_encode_out; [exact G4|assumption].
    + intros p5 G5 <- <- <-. apply IH. exact G5.
  - intros p5 G5 <- <- <-. eapply p_ascii_out; [exact G5|ascii].
Qed.
