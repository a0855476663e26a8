(** * Utilities: cutting texts and templates *)
From Coq Require Import NArith ZArith String List Bool Lia Arith.
From Verif Require Import PyStr PyErr UtModel UtSpec.
Import ListNotations.
Local Open Scope nat_scope.

(** ** readbysep *)
Lemma starts_dec : forall sep s, prefixb sep s = true <-> starts sep s.
Proof. intros. unfold starts. apply prefixb_spec. Qed.

Section Cut.
  Variable sep : str.
  Hypothesis Hsep : sep <> [].

  Lemma no_start_nil : forall j, ~ starts sep (skipn j []).
  Proof. intros j [r E]. rewrite skipn_nil in E. destruct sep; [congruence|discriminate]. Qed.

  Lemma split_skip : forall a r, split_at sep (a ++ r) (length a) = split_at sep r 0.
  Proof. induction a as [|c a IH]; intro r; [reflexivity|]. cbn [app length split_at]. apply IH. Qed.

  Lemma pieces_head : forall s c l, ~ starts sep (c :: s) -> pieces sep s l -> exists w ws, l = w :: ws /\ pieces sep (c :: s) ((c :: w) :: ws).
  Proof.
    intros s c l Hn Hp. inversion Hp as [w Hw|w r l' Hw Hr]; subst.
    - exists s, []. split; [reflexivity|]. constructor. intros [|j]; [exact Hn|apply Hw].
    - exists w, l'. split; [reflexivity|]. change (c :: w ++ sep ++ r) with ((c :: w) ++ sep ++ r). constructor; [|exact Hr].
      intros [|j] Hj; [exact Hn|]. cbn [length] in Hj. cbn [app skipn]. apply Hw. lia.
  Qed.

  Lemma split_pieces : forall n s, length s <= n -> pieces sep s (split_at sep s 0).
  Proof.
    induction n as [|n IH]; intros s Hs.
    - destruct s; [|cbn in Hs; lia]. constructor. exact no_start_nil.
    - destruct s as [|c r]; [constructor; exact no_start_nil|]. cbn [split_at]. destruct (prefixb sep (c :: r)) eqn:E.
      + apply starts_dec in E as [t E]. destruct sep as [|d sp] eqn:Es; [congruence|]. rewrite <- Es in *.
        assert (Er : r = sp ++ t) by (rewrite Es in E; cbn in E; congruence).
        replace (length sep - 1) with (length sp) by (rewrite Es; cbn; lia). rewrite Er, split_skip.
        replace (c :: sp ++ t) with ([] ++ sep ++ t) by (rewrite <- Er, E; reflexivity). constructor; [cbn; lia|].
        apply IH. rewrite Er in Hs. cbn [length] in Hs. rewrite app_length in Hs. lia.
      + assert (Hn : ~ starts sep (c :: r)) by (intro H; apply starts_dec in H; congruence).
        destruct (pieces_head r c (split_at sep r 0) Hn) as (w & ws & Ew & Hp); [apply IH; cbn in Hs; lia|]. now rewrite Ew.
  Qed.

  Lemma starts_app : forall a b, starts sep (a ++ b) -> length sep <= length a -> starts sep a.
  Proof.
    intros a b [r E] Hl. exists (skipn (length sep) a).
    assert (H : firstn (length sep) (a ++ b) = sep) by (rewrite E, firstn_app, Nat.sub_diag, firstn_all, firstn_O, app_nil_r; reflexivity).
    rewrite firstn_app in H. replace (length sep - length a) with 0 in H by lia. rewrite firstn_O, app_nil_r in H.
    rewrite <- H at 1. now rewrite firstn_skipn.
  Qed.

  Lemma pieces_ne : forall s l, pieces sep s l -> l <> [].
  Proof. intros s l H. inversion H; discriminate. Qed.

  (** Text that comes later is cut like the last piece with it. *)
  Lemma pieces_app : forall s l, pieces sep s l -> forall b m, pieces sep (last l [] ++ b) m -> pieces sep (s ++ b) (removelast l ++ m).
  Proof.
    induction 1 as [w Hw|w r l Hw Hr IH]; intros b m Hm; [exact Hm|].
    destruct l as [|x l]; [now apply pieces_ne in Hr|]. change (last (w :: x :: l) []) with (last (x :: l) []) in Hm.
    change (removelast (w :: x :: l)) with (w :: removelast (x :: l)). cbn [app]. rewrite <- !app_assoc. constructor; [|now apply IH].
    intros j Hj HS. apply (Hw j Hj).
    rewrite !app_assoc, skipn_app in HS. eapply starts_app in HS.
    - rewrite app_assoc. rewrite <- app_assoc in HS. rewrite <- app_assoc. exact HS.
    - rewrite skipn_length, !app_length. lia.
  Qed.

  Lemma loop_pieces : forall reads left, Forall (fun c => c <> []) reads -> (forall j, ~ starts sep (skipn j left)) ->
    exists l, readbysep_loop sep left reads = Ok l /\ pieces sep (left ++ concat reads) l.
  Proof.
    induction reads as [|c reads IH]; intros left HR HL.
    - exists [left]. split; [reflexivity|]. cbn [concat]. rewrite app_nil_r. now constructor.
    - inversion HR as [|? ? Hc HR']; subst. cbn [readbysep_loop].
      assert (E : split sep (left ++ c) = Ok (split_at sep (left ++ c) 0)) by (unfold split; destruct sep; [congruence|reflexivity]).
      pose proof (split_pieces (length (left ++ c)) (left ++ c) (le_n _)) as HP. set (ch := split_at sep (left ++ c) 0) in *.
      assert (HLast : forall j, ~ starts sep (skipn j (last ch []))).
      { clear - HP. induction HP as [w Hw|w r l Hw Hr IH]; [exact Hw|]. destruct l as [|x l]; [now apply pieces_ne in Hr|]. exact IH. }
      destruct (IH (last ch []) HR' HLast) as (l & EL & PL).
      exists (removelast ch ++ l). destruct c as [|c0 c]; [congruence|]. rewrite E. cbn [bind]. rewrite EL. split; [reflexivity|].
      cbn [concat]. rewrite app_assoc. now apply pieces_app.
  Qed.

  Lemma pieces_fun : forall s l, pieces sep s l -> forall m, pieces sep s m -> l = m.
  Proof.
    induction 1 as [w Hw|w r l Hw Hr IH]; intros m Hm.
    - inversion Hm as [|w' r' l' Hw' Hr']; subst; [reflexivity|]. exfalso. apply (Hw (length w')). rewrite skipn_app, skipn_all, Nat.sub_diag. now exists r'.
    - inversion Hm as [w' Hw' E|w' r' l' Hw' Hr' E].
      + exfalso. apply (Hw' (length w)). rewrite skipn_app, skipn_all, Nat.sub_diag. now exists r.
      + assert (HL : length w' = length w).
        { destruct (Nat.lt_trichotomy (length w) (length w')) as [H|[H|H]]; [|congruence|].
          - exfalso. apply (Hw' _ H). rewrite E, skipn_app, skipn_all, Nat.sub_diag. now exists r.
          - exfalso. apply (Hw _ H). rewrite <- E, skipn_app, skipn_all, Nat.sub_diag. now exists r'. }
        assert (w' = w /\ r' = r) as [-> ->].
        { assert (A : firstn (length w) (w' ++ sep ++ r') = firstn (length w) (w ++ sep ++ r)) by now rewrite E.
          rewrite <- HL in A at 1. rewrite !firstn_app, !firstn_all, !Nat.sub_diag, !firstn_O, !app_nil_r in A. subst w'.
          split; [reflexivity|]. apply app_inv_head in E. now apply app_inv_head in E. }
        f_equal. now apply IH.
  Qed.

  Lemma pieces_join : forall s l, pieces sep s l -> join sep l = s /\ Forall (fun w => forall j, ~ starts sep (skipn j w)) l.
  Proof.
    induction 1 as [w Hw|w r l Hw Hr [IH1 IH2]].
    - split; [reflexivity|repeat constructor; exact Hw].
    - split; [rewrite join_cons_ne by (eapply pieces_ne; eauto); now rewrite IH1|]. constructor; [|exact IH2].
      intros j HS. destruct (Nat.lt_ge_cases j (length w)) as [H|H].
      + apply (Hw j H). rewrite skipn_app. destruct HS as [t E]. exists (t ++ skipn (j - length w) (sep ++ r)). now rewrite E, <- app_assoc.
      + rewrite skipn_all2 in HS by lia. destruct HS as [t E]. destruct sep; [congruence|discriminate].
  Qed.
End Cut.

(** ** Template *)
Local Open Scope N_scope.
Lemma id_start_letter : forall c, id_start c = true <-> letter c.
Proof. intro c. unfold id_start, letter, is_alpha, is_upper, is_lower. rewrite !orb_true_iff, !andb_true_iff, !N.leb_le, !N.eqb_eq. tauto. Qed.
Lemma id_char_spec : forall c, id_char c = true <-> letter c \/ digit c.
Proof. intro c. unfold id_char. rewrite orb_true_iff, id_start_letter. unfold is_digit, digit. rewrite andb_true_iff, !N.leb_le. tauto. Qed.

Lemma span_app : forall (p : N -> bool) a r, Forall (fun c => p c = true) a -> (forall c r', r = c :: r' -> p c = false) -> span p (a ++ r) = (a, r).
Proof.
  intros p a r Ha Hr. induction Ha as [|c a Hc Ha IH]; cbn [app span].
  - destruct r as [|c r]; [reflexivity|]. cbn [span]. now rewrite (Hr c r eq_refl).
  - now rewrite Hc, IH.
Qed.
Lemma span_spec : forall (p : N -> bool) s, s = fst (span p s) ++ snd (span p s) /\ Forall (fun c => p c = true) (fst (span p s)) /\
  (forall c r, snd (span p s) = c :: r -> p c = false).
Proof.
  intros p. induction s as [|c s IH]; cbn [span]; [split; [reflexivity|split; [constructor|discriminate]]|].
  destruct (p c) eqn:E.
  - destruct (span p s) as [a b]. cbn [fst snd] in *. destruct IH as (I1 & I2 & I3). split; [now rewrite I1 at 1|]. split; [now constructor|exact I3].
  - cbn [fst snd]. split; [reflexivity|]. split; [constructor|]. intros c' r' H. injection H as <- <-. exact E.
Qed.

Lemma sub_skip : forall conv a r, sub conv (a ++ r) (length a) = sub conv r 0.
Proof. induction a as [|c a IH]; intro r; [reflexivity|]. cbn [app length sub]. apply IH. Qed.

Lemma ident_chars : forall n, identifier n -> exists c r, n = c :: r /\ id_start c = true /\ c <> 36 /\ Forall (fun c => id_char c = true) r.
Proof.
  intros [|c r] H; [destruct H|]. destruct H as [H1 H2]. exists c, r. split; [reflexivity|]. split; [now apply id_start_letter|].
  split; [intros ->; unfold letter in H1; lia|]. eapply Forall_impl; [|exact H2]. intros x. apply id_char_spec.
Qed.
Lemma at_named : forall n s, identifier n -> (forall c r, s = c :: r -> ~ letter c /\ ~ digit c) -> placeholder_at (n ++ s) = PNamed n.
Proof.
  intros n s Hn Hs. destruct (ident_chars n Hn) as (c & r & -> & H1 & H2 & H3). cbn [app placeholder_at].
  apply N.eqb_neq in H2. rewrite H2, H1, span_app; [reflexivity|exact H3|].
  intros c' r' ->. destruct (Hs c' r' eq_refl) as [A B]. destruct (id_char c') eqn:E; [apply id_char_spec in E; tauto|reflexivity].
Qed.
Lemma at_braced : forall n s, identifier n -> placeholder_at (123 :: n ++ 125 :: s) = PBraced n.
Proof.
  intros n s Hn. destruct (ident_chars n Hn) as (c & r & -> & H1 & H2 & H3). cbn [app placeholder_at].
  change (123 =? 36) with false. change (id_start 123) with false. change (123 =? 123) with true. cbv iota.
  rewrite H1, span_app; [reflexivity|exact H3|]. intros c' r' E. injection E as <- <-. reflexivity.
Qed.

(** One proper part at a time. *)
Definition part_at (p : part) : option placeholder :=
  match p with Text _ => None | Dollar => Some PEscaped | Name n => Some (PNamed n) | Braced n => Some (PBraced n) end.
Lemma sub_text : forall conv s r, ~ In 36 s -> sub conv (s ++ r) 0 = do w <- sub conv r 0 ; Ok (s ++ w).
Proof.
  induction s as [|c s IH]; intros r H; cbn [app]; [destruct (sub conv r 0); reflexivity|].
  cbn [sub]. assert (E : (c =? 36) = false) by (apply N.eqb_neq; intros ->; apply H; now left). rewrite E, IH by (intro; apply H; now right).
  destruct (sub conv r 0); reflexivity.
Qed.
Lemma sub_dollar : forall conv r, sub conv (36 :: r) 0 = do v <- conv (placeholder_at r) ; do w <- sub conv r (width (placeholder_at r)) ; Ok (v ++ w).
Proof. reflexivity. Qed.
Definition text_before (conv : placeholder -> result str) (p : part) : result str :=
  match part_at p with Some x => conv x | None => Ok (written1 p) end.
Lemma sub_template : forall conv l tail, template l -> (forall n, In (Name n) l -> True) ->
  (forall c r, tail = c :: r -> ~ letter c /\ ~ digit c) ->
  sub conv (written l ++ tail) 0 =
  (fix go l := match l with [] => sub conv tail 0 | p :: l' => do v <- text_before conv p ; do w <- go l' ; Ok (v ++ w) end) l.
Proof.
  intros conv l tail Hl _ Ht. induction Hl as [|s l Hs Hl IH|l Hl IH|n l Hn Hx Hl IH|n l Hn Hl IH]; [reflexivity| | | |].
  - unfold written in *. cbn [flat_map written1]. rewrite <- app_assoc, sub_text by exact Hs. rewrite IH. reflexivity.
  - unfold written in *. cbn [flat_map written1 app]. cbn [sub]. change (36 =? 36) with true. cbn [placeholder_at]. change (36 =? 36) with true. cbv iota.
    cbn [text_before part_at width]. rewrite <- IH. reflexivity.
  - assert (HW : forall c r, written l ++ tail = c :: r -> ~ letter c /\ ~ digit c).
    { intros c r E. destruct (written l) as [|c' r'] eqn:EW; [now apply (Ht c r)|]. cbn [app] in E. injection E as -> _. now apply (Hx c r'). }
    unfold written in *. cbn [flat_map written1 app]. cbn [sub]. change (36 =? 36) with true. cbv iota. rewrite <- app_assoc.
    rewrite at_named by assumption. cbn [width]. rewrite sub_skip, IH. reflexivity.
  - unfold written in *. cbn [flat_map written1 app]. rewrite <- !app_assoc. cbn [app]. rewrite sub_dollar.
    rewrite at_braced by assumption. cbn [width].
    replace (length n + 2)%nat with (length (123 :: n ++ [125])) by (cbn [length]; rewrite app_length; cbn; lia).
    replace (123 :: n ++ 125 :: flat_map written1 l ++ tail) with ((123 :: n ++ [125]) ++ flat_map written1 l ++ tail) by (cbn [app]; now rewrite <- app_assoc).
    rewrite sub_skip, IH. reflexivity.
Qed.
Lemma sub_parts : forall conv l, template l -> sub conv (written l) 0 =
  (fix go l := match l with [] => Ok [] | p :: l' => do v <- text_before conv p ; do w <- go l' ; Ok (v ++ w) end) l.
Proof. intros conv l H. rewrite <- (app_nil_r (written l)). rewrite (sub_template conv l []); auto. discriminate. Qed.

Lemma substitute_ok : forall value l, template l ->
  substitute value (written l) = match meaning value l with Some v => Ok v | None => Err KeyError end.
Proof.
  intros value l H. unfold substitute. rewrite sub_parts by exact H. clear H. induction l as [|p l IH]; [reflexivity|]. rewrite IH. cbn [meaning].
  assert (E : text_before (convert value) p = match meaning1 value p with Some v => Ok v | None => Err KeyError end).
  { destruct p; cbn; try reflexivity. }
  rewrite E. destruct (meaning1 value p); cbn [bind]; [|reflexivity]. destruct (meaning value l); reflexivity.
Qed.

(** The placeholders found are the ones of the specification. *)
Lemma at_cases : forall s, match placeholder_at s with
  | PEscaped => exists r, s = 36 :: r
  | PNamed n => exists r, s = n ++ r /\ identifier n /\ (forall c r', r = c :: r' -> ~ letter c /\ ~ digit c)
  | PBraced n => exists r, s = 123 :: n ++ 125 :: r /\ identifier n
  | PInvalid => stray s
  end.
Proof.
  assert (HI : forall c r, id_start c = true -> identifier (c :: fst (span id_char r))).
  { intros c r H. split; [now apply id_start_letter|]. eapply Forall_impl; [|apply span_spec]. intros x. apply id_char_spec. }
  intros [|c r]; [exact I|]. cbn [placeholder_at]. destruct (c =? 36) eqn:E1; [apply N.eqb_eq in E1; subst; eauto|]. apply N.eqb_neq in E1.
  destruct (id_start c) eqn:E2.
  - destruct (span_spec id_char r) as (S1 & S2 & S3). exists (snd (span id_char r)). split; [cbn [app]; now rewrite <- S1|]. split; [now apply HI|].
    intros c' r' E. pose proof (S3 c' r' E) as F. split; intro HL; (assert (id_char c' = true) by (apply id_char_spec; tauto)); congruence.
  - assert (HL : ~ letter c) by (intro H; apply id_start_letter in H; congruence).
    assert (HX : forall n r', identifier n -> r = n ++ 125 :: r' -> exists d r1, r = d :: r1 /\ id_start d = true /\ span id_char r1 = (tl n, 125 :: r') /\ n = d :: tl n).
    { intros n r' Hn ->. destruct (ident_chars n Hn) as (d & r1 & -> & H1 & _ & H3). exists d, (r1 ++ 125 :: r'). split; [reflexivity|]. split; [exact H1|].
      split; [|reflexivity]. apply span_app; [exact H3|]. intros c' r'' E. injection E as <- <-. reflexivity. }
    destruct (c =? 123) eqn:E3.
    + apply N.eqb_eq in E3. subst c. destruct r as [|d r1].
      { split; [exact E1|]. split; [exact HL|]. intros [_ (n & r' & Hn & E)]. destruct (HX n r' Hn E) as (? & ? & ? & _). discriminate. }
      destruct (id_start d) eqn:E4.
      * destruct (snd (span id_char r1)) as [|e r2] eqn:E5.
        { split; [exact E1|]. split; [exact HL|]. intros [_ (n & r' & Hn & E)]. destruct (HX n r' Hn E) as (d' & r1' & Ed & _ & Es & _). injection Ed as <- <-.
          rewrite Es in E5. discriminate. }
        destruct (e =? 125) eqn:E6.
        -- apply N.eqb_eq in E6. subst e. destruct (span_spec id_char r1) as (S1 & _ & _). exists r2. split; [|now apply HI].
           cbn [app]. rewrite <- E5, <- S1. reflexivity.
        -- apply N.eqb_neq in E6. split; [exact E1|]. split; [exact HL|]. intros [_ (n & r' & Hn & E)]. destruct (HX n r' Hn E) as (d' & r1' & Ed & _ & Es & _).
           injection Ed as <- <-. rewrite Es in E5. cbn [snd] in E5. congruence.
      * split; [exact E1|]. split; [exact HL|]. intros [_ (n & r' & Hn & E)]. destruct (HX n r' Hn E) as (d' & r1' & Ed & Hd & _). congruence.
    + apply N.eqb_neq in E3. split; [exact E1|]. split; [exact HL|]. tauto.
Qed.

(** Every text is a template, or one up to a stray delimiter. *)
Lemma parse_template : forall n s, (length s <= n)%nat -> exists l, template l /\ (s = written l \/ exists r, s = written l ++ 36 :: r /\ stray r).
Proof.
  induction n as [|n IH]; intros s Hs.
  - destruct s; [|cbn in Hs; lia]. exists []. split; [constructor|now left].
  - destruct s as [|c r]; [exists []; split; [constructor|now left]|]. cbn [length] in Hs. destruct (N.eq_dec c 36) as [->|Hc].
    + pose proof (at_cases r) as HA. destruct (placeholder_at r) as [|m|m|].
      * destruct HA as [r' ->]. destruct (IH r') as (l & Hl & H); [cbn in Hs; lia|]. exists (Dollar :: l). split; [now constructor|].
        destruct H as [-> |(t & -> & Ht)]; [now left|right; exists t; split; [reflexivity|exact Ht]].
      * destruct HA as (r' & -> & Hm & Hx). destruct (IH r') as (l & Hl & H); [rewrite app_length in Hs; lia|]. exists (Name m :: l).
        split; [constructor; auto; intros c' r'' E; destruct H as [-> |(t & -> & Ht)]; [eapply Hx; eauto|rewrite E in Hx; eapply Hx; reflexivity]|].
        destruct H as [-> |(t & -> & Ht)]; [now left|right; exists t; split; [|exact Ht]]. unfold written. cbn [flat_map written1]. cbn [app]. now rewrite <- app_assoc.
      * destruct HA as (r' & -> & Hm). destruct (IH r') as (l & Hl & H); [cbn [length] in Hs; rewrite app_length in Hs; cbn in Hs; lia|]. exists (Braced m :: l).
        split; [now constructor|]. unfold written in *. cbn [flat_map written1 app].
        destruct H as [-> |(t & -> & Ht)]; [left; now rewrite <- app_assoc|right; exists t; split; [rewrite <- !app_assoc; reflexivity|exact Ht]].
      * exists []. split; [constructor|]. right. exists r. split; [reflexivity|exact HA].
    + destruct (IH r) as (l & Hl & H); [lia|]. exists (Text [c] :: l). split; [constructor; [|exact Hl]; intros [E|[]]; congruence|].
      destruct H as [-> |(t & -> & Ht)]; [now left|right; exists t; split; [reflexivity|exact Ht]].
Qed.

Lemma stray_at : forall r, stray r -> placeholder_at r = PInvalid.
Proof.
  intros r H. pose proof (at_cases r) as HA. destruct (placeholder_at r) as [|m|m|]; [| | |reflexivity]; exfalso.
  - destruct HA as [r' ->]. destruct H as [H _]. congruence.
  - destruct HA as (r' & -> & Hm & _). destruct m as [|c m]; [destruct Hm|]. destruct Hm as [Hm _]. cbn in H. tauto.
  - destruct HA as (r' & -> & Hm). destruct H as (_ & _ & H). apply H. split; [reflexivity|]. eauto.
Qed.
Lemma dollar_tail : forall r c r', 36 :: r = c :: r' -> ~ letter c /\ ~ digit c.
Proof. intros r c r' E. injection E as <- _. unfold letter, digit. split; lia. Qed.

Lemma substitute_stray : forall value l r, template l -> stray r ->
  substitute value (written l ++ 36 :: r) = match meaning value l with Some _ => Err ValueError | None => Err KeyError end.
Proof.
  intros value l r Hl Hr. unfold substitute. rewrite (sub_template _ l (36 :: r)); auto; [|apply dollar_tail].
  cbn [sub]. change (36 =? 36) with true. cbv iota. rewrite (stray_at r Hr). cbn [convert bind]. clear Hl.
  induction l as [|p l IH]; [reflexivity|]. rewrite IH. cbn [meaning].
  assert (E : text_before (convert value) p = match meaning1 value p with Some v => Ok v | None => Err KeyError end) by (destruct p; reflexivity).
  rewrite E. destruct (meaning1 value p); cbn [bind]; [|reflexivity]. destruct (meaning value l); reflexivity.
Qed.

(** safe_substitute leaves what it does not know. *)
Definition kept (value : str -> option str) (p : part) : str := match meaning1 value p with Some v => v | None => written1 p end.
Lemma safe_template : forall value l tail w, template l -> (forall c r, tail = c :: r -> ~ letter c /\ ~ digit c) ->
  sub (safe_convert value) tail 0 = Ok w -> safe_substitute value (written l ++ tail) = Ok (flat_map (kept value) l ++ w).
Proof.
  intros value l tail w Hl Ht Hw. unfold safe_substitute. rewrite (sub_template _ l tail); auto. rewrite Hw. clear - l.
  induction l as [|p l IH]; [reflexivity|]. rewrite IH. cbn [flat_map].
  assert (E : text_before (safe_convert value) p = Ok (kept value p)).
  { unfold kept. destruct p as [s| |m|m]; cbn; try reflexivity; destruct (value m); reflexivity. }
  rewrite E. cbn [bind]. now rewrite app_assoc.
Qed.
Lemma safe_stray : forall value r, stray r -> safe_substitute value (36 :: r) = do w <- safe_substitute value r ; Ok (36 :: w).
Proof.
  intros value r H. unfold safe_substitute. cbn [sub]. change (36 =? 36) with true. cbv iota. rewrite (stray_at r H). reflexivity.
Qed.
Lemma safe_total : forall value n s, (length s <= n)%nat -> exists v, safe_substitute value s = Ok v.
Proof.
  induction n as [|n IH]; intros s Hs; [destruct s; [exists []; reflexivity|cbn in Hs; lia]|].
  destruct (parse_template (length s) s (le_n _)) as (l & Hl & [-> |(r & -> & Hr)]).
  - exists (flat_map (kept value) l ++ []). rewrite <- (app_nil_r (written l)). apply safe_template; auto. discriminate.
  - destruct (IH r) as [v Hv]; [rewrite app_length in Hs; cbn in Hs; lia|].
    exists (flat_map (kept value) l ++ 36 :: v). apply safe_template; [exact Hl|apply dollar_tail|].
    change (sub (safe_convert value) (36 :: r) 0) with (safe_substitute value (36 :: r)). rewrite safe_stray by exact Hr. rewrite Hv. reflexivity.
Qed.

(** Doubled delimiters. *)
Definition doubled (s : str) : str := flat_map (fun c => if c =? 36 then [36; 36] else [c]) s.
Lemma doubled_parts : forall s, exists l, template l /\ written l = doubled s /\ (forall value, meaning value l = Some s).
Proof.
  induction s as [|c s (l & H1 & H2 & H3)]; [exists []; repeat split; constructor|]. destruct (N.eqb_spec c 36) as [->|Hc].
  - exists (Dollar :: l). split; [now constructor|]. split; [unfold written, doubled in *; cbn; now rewrite H2|]. intro value. cbn [meaning meaning1]. now rewrite H3.
  - exists (Text [c] :: l). split; [constructor; [intros [E|[]]; congruence|exact H1]|]. apply N.eqb_neq in Hc.
    split; [unfold written, doubled in *; cbn [flat_map written1]; rewrite Hc, H2; reflexivity|]. intro value. cbn [meaning meaning1]. now rewrite H3.
Qed.
