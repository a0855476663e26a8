(** * Proofs for C60 *)
From Coq Require Import NArith ZArith QArith Qround String List Bool Lia Arith.
From Verif Require Import PyStr PyErr SerModel SerStream XpNum XpFuncSpec XpNumStrProofs XtNumber XtNumberSpec.
Import ListNotations.
Local Open Scope nat_scope.

Section Format.
Variable isalnum : N -> bool.
Notation word := (word isalnum).
Notation nonword := (nonword isalnum).
Notation match_part := (match_part isalnum).
Notation findall := (findall isalnum).

(** ** The format string *)
Definition words (s : str) : Prop := forallb word s = true.
Definition others (s : str) : Prop := forallb nonword s = true.
Lemma others_head : forall s, others s -> match s with [] => True | x :: _ => word x = false end.
Proof. intros [|x s] H; [exact I|]. unfold others in H. cbn in H. apply andb_prop in H. destruct H as [H _]. unfold XtNumber.nonword in H. now apply negb_true_iff in H. Qed.
Lemma words_head : forall s, words s -> match s with [] => True | x :: _ => nonword x = false end.
Proof. intros [|x s] H; [exact I|]. unfold words in H. cbn in H. apply andb_prop in H. destruct H as [H _]. unfold XtNumber.nonword. now rewrite H. Qed.
Lemma head_app : forall (P : N -> Prop) (a b : str), a <> [] -> match a with [] => True | x :: _ => P x end -> match a ++ b with [] => True | x :: _ => P x end.
Proof. intros P [|x a] b H1 H2; [congruence|exact H2]. Qed.
Lemma match_part_app : forall p t s rest, others p -> words t -> t <> [] -> others s ->
  (rest = [] \/ (s <> [] /\ match rest with [] => True | x :: _ => nonword x = false end)) -> match_part (p ++ t ++ s ++ rest) = Some (p, t, s, rest).
Proof.
  intros p t s rest Hp Ht Hne Hs Hr. unfold XtNumber.match_part.
  rewrite span_app; [|exact Hp|apply (head_app (fun x => nonword x = false)); [exact Hne|now apply words_head]].
  rewrite span_app; [|exact Ht|].
  - destruct t as [|x t]; [congruence|]. rewrite span_app; [reflexivity|exact Hs|]. destruct Hr as [->|[_ Hr]]; [exact I|exact Hr].
  - destruct Hr as [->|[Hn Hr]].
    + rewrite app_nil_r. now apply others_head.
    + apply (head_app (fun x => word x = false)); [exact Hn|now apply others_head].
Qed.
Fixpoint expected (p : str) (ts ss : list str) (suf : str) : list (str * str * str) :=
  match ts with
  | [] => []
  | t :: ts' => match ss with [] => [(p, t, suf)] | s :: ss' => (p, t, s) :: expected [] ts' ss' suf end
  end.
Definition good_tokens (ts : list str) : Prop := Forall (fun t => t <> [] /\ words t) ts.
Definition good_separators (ss : list str) : Prop := Forall (fun t => t <> [] /\ others t) ss.
Lemma findall_split : forall ts t p ss suf fuel, others p -> others suf -> good_tokens (t :: ts) -> good_separators ss -> List.length ss = List.length ts ->
  List.length ts < fuel -> findall fuel (p ++ woven (t :: ts) ss ++ suf) = expected p (t :: ts) ss suf.
Proof.
  induction ts as [|t' ts IH]; intros t p ss suf fuel Hp Hsuf Hts Hss Hlen Hf; (destruct fuel as [|fuel]; [cbn in Hf; lia|]);
    inversion Hts as [|? ? [Ht1 Ht2] Hts']; subst; (destruct ss as [|s ss]; cbn [List.length] in Hlen; [|try discriminate]); try discriminate.
  - cbn [woven expected XtNumber.findall]. replace (p ++ t ++ suf) with (p ++ t ++ suf ++ []) by (now rewrite app_nil_r).
    rewrite match_part_app; auto. destruct fuel; cbn [XtNumber.findall]; [reflexivity|]. reflexivity.
  - inversion Hss as [|? ? [Hs1 Hs2] Hss']; subst. inversion Hts' as [|? ? [Ht1' Ht2'] Hts'']; subst.
    change (woven (t :: t' :: ts) (s :: ss)) with (t ++ s ++ woven (t' :: ts) ss). cbn [expected XtNumber.findall]. rewrite <- !app_assoc.
    rewrite match_part_app; auto.
    + f_equal. apply (IH t' [] ss suf fuel); auto; [reflexivity|cbn in Hf; lia].
    + right. split; [exact Hs1|]. destruct t' as [|x t']; [congruence|]. apply words_head in Ht2'. destruct ss; exact Ht2'.
Qed.
Lemma collect_expected : forall ts ss s suf at1 as1, List.length ts = S (List.length ss) ->
  collect (expected [] ts ss suf) s at1 as1 = (at1 ++ ts, as1 ++ s :: ss, suf).
Proof.
  induction ts as [|t ts IH]; intros ss s suf at1 as1 H; [discriminate|]. destruct ss as [|s' ss]; cbn [List.length] in H.
  - destruct ts; [|discriminate]. cbn. reflexivity.
  - cbn [expected collect]. rewrite IH by lia. rewrite <- !app_assoc. reflexivity.
Qed.
Lemma woven_length : forall ts ss, good_tokens ts -> List.length ts <= List.length (woven ts ss) \/ ts = [] \/ List.length ss < pred (List.length ts).
Proof.
  induction ts as [|t ts IH]; intros ss H; [now right; left|]. inversion H as [|? ? [H1 H2] H3]; subst. destruct t as [|x t]; [congruence|].
  destruct ss as [|s ss]; cbn [woven].
  - destruct ts; [left; cbn; lia|right; right; cbn; lia].
  - destruct (IH ss H3) as [L|[->|L]].
    + left. cbn. rewrite !app_length. lia.
    + left. cbn. lia.
    + right. right. destruct ts; cbn in *; lia.
Qed.
Definition or_default (l : list str) (d : str) : list str := match l with [] => [d] | _ => l end.
Lemma new_formatter_split : forall format p ts ss suf, format <> [] ->
  (ts <> [] -> format = p ++ woven ts ss ++ suf) -> (ts = [] -> p = format /\ suf = format) ->
  good_tokens ts -> good_separators ss -> others p -> others suf -> List.length ss = pred (List.length ts) ->
  let f := new_formatter isalnum format in prefix f = p /\ suffix f = suf /\ toks f = or_default ts (lit "1") /\ seps f = or_default ss (lit ".").
Proof.
  intros format p ts ss suf Hne H1 H2 Ht Hs Hp Hsuf Hl. cbn zeta. unfold new_formatter.
  assert ((match format with [] => lit "1" | _ => format end) = format) as -> by (destruct format; congruence).
  destruct ts as [|t ts].
  - destruct (H2 eq_refl) as [-> ->]. destruct ss; [|discriminate].
    assert (findall (List.length format) format = []) as ->; [|cbn; auto].
    destruct format as [|x format]; [reflexivity|]. cbn [List.length XtNumber.findall]. unfold XtNumber.match_part.
    pose proof (span_app nonword (x :: format) [] Hp I) as E. rewrite app_nil_r in E. rewrite E. reflexivity.
  - cbn [pred List.length] in Hl. assert (Hf : List.length ts < List.length format).
    { rewrite H1 by discriminate. rewrite !app_length. destruct (woven_length (t :: ts) ss Ht) as [L|[L|L]]; [cbn [List.length] in L; lia|discriminate|cbn in L; lia]. }
    assert (findall (List.length format) format = expected p (t :: ts) ss suf) as -> by (rewrite (H1 ltac:(discriminate)) at 2; apply findall_split; auto).
    destruct ss as [|s ss]; destruct ts as [|t' ts]; try discriminate; cbn [expected].
    + cbn. auto.
    + cbn in Hl. change (match ss with [] => [([], t', suf)] | s0 :: ss' => ([], t', s0) :: expected [] ts ss' suf end) with (expected [] (t' :: ts) ss suf).
      assert (exists q l, expected [] (t' :: ts) ss suf = q :: l) as (q & l & E) by (cbn; destruct ss; eauto).
      rewrite E, <- E. rewrite collect_expected by (cbn; lia). cbn. auto.
Qed.
Lemma split_exists_gen : forall fuel l, List.length l <= fuel -> exists p ts ss suf, others p /\ others suf /\ good_tokens ts /\ good_separators ss /\ List.length ss = pred (List.length ts) /\
  (ts <> [] -> l = p ++ woven ts ss ++ suf) /\ (ts = [] -> p = l /\ suf = l) /\ (match l with [] => True | x :: _ => word x = true end -> ts <> [] -> p = []).
Proof.
  induction fuel as [|fuel IH]; intros l Hl.
  - destruct l; [|cbn in Hl; lia]. exists [], [], [], []. repeat split; auto; try constructor; congruence.
  - destruct (span nonword l) as [p r] eqn:E1. destruct (span word r) as [t r'] eqn:E2.
    destruct (span_spec _ _ _ _ E1) as (F1 & F2 & F3). destruct (span_spec _ _ _ _ E2) as (G1 & G2 & G3).
    destruct t as [|x t].
    + assert (r = []) as ->. { destruct r as [|y r]; [reflexivity|]. cbn in G1. subst r'. unfold XtNumber.nonword in F3. rewrite G3 in F3. discriminate. }
      rewrite app_nil_r in F1. subst p. exists l, [], [], l. repeat split; auto; try constructor; congruence.
    + assert (Hpx : word x = true) by (cbn in G2; apply andb_prop in G2; tauto).
      destruct (span nonword r') as [s r''] eqn:E3. destruct (span_spec _ _ _ _ E3) as (K1 & K2 & K3).
      assert (Hpnil : match l with [] => True | y :: _ => word y = true end -> p = []).
      { intros Hw. destruct p as [|y p]; [reflexivity|]. subst l. cbn in Hw. cbn in F2. unfold XtNumber.nonword in F2. rewrite Hw in F2. discriminate. }
      destruct (IH r'') as (p2 & ts & ss & suf & A1 & A2 & A3 & A4 & A5 & A6 & A7 & A8).
      { subst l r r'. cbn [app List.length] in Hl. rewrite !app_length in Hl. cbn in Hl. rewrite !app_length in Hl. lia. }
      assert (Hgt : (x :: t) <> [] /\ words (x :: t)) by (split; [discriminate|exact G2]).
      destruct r'' as [|y r''].
      * rewrite app_nil_r in K1. subst r'. exists p, [x :: t], [], s. repeat split; auto; try (constructor; [auto|constructor]); try constructor; try congruence.
        intros _. cbn [woven]. now rewrite F1, G1.
      * assert (Hy : word y = true) by (unfold XtNumber.nonword in K3; now apply negb_false_iff in K3).
        destruct ts as [|t2 ts].
        { destruct (A7 eq_refl) as [-> _]. cbn in A1. unfold others in A1. cbn in A1. unfold XtNumber.nonword in A1. rewrite Hy in A1. discriminate. }
        assert (Hp2 : p2 = []) by (apply A8; [exact Hy|discriminate]). subst p2.
        exists p, ((x :: t) :: t2 :: ts), (s :: ss), suf. split; [exact F2|]. split; [exact A2|]. split; [constructor; auto|]. split.
        { constructor; [|exact A4]. split; [|exact K2]. intros ->. cbn in K1. subst r'. rewrite G3 in Hy. discriminate. }
        split; [cbn in *; lia|]. split; [|split; [discriminate|auto]]. intros _.
        change (woven ((x :: t) :: t2 :: ts) (s :: ss)) with ((x :: t) ++ s ++ woven (t2 :: ts) ss). rewrite <- !app_assoc.
        rewrite F1, G1, K1. rewrite (A6 ltac:(discriminate)). reflexivity.
Qed.

(** ** Many numbers *)
Definition view (l : list str) (i : nat) : str := match nth_error l i with Some x => x | None => last l [] end.
Lemma next_view : forall l, l <> [] -> fst (next_item l) = view l 0 /\ snd (next_item l) <> [] /\ forall i, view (snd (next_item l)) i = view l (S i).
Proof.
  intros [|x [|y l]] H; [congruence| |]; cbn [next_item fst snd].
  - split; [reflexivity|]. split; [discriminate|]. intros [|i]; [reflexivity|]. unfold view. cbn. destruct i; reflexivity.
  - split; [reflexivity|]. split; [discriminate|]. intros i. unfold view. cbn [nth_error]. reflexivity.
Qed.
Lemma items_ok : forall a g numbers ts ss l, ts <> [] -> ss <> [] ->
  (items numbers ts ss a g = Ok l <->
   exists texts, List.length texts = List.length numbers /\
     (forall i n, nth_error numbers i = Some n -> exists x, nth_error texts i = Some x /\ format_number (Some n) (view ts i) a g = Ok x) /\
     l = List.concat (map (fun p => [snd p; view ss (fst p)]) (combine (seq 0 (List.length numbers)) texts))).
Proof.
  induction numbers as [|n numbers IH]; intros ts ss l Hts Hss.
  - cbn. split.
    + intros H. injection H as <-. exists []. split; [reflexivity|]. split; [intros [|i] n; discriminate|reflexivity].
    + intros (texts & H1 & H2 & ->). destruct texts; [reflexivity|discriminate].
  - cbn [items]. destruct (next_view ts Hts) as (T1 & T2 & T3). destruct (next_view ss Hss) as (S1 & S2 & S3).
    destruct (next_item ts) as [tok ts']. destruct (next_item ss) as [sep ss']. cbn [fst snd] in *. subst tok sep.
    assert (Hshift : forall texts, map (fun p => [snd p; view ss (fst p)]) (combine (seq 1 (List.length numbers)) texts) =
                                   map (fun p => [snd p; view ss' (fst p)]) (combine (seq 0 (List.length numbers)) texts)).
    { clear -S3. intros texts. rewrite <- seq_shift. generalize (seq 0 (List.length numbers)) as sq. intros sq. revert texts. induction sq as [|k sq IH]; intros [|x texts]; cbn; auto. rewrite IH, S3. reflexivity. }
    split.
    + intros H. destruct (format_number (Some n) (view ts 0) a g) as [r|] eqn:E; cbn [bind] in H; [|discriminate].
      destruct (items numbers ts' ss' a g) as [l'|] eqn:E'; cbn [bind] in H; [|discriminate]. injection H as <-.
      apply IH in E'; auto. destruct E' as (texts & H1 & H2 & ->). exists (r :: texts). split; [cbn; lia|]. split.
      * intros [|i] m Hm; cbn in *; [injection Hm as <-; eauto|]. destruct (H2 i m Hm) as (x & Hx & Hy). exists x. rewrite <- T3. auto.
      * cbn [List.length seq combine map List.concat app fst snd]. rewrite Hshift. reflexivity.
    + intros ([|r texts] & H1 & H2 & ->); [discriminate|]. destruct (H2 0 n eq_refl) as (x & Hx & Hy). injection Hx as <-. rewrite Hy. cbn [bind].
      assert (items numbers ts' ss' a g = Ok (List.concat (map (fun p => [snd p; view ss' (fst p)]) (combine (seq 0 (List.length numbers)) texts)))) as ->.
      { apply IH; auto. exists texts. split; [cbn in H1; lia|]. split; [|reflexivity]. intros i m Hm. destruct (H2 (S i) m Hm) as (x & Hx & Hz). exists x. rewrite T3. auto. }
      cbn [bind List.length seq combine map List.concat app fst snd]. rewrite Hshift. reflexivity.
Qed.
Lemma removelast_two : forall (x y : str) l, removelast (x :: y :: l) = x :: removelast (y :: l).
Proof. reflexivity. Qed.
Lemma concat_items : forall sep texts k p suf, texts <> [] ->
  List.concat (removelast (p :: List.concat (map (fun q => [snd q; sep (fst q)]) (combine (seq k (List.length texts)) texts))) ++ [suf]) =
  p ++ (fix go (i : nat) (l : list str) : str := match l with [] => [] | [t] => t | t :: l' => t ++ sep i ++ go (S i) l' end) k texts ++ suf.
Proof.
  intros sep. induction texts as [|t texts IH]; intros k p suf H; [congruence|]. cbn [List.length seq combine map List.concat app fst snd].
  destruct texts as [|t' texts].
  - cbn. rewrite app_nil_r. reflexivity.
  - specialize (IH (S k) (sep k) suf ltac:(discriminate)). rewrite !removelast_two. cbn [app List.concat].
    cbn [List.length seq combine map List.concat app fst snd] in IH. cbn [List.length seq combine map List.concat app fst snd].
    rewrite removelast_two in IH. rewrite removelast_two. cbn [app List.concat] in IH. cbn [app List.concat]. rewrite IH. rewrite <- !app_assoc. reflexivity.
Qed.
Lemma view_token : forall ts i, view (or_default ts (lit "1")) i = token_for ts i.
Proof.
  intros [|t ts] i; unfold view, token_for, or_default.
  - destruct i as [|i]; [reflexivity|]. cbn. destruct i; reflexivity.
  - destruct (nth_error (t :: ts) i); [reflexivity|]. clear. revert t. induction ts as [|u ts IH]; intros t; [reflexivity|]. change (last (t :: u :: ts) []) with (last (u :: ts) (@nil N)). change (last (t :: u :: ts) (lit "1")) with (last (u :: ts) (lit "1")). apply IH.
Qed.
Lemma view_separator : forall ss i, view (or_default ss (lit ".")) i = separator_for ss i.
Proof.
  intros [|t ts] i; unfold view, separator_for, or_default.
  - destruct i as [|i]; [reflexivity|]. cbn. destruct i; reflexivity.
  - destruct (nth_error (t :: ts) i); [reflexivity|]. clear. revert t. induction ts as [|u ts IH]; intros t; [reflexivity|]. change (last (t :: u :: ts) []) with (last (u :: ts) (@nil N)). change (last (t :: u :: ts) (lit ".")) with (last (u :: ts) (lit ".")). apply IH.
Qed.
Lemma separated_go : forall ss texts k, separated ss k texts =
  (fix go (i : nat) (l : list str) : str := match l with [] => [] | [t] => t | t :: l' => t ++ view (or_default ss (lit ".")) i ++ go (S i) l' end) k texts.
Proof.
  intros ss. induction texts as [|t texts IH]; intros k; [reflexivity|]. destruct texts as [|t' texts]; [reflexivity|].
  change (separated ss k (t :: t' :: texts)) with (t ++ separator_for ss k ++ separated ss (S k) (t' :: texts)). rewrite IH, <- view_separator. reflexivity.
Qed.
End Format.

(** ** Single numbers *)
Lemma padded_ok : forall width n, decimal_text width n (padded width n).
Proof.
  intros width n. unfold padded. destruct (dec_loop_ok (S (N.size_nat n)) n (size_bound n) ltac:(lia)) as [E Z0]. fold (dec_str n) in E, Z0.
  split; [|split; [|split]].
  - apply Forall_app. split; [|apply dec_str_digits]. apply Forall_forall. intros c Hc. apply repeat_spec in Hc. subst c. unfold digit. lia.
  - rewrite decimal_app, decimal_zeros. rewrite E. lia.
  - rewrite app_length, repeat_length. lia.
  - intros Hlt r. rewrite app_length, repeat_length in Hlt. replace (width - List.length (dec_str n)) with 0 by lia. cbn [repeat app]. apply Z0.
Qed.
Lemma letters_value_snoc : forall first s c acc, letters_value first (s ++ [c]) acc = (26 * letters_value first s acc + (c - first + 1))%N.
Proof. induction s as [|d s IH]; intros c acc; cbn [app letters_value]; [reflexivity|]. apply IH. Qed.
Lemma alpha_loop_ok : forall first fuel n, (0 < n)%N -> (N.to_nat n <= fuel) -> letters_text first n (rev (alpha_loop fuel first n)).
Proof.
  intros first. induction fuel as [|fuel IH]; intros n Hn Hf; [lia|]. cbn [alpha_loop]. destruct (N.ltb_spec 26 n) as [L|L].
  - pose proof (N.div_mod (n - 1) 26 ltac:(lia)) as DM. pose proof (N.mod_lt (n - 1) 26 ltac:(lia)) as ML.
    set (q := ((n - 1) / 26)%N) in *. set (m := ((n - 1) mod 26)%N) in *. destruct (IH q) as [H1 H2]; [lia|lia|]. cbn [rev]. unfold letters_text. split.
    + apply Forall_app. split; [exact H1|]. constructor; [|constructor]. unfold letter. lia.
    + rewrite letters_value_snoc, H2. unfold letter. lia.
  - destruct (N.eqb_spec n 0); [lia|]. cbn [rev app]. unfold letters_text, letter. split; [constructor; [lia|constructor]|]. cbn [letters_value]. lia.
Qed.
(** There is one text for each number. *)
Lemma letters_value_pos : forall first s acc, (acc <= letters_value first s acc)%N.
Proof. induction s as [|c s IH]; intros acc; cbn [letters_value]; [lia|]. eapply N.le_trans; [|apply IH]. lia. Qed.
Lemma letters_unique : forall first n s s', letters_text first n s -> letters_text first n s' -> s = s'.
Proof.
  intros first n s. revert n. induction s as [|c s IH] using rev_ind; intros n s' [F1 V1] [F2 V2].
  - cbn in V1. subst n. destruct s' as [|d s'] using rev_ind; [reflexivity|]. rewrite letters_value_snoc in V2. lia.
  - destruct s' as [|d s' _] using rev_ind.
    + rewrite letters_value_snoc in V1. cbn in V2. lia.
    + rewrite letters_value_snoc in V1, V2. apply Forall_app in F1, F2. destruct F1 as [A1 A2]. destruct F2 as [B1 B2].
      inversion A2; subst. inversion B2; subst.
      assert (letters_value first s 0 = letters_value first s' 0 /\ c = d) as [E ->] by lia.
      f_equal. apply (IH (letters_value first s 0)); split; auto.
Qed.
Lemma roman_error : forall n, (10 <= n < 1000000)%N -> roman_loop roman_upper n = Err IndexError /\ roman_loop roman_lower n = Err IndexError.
Proof.
  intros n Hn. assert (forall row rest, List.length row = 10 -> roman_loop ((1%N, row) :: rest) n = Err IndexError) as H.
  { intros row rest Hl. cbn [roman_loop]. destruct (N.ltb_spec 1 n); [|lia]. rewrite N.div_1_r.
    assert (nth_error row (N.to_nat n) = None) as -> by (apply nth_error_None; lia). reflexivity. }
  split.
  - unfold roman_upper, roman_rows. cbn [flat_map map app]. change (1 * 1)%N with 1%N. apply H. reflexivity.
  - unfold roman_lower, roman_rows. cbn [flat_map map app]. change (1 * 1)%N with 1%N. apply H. reflexivity.
Qed.
