(** * C60: xsl:number writes numbers in the chosen format

    For a format with separators and tokens (XSLT 1.0, 7.7.1) the result is the part before
    the first token, the numbers with the separators between them, and the part behind the
    last token; each number is written by its token: decimal digits, letters or Roman
    numerals. *)
From Coq Require Import NArith ZArith QArith Qround String List Bool Lia Arith.
From Verif Require Import PyStr PyErr SerModel SerStream XpNum XpFuncSpec XpNumStrProofs XtNumber XtNumberSpec XtNumberProofs.
Import ListNotations.
Local Open Scope nat_scope.

(** Every format has exactly one reading, and it is the one used; an underscore is the only
    character on which the regular expression and the recommendation disagree. *)
Definition alnum_of (isalnum : N -> bool) (c : N) : Prop := isalnum c = true.
Lemma word_alnum : forall isalnum format, ~ In 95%N format -> forall c, In c format -> (word isalnum c = true <-> alnum_of isalnum c).
Proof. intros isalnum format H c Hc. unfold word, alnum_of. destruct (N.eqb_spec c 95) as [->|]; [contradiction|]. now rewrite orb_false_r. Qed.
Lemma words_of : forall isalnum s, (forall c, In c s -> c <> 95%N) -> (words isalnum s <-> all_of (alnum_of isalnum) s).
Proof.
  intros isalnum s H. unfold words, all_of. rewrite forallb_forall, Forall_forall. unfold word, alnum_of.
  split; intros K c Hc; specialize (K c Hc); specialize (H c Hc); destruct (N.eqb_spec c 95); try congruence; rewrite ?orb_false_r in *; assumption.
Qed.
Lemma others_of : forall isalnum s, (forall c, In c s -> c <> 95%N) -> (others isalnum s <-> all_of (fun c => ~ alnum_of isalnum c) s).
Proof.
  intros isalnum s H. unfold others, all_of. rewrite forallb_forall, Forall_forall. unfold nonword, word, alnum_of.
  split; intros K c Hc; specialize (K c Hc); specialize (H c Hc); destruct (N.eqb_spec c 95); try congruence; rewrite ?orb_false_r in *; destruct (isalnum c); cbn in *; congruence.
Qed.
Lemma woven_in : forall ts ss c, List.length ss = pred (List.length ts) -> ((exists t, In t ts /\ In c t) \/ (exists s, In s ss /\ In c s)) -> In c (woven ts ss).
Proof.
  induction ts as [|t ts IH]; intros ss c Hl H.
  - destruct ss; [|discriminate]. destruct H as [(x & [] & _)|(x & [] & _)].
  - cbn [woven]. destruct ss as [|s ss].
    + destruct ts; [|discriminate]. destruct H as [(x & [->|[]] & Hx)|(x & [] & _)]. exact Hx.
    + cbn in Hl. destruct H as [(x & [->|Hx] & Hc)|(x & [->|Hx] & Hc)]; rewrite !in_app_iff.
      * now left.
      * right; right. apply IH; [destruct ts; cbn in *; lia|eauto].
      * right; now left.
      * right; right. apply IH; [destruct ts; cbn in *; lia|eauto].
Qed.
Lemma no_underscore : forall isalnum format p ts ss suf, ~ In 95%N format -> split_format (alnum_of isalnum) format p ts ss suf \/
  ((ts <> [] -> format = p ++ woven ts ss ++ suf) /\ (ts = [] -> p = format /\ suf = format) /\ List.length ss = pred (List.length ts)) ->
  (forall c, In c p -> c <> 95%N) /\ (forall c, In c suf -> c <> 95%N) /\ (forall t c, In t ts -> In c t -> c <> 95%N) /\ (forall t c, In t ts \/ In t ss -> In c t -> c <> 95%N).
Proof.
  intros isalnum format p ts ss suf H HH.
  assert ((ts <> [] -> format = p ++ woven ts ss ++ suf) /\ (ts = [] -> p = format /\ suf = format) /\ List.length ss = pred (List.length ts)) as (H1 & H2 & H3).
  { destruct HH as [[? ? ? ? ? ? ?]|HH]; auto. }
  destruct ts as [|t0 ts].
  - destruct (H2 eq_refl) as [-> ->]. destruct ss; [|discriminate].
    split; [|split; [|split]]; try (intros c Hc E; subst c; contradiction); [intros t c []|intros t c [[]|[]]].
  - rewrite (H1 ltac:(discriminate)) in H. rewrite !in_app_iff in H.
    split; [intros c Hc E; subst; tauto|]. split; [intros c Hc E; subst; tauto|].
    split; intros t c Ht Hc E; subst; apply H; right; left; apply woven_in; auto; [left; eauto|destruct Ht; [left|right]; eauto].
Qed.
Theorem C60_reading : forall isalnum format, ~ In 95%N format ->
  exists pre ts ss suf, split_format (alnum_of isalnum) format pre ts ss suf.
Proof.
  intros isalnum format H. destruct (split_exists_gen isalnum (List.length format) format (le_n _)) as (p & ts & ss & suf & A1 & A2 & A3 & A4 & A5 & A6 & A7 & _).
  destruct (no_underscore isalnum format p ts ss suf H (or_intror (conj A6 (conj A7 A5)))) as (U1 & U2 & U3 & U4).
  exists p, ts, ss, suf. constructor; auto.
  - eapply Forall_impl with (P := fun t => In t ts /\ t <> [] /\ words isalnum t).
    + intros t (Hi & Hn & Hw). split; [exact Hn|]. apply words_of; [|exact Hw]. intros c. now apply U3.
    + apply Forall_forall. intros t Ht. split; [exact Ht|]. unfold good_tokens in A3. rewrite Forall_forall in A3. now apply A3.
  - apply Forall_forall. intros t Ht. unfold good_separators in A4. rewrite Forall_forall in A4. destruct (A4 t Ht) as [Hn Ho]. split; [exact Hn|].
    apply others_of; [|exact Ho]. intros c. apply U4. now right.
  - now apply others_of.
  - now apply others_of.
Qed.
Print Assumptions C60_reading.
Lemma reading_used : forall isalnum format p ts ss suf, format <> [] -> ~ In 95%N format -> split_format (alnum_of isalnum) format p ts ss suf ->
  let f := new_formatter isalnum format in prefix f = p /\ suffix f = suf /\ toks f = or_default ts (lit "1") /\ seps f = or_default ss (lit ".").
Proof.
  intros isalnum format p ts ss suf Hne H HS. destruct (no_underscore isalnum format p ts ss suf H (or_introl HS)) as (U1 & U2 & U3 & U4).
  destruct HS as [A1 A2 A3 A4 A5 A6 A7]. apply new_formatter_split; auto.
  - apply Forall_forall. intros t Ht. rewrite Forall_forall in A3. destruct (A3 t Ht) as [Hn Ho]. split; [exact Hn|]. apply words_of; [|exact Ho]. intros c. now apply U3.
  - apply Forall_forall. intros t Ht. rewrite Forall_forall in A4. destruct (A4 t Ht) as [Hn Ho]. split; [exact Hn|]. apply others_of; [|exact Ho]. intros c. apply U4. now right.
  - now apply others_of.
  - now apply others_of.
Qed.

(** A list of numbers, at least one: the whole result. *)
Theorem C60_list_partial : forall isalnum format p ts ss suf alphabetic grouped numbers r,
  format <> [] -> ~ In 95%N format -> split_format (alnum_of isalnum) format p ts ss suf -> numbers <> [] ->
  (format_many (new_formatter isalnum format) numbers alphabetic grouped = Ok r <->
   exists texts, List.length texts = List.length numbers /\
     (forall i n, nth_error numbers i = Some n ->
        exists x, nth_error texts i = Some x /\ format_number (Some n) (token_for ts i) alphabetic grouped = Ok x) /\
     r = p ++ separated ss 0 texts ++ suf).
Proof.
  intros isalnum format p ts ss suf a g numbers r Hne H HS Hn.
  destruct (reading_used isalnum format p ts ss suf Hne H HS) as (E1 & E2 & E3 & E4). cbn zeta in *. unfold format_many. rewrite E1, E2, E3, E4.
  assert (Ht : or_default ts (lit "1") <> []) by (destruct ts; discriminate). assert (Hs : or_default ss (lit ".") <> []) by (destruct ss; discriminate).
  assert (Hc : forall texts, List.length texts = List.length numbers ->
    List.concat (removelast (p :: List.concat (map (fun q : nat * str => [snd q; view (or_default ss (lit ".")) (fst q)]) (combine (seq 0 (List.length numbers)) texts))) ++ [suf]) = p ++ separated ss 0 texts ++ suf).
  { intros texts Hl. rewrite <- Hl. rewrite (concat_items (view (or_default ss (lit ".")))) by (destruct texts; [destruct numbers; cbn in Hl; congruence|discriminate]).
    rewrite separated_go. reflexivity. }
  split.
  - intros K. destruct (items numbers (or_default ts (lit "1")) (or_default ss (lit ".")) a g) as [l|] eqn:E; cbn [bind] in K; [|discriminate]. injection K as <-.
    apply items_ok in E; auto. destruct E as (texts & B1 & B2 & ->). exists texts. split; [exact B1|]. split; [|now apply Hc].
    intros i n Hi. destruct (B2 i n Hi) as (x & X1 & X2). exists x. rewrite <- view_token. auto.
  - intros (texts & B1 & B2 & ->).
    assert (items numbers (or_default ts (lit "1")) (or_default ss (lit ".")) a g =
            Ok (List.concat (map (fun q => [snd q; view (or_default ss (lit ".")) (fst q)]) (combine (seq 0 (List.length numbers)) texts)))) as ->.
    { apply items_ok; auto. exists texts. split; [exact B1|]. split; [|reflexivity]. intros i n Hi. destruct (B2 i n Hi) as (x & X1 & X2). exists x. rewrite view_token. auto. }
    cbn [bind]. now rewrite Hc.
Qed.
Print Assumptions C60_list_partial.
(** One number. *)
Theorem C60_one : forall isalnum format p ts ss suf alphabetic grouped n r,
  format <> [] -> ~ In 95%N format -> split_format (alnum_of isalnum) format p ts ss suf ->
  (format_one (new_formatter isalnum format) (Some n) alphabetic grouped = Ok r <->
   exists x, format_number (Some n) (token_for ts 0) alphabetic grouped = Ok x /\ r = p ++ x ++ suf).
Proof.
  intros isalnum format p ts ss suf a g n r Hne H HS.
  destruct (reading_used isalnum format p ts ss suf Hne H HS) as (E1 & E2 & E3 & E4). cbn zeta in *. unfold format_one. rewrite E1, E2, E3.
  assert (hd [] (or_default ts (lit "1")) = token_for ts 0) as -> by (destruct ts; reflexivity).
  destruct (format_number (Some n) (token_for ts 0) a g) as [x|e]; cbn [bind]; split.
  - intros K. injection K as <-. eauto.
  - intros (y & Hy & ->). now injection Hy as <-.
  - discriminate.
  - intros (y & Hy & ->). discriminate.
Qed.
Print Assumptions C60_one.
(** The empty format is the format "1". *)
Theorem C60_default : forall isalnum, new_formatter isalnum [] = new_formatter isalnum (lit "1").
Proof. reflexivity. Qed.
Print Assumptions C60_default.

(** ** Single numbers *)
(** 1, 01, 001, ...: at least as many digits as the token has characters. *)
Definition decimal_token (t : str) : Prop := exists k, t = repeat 48%N k ++ [49%N].
Theorem C60_decimal_partial : forall t n alphabetic, decimal_token t ->
  exists s, format_number (Some n) t alphabetic false = Ok s /\ decimal_text (List.length t) n s.
Proof.
  intros t n a (k & ->). exists (padded (List.length (repeat 48%N k ++ [49%N])) n). split; [|apply padded_ok].
  unfold format_number, is_token. destruct k as [|[|k]]; [destruct a; reflexivity| |].
  - destruct a; reflexivity.
  - cbn [repeat app]. destruct a; reflexivity.
Qed.
Print Assumptions C60_decimal_partial.
(** Letters: the right letters, but in reverse order, so that only 1 to 26 (and
    palindromes) are right. *)
Theorem C60_letters_partial : forall n alphabetic grouped (upper : bool), (0 < n)%N ->
  exists s, letters_text (if upper then 65%N else 97%N) n s /\
    format_number (Some n) [if upper then 65%N else 97%N] alphabetic grouped = Ok (rev s) /\ ((n <= 26)%N -> rev s = s).
Proof.
  intros n a g upper Hn. exists (rev (alpha_sequence n (if upper then 65%N else 97%N))). split; [apply alpha_loop_ok; [exact Hn|lia]|]. split.
  - rewrite rev_involutive. destruct upper, a; reflexivity.
  - intros H. unfold alpha_sequence. cbn [alpha_loop]. destruct (N.ltb_spec 26 n); [lia|]. reflexivity.
Qed.
Print Assumptions C60_letters_partial.
(** 27 is aa; 28 is ab, and is written ba. *)
Theorem C60_letters_refuted : exists n s, letters_text 97 n s /\ forall s', format_number (Some n) (lit "a") true false = Ok s' -> ~ letters_text 97 n s'.
Proof.
  exists 28%N, (lit "ab"). assert (letters_text 97 28 (lit "ab")) as H by (split; [repeat constructor; unfold N.le, N.lt; cbn; discriminate || reflexivity|reflexivity]).
  split; [exact H|]. intros s' E K. pose proof (letters_unique _ _ _ _ H K) as <-. vm_compute in E. discriminate.
Qed.
Print Assumptions C60_letters_refuted.
(** Roman numerals: 2 to 9 are right; 1 is written as nothing; from 10 to 999999 the
    transformation stops with an IndexError. *)
Theorem C60_roman_partial : forall n, (2 <= n <= 9)%N -> format_number (Some n) (lit "I") false false = Ok (roman_text n).
Proof.
  intros n H. assert (n = 2 \/ n = 3 \/ n = 4 \/ n = 5 \/ n = 6 \/ n = 7 \/ n = 8 \/ n = 9)%N as D by lia.
  repeat (destruct D as [->|D]; [vm_compute; reflexivity|]). subst. vm_compute. reflexivity.
Qed.
Print Assumptions C60_roman_partial.
Theorem C60_roman_refuted : format_number (Some 1%N) (lit "I") false false = Ok [] /\
  (forall n, (10 <= n < 1000000)%N -> format_number (Some n) (lit "I") false false = Err IndexError /\ format_number (Some n) (lit "i") false false = Err IndexError).
Proof.
  split; [vm_compute; reflexivity|]. intros n H. destruct (roman_error n H) as [E1 E2]. unfold format_number.
  change (is_token (lit "I") 73) with true. change (is_token (lit "i") 73) with false. change (is_token (lit "i") 105) with true. change (is_token (lit "I") 105) with false.
  cbn [orb andb negb]. assert ((0 <? n)%N = true) as -> by (apply N.ltb_lt; lia). assert ((n <? roman_max)%N = true) as -> by (apply N.ltb_lt; unfold roman_max; lia).
  cbn [andb]. auto.
Qed.
Print Assumptions C60_roman_refuted.
(** Asking for groups of digits stops the transformation. *)
Theorem C60_groups_refuted : forall t n alphabetic, decimal_token t -> format_number (Some n) t alphabetic true = Err NameError.
Proof. intros t n a (k & ->). unfold format_number, is_token. destruct k as [|[|k]]; destruct a; reflexivity. Qed.
Print Assumptions C60_groups_refuted.
(** A token that is not supported is to be treated as 1 but sets a width. *)
Theorem C60_unsupported_refuted : format_number (Some 7%N) (lit "foo") false false = Ok (lit "007").
Proof. vm_compute. reflexivity. Qed.
Print Assumptions C60_unsupported_refuted.
Definition ascii_alnum (c : N) : bool := (((48 <=? c) && (c <=? 57)) || ((65 <=? c) && (c <=? 90)) || ((97 <=? c) && (c <=? 122)))%N.
(** The underscore is not alphanumeric but ends no token. *)
Theorem C60_underscore_refuted : split_format (alnum_of ascii_alnum) (lit "1_1") [] [lit "1"; lit "1"] [lit "_"] [] /\
  format_many (new_formatter ascii_alnum (lit "1_1")) [4; 5]%N false false = Ok (lit "004.005").
Proof.
  split; [|vm_compute; reflexivity].
  constructor; [reflexivity|discriminate| | |constructor|constructor|reflexivity].
  - repeat constructor; discriminate.
  - constructor; [|constructor]. split; [discriminate|]. constructor; [|constructor]. unfold alnum_of. vm_compute. discriminate.
Qed.
Print Assumptions C60_underscore_refuted.
(** An empty list of numbers loses the prefix, which is written over by the suffix. *)
Theorem C60_empty_refuted : format_many (new_formatter ascii_alnum (lit "(1]")) [] false false = Ok (lit "]").
Proof. vm_compute. reflexivity. Qed.
Print Assumptions C60_empty_refuted.

(** ** A value *)
Theorem C60_value : forall show f q alphabetic grouped, (1 # 2 <= q)%Q ->
  exists n, (0 < n)%N /\ (inject_Z (Z.of_N n) - (1 # 2) <= q < inject_Z (Z.of_N n) + (1 # 2))%Q /\
    format_value show f (NFin q) alphabetic grouped = format_one f (Some n) alphabetic grouped.
Proof.
  intros show f q a g Hq. exists (Z.to_N (Qfloor (q + (1 # 2)))).
  pose proof (Qfloor_le (q + (1 # 2))) as L1. pose proof (Qlt_floor (q + (1 # 2))) as L2.
  assert (1 <= Qfloor (q + (1 # 2)))%Z as G.
  { change (Qfloor 1 <= Qfloor (q + (1 # 2)))%Z. apply Qfloor_resp_le. apply (Qle_trans _ ((1 # 2) + (1 # 2))); [unfold Qle; cbn; lia|]. apply Qplus_le_compat; [exact Hq|apply Qle_refl]. }
  set (z := Qfloor (q + (1 # 2))) in *. rewrite Z2N.id by lia. split; [lia|]. split.
  - rewrite inject_Z_plus in L2. change (inject_Z 1) with 1%Q in L2. split.
    + apply (Qplus_le_r _ _ (1 # 2)). setoid_replace ((1 # 2) + (inject_Z z - (1 # 2)))%Q with (inject_Z z) by ring. now setoid_replace ((1 # 2) + q)%Q with (q + (1 # 2))%Q by ring.
    + apply (Qplus_lt_l _ _ (1 # 2)). setoid_replace (inject_Z z + (1 # 2) + (1 # 2))%Q with (inject_Z z + 1)%Q by ring. exact L2.
  - unfold format_value. apply Qle_bool_iff in Hq. rewrite Hq. reflexivity.
Qed.
Print Assumptions C60_value.
Theorem C60_no_value : forall show f v alphabetic grouped, (forall q, v = NFin q -> (q < 1 # 2)%Q) -> format_value show f v alphabetic grouped = Ok (show v).
Proof.
  intros show f v a g H. destruct v as [| | | |q]; try reflexivity. unfold format_value. destruct (Qle_bool (1 # 2) q) eqn:E; [|reflexivity].
  apply Qle_bool_iff in E. specialize (H q eq_refl). exfalso. apply (Qlt_not_le _ _ H E).
Qed.
Print Assumptions C60_no_value.

(** ** A case: 3, 2 and 30 with the format "(A-1.01]" *)
Example C60_split : split_format (alnum_of ascii_alnum) (lit "(A-1.01]") (lit "(") [lit "A"; lit "1"; lit "01"] [lit "-"; lit "."] (lit "]").
Proof.
  assert (D : forall c, ascii_alnum c = false -> ~ alnum_of ascii_alnum c) by (unfold alnum_of; intros; congruence).
  constructor; [reflexivity|discriminate| | | | |reflexivity]; repeat (reflexivity || (apply D; reflexivity) || discriminate || constructor).
Qed.
Example C60_case : format_many (new_formatter ascii_alnum (lit "(A-1.01]")) [3; 2; 5; 30]%N false false = Ok (lit "(C-2.05.30]").
Proof. vm_compute. reflexivity. Qed.
