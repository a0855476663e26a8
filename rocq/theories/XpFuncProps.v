(** * C33, C34 and C35: comparisons and the core function library of XPath *)
From Coq Require Import NArith ZArith QArith Qround Qabs String List Bool Lia Lqa.
From Verif Require Import PyStr PyErr XpNum XpNumSpec XpNumLemmas XpFuncs XpFuncSpec XpFuncNum XpFuncCmp XpFuncStr XpFuncArith.
Import ListNotations.
Local Open Scope N_scope.

(** ** C33 *)

(** A comparison that is true is one XPath says is true.  (No restriction.) *)
Theorem C33_sound : forall op v w, compare op v w = Ok true -> comparison_holds op v w.
Proof. exact compare_true. Qed.
Print Assumptions C33_sound.

(** Any answer is the right one, except for <, <=, > and >= between two node-sets. *)
Theorem C33_exact_partial : forall op v w b,
  both_sets v w = false \/ relational op = false -> compare op v w = Ok b -> (b = true <-> comparison_holds op v w).
Proof. intros op v w b C. now apply compare_ok. Qed.
Print Assumptions C33_exact_partial.

(** There is an answer unless a string is one that the conversion to a number rejects;
    then the comparison may raise ValueError, and nothing else. *)
Theorem C33_total_partial : forall op v w,
  both_sets v w = false \/ relational op = false ->
  (exists b, compare op v w = Ok b) \/
  (compare op v w = Err ValueError /\ exists s, In s (strings_in v ++ strings_in w) /\ unconvertible s).
Proof.
  intros op v w C. destruct (compare op v w) as [b|e] eqn:E; [left; now exists b|right]. destruct (compare_err op v w e C E) as [-> H]. now split.
Qed.
Print Assumptions C33_total_partial.

(** Two node-sets and <, <=, > or >=: only nodes at the same position are compared. *)
Theorem C33_positions : forall op l r b, relational op = true -> compare op (VSet l) (VSet r) = Ok b ->
  (b = true <-> exists k s t, nth_error l k = Some s /\ nth_error r k = Some t /\ as_numbers op (VStr s) (VStr t)).
Proof. exact compare_sets. Qed.
Print Assumptions C33_positions.
(** So the answer is right for two sets of one node. *)
Theorem C33_single_nodes : forall op s t b, compare op (VSet [s]) (VSet [t]) = Ok b -> (b = true <-> comparison_holds op (VSet [s]) (VSet [t])).
Proof.
  intros op s t b H. destruct (relational op) eqn:R; [|apply compare_ok; [now right|exact H]].
  rewrite (compare_sets op [s] [t] b R H). assert (forall a b', strings_compare op a b' <-> as_numbers op (VStr a) (VStr b')) as SC by (intros; destruct op; try discriminate R; reflexivity). split.
  - intros [[|k] [a [c [K [L M]]]]]; [|destruct k; discriminate]. exists a, c. split; [now apply nth_error_In in K|]. split; [now apply nth_error_In in L|now apply SC].
  - intros [a [c [[<-|[]] [[<-|[]] M]]]]. exists 0%nat, s, t. split; [reflexivity|]. split; [reflexivity|now apply SC].
Qed.
Print Assumptions C33_single_nodes.

(** The full property is false: of {2, 3} and {1, 4} some node of the first is less
    than some node of the second... *)
Definition s1 := lit "1". Definition s2 := lit "2". Definition s3 := lit "3".
Lemma numeral_digit c : 48 <= c <= 57 -> numeral [c] (inject_Z (Z.of_N c - 48)).
Proof.
  intros D. exists [], false, [c], false, [], []. split; [reflexivity|]. split; [constructor|]. split; [constructor|]. split; [split; [now repeat constructor|split; [constructor|reflexivity]]|]. split; [discriminate|].
  cbn [app List.length]. cbv zeta. cbn [decimal List.length]. change (10 ^ Z.of_nat 0)%Z with 1%Z. rewrite Z.mul_1_r, Z.add_0_r. change (inject_Z 1) with 1%Q. field.
Qed.
Lemma digit_number c : 48 <= c <= 57 -> string_number [c] (NFin (inject_Z (Z.of_N c - 48))).
Proof. intros D. left. exists (inject_Z (Z.of_N c - 48)). split; [now apply numeral_digit|]. apply rounds_fin, representable_int. lia. Qed.
Theorem C33_sets_refuted : exists l r,
  compare LT (VSet l) (VSet r) = Ok false /\ comparison_holds LT (VSet l) (VSet r).
Proof.
  exists [s3; s1], [s2; s1]. split; [vm_compute; reflexivity|].
  exists s1, s2. split; [right; now left|]. split; [now left|]. exists (NFin 1), (NFin 2). split; [exact (digit_number 49 ltac:(lia))|]. split; [exact (digit_number 50 ltac:(lia))|]. reflexivity.
Qed.
Print Assumptions C33_sets_refuted.
(** ... and with more nodes on the left the loop reads beyond the right one. *)
Theorem C33_overrun_refuted : exists l r, compare LT (VSet l) (VSet r) = Err Garbage.
Proof. exists [s3; s3], [s2]. vm_compute. reflexivity. Qed.
Print Assumptions C33_overrun_refuted.
(** A string of spaces is not a number, which makes a comparison false or true, but
    raises ValueError here. *)
Theorem C33_total_refuted : exists v w, compare EQ v w = Err ValueError /\ comparison_holds NE v w.
Proof.
  exists (VStr [32]), (VNum (NFin 1)). split; [vm_compute; reflexivity|].
  exists NNaN, (NFin 1). split; [|split; [reflexivity|intros [H _]; congruence]]. right. split; [|reflexivity].
  intros q Q. pose proof (numeral_from [32] q Q) as [q0 [_ E]]. assert (from_string [32] = Err ValueError) as F by (vm_compute; reflexivity). rewrite F in E. discriminate E.
Qed.
Print Assumptions C33_total_refuted.

(** Non-vacuity: both answers, for sets against strings, numbers, booleans and sets. *)
Example C33_case : compare EQ (VSet [s1; s2]) (VStr s2) = Ok true /\ compare EQ (VSet [s1; s2]) (VStr s3) = Ok false
  /\ compare NE (VSet [s1; s2]) (VSet [s2]) = Ok true /\ compare NE (VSet [s2]) (VSet [s2]) = Ok false
  /\ compare LT (VNum (NFin 2)) (VSet [s1; s3]) = Ok true /\ compare GT (VNum (NFin 3)) (VSet [s3]) = Ok false
  /\ compare EQ (VSet []) (VBool false) = Ok true /\ compare EQ (VNum NNaN) (VNum NNaN) = Ok false /\ compare LE (VSet [s1]) (VSet [s2]) = Ok true
  /\ compare LT (VStr s1) (VStr s2) = Ok true /\ compare EQ (VStr (lit "1.0")) (VNum (NFin 1)) = Ok true.
Proof. vm_compute. repeat apply conj; reflexivity. Qed.

(** ** C34 *)

Theorem C34_starts_with : forall outer inner, starts_with_function outer inner = true <-> exists rest, outer = inner ++ rest.
Proof. exact starts_with_ok. Qed.
Print Assumptions C34_starts_with.
Theorem C34_contains : forall outer inner, contains_function outer inner = true <-> occurs outer inner.
Proof. exact contains_ok. Qed.
Print Assumptions C34_contains.
(** What precedes the first occurrence, which exists if there is one; else nothing. *)
Theorem C34_substring_before : forall outer inner,
  (occurs outer inner -> exists before after, first_occurrence outer inner before after) /\
  (forall before after, first_occurrence outer inner before after -> substring_before_function outer inner = before) /\
  (~ occurs outer inner -> substring_before_function outer inner = []).
Proof. intros o i. split; [apply occurs_first|]. split; [apply substring_before_ok|apply substring_before_none]. Qed.
Print Assumptions C34_substring_before.
(** What follows the first occurrence, if the second argument is not empty. *)
Theorem C34_substring_after_partial : forall outer inner,
  (forall before after, inner <> [] -> first_occurrence outer inner before after -> substring_after_function outer inner = after) /\
  (~ occurs outer inner -> substring_after_function outer inner = []).
Proof. intros o i. split; [intros b a; apply substring_after_ok|apply substring_after_none]. Qed.
Print Assumptions C34_substring_after_partial.
(** substring-after(s, '') is '' and not s. *)
Theorem C34_substring_after_refuted : exists outer inner before after,
  first_occurrence outer inner before after /\ substring_after_function outer inner <> after.
Proof. exists (lit "ab"), [], [], (lit "ab"). split; [split; [reflexivity|intros; cbn; lia]|discriminate]. Qed.
Print Assumptions C34_substring_after_refuted.
Theorem C34_concat : forall args, concat_function args = fold_right (@app N) [] args.
Proof. intros args. unfold concat_function. induction args; cbn; congruence. Qed.
Print Assumptions C34_concat.
(** Up to the length at which integers stop being doubles. *)
Theorem C34_string_length : forall s, (Z.of_nat (List.length s) <= 2 ^ 53)%Z ->
  same_number (string_length_function s) (NFin (inject_Z (Z.of_nat (List.length s)))).
Proof. exact string_length_ok. Qed.
Print Assumptions C34_string_length.
(** For strings without white space other than XML's. *)
Theorem C34_normalize_space_partial : forall s, (forall c, In c s -> unicode_space c = true -> space c) ->
  (exists l, words s l) /\ forall l, words s l -> normalize_space_function s = join [32] l.
Proof. intros s X. split; [apply words_exist|]. intros l. now apply normalize_ok. Qed.
Print Assumptions C34_normalize_space_partial.
(** A no-break space is not white space in XPath. *)
Theorem C34_normalize_space_refuted : exists s l, words s l /\ normalize_space_function s <> join [32] l.
Proof.
  exists [97; 160; 98], [[97; 160; 98]]. split; [|vm_compute; discriminate]. apply words_last; [discriminate|]. repeat constructor; intros [H|[H|[H|[H|[]]]]]; discriminate.
Qed.
Print Assumptions C34_normalize_space_refuted.
Theorem C34_translate : forall s fromchars tochars,
  (exists outs, Forall2 (translated fromchars tochars) s outs) /\
  forall outs, Forall2 (translated fromchars tochars) s outs -> translate_function s fromchars tochars = List.concat outs.
Proof. intros s f t. split; [apply translated_exists|]. intros outs. apply translate_ok. Qed.
Print Assumptions C34_translate.
(** substring(): except when the start or the length is halfway between two negative
    integers (or between -1 and 0), and when the start is -Infinity and there is no
    length. *)
Theorem C34_substring_partial : forall s start length, (Z.of_nat (List.length s) < 2 ^ 53)%Z ->
  ~ negative_half start -> (length = None -> start <> NNegInf) -> (forall l, length = Some l -> ~ negative_half l) ->
  substring_spec s start length (substring_function s start length).
Proof. exact substring_ok. Qed.
Print Assumptions C34_substring_partial.
(** The result is determined. *)
Theorem C34_substring_determined : forall P s p r r', select_positions P p s r -> select_positions P p s r' -> r = r'.
Proof. exact select_fun. Qed.
Print Assumptions C34_substring_determined.
(** substring('12345', -0.5, 3) should be '12': -0.5 rounds to 0. *)
Theorem C34_substring_half_refuted : exists s start length, ~ substring_spec s start (Some length) (substring_function s start (Some length)).
Proof.
  exists (lit "12345"), (NFin (-1 # 2)), (NFin 3). assert (substring_function (lit "12345") (NFin (-1 # 2)) (Some (NFin 3)) = lit "1") as -> by (vm_compute; reflexivity).
  intros H. specialize (H (NFin 0)). cbn [rounded finite] in H. specialize (H ltac:(exists 0%Z; split; [reflexivity|split; [discriminate|reflexivity]]) (NFin 3) ltac:(exists 3%Z; split; [reflexivity|split; [discriminate|reflexivity]])).
  unfold lit in H. cbn in H. inversion H as [|? ? ? ? _ H1|? ? ? ? N1 _]; subst; [|now exfalso; apply N1; split; [left; reflexivity|vm_compute; reflexivity]].
  inversion H1 as [|? ? ? ? _ H2|? ? ? ? N2 _]; subst. apply N2. split; [left; reflexivity|vm_compute; reflexivity].
Qed.
Print Assumptions C34_substring_half_refuted.
(** substring('12345', -1 div 0) should be '12345'. *)
Theorem C34_substring_infinite_refuted : exists s start, ~ substring_spec s start None (substring_function s start None).
Proof.
  exists (lit "1"), NNegInf. intros H. specialize (H NNegInf eq_refl). cbn in H. inversion H as [|? ? ? ? _ H1|? ? ? ? N1 _]; subst. apply N1. left. exact I.
Qed.
Print Assumptions C34_substring_infinite_refuted.

Example C34_case :
  substring_before_function (lit "1999/04/01") (lit "/") = lit "1999" /\ substring_after_function (lit "1999/04/01") (lit "/") = lit "04/01"
  /\ substring_after_function (lit "1999/04/01") (lit "19") = lit "99/04/01"
  /\ substring_function (lit "12345") (NFin (3 # 2)) (Some (NFin (13 # 5))) = lit "234" /\ substring_function (lit "12345") (NFin 0) (Some (NFin 3)) = lit "12"
  /\ substring_function (lit "12345") NNaN (Some (NFin 3)) = [] /\ substring_function (lit "12345") (NFin (-42)) (Some NPosInf) = lit "12345"
  /\ substring_function (lit "12345") NNegInf (Some NPosInf) = [] /\ substring_function (lit "12345") (NFin 2) None = lit "2345"
  /\ normalize_space_function (lit "  a  b ") = lit "a b" /\ translate_function (lit "--aaa--") (lit "abc-") (lit "ABC") = lit "AAA" /\ translate_function (lit "bar") (lit "abca") (lit "ABCD") = lit "BAr".
Proof. vm_compute. repeat apply conj; reflexivity. Qed.
(** The hypotheses of C34_substring_partial hold of the first of these calls. *)
Example C34_substring_hyps : ~ negative_half (NFin (3 # 2)) /\ ~ negative_half (NFin (13 # 5)).
Proof.
  split; intros [z [L H]]; cbn [same_number finite] in H; assert (inject_Z z <= -(1))%Q by (apply (inj_le z (-1)); lia); lra.
Qed.
Example C34_words_case : words (lit " a  b") [lit "a"; lit "b"].
Proof.
  unfold lit. cbn. apply words_space; [now left|]. apply (words_word [97] 32); [discriminate|repeat constructor; intros [H|[H|[H|[H|[]]]]]; discriminate|now left|]. apply words_space; [now left|]. apply words_last; [discriminate|]. repeat constructor; intros [H|[H|[H|[H|[]]]]]; discriminate.
Qed.

(** ** C35 *)

(** number(): the right number, or ValueError for certain strings that are no
    numbers. *)
Theorem C35_number_partial : forall v,
  (exists n, number_function v = Ok n /\ value_number v n) \/
  (number_function v = Err ValueError /\ exists s, In s (strings_in v) /\ unconvertible s).
Proof.
  intros v. unfold number_function. destruct (to_number v) as [n|e] eqn:E; [left; exists n; split; [reflexivity|now apply to_number_ok]|right].
  destruct v as [b|m|s|[|s l]]; try discriminate E; destruct (from_string_err _ _ E) as [-> U]; (split; [reflexivity|]); exists s; (split; [now left|exact U]).
Qed.
Print Assumptions C35_number_partial.
(** Exactly for those. *)
Theorem C35_number_rejects : forall s, unconvertible s -> number_function (VStr s) = Err ValueError.
Proof. exact from_string_unconvertible. Qed.
Print Assumptions C35_number_rejects.
(** The number is determined, but for the sign of zero. *)
Theorem C35_number_determined : forall v n m, number_function v = Ok n -> value_number v m -> same_number n m.
Proof. intros v n m H K. now apply (value_number_unique v m n). Qed.
Print Assumptions C35_number_determined.
(** number('-') is NaN in XPath; here it raises. *)
Theorem C35_number_refuted : exists s, string_number s NNaN /\ number_function (VStr s) = Err ValueError.
Proof.
  exists (lit "-"). split; [|vm_compute; reflexivity]. right. split; [|reflexivity].
  intros q Q. pose proof (numeral_from _ q Q) as [q0 [_ E]]. assert (from_string (lit "-") = Err ValueError) as F by (vm_compute; reflexivity). rewrite F in E. discriminate E.
Qed.
Print Assumptions C35_number_refuted.

Theorem C35_floor : forall a,
  match finite a with None => floor_function a = a | Some q => exists z, floor_of q z /\ same_number (floor_function a) (NFin (inject_Z z)) end.
Proof. exact floor_ok. Qed.
Print Assumptions C35_floor.
Theorem C35_ceiling : forall a,
  match finite a with None => ceiling_function a = a | Some q => exists z, ceiling_of q z /\ same_number (ceiling_function a) (NFin (inject_Z z)) end.
Proof. exact ceiling_ok. Qed.
Print Assumptions C35_ceiling.
(** ceiling(-0.5) is negative zero in XPath, whose reciprocal is -Infinity. *)
Theorem C35_negative_zero_refuted : number_div (NFin 1) (ceiling_function (NFin (-1 # 2))) = NPosInf.
Proof. vm_compute. reflexivity. Qed.
Print Assumptions C35_negative_zero_refuted.

(** round(): if the fractional part is at most a half. *)
Theorem C35_round_partial : forall a, is_double a ->
  (forall q, finite a = Some q -> exists z, inject_Z z <= q <= inject_Z z + (1 # 2))%Q -> rounded a (round_function a).
Proof. exact round_ok. Qed.
Print Assumptions C35_round_partial.
(** Above a half, every positive number is rounded down instead of up. *)
Theorem C35_round_refuted : forall q z, (0 <= z)%Z -> (inject_Z z + (1 # 2) < q)%Q -> (q < inject_Z z + 1)%Q -> ~ rounded (NFin q) (round_function (NFin q)).
Proof.
  intros q z P A B H. pose proof (round_down q z P A B) as D. unfold rounded in H. cbn [finite] in H. destruct H as [z' [E [L U]]].
  pose proof (same_trans _ _ _ (same_sym _ _ E) D) as W. cbn [same_number finite] in W. lra.
Qed.
Print Assumptions C35_round_refuted.

(** mod, if the operands are not of opposite sign. *)
Theorem C35_mod_partial : forall a b, ~ opposite a b -> modulo_of a b (number_rem a b).
Proof. exact mod_ok. Qed.
Print Assumptions C35_mod_partial.
(** Otherwise the divisor is added. *)
Theorem C35_mod_opposite : forall a b p q r, finite a = Some p -> finite b = Some q -> opposite a b -> remainder p q r -> ~ (r == 0)%Q -> rounds_to (r + q)%Q (number_rem a b).
Proof. exact mod_opposite. Qed.
Print Assumptions C35_mod_opposite.
(** 5 mod -2 is 1 in XPath (it is one of its examples), and -1 here. *)
Theorem C35_mod_refuted : ~ modulo_of (NFin 5) (NFin (-2)) (number_rem (NFin 5) (NFin (-2))).
Proof.
  assert (same_number (number_rem (NFin 5) (NFin (-2))) (NFin (-1))) as M by (vm_compute; reflexivity). intros [_ H]. destruct (H ltac:(lra)) as [r [[n [E [L [P _]]]] R]]. pose proof (same_trans _ _ _ (same_sym _ _ M) R) as W. cbn [same_number finite] in W. specialize (P ltac:(lra)). lra.
Qed.
Print Assumptions C35_mod_refuted.

Theorem C35_add : forall a b, is_double a -> is_double b -> sum_of a b (number_add a b).
Proof. exact add_ok. Qed.
Print Assumptions C35_add.
Theorem C35_subtract : forall a b, is_double a -> is_double b -> difference_of a b (number_sub a b).
Proof. exact sub_ok. Qed.
Print Assumptions C35_subtract.
Theorem C35_multiply : forall a b, product_of a b (number_mul a b).
Proof. exact mul_ok. Qed.
Print Assumptions C35_multiply.
Theorem C35_negate : forall a,
  match finite a with Some q => same_number (number_neg a) (NFin (- q)) | None => number_neg a = match a with NPosInf => NNegInf | NNegInf => NPosInf | x => x end end.
Proof. exact neg_ok. Qed.
Print Assumptions C35_negate.
(** div, if the divisor is not negative zero. *)
Theorem C35_div_partial : forall a b, b <> NNegZero -> quotient_of a b (number_div a b).
Proof. exact div_ok. Qed.
Print Assumptions C35_div_partial.
(** 1 div -0 is -Infinity in XPath. *)
Theorem C35_div_refuted : ~ quotient_of (NFin 1) (number_neg (NFin 0)) (number_div (NFin 1) (number_neg (NFin 0))).
Proof.
  assert (number_neg (NFin 0) = NNegZero) as -> by reflexivity. assert (number_div (NFin 1) NNegZero = NPosInf) as -> by (vm_compute; reflexivity).
  intros [_ [H _]]. destruct (H ltac:(reflexivity) ltac:(lra)) as [[S _]|[_ C]]; [|discriminate]. assert (1 < 0)%Q as K by exact (proj2 S I). lra.
Qed.
Print Assumptions C35_div_refuted.

(** sum(): the numbers of the nodes, added in order; or ValueError. *)
Theorem C35_sum_partial : forall l,
  (exists n ns, sum_function l = Ok n /\ Forall2 string_number l ns /\ sums (NFin 0) ns n) \/
  (sum_function l = Err ValueError /\ exists s, In s l /\ unconvertible s).
Proof.
  intros l. destruct (sum_function l) as [n|e] eqn:E; [left|right].
  - destruct (sum_ok l n E) as [ns [A B]]. exists n, ns. auto.
  - destruct (sum_err l e E) as [-> H]. now split.
Qed.
Print Assumptions C35_sum_partial.
(** Sums of integers are exact while they are small. *)
Theorem C35_sum_exact : forall l zs, Forall2 (fun s z => numeral s (inject_Z z)) l zs ->
  (fold_right (fun z t => Z.abs z + t) 0 zs <= 2 ^ 53)%Z ->
  exists n, sum_function l = Ok n /\ same_number n (NFin (inject_Z (fold_left Z.add zs 0%Z))).
Proof. exact sum_exact. Qed.
Print Assumptions C35_sum_exact.

Example C35_case :
  (exists n, number_function (VStr (lit " -12.50 ")) = Ok n /\ same_number n (NFin (-(25 # 2)))) /\ number_function (VStr (lit "1e3")) = Ok NNaN /\ number_function (VStr []) = Ok NNaN
  /\ number_function (VSet []) = Ok NNaN /\ (exists n, number_function (VBool true) = Ok n /\ same_number n (NFin 1))
  /\ same_number (round_function (NFin (5 # 2))) (NFin 3) /\ same_number (round_function (NFin (-5 # 2))) (NFin (-2)) /\ same_number (round_function (NFin (17 # 10))) (NFin 1)
  /\ same_number (number_rem (NFin 5) (NFin 2)) (NFin 1) /\ same_number (number_rem (NFin (-5)) (NFin (-2))) (NFin (-1)) /\ number_rem (NFin 5) NPosInf = NFin 5
  /\ number_div (NFin (-1)) (NFin 0) = NNegInf /\ number_div (NFin 0) (NFin 0) = NNaN /\ same_number (number_add (NFin (1 # 2)) (NFin (1 # 2))) (NFin 1).
Proof. repeat apply conj; try (vm_compute; reflexivity); (eexists; split; [vm_compute; reflexivity|vm_compute; reflexivity]). Qed.
Example C35_sum_case : exists n, sum_function [s1; s2; s3] = Ok n /\ same_number n (NFin 6).
Proof.
  apply (C35_sum_exact [s1; s2; s3] [1%Z; 2%Z; 3%Z]); [|vm_compute; discriminate].
  repeat constructor; [exact (numeral_digit 49 ltac:(lia))|exact (numeral_digit 50 ltac:(lia))|exact (numeral_digit 51 ltac:(lia))].
Qed.
Example C35_rejects_case : unconvertible (lit " ") /\ unconvertible (lit "-.").
Proof.
  split.
  - exists [32], false, [], false, [], [], []. split; [reflexivity|]. split; [constructor; [now left|constructor]|]. split; [constructor|]. split; [split; [constructor|split; [constructor|reflexivity]]|]. split; [discriminate|left; now split].
  - exists [], true, [], true, [], [], []. split; [reflexivity|]. split; [constructor|]. split; [constructor|]. split; [split; [constructor|split; [constructor|discriminate]]|]. split; [discriminate|left; now split].
Qed.
