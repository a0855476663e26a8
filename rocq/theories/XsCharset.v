(** * The character class tables are the classes of XML 1.0 *)
From Coq Require Import NArith String List Bool Lia.
From Verif Require Import PyStr PyErr Utf8 XsTables XsModel XsSpec.
Import ListNotations.
Local Open Scope N_scope.

(** ** The tables *)
Definition withinb (l : list (N * N)) (c : N) : bool := existsb (fun r => (fst r <=? c) && (c <=? snd r)) l.
Lemma within_ok l c : withinb l c = true <-> within l c.
Proof.
  unfold withinb, within. rewrite existsb_exists, Exists_exists. split; intros [r [I H]]; exists r; split; auto.
  - apply andb_prop in H. destruct H as [A B]. apply N.leb_le in A, B. lia.
  - apply andb_true_intro. rewrite !N.leb_le. lia.
Qed.
Record classes := { c_base : list (N * N); c_ideo : list (N * N); c_digit : list (N * N); c_comb : list (N * N); c_ext : list (N * N) }.
Definition all_classes := {| c_base := base_char; c_ideo := ideographic; c_digit := digit_char; c_comb := combining_char; c_ext := extender |}.
Definition start_in (k : classes) (colon : bool) c := withinb (c_base k) c || withinb (c_ideo k) c || (c =? 95) || (colon && (c =? 58)).
Definition char_in (k : classes) (colon : bool) c :=
  withinb (c_base k) c || withinb (c_ideo k) c || withinb (c_digit k) c || (c =? 46) || (c =? 45) || (c =? 95) || (colon && (c =? 58)) || withinb (c_comb k) c || withinb (c_ext k) c.
Definition start_b := start_in all_classes.
Definition char_b := char_in all_classes.
(** The ranges that meet a page of 256 code points. *)
Definition on_page (p : N) (l : list (N * N)) := filter (fun r => (fst r <=? 256 * p + 255) && (256 * p <=? snd r)) l.
Definition page (p : N) := {| c_base := on_page p base_char; c_ideo := on_page p ideographic; c_digit := on_page p digit_char; c_comb := on_page p combining_char; c_ext := on_page p extender |}.
Lemma on_page_ok p l c : 256 * p <= c < 256 * p + 256 -> withinb (on_page p l) c = withinb l c.
Proof.
  intros H. unfold withinb, on_page. induction l as [|r l IH]; [reflexivity|]. cbn [filter existsb]. destruct ((fst r <=? 256 * p + 255) && (256 * p <=? snd r)) eqn:E; cbn [existsb]; rewrite IH; [reflexivity|].
  replace ((fst r <=? c) && (c <=? snd r)) with false; [reflexivity|]. symmetry. apply andb_false_iff in E. apply andb_false_iff. rewrite !N.leb_gt in *. lia.
Qed.
Fixpoint check (f g : N -> bool) (n : nat) (c : N) : bool :=
  match n with O => true | S m => if Bool.eqb (f c) (g c) then check f g m (N.succ c) else false end.
Lemma check_ok f g n : forall c, check f g n c = true -> forall d, c <= d < c + N.of_nat n -> f d = g d.
Proof.
  induction n as [|n IH]; intros c H d D; [lia|]. cbn [check] in H. destruct (Bool.eqb (f c) (g c)) eqn:E; [|discriminate]. apply eqb_prop in E.
  destruct (N.eq_dec c d) as [<-|X]; [exact E|]. apply (IH _ H). lia.
Qed.
Fixpoint check_pages (set : list N) (g : classes -> N -> bool) (n : nat) (p : N) : bool :=
  match n with O => true | S m => if check (test_charset set) (g (page p)) 256 (256 * p) then check_pages set g m (N.succ p) else false end.
Definition pagewise (g : classes -> N -> bool) := forall p c, 256 * p <= c < 256 * p + 256 -> g (page p) c = g all_classes c.
Lemma start_pagewise b : pagewise (fun k => start_in k b).
Proof. intros p c H. unfold start_in, page. cbn [c_base c_ideo all_classes]. now rewrite !on_page_ok by exact H. Qed.
Lemma char_pagewise b : pagewise (fun k => char_in k b).
Proof. intros p c H. unfold char_in, page. cbn [c_base c_ideo c_digit c_comb c_ext all_classes]. now rewrite !on_page_ok by exact H. Qed.
Lemma check_pages_ok set g n : pagewise g -> forall p, check_pages set g n p = true -> forall d, 256 * p <= d < 256 * (p + N.of_nat n) -> test_charset set d = g all_classes d.
Proof.
  intros PW. induction n as [|n IH]; intros p H d D; [lia|]. cbn [check_pages] in H. destruct (check _ _ 256 _) eqn:E; [|discriminate].
  destruct (N.lt_ge_cases d (256 * p + 256)) as [L|L].
  - rewrite (check_ok _ _ _ _ E d); [apply PW; lia|]. change (N.of_nat 256) with 256. lia.
  - apply (IH _ H). lia.
Qed.
Lemma beyond l c : forallb (fun r => snd r <? 65536) l = true -> 65536 <= c -> withinb l c = false.
Proof.
  intros F C. unfold withinb. induction l as [|r l IH]; [reflexivity|]. cbn in *. apply andb_prop in F. destruct F as [A B]. apply N.ltb_lt in A. rewrite IH by exact B. destruct (N.leb_spec c (snd r)); [lia|]. now rewrite andb_false_r.
Qed.
Lemma eqb_far c k : 65536 <= c -> k < 65536 -> (c =? k) = false.
Proof. intros A B. apply N.eqb_neq. lia. Qed.
Lemma start_far b c : 65536 <= c -> start_b b c = false.
Proof. intros H. unfold start_b, start_in, all_classes. cbn [c_base c_ideo]. rewrite !beyond, !eqb_far by (reflexivity || exact H). now rewrite andb_false_r. Qed.
Lemma char_far b c : 65536 <= c -> char_b b c = false.
Proof. intros H. unfold char_b, char_in, all_classes. cbn [c_base c_ideo c_digit c_comb c_ext]. rewrite !beyond, !eqb_far by (reflexivity || exact H). now rewrite andb_false_r. Qed.
Lemma all_ok set g : pagewise g -> check_pages set g 256 0 = true -> (forall c, 65536 <= c -> g all_classes c = false) -> forall c, match_charset set c = g all_classes c.
Proof.
  intros PW H F c. unfold match_charset. destruct (N.ltb_spec c 65536) as [L|L]; cbn [andb].
  - apply (check_pages_ok _ _ _ PW _ H). change (N.of_nat 256) with 256. lia.
  - symmetry. now apply F.
Qed.
Lemma ncname_start_table c : is_ncname_start c = start_b false c.
Proof. apply (all_ok _ _ (start_pagewise false)); [vm_compute; reflexivity|apply start_far]. Qed.
Lemma name_start_table c : is_name_start c = start_b true c.
Proof. apply (all_ok _ _ (start_pagewise true)); [vm_compute; reflexivity|apply start_far]. Qed.
Lemma ncname_char_table c : is_ncname_char c = char_b false c.
Proof. apply (all_ok _ _ (char_pagewise false)); [vm_compute; reflexivity|apply char_far]. Qed.
Lemma name_char_table c : is_name_char c = char_b true c.
Proof. apply (all_ok _ _ (char_pagewise true)); [vm_compute; reflexivity|apply char_far]. Qed.
Ltac split_or := repeat match goal with H : _ || _ = true |- _ => apply orb_prop in H; destruct H as [H|H] end.
Lemma name_start_ok c : is_name_start c = true <-> letter c \/ c = 95 \/ c = 58.
Proof.
  rewrite name_start_table. unfold start_b, start_in, all_classes, letter. cbn [c_base c_ideo andb]. rewrite !orb_true_iff, !within_ok, !N.eqb_eq. tauto.
Qed.
Lemma ncname_start_ok c : is_ncname_start c = true <-> letter c \/ c = 95.
Proof.
  rewrite ncname_start_table. unfold start_b, start_in, all_classes, letter. cbn [c_base c_ideo andb]. rewrite !orb_true_iff, !within_ok, !N.eqb_eq. intuition discriminate.
Qed.
Lemma name_char_ok c : is_name_char c = true <-> name_char c.
Proof.
  rewrite name_char_table. unfold char_b, char_in, all_classes, name_char, letter. cbn [c_base c_ideo c_digit c_comb c_ext andb]. rewrite !orb_true_iff, !within_ok, !N.eqb_eq. tauto.
Qed.
Lemma ncname_char_ok c : is_ncname_char c = true <-> ncname_char c.
Proof.
  rewrite ncname_char_table. unfold char_b, char_in, all_classes, ncname_char, name_char, letter. cbn [c_base c_ideo c_digit c_comb c_ext andb]. rewrite !orb_true_iff, !within_ok, !N.eqb_eq.
  assert (forall l, withinb l 58 = false -> within l c -> c <> 58) as X by (intros l W I ->; apply within_ok in I; congruence).
  pose proof (X base_char eq_refl). pose proof (X ideographic eq_refl). pose proof (X digit_char eq_refl). pose proof (X combining_char eq_refl). pose proof (X extender eq_refl). intuition (try discriminate; subst; try discriminate; try tauto).
Qed.
