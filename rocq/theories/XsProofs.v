(** * Proofs about the XML string functions *)
From Coq Require Import NArith Arith String List Bool Lia.
From Verif Require Import PyStr PyErr Utf8 XsTables XsModel XsSpec XsCharset.
Import ListNotations.
Local Open Scope N_scope.

(** ** Names *)
Definition no_zero (s : str) : Prop := Forall (fun c => c <> 0) s.
Lemma rest_ok p (P : N -> Prop) s : (forall c, p c = true <-> P c) -> no_zero s -> rest_match p s = true <-> Forall P s.
Proof.
  intros H. induction 1 as [|c s C Z IH]; cbn [rest_match]; [split; auto|]. destruct (N.eqb_spec c 0); [contradiction|]. destruct (p c) eqn:E.
  - rewrite IH. split; intros X; [constructor; [now apply H|exact X]|]. now inversion X.
  - split; [discriminate|]. intros X. inversion X; subst. apply H in H2. congruence.
Qed.
Lemma is_name_ok s : no_zero s -> is_name s = true <-> name s.
Proof.
  intros Z. unfold is_name, name. destruct s as [|c r]; [split; [discriminate|intros [? [? [? _]]]; discriminate]|]. inversion Z; subst. destruct (N.eqb_spec c 0); [contradiction|].
  destruct (is_name_start c) eqn:E.
  - rewrite (rest_ok _ _ r name_char_ok) by assumption. apply name_start_ok in E. split; [intros F; exists c, r; auto|]. intros [c2 [r2 [[= <- <-] [_ F]]]]. exact F.
  - split; [discriminate|]. intros [c2 [r2 [[= <- <-] [F _]]]]. apply name_start_ok in F. congruence.
Qed.
Lemma is_ncname_ok s : no_zero s -> is_ncname s = true <-> ncname s.
Proof.
  intros Z. unfold is_ncname, ncname. destruct s as [|c r]; [split; [discriminate|intros [? [? [? _]]]; discriminate]|]. inversion Z; subst. destruct (N.eqb_spec c 0); [contradiction|].
  destruct (is_ncname_start c) eqn:E.
  - rewrite (rest_ok _ _ r ncname_char_ok) by assumption. apply ncname_start_ok in E. split; [intros F; exists c, r; auto|]. intros [c2 [r2 [[= <- <-] [_ F]]]]. exact F.
  - split; [discriminate|]. intros [c2 [r2 [[= <- <-] [F _]]]]. apply ncname_start_ok in F. congruence.
Qed.
Lemma is_nmtoken_complete s : no_zero s -> nmtoken s -> is_nmtoken s = true.
Proof.
  intros Z [NE F]. destruct s as [|c r]; [contradiction|]. cbn. inversion Z; inversion F; subst. destruct (N.eqb_spec c 0); [contradiction|]. apply (rest_ok _ _ r name_char_ok); assumption.
Qed.
Lemma is_nmtoken_exact s : no_zero s -> is_nmtoken s = true <-> exists c r, s = c :: r /\ Forall name_char r.
Proof.
  intros Z. destruct s as [|c r]; cbn; [split; [discriminate|intros [? [? [? _]]]; discriminate]|]. inversion Z; subst. destruct (N.eqb_spec c 0); [contradiction|]. rewrite (rest_ok _ _ r name_char_ok) by assumption.
  split; [eauto|]. intros [c2 [r2 [[= <- <-] F]]]. exact F.
Qed.
Lemma space_no_name : ~ name_char 32.
Proof. intros H. apply name_char_ok in H. vm_compute in H. discriminate. Qed.
Lemma zero_no_start : is_name_start 0 = false.
Proof. vm_compute. reflexivity. Qed.
Lemma zero_no_char : ~ name_char 0.
Proof. intros H. apply name_char_ok in H. vm_compute in H. discriminate. Qed.
Lemma start_is_char c : letter c \/ c = 95 \/ c = 58 -> name_char c.
Proof. unfold name_char. tauto. Qed.

(** The sequences: what remains to be read after the first character of a name. *)
Definition names_tail (P : str -> Prop) (s : str) : Prop :=
  exists a, Forall name_char a /\ (s = a \/ exists l, l <> [] /\ Forall P l /\ s = a ++ 32 :: join [32] l).
Lemma join_cons (w : str) l : l <> [] -> join [32] (w :: l) = w ++ 32 :: join [32] l.
Proof. destruct l; [contradiction|reflexivity]. Qed.
Lemma seq_cons P c r : (forall w, P (c :: w) <-> P [c] /\ Forall name_char w) -> ~ P [] -> c <> 32 ->
  (exists l, l <> [] /\ Forall P l /\ c :: r = join [32] l) <-> P [c] /\ names_tail P r.
Proof.
  intros H E C. split.
  - intros [l [NE [F J]]]. destruct l as [|w l]; [contradiction|]. inversion F as [|? ? Pw Fl]; subst. destruct w as [|c2 w]; [contradiction|]. destruct l as [|w2 l].
    + cbn in J. injection J as <- <-. apply H in Pw. destruct Pw. split; [assumption|]. exists r. auto.
    + rewrite join_cons in J by discriminate. cbn [app] in J. injection J as <- ->. apply H in Pw. destruct Pw. split; [assumption|]. exists w. split; [assumption|]. right. exists (w2 :: l). split; [discriminate|]. auto.
  - intros [Pc [a [Fa [->|[l [NE [Fl ->]]]]]]].
    + exists [c :: a]. split; [discriminate|]. split; [repeat constructor; now apply H|reflexivity].
    + exists ((c :: a) :: l). split; [discriminate|]. split; [constructor; [now apply H|assumption]|]. now rewrite join_cons by exact NE.
Qed.
Lemma names_cons c r : names (c :: r) <-> (letter c \/ c = 95 \/ c = 58) /\ names_tail name r.
Proof.
  unfold names. assert (name [c] <-> (letter c \/ c = 95 \/ c = 58)) as N1. { split; [intros [? [? [[= <- <-] [L _]]]]; exact L|]. intros L. exists c, []. auto. }
  destruct (N.eq_dec c 32) as [->|NE].
  - split.
    + intros [l [LN [F J]]]. destruct l as [|w l]; [contradiction|]. inversion F as [|? ? Pw Fl]; subst. destruct Pw as [c2 [w2 [-> [L _]]]]. destruct l; cbn in J; injection J as <- _; exfalso; now apply space_no_name, start_is_char.
    + intros [L _]. exfalso. now apply space_no_name, start_is_char.
  - rewrite <- N1. apply seq_cons; auto.
    + intros w. split.
      * intros [? [? [[= <- <-] [L F]]]]. split; [apply N1; exact L|exact F].
      * intros [L F]. exists c, w. split; [reflexivity|]. split; [apply N1; exact L|exact F].
    + intros [? [? [? _]]]. discriminate.
Qed.
Lemma tail_nil P : names_tail P [].
Proof. exists []. auto. Qed.
Lemma tail_space P r : names_tail P (32 :: r) <-> exists l, l <> [] /\ Forall P l /\ r = join [32] l.
Proof.
  split.
  - intros [a [Fa [E|[l [NE [Fl E]]]]]].
    + subst a. inversion Fa; subst. exfalso. now apply space_no_name.
    + destruct a as [|c a]; [cbn in E; injection E as ->; eauto|]. injection E as <- _. inversion Fa; subst. exfalso. now apply space_no_name.
  - intros [l [NE [Fl ->]]]. exists []. split; [constructor|]. right. exists l. auto.
Qed.
Lemma tail_char P c r : c <> 32 -> names_tail P (c :: r) <-> name_char c /\ names_tail P r.
Proof.
  intros C. split.
  - intros [a [Fa [E|[l [NE [Fl E]]]]]].
    + subst a. inversion Fa; subst. split; [assumption|]. exists r. auto.
    + destruct a as [|c2 a]; [cbn in E; congruence|]. injection E as <- ->. inversion Fa; subst. split; [assumption|]. exists a. split; [assumption|]. right. eauto.
  - intros [L [a [Fa [->|[l [NE [Fl ->]]]]]]]; exists (c :: a); (split; [now constructor|]); [now left|]. right. exists l. auto.
Qed.
Lemma names_nil : ~ names [].
Proof.
  intros [l [NE [F J]]]. destruct l as [|w l]; [contradiction|]. inversion F as [|? ? [c [r [-> _]]] _]; subst. destruct l; discriminate.
Qed.
Lemma names_loop_ok s : no_zero s -> (names_loop true s = true <-> names s) /\ (names_loop false s = true <-> names_tail name s).
Proof.
  induction 1 as [|c s C Z [IH1 IH2]]; cbn [names_loop].
  - split; [rewrite zero_no_start; split; [discriminate|intros H; exfalso; now apply names_nil]|]. split; [intros _; apply tail_nil|reflexivity].
  - destruct (N.eqb_spec c 0); [contradiction|]. split.
    + rewrite names_cons. destruct (is_name_start c) eqn:E.
      * rewrite IH2. apply name_start_ok in E. tauto.
      * split; [discriminate|]. intros [L _]. apply name_start_ok in L. congruence.
    + destruct (N.eqb_spec c 32) as [->|NE].
      * rewrite IH1. rewrite tail_space. reflexivity.
      * rewrite tail_char by exact NE. destruct (is_name_char c) eqn:E.
        -- rewrite IH2. apply name_char_ok in E. tauto.
        -- split; [discriminate|]. intros [L _]. apply name_char_ok in L. congruence.
Qed.
Lemma is_names_ok s : no_zero s -> is_names s = true <-> names s.
Proof.
  intros Z. unfold is_names. destruct s as [|c r]; [split; [discriminate|intros H; exfalso; now apply names_nil]|]. inversion Z; subst. destruct (N.eqb_spec c 0); [contradiction|]. now apply names_loop_ok.
Qed.
(** NMTOKENS: right for every sequence of tokens; otherwise the first character of each token may be anything. *)
Lemma nmtokens_loop_ok s : no_zero s -> (nmtokens s -> nmtokens_loop true s = Ok true) /\ (names_tail nmtoken s -> nmtokens_loop false s = Ok true).
Proof.
  induction 1 as [|c s C Z [IH1 IH2]]; cbn [nmtokens_loop].
  - split; [|reflexivity]. intros [l [NE [F J]]]. destruct l as [|w l]; [contradiction|]. inversion F as [|? ? [WN _] _]; subst. destruct w; [contradiction|]. destruct l; discriminate.
  - destruct (N.eqb_spec c 0); [contradiction|]. split.
    + intros H. apply IH2. destruct (N.eq_dec c 32) as [->|NE].
      * exfalso. destruct H as [l [LN [F J]]]. destruct l as [|w l]; [contradiction|]. inversion F as [|? ? [WN Fw] _]; subst. destruct w as [|c w]; [contradiction|]. destruct l; cbn in J; injection J as <- _; inversion Fw; subst; now apply space_no_name.
      * apply (seq_cons nmtoken c s) in H; [tauto| |intros [X _]; now apply X|exact NE].
        intros w. split; [intros [_ F]; inversion F; subst; split; [split; [discriminate|constructor; [assumption|constructor]]|assumption]|]. intros [[_ F] G]. split; [discriminate|]. inversion F; subst. now constructor.
    + intros H. destruct (N.eqb_spec c 32) as [->|NE].
      * apply IH1. apply tail_space in H. exact H.
      * apply tail_char in H; [|exact NE]. destruct H as [L T]. apply name_char_ok in L. rewrite L. auto.
Qed.
Lemma is_nmtokens_complete s : no_zero s -> nmtokens s -> is_nmtokens s = Ok true.
Proof.
  intros Z H. unfold is_nmtokens. destruct s as [|c r].
  - exfalso. destruct H as [l [NE [F J]]]. destruct l as [|w l]; [contradiction|]. inversion F as [|? ? [WN _] _]; subst. destruct w; [contradiction|]. destruct l; discriminate.
  - inversion Z; subst. destruct (N.eqb_spec c 0); [contradiction|]. exact (proj1 (nmtokens_loop_ok _ Z) H).
Qed.

(** ** Qualified names *)
Lemma colon_no_ncname : ~ ncname_char 58.
Proof. intros [_ H]. now apply H. Qed.
Definition qtail (s : str) : Prop := Forall ncname_char s \/ exists a l, Forall ncname_char a /\ ncname l /\ s = a ++ 58 :: l.
Lemma qtail_cons c r : c <> 58 -> qtail (c :: r) <-> ncname_char c /\ qtail r.
Proof.
  intros C. split.
  - intros [F|[a [l [Fa [L E]]]]]; [inversion F; subst; split; [assumption|now left]|]. destruct a as [|c2 a]; [cbn in E; congruence|]. injection E as <- ->. inversion Fa; subst. split; [assumption|]. right. exists a, l. auto.
  - intros [L [F|[a [l [Fa [N ->]]]]]]; [left; now constructor|]. right. exists (c :: a), l. split; [now constructor|]. auto.
Qed.
Lemma qtail_colon r : qtail (58 :: r) <-> ncname r.
Proof.
  split.
  - intros [F|[a [l [Fa [L E]]]]]; [inversion F; subst; exfalso; now apply colon_no_ncname|]. destruct a as [|c2 a]; [cbn in E; now injection E as ->|]. injection E as <- _. inversion Fa; subst. exfalso. now apply colon_no_ncname.
  - intros N. right. exists [], r. auto.
Qed.
Lemma qname_loop_ok s : no_zero s -> qname_loop s = true <-> qtail s.
Proof.
  induction 1 as [|c s C Z IH]; cbn [qname_loop]; [split; [left; constructor|reflexivity]|]. destruct (N.eqb_spec c 0); [contradiction|]. destruct (is_ncname_char c) eqn:E.
  - apply ncname_char_ok in E. rewrite IH, qtail_cons; [tauto|]. intros ->. now apply colon_no_ncname.
  - destruct (N.eqb_spec c 58) as [->|NE].
    + rewrite qtail_colon, <- is_ncname_ok by exact Z. unfold is_ncname. destruct s as [|d r]; [split; vm_compute; discriminate|]. inversion Z; subst. destruct (N.eqb_spec d 0); [contradiction|]. reflexivity.
    + split; [discriminate|]. intros H. apply qtail_cons in H; [|exact NE]. destruct H as [L _]. apply ncname_char_ok in L. congruence.
Qed.
Lemma is_qname_ok s : no_zero s -> is_qname s = true <-> qname s.
Proof.
  intros Z. assert (qname s <-> exists c r, s = c :: r /\ (letter c \/ c = 95) /\ qtail r) as Q.
  { split.
    - intros [[c [r [-> [L F]]]]|[p [l [[c [r [-> [L F]]]] [N ->]]]]].
      + exists c, r. split; [reflexivity|]. split; [exact L|]. now left.
      + exists c, (r ++ 58 :: l). split; [reflexivity|]. split; [exact L|]. right. exists r, l. auto.
    - intros [c [r [-> [L [F|[a [l [Fa [N ->]]]]]]]]].
      + left. exists c, r. auto.
      + right. exists (c :: a), l. split; [exists c, a; auto|]. auto. }
  rewrite Q. unfold is_qname. destruct s as [|c r]; [split; [discriminate|intros [? [? [? _]]]; discriminate]|]. inversion Z; subst. destruct (N.eqb_spec c 0); [contradiction|]. destruct (is_ncname_start c) eqn:E.
  - apply ncname_start_ok in E. rewrite qname_loop_ok by assumption. split; [intros H; exists c, r; auto|]. intros [? [? [[= <- <-] [_ H]]]]. exact H.
  - split; [discriminate|]. intros [? [? [[= <- <-] [L _]]]]. apply ncname_start_ok in L. congruence.
Qed.
Lemma break_none c s : break1 c s = None <-> ~ In c s.
Proof.
  induction s as [|x s IH]; cbn; [tauto|]. destruct (N.eqb_spec x c) as [->|NE]; [split; [discriminate|tauto]|]. destruct (break1 c s) as [[a b]|].
  - split; [discriminate|]. intros H. exfalso. apply H. right. destruct IH as [_ IH]. destruct (in_dec N.eq_dec c s) as [I|I]; [exact I|]. discriminate (IH I).
  - split; [|reflexivity]. intros _ [H|H]; [contradiction|]. now apply IH.
Qed.
Lemma break_some c s a b : break1 c s = Some (a, b) <-> s = a ++ c :: b /\ ~ In c a.
Proof.
  revert a. induction s as [|x s IH]; intros a; cbn.
  - split; [discriminate|]. intros [E _]. destruct a; discriminate.
  - destruct (N.eqb_spec x c) as [->|NE].
    + split; [intros [= <- <-]; split; [reflexivity|tauto]|]. intros [E NI]. destruct a as [|y a]; [cbn in E; now injection E as ->|]. injection E as <- _. exfalso. apply NI. now left.
    + destruct (break1 c s) as [[a2 b2]|] eqn:B.
      * split.
        -- intros [= <- <-]. destruct (proj1 (IH a2) eq_refl) as [-> NI]. split; [reflexivity|]. intros [H|H]; [contradiction|]. now apply NI.
        -- intros [E NI]. destruct a as [|y a]; [cbn in E; injection E as -> _; contradiction|]. injection E as <- E. assert (Some (a2, b2) = Some (a, b)) as [= <- <-]; [|reflexivity]. apply IH. split; [exact E|]. intros H. apply NI. now right.
      * split; [discriminate|]. intros [E NI]. exfalso. destruct a as [|y a]; [cbn in E; injection E as -> _; contradiction|]. injection E as <- E. assert (None = Some (a, b)); [|discriminate]. apply IH. split; [exact E|]. intros H. apply NI. now right.
Qed.
Lemma ncname_no_colon s : ncname s -> ~ In 58 s.
Proof.
  intros [c [r [-> [L F]]]] [->|I].
  - assert (ncname_char 58) as X; [|now apply colon_no_ncname in X]. destruct L as [L|L]; [|discriminate]. assert (is_ncname_start 58 = true) as Y by (apply ncname_start_ok; now left). vm_compute in Y. discriminate.
  - rewrite Forall_forall in F. now apply colon_no_ncname, F.
Qed.

(** ** White space *)
Lemma is_xmlspace_ok c : is_xmlspace c = true <-> white c.
Proof. unfold is_xmlspace, white. rewrite !orb_true_iff, !N.eqb_eq. tauto. Qed.
Lemma not_space c : is_xmlspace c = false <-> ~ white c.
Proof. rewrite <- is_xmlspace_ok. destruct (is_xmlspace c); intuition congruence. Qed.
Lemma span_space s : exists g, s = g ++ snd (span is_xmlspace s) /\ Forall white g /\ no_white_start (snd (span is_xmlspace s)).
Proof.
  induction s as [|c s [g [E [G W]]]]; cbn [span].
  - exists []. split; [reflexivity|]. split; [constructor|]. intros c r H. discriminate.
  - destruct (is_xmlspace c) eqn:X.
    + destruct (span is_xmlspace s) as [a b]. cbn [snd] in *. exists (c :: g). split; [cbn; now f_equal|]. split; [constructor; [now apply is_xmlspace_ok|exact G]|exact W].
    + exists []. split; [reflexivity|]. split; [constructor|]. intros c2 r [= <- <-]. now apply not_space.
Qed.
Lemma start_end s : no_white_start (rev s) -> no_white_end s.
Proof. intros H r c ->. apply (H c (rev r)). now rewrite rev_app_distr. Qed.
Lemma strip_left s : exists g, s = g ++ xml_strip true false s /\ Forall white g /\ no_white_start (xml_strip true false s).
Proof. apply span_space. Qed.
Lemma strip_right s : exists g, s = xml_strip false true s ++ g /\ Forall white g /\ no_white_end (xml_strip false true s).
Proof.
  unfold xml_strip. destruct (span_space (rev s)) as [g [E [G W]]]. exists (rev g). split; [rewrite <- (rev_involutive s) at 1; rewrite E at 1; apply rev_app_distr|]. split; [apply Forall_rev, G|].
  apply start_end. now rewrite rev_involutive.
Qed.
Lemma strip_both s : exists g h, s = g ++ xml_strip true true s ++ h /\ Forall white g /\ Forall white h /\ no_white_start (xml_strip true true s) /\ no_white_end (xml_strip true true s).
Proof.
  destruct (strip_left s) as [g [E [G W]]]. set (m := xml_strip true false s) in *. destruct (strip_right m) as [h [E2 [H W2]]]. change (xml_strip true true s) with (xml_strip false true m). exists g, h.
  split; [rewrite E at 1; now rewrite E2 at 1|]. split; [exact G|]. split; [exact H|]. split; [|exact W2]. intros c r X. rewrite X in E2. apply (W c (r ++ h)). exact E2.
Qed.
(** The stripped string is determined. *)
Lemma strip_unique s g m h : s = g ++ m ++ h -> Forall white g -> Forall white h -> no_white_start m -> no_white_end m -> xml_strip true true s = m.
Proof.
  intros E G H S L. unfold xml_strip.
  assert (forall g t, Forall white g -> no_white_start t -> snd (span is_xmlspace (g ++ t)) = t) as X.
  { clear. intros g t G S. induction G as [|c g C G IH]; cbn [app span].
    - destruct t as [|c t]; [reflexivity|]. cbn [span]. specialize (S c t eq_refl). apply not_space in S. now rewrite S.
    - apply is_xmlspace_ok in C. rewrite C. destruct (span is_xmlspace (g ++ t)). exact IH. }
  destruct m as [|c m].
  - cbn [app] in E. assert (snd (span is_xmlspace s) = []) as ->; [|reflexivity]. subst s. rewrite <- (app_nil_r (g ++ h)). apply X; [now apply Forall_app|]. intros c r. discriminate.
  - assert (snd (span is_xmlspace s) = (c :: m) ++ h) as ->. { subst s. apply X; [exact G|]. intros c2 r [= <- _]. now apply (S c m). }
    rewrite rev_app_distr. rewrite X; [apply rev_involutive|now apply Forall_rev|]. intros c2 r R. apply (L (rev r) c2). rewrite <- (rev_involutive (c :: m)), R. reflexivity.
Qed.
Lemma is_space_ok s : is_space s = true <-> Forall white s.
Proof.
  induction s as [|c s IH]; cbn [is_space]; [split; auto|]. destruct (is_xmlspace c) eqn:E.
  - rewrite IH. apply is_xmlspace_ok in E. split; [now constructor|]. intros H. now inversion H.
  - split; [discriminate|]. intros H. inversion H; subst. apply is_xmlspace_ok in H2. congruence.
Qed.
(** *** NormalizeSpace *)
Lemma compact_word w s : Forall (fun c => ~ white c) w -> w <> [] -> forall b, compact b (w ++ s) = w ++ compact false s.
Proof.
  intros F. induction F as [|c w C F IH]; intros NE b; [contradiction|]. cbn [app compact]. apply not_space in C. rewrite C. destruct w as [|d w]; [reflexivity|]. now rewrite IH by discriminate.
Qed.
Lemma compact_gap g s : Forall white g -> compact true (g ++ s) = compact true s.
Proof. induction 1 as [|c g C G IH]; cbn [app compact]; [reflexivity|]. apply is_xmlspace_ok in C. now rewrite C. Qed.
Lemma compact_gap2 g s : Forall white g -> g <> [] -> compact false (g ++ s) = 32 :: compact true s.
Proof. intros G NE. destruct G as [|c g C G]; [contradiction|]. cbn [app compact]. apply is_xmlspace_ok in C. now rewrite C, compact_gap. Qed.
Lemma has_words_first g w s ws : Forall white g -> word w -> has_words s ws -> (forall c r, s = c :: r -> white c) -> has_words (g ++ w ++ s) (w :: ws).
Proof. apply words_more. Qed.
(** After the leading white space and without the trailing one. *)
Lemma compact_words s ws : has_words s ws -> no_white_end s -> (forall b, ws <> [] -> (b = true \/ no_white_start s) -> compact b s = join [32] ws).
Proof.
  induction 1 as [g G|g w s ws G [WN WF] HW IH SW]; intros NE b NW B; [contradiction|].
  assert (no_white_end s) as NS by (intros r c ->; apply (NE (g ++ w ++ r) c); now rewrite <- !app_assoc).
  assert (compact b (g ++ w ++ s) = w ++ compact false s) as ->.
  { destruct B as [-> | B]; [rewrite compact_gap by exact G; now apply compact_word|]. destruct g as [|c g]; [cbn [app]; now apply compact_word|]. exfalso. inversion G; subst. now apply (B c (g ++ w ++ s)). }
  destruct ws as [|w2 ws].
  - inversion HW; subst. destruct s as [|c s]; [cbn; now rewrite app_nil_r|]. exfalso. destruct (exists_last (l := c :: s) ltac:(discriminate)) as [r [x E]]. rewrite E in *. apply (NS r x eq_refl). apply Forall_app in H. destruct H as [_ H]. now inversion H.
  - rewrite join_cons by discriminate. f_equal. inversion HW as [|g2 w' s' ws' G2 W2 HW2 SW2]; subst.
    assert (g2 <> []) as G2N. { intros ->. destruct W2 as [WN2 WF2]. destruct w2 as [|c w2]; [contradiction|]. inversion WF2; subst. apply H1. now apply (SW c (w2 ++ s')). }
    rewrite compact_gap2 by assumption. f_equal. rewrite <- (IH NS true); [|discriminate|now left]. symmetry. now apply compact_gap.
Qed.
Lemma words_strip s ws : has_words s ws -> has_words (xml_strip true true s) ws.
Proof.
  intros H. destruct (strip_both s) as [g [h [E [G [Hh [S L]]]]]]. set (m := xml_strip true true s) in *. clearbody m. subst s.
  assert (forall g s ws, Forall white g -> has_words (g ++ s) ws -> has_words s ws) as DL.
  { clear. induction g as [|c g IH]; intros s ws G H; [exact H|]. inversion G; subst. apply IH; [assumption|]. inversion H as [g' G' E|g' w s' ws' G' W HW SW E]; subst.
    - apply words_none. now inversion G'.
    - destruct g' as [|c' g']; cbn in E.
      + destruct W as [WN WF]. destruct w as [|c' w]; [contradiction|]. injection E as -> _. inversion WF; subst. contradiction.
      + injection E as _ E. rewrite <- E. inversion G'; subst. now apply words_more. }
  apply DL in H; [|exact G].
  assert (forall t ws, has_words t ws -> forall m h, t = m ++ h -> Forall white h -> has_words m ws) as DR.
  { clear. induction 1 as [g G|g w s ws G W HW IH SW]; intros m h E H.
    - apply words_none. subst g. apply Forall_app in G. tauto.
    - assert (exists m2, m = g ++ w ++ m2 /\ s = m2 ++ h) as [m2 [-> ->]].
      { rewrite app_assoc in E. destruct W as [WN WF]. destruct (exists_last WN) as [w0 [x ->]]. apply Forall_app in WF. destruct WF as [_ WX]. inversion WX; subst.
        revert E. rewrite app_assoc. set (u := g ++ w0). intros E. assert (exists m2, m = (u ++ [x]) ++ m2 /\ s = m2 ++ h) as [m2 [A B]].
        { clear -E H H2. revert m E. induction u as [|y u IH]; intros m E; cbn [app] in *.
          - destruct m as [|z m]; cbn in E; [|injection E as <- E; exists m; auto]. subst h. inversion H; subst. contradiction.
          - destruct m as [|z m]; cbn in E.
            + exfalso. subst h. inversion H; subst. rewrite Forall_forall in H4. apply H2, H4. rewrite !in_app_iff. left. right. now left.
            + injection E as <- E. destruct (IH m E) as [m2 [-> ->]]. exists m2. auto. }
        exists m2. split; [|exact B]. rewrite A. unfold u. now rewrite <- !app_assoc. }
      apply words_more; [exact G|exact W|apply (IH m2 h eq_refl H)|]. intros c r ->. now apply (SW c (r ++ h)). }
  now apply (DR (m ++ h) ws H m h eq_refl).
Qed.
Lemma words_none_white s : has_words s [] -> Forall white s.
Proof. intros H. now inversion H. Qed.
(** Without runs of white space and white space at the end nothing changes. *)
Lemma compact_id s : has_run s = false -> no_white_end s -> Forall (fun c => white c -> c = 32) s -> compact false s = s.
Proof.
  intros R E F. induction F as [|c s C F IH]; [reflexivity|]. cbn [compact]. assert (no_white_end s) as ES by (intros r x ->; now apply (E (c :: r) x)).
  cbn [has_run] in R. destruct (is_xmlspace c) eqn:X.
  - assert (c = 32) as -> by now apply C, is_xmlspace_ok. f_equal. destruct s as [|d s]; [exfalso; apply (E [] 32 eq_refl); now apply is_xmlspace_ok|]. cbn [andb] in R. destruct (is_xmlspace d) eqn:D; [discriminate|]. specialize (IH R ES). cbn [compact] in *. now rewrite D in *.
  - f_equal. apply IH; assumption.
Qed.
Lemma last_app (s : str) c d : last (s ++ [c]) d = c.
Proof. induction s as [|x s IH]; [reflexivity|]. cbn [app last]. destruct (s ++ [c]) eqn:E; [destruct s; discriminate|]. exact IH. Qed.
Lemma normalize_ok junk s ws : has_words s ws -> Forall (fun c => white c -> c = 32) s -> normalize_space junk s = join [32] ws.
Proof.
  intros H F. unfold normalize_space. destruct (strip_both s) as [g [h [E [G [Hh [S L]]]]]]. pose proof (words_strip s ws H) as W.
  assert (compact false (xml_strip true true s) = join [32] ws) as C.
  { destruct ws as [|w ws]; [|apply compact_words; auto; discriminate]. apply words_none_white in W. destruct (xml_strip true true s) as [|c m]; [reflexivity|]. exfalso. inversion W; subst. now apply (S c m). }
  destruct (negb (has_run s) && negb (is_xmlspace (hd 0 s)) && negb (is_xmlspace (last s junk))) eqn:T; [|exact C].
  apply andb_prop in T. destruct T as [T T3]. apply andb_prop in T. destruct T as [T1 T2]. apply negb_true_iff in T1, T2, T3.
  assert (no_white_start s) as NS by (intros c r ->; now apply not_space). assert (no_white_end s) as NE by (intros r c ->; apply not_space; now rewrite last_app in T3).
  rewrite <- C. assert (xml_strip true true s = s) as -> by (apply (strip_unique s [] s []); auto; now rewrite app_nil_r). symmetry. now apply compact_id.
Qed.
(** Every string has words. *)
Lemma words_exist s : exists ws, has_words s ws /\ (no_white_start s -> s <> [] -> ws <> []).
Proof.
  remember (List.length s) as n. revert s Heqn. induction n as [n IH] using (well_founded_induction Nat.lt_wf_0). intros s ->.
  destruct (span_space s) as [g [E [G N]]]. generalize dependent (snd (span is_xmlspace s)). intros t E N. destruct t as [|c t].
  - rewrite app_nil_r in E. exists []. split; [rewrite E; now apply words_none|]. intros NS NE. exfalso. rewrite E in *. destruct G as [|x g X G]; [now apply NE|]. now apply (NS x g).
  - assert (exists w r, c :: t = w ++ r /\ word w /\ forall x y, r = x :: y -> white x) as [w [r [E2 [W X]]]].
    { pose proof (N c t eq_refl) as C. assert (forall t, exists w r, t = w ++ r /\ Forall (fun c => ~ white c) w /\ forall x y, r = x :: y -> white x) as Y.
      { clear. induction t as [|c t [w [r [E [F X]]]]]; [exists [], []; split; [reflexivity|split; [constructor|discriminate]]|]. destruct (is_xmlspace c) eqn:C.
        - exists [], (c :: t). split; [reflexivity|]. split; [constructor|]. intros x y [= <- <-]. now apply is_xmlspace_ok.
        - exists (c :: w), r. split; [cbn; now f_equal|]. split; [constructor; [now apply not_space|exact F]|exact X]. }
      destruct (Y t) as [w [r [E3 [F X]]]]. exists (c :: w), r. split; [cbn; now f_equal|]. split; [split; [discriminate|now constructor]|exact X]. }
    destruct (IH (List.length r)) with (s := r) as [ws [H _]]; [|reflexivity|].
    + rewrite E, E2, !app_length. destruct W as [WN _]. destruct w; [contradiction|cbn; lia].
    + exists (w :: ws). split; [rewrite E, E2; now apply words_more|discriminate].
Qed.

(** ** legalize *)
Lemma control_ok c : scalar c -> control c = true <-> ~ xml_char c.
Proof.
  intros [B S]. unfold control, xml_char. rewrite !orb_true_iff, !andb_true_iff, !N.leb_le. split; [lia|]. intros H.
  destruct (N.le_gt_cases c 8); [tauto|]. destruct (N.le_gt_cases c 31); [destruct (N.eq_dec c 9); [lia|]; destruct (N.eq_dec c 10); [lia|]; destruct (N.eq_dec c 13); [lia|]; lia|]. right. lia.
Qed.
Lemma control_dec c : scalar c -> (control c = true /\ ~ xml_char c) \/ (control c = false /\ xml_char c).
Proof.
  intros S. destruct (control c) eqn:E; [left; split; [reflexivity|now apply control_ok]|right; split; [reflexivity|]].
  destruct S as [B S]. unfold control in E. rewrite !orb_false_iff, !andb_false_iff, !N.leb_gt in E. unfold xml_char. destruct (N.eq_dec c 9); [tauto|]. destruct (N.eq_dec c 10); [tauto|]. destruct (N.eq_dec c 13); [tauto|]. lia.
Qed.
Lemma scalar_hi c : scalar c -> hi c = false /\ lo c = false.
Proof. intros [B S]. unfold hi, lo. rewrite !andb_false_iff, !N.leb_gt. lia. Qed.
(** What replaces a character. *)
Definition replaced (repl : str) (c : N) (u : str) : str := if control c then repl else u.
Lemma legalize_scalars repl s : Forall scalar s -> forall b, legalize_loop repl b s = flat_map (fun c => replaced repl c [c]) s.
Proof.
  induction 1 as [|c s C F IH]; intros b; [reflexivity|]. cbn [legalize_loop flat_map illegal_length]. unfold replaced at 1. destruct (control c); [f_equal; apply IH|]. destruct (scalar_hi c C) as [-> ->].
  destruct s as [|d s]; [rewrite andb_false_r; cbn; reflexivity|]. inversion F; subst. destruct (scalar_hi d H1) as [_ ->]. cbn [andb negb]. rewrite andb_false_r. cbn [app]. f_equal. apply IH.
Qed.
Lemma units_shape c : scalar c -> (units c = [c] /\ hi c = false /\ lo c = false) \/ (exists a b, units c = [a; b] /\ hi a = true /\ lo b = true /\ control a = false /\ control b = false /\ control c = false).
Proof.
  intros S. destruct (scalar_hi c S) as [A B]. destruct S as [S1 S2]. unfold units. destruct (N.ltb_spec c 0x10000) as [L|L]; [left; auto|]. right. set (q := (c - 0x10000) / 1024). set (m := (c - 0x10000) mod 1024).
  assert (m < 1024) by (apply N.mod_lt; lia). assert (q < 1024) by (apply N.div_lt_upper_bound; lia). exists (0xD800 + q), (0xDC00 + m). split; [reflexivity|]. clearbody q m. unfold hi, lo, control.
  rewrite !andb_true_iff, !orb_false_iff, !andb_false_iff, !N.leb_le, !N.leb_gt. repeat split; lia.
Qed.
Lemma units_first c d r : scalar c -> units c = d :: r -> lo d = false.
Proof.
  intros S E. destruct (units_shape c S) as [[U [_ L]]|[a [b [U [A _]]]]]; rewrite U in E; injection E as <- _; [exact L|]. unfold hi, lo in *. rewrite andb_true_iff, !N.leb_le in A. rewrite andb_false_iff, !N.leb_gt. lia.
Qed.
Lemma legalize_units repl s : Forall scalar s -> forall b, legalize_loop repl b (flat_map units s) = flat_map (fun c => replaced repl c (units c)) s.
Proof.
  induction 1 as [|c s C F IH]; intros b; [reflexivity|]. cbn [flat_map].
  assert (forall d r, flat_map units s = d :: r -> lo d = false) as NX.
  { destruct s as [|c2 s]; [discriminate|]. inversion F; subst. intros d r E. cbn [flat_map] in E. destruct (units c2) as [|x u] eqn:U; [unfold units in U; destruct (c2 <? _); discriminate|]. cbn in E. injection E as <- _. now apply (units_first c2 x u). }
  destruct (units_shape c C) as [[U [A B]]|[x [y [U [A [B [CA [CB CC]]]]]]]]; rewrite U.
  - cbn [app legalize_loop illegal_length]. unfold replaced at 1. destruct (control c); [f_equal; apply IH|]. rewrite A, B. destruct (flat_map units s) as [|d r] eqn:E.
    + rewrite andb_false_r. cbn [app]. f_equal. rewrite <- IH with (b := false). reflexivity.
    + rewrite (NX d r eq_refl). cbn [andb negb]. rewrite andb_false_r. cbn [app]. f_equal. rewrite <- IH with (b := false). reflexivity.
  - cbn [app legalize_loop illegal_length]. rewrite CA, A, B. cbn [andb negb]. assert (lo x = false) as LX by (now apply (units_first c x [y])). rewrite LX, andb_false_r. cbn [legalize_loop illegal_length]. rewrite CB.
    assert (hi y = false) as HY. { unfold hi, lo in *. rewrite andb_true_iff, !N.leb_le in B. rewrite andb_false_iff, !N.leb_gt. lia. }
    rewrite HY. unfold replaced at 1. rewrite CC. cbn [app]. f_equal. destruct (flat_map units s) as [|d r] eqn:E.
    + cbn [andb]. f_equal. rewrite <- IH with (b := false). reflexivity.
    + rewrite (NX d r eq_refl). cbn [andb negb]. f_equal. rewrite <- IH with (b := false). reflexivity.
Qed.

(** ** isxml *)
Lemma starts_ok s : starts_markup (Some s) = true <-> markup s.
Proof.
  unfold starts_markup. destruct (span_space s) as [g [E [G N]]]. set (t := snd (span is_xmlspace s)) in *. clearbody t. split.
  - intros H. destruct t as [|c t]; [discriminate|]. apply N.eqb_eq in H. subst c. exists g, t. auto.
  - intros [g2 [r [E2 G2]]]. assert (g = g2 /\ t = 60 :: r) as [_ ->]; [|reflexivity]. rewrite E in E2. clear E. revert g2 E2 G2. induction G as [|c g C G IH]; intros g2 E2 G2.
    + destruct g2 as [|d g2]; [auto|]. cbn in E2. inversion G2; subst. exfalso. now apply (N d (g2 ++ 60 :: r)).
    + destruct g2 as [|d g2]; cbn in E2; injection E2 as E1 E2.
      * exfalso. subst c. destruct C as [C|[C|[C|C]]]; discriminate.
      * inversion G2; subst. destruct (IH g2 E2) as [-> ->]; [assumption|]. auto.
Qed.
Lemma utf8_lead c : 0 < c < 1114112 -> exists a r, utf8_1 c = a :: r /\ Forall (fun b => 0 < b < 256) (a :: r) /\ ((c < 128 /\ a = c /\ r = []) \/ (128 <= c /\ 192 <= a < 248)).
Proof.
  intros H. pose proof (utf8_1_bytes c ltac:(lia)) as B. unfold utf8_1 in *. destruct (N.ltb_spec c 128).
  - exists c, []. split; [reflexivity|]. split; [constructor; [lia|constructor]|left; auto].
  - assert (forall x, 0 < 128 + x) as P by (intros; lia). destruct (N.ltb_spec c 2048); [|destruct (N.ltb_spec c 65536)]; eexists _, _; (split; [reflexivity|]); (split; [|right; split; [lia|]]).
    + apply Forall_forall. intros b I. rewrite Forall_forall in B. specialize (B b I). cbn [In] in I. generalize dependent (c / 64). generalize dependent (c mod 64). intros. lia.
    + assert (c / 64 < 32) by (apply N.div_lt_upper_bound; lia). generalize dependent (c / 64). intros. lia.
    + apply Forall_forall. intros b I. rewrite Forall_forall in B. specialize (B b I). cbn [In] in I. generalize dependent (c / 64 mod 64). generalize dependent (c mod 64). generalize dependent (c / 4096). intros. lia.
    + assert (c / 4096 < 16) by (apply N.div_lt_upper_bound; lia). generalize dependent (c / 4096). intros. lia.
    + apply Forall_forall. intros b I. rewrite Forall_forall in B. specialize (B b I). cbn [In] in I. generalize dependent (c / 64 mod 64). generalize dependent (c mod 64). generalize dependent (c / 4096 mod 64). generalize dependent (c / 262144). intros. lia.
    + assert (c / 262144 < 5) by (apply N.div_lt_upper_bound; lia). generalize dependent (c / 262144). intros. lia.
Qed.
Lemma utf8_bytes_ok s : Forall (fun c => 0 < c < 1114112) s -> Forall (fun b => 0 < b < 256) (utf8_encode s).
Proof.
  induction 1 as [|c s C F IH]; [constructor|]. cbn. apply Forall_app. split; [|exact IH]. destruct (utf8_lead c C) as [a [r [-> [B _]]]]. exact B.
Qed.
Lemma utf8_no_cont s : Forall (fun c => 0 < c < 1114112) s -> forall a r, utf8_encode s = a :: r -> a < 128 \/ 192 <= a < 248.
Proof.
  intros F a r E. destruct F as [|c s C F]; [discriminate|]. cbn in E. destruct (utf8_lead c C) as [b [t [U [_ X]]]]. rewrite U in E. injection E as <- _. lia.
Qed.
Lemma utf8_ascii s b r : Forall (fun c => 0 < c < 1114112) s -> utf8_encode s = b :: r -> b < 128 -> exists t, s = b :: t /\ r = utf8_encode t.
Proof.
  intros F E L. destruct F as [|c s C F]; [discriminate|]. cbn in E. destruct (utf8_lead c C) as [a [t [U [_ X]]]]. rewrite U in E. injection E as <- E. destruct X as [[X1 [-> ->]]|[X1 X2]]; [|lia]. exists s. split; [reflexivity|]. now symmetry.
Qed.
Lemma utf8_bom s r : Forall (fun c => 0 < c < 1114112) s -> utf8_encode s = 0xEF :: 0xBB :: 0xBF :: r -> exists t, s = 0xFEFF :: t /\ r = utf8_encode t.
Proof.
  intros F E. pose proof (utf8_roundtrip s) as R. rewrite E in R. assert (Forall (fun c => c < 1114112) s) as F2 by (eapply Forall_impl; [|exact F]; cbn; intros; lia). specialize (R F2).
  change (option_map (cons 0xFEFF) (utf8_decode r) = Some s) in R. destruct (utf8_decode r) as [t|]; [|discriminate]. injection R as <-. exists t. split; [reflexivity|]. change (utf8_encode (0xFEFF :: t)) with (0xEF :: 0xBB :: 0xBF :: utf8_encode t) in E. injection E as E. now symmetry.
Qed.
Lemma markup_hd c s : markup (c :: s) -> white c \/ c = 60.
Proof. intros [g [r [E G]]]. destruct g as [|d g]; cbn in E; injection E as -> _; [now right|]. inversion G; subst. now left. Qed.
Lemma is_xml_utf8 u16 u32 s : Forall (fun c => 0 < c < 1114112) s -> is_xml u16 u32 (utf8_encode s) = true <-> markup (drop_bom s).
Proof.
  intros F. assert (Forall (fun c => c < 1114112) s) as F2 by (eapply Forall_impl; [|exact F]; cbn; intros; lia). pose proof (utf8_bytes_ok s F) as B. unfold is_xml.
  destruct (big_endian (utf8_encode s)) as [ch|] eqn:BE.
  2: { rewrite utf8_roundtrip by exact F2. rewrite starts_ok. unfold drop_bom. destruct s as [|c s]; [reflexivity|]. destruct (N.eqb_spec c 0xFEFF) as [->|NE]; [|reflexivity]. destruct s as [|c2 s].
       - split; [intros H; apply markup_hd in H; exfalso; destruct H as [[H|[H|[H|H]]]|H]; discriminate|]. intros [g [r [E _]]]. destruct g; discriminate.
       - exfalso. inversion F as [|? ? _ F3]; subst. inversion F3; subst. destruct (utf8_lead c2 H1) as [a [t [U _]]]. cbn [utf8_encode flat_map] in BE. rewrite U in BE. discriminate BE. }
  unfold big_endian in BE. destruct (utf8_encode s) as [|b0 [|b1 [|b2 [|b3 bs]]]] eqn:U; try discriminate. injection BE as BE.
  assert (0 < b0 < 256 /\ 0 < b1 < 256 /\ 0 < b2 < 256 /\ 0 < b3 < 256) as [B0 [B1 [B2 B3]]] by (repeat match goal with H : Forall _ (_ :: _) |- _ => inversion H; subst; clear H end; auto).
  assert (forall a b c d, a < 256 -> b < 256 -> c < 256 -> d < 256 -> (ch =? a * 16777216 + b * 65536 + c * 256 + d) = true -> b0 = a /\ b1 = b /\ b2 = c /\ b3 = d) as EQ by (intros a b c d A1 A2 A3 A4 E; apply N.eqb_eq in E; lia).
  assert (forall a b c d, a < 256 -> b < 256 -> c < 256 -> d < 256 -> a = 0 \/ b = 0 \/ c = 0 \/ d = 0 -> (ch =? a * 16777216 + b * 65536 + c * 256 + d) = false) as ZQ.
  { intros a b c d A1 A2 A3 A4 Z. destruct (ch =? _) eqn:E; [|reflexivity]. apply EQ in E; lia. }
  cbn [existsb].
  assert ((ch =? 0x003C003F) = false) as -> by (apply (ZQ 0 60 0 63); reflexivity || tauto).
  assert ((ch =? 0x3C003F00) = false) as -> by (apply (ZQ 60 0 63 0); reflexivity || tauto).
  assert ((ch =? 0x0000003C) = false) as -> by (apply (ZQ 0 0 0 60); reflexivity || tauto).
  assert ((ch =? 0x3C000000) = false) as -> by (apply (ZQ 60 0 0 0); reflexivity || tauto).
  assert ((ch =? 0x00003C00) = false) as -> by (apply (ZQ 0 0 60 0); reflexivity || tauto).
  assert ((ch =? 0x003C0000) = false) as -> by (apply (ZQ 0 60 0 0); reflexivity || tauto).
  assert ((ch =? 0x0000FEFF) = false) as -> by (apply (ZQ 0 0 254 255); reflexivity || tauto).
  assert ((ch =? 0xFFFE0000) = false) as -> by (apply (ZQ 255 254 0 0); reflexivity || tauto).
  assert ((ch =? 0x0000FFFE) = false) as -> by (apply (ZQ 0 0 255 254); reflexivity || tauto).
  assert ((ch =? 0xFEFF0000) = false) as -> by (apply (ZQ 254 255 0 0); reflexivity || tauto).
  cbn [orb].
  assert ((ch =? 0x4C6FA794) = false) as ->.
  { destruct (ch =? 0x4C6FA794) eqn:E; [|reflexivity]. apply (EQ 0x4C 0x6F 0xA7 0x94) in E; try reflexivity. destruct E as [-> [-> [-> ->]]]. destruct (utf8_ascii s _ _ F U) as [t [-> E1]]; [reflexivity|]. inversion F; subst. symmetry in E1. destruct (utf8_ascii t _ _ H2 E1) as [t2 [-> E2]]; [reflexivity|]. inversion H2; subst.
    symmetry in E2. apply utf8_no_cont in E2; [lia|assumption]. }
  destruct (ch =? 0x3C3F786D) eqn:E1.
  { apply (EQ 0x3C 0x3F 0x78 0x6D) in E1; try reflexivity. destruct E1 as [-> [-> [-> ->]]]. destruct (utf8_ascii s _ _ F U) as [t [-> _]]; [reflexivity|]. split; [intros _|reflexivity]. cbn. exists [], t. auto. }
  cbn [orb]. assert (ch / 256 = b0 * 65536 + b1 * 256 + b2) as D1. { symmetry. apply (N.div_unique _ _ _ b3); lia. }
  assert (ch / 65536 = b0 * 256 + b1) as D2. { symmetry. apply (N.div_unique _ _ _ (b2 * 256 + b3)); lia. }
  rewrite D1, D2. destruct (N.eqb_spec (b0 * 65536 + b1 * 256 + b2) 0xEFBBBF) as [E2|E2].
  - assert (b0 = 0xEF /\ b1 = 0xBB /\ b2 = 0xBF) as [-> [-> ->]] by lia. destruct (utf8_bom s _ F U) as [t [-> E3]]. cbn [skipn]. rewrite E3, utf8_roundtrip by (inversion F2; assumption). rewrite starts_ok. reflexivity.
  - assert ((b0 * 256 + b1 =? 0xFEFF) = false) as -> by (apply N.eqb_neq; pose proof (utf8_no_cont s F _ _ U); lia). assert ((b0 * 256 + b1 =? 0xFFFE) = false) as -> by (apply N.eqb_neq; pose proof (utf8_no_cont s F _ _ U); lia). cbn [orb].
    rewrite <- U, utf8_roundtrip by exact F2. rewrite starts_ok. unfold drop_bom. destruct s as [|c s]; [reflexivity|]. destruct (N.eqb_spec c 0xFEFF) as [->|NE]; [|reflexivity]. exfalso. apply E2. cbn in U. injection U as <- <- <- _. reflexivity.
Qed.
Lemma is_xml_utf16 u16 u32 (le : bool) bs s : (if le then bs = [0xFF; 0xFE] ++ flat_map (fun u => [u mod 256; u / 256]) (flat_map units s) else bs = [0xFE; 0xFF] ++ flat_map (fun u => [u / 256; u mod 256]) (flat_map units s)) ->
  u16 bs = Some s -> markup s -> is_xml u16 u32 bs = true.
Proof.
  intros E D M. assert (exists c r, s = c :: r /\ 0 < c < 128) as [c [r [-> C]]].
  { destruct s as [|c r]; [destruct M as [g [x [X _]]]; destruct g; discriminate|]. exists c, r. split; [reflexivity|]. apply markup_hd in M. unfold white in M. lia. }
  apply starts_ok in M. unfold is_xml. assert (units c = [c]) as U. { unfold units. destruct (N.ltb_spec c 0x10000); [reflexivity|lia]. }
  cbn [flat_map] in E. rewrite U in E. cbn [app flat_map] in E. rewrite (N.mod_small c 256), (N.div_small c 256) in E by lia. destruct le; rewrite E in *; cbn [app big_endian].
  - replace (existsb _ [0x3C3F786D; _; _; _; _; _; _; _]) with false by (symmetry; cbn [existsb]; repeat (apply orb_false_intro; [apply N.eqb_neq; lia|]); reflexivity).
    replace (existsb _ [0x0000FEFF; _; _; _]) with false by (symmetry; cbn [existsb]; repeat (apply orb_false_intro; [apply N.eqb_neq; lia|]); reflexivity).
    replace ((_ / 256) =? 0xEFBBBF) with false. 2: { symmetry. apply N.eqb_neq. replace (_ / 256) with (0xFFFE00 + c); [lia|]. apply (N.div_unique _ _ _ 0); lia. }
    replace ((_ / 65536)) with 0xFFFE. 2: { apply (N.div_unique _ _ _ (c * 256 + 0)); lia. }
    cbn [existsb]. change (0xFFFE =? 0xFEFF) with false. cbn. rewrite D. exact M.
  - replace (existsb _ [0x3C3F786D; _; _; _; _; _; _; _]) with false by (symmetry; cbn [existsb]; repeat (apply orb_false_intro; [apply N.eqb_neq; lia|]); reflexivity).
    replace (existsb _ [0x0000FEFF; _; _; _]) with false by (symmetry; cbn [existsb]; repeat (apply orb_false_intro; [apply N.eqb_neq; lia|]); reflexivity).
    replace ((_ / 256) =? 0xEFBBBF) with false. 2: { symmetry. apply N.eqb_neq. replace (_ / 256) with 0xFEFF00; [lia|]. apply (N.div_unique _ _ _ c); lia. }
    replace ((_ / 65536)) with 0xFEFF. 2: { apply (N.div_unique _ _ _ c); lia. }
    cbn [existsb]. cbn. rewrite D. exact M.
Qed.
