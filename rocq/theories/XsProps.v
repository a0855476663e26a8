(** * C49 to C52: the XML string functions

    The vocabulary is in XsSpec: the productions of XML 1.0 and Namespaces in XML,
    white space and words, legal characters. *)
From Coq Require Import NArith String List Bool Lia.
From Verif Require Import PyStr PyErr Utf8 XsTables XsModel XsSpec XsCharset XsProofs.
Import ListNotations.
Local Open Scope N_scope.

Lemma no_zero_in s : ~ In 0 s -> no_zero s.
Proof. intros H. apply Forall_forall. intros c C ->. contradiction. Qed.

(** ** C49: isname, isncname, isqname, isnmtoken and the tests for NAMES and NMTOKENS *)
Theorem C49_isname_partial : forall s, ~ In 0 s -> is_name s = true <-> name s.
Proof. intros s H. now apply is_name_ok, no_zero_in. Qed.
Print Assumptions C49_isname_partial.
Theorem C49_isncname_partial : forall s, ~ In 0 s -> is_ncname s = true <-> ncname s.
Proof. intros s H. now apply is_ncname_ok, no_zero_in. Qed.
Print Assumptions C49_isncname_partial.
Theorem C49_isqname_partial : forall s, ~ In 0 s -> is_qname s = true <-> qname s.
Proof. intros s H. now apply is_qname_ok, no_zero_in. Qed.
Print Assumptions C49_isqname_partial.
Theorem C49_names_partial : forall s, ~ In 0 s -> is_names s = true <-> names s.
Proof. intros s H. now apply is_names_ok, no_zero_in. Qed.
Print Assumptions C49_names_partial.
(** The first character of a name token is not looked at: every token is accepted, and
    what is accepted is a token but for its first character. *)
Theorem C49_isnmtoken_partial : forall s, ~ In 0 s -> (nmtoken s -> is_nmtoken s = true) /\ (is_nmtoken s = true <-> exists c r, s = c :: r /\ Forall name_char r).
Proof. intros s H. split; [now apply is_nmtoken_complete, no_zero_in|now apply is_nmtoken_exact, no_zero_in]. Qed.
Print Assumptions C49_isnmtoken_partial.
Theorem C49_nmtokens_partial : forall s, ~ In 0 s -> nmtokens s -> is_nmtokens s = Ok true.
Proof. intros s H. now apply is_nmtokens_complete, no_zero_in. Qed.
Print Assumptions C49_nmtokens_partial.
(** The classes of single characters, for every code point. *)
Theorem C49_characters : forall c,
  (is_name_char c = true <-> name_char c) /\ (is_ncname_char c = true <-> ncname_char c) /\
  (is_name_start c = true <-> letter c \/ c = 95 \/ c = 58) /\ (is_ncname_start c = true <-> letter c \/ c = 95).
Proof. intros c. split; [apply name_char_ok|]. split; [apply ncname_char_ok|]. split; [apply name_start_ok|apply ncname_start_ok]. Qed.
Print Assumptions C49_characters.
Example C49_case : is_name (lit "a:b:c") = true /\ name (lit "a:b:c") /\ is_qname (lit "a:b:c") = false /\ is_qname (lit "xsl:sort") = true /\ qname (lit "xsl:sort") /\
  is_name [0x4E2D; 0x6587; 0xB7] = true /\ is_name [0xB7; 0x4E2D] = false /\ is_names (lit "a b") = true /\ is_names (lit "a  b") = false /\ is_nmtokens (lit "1 -2") = Ok true.
Proof.
  assert (is_name (lit "a:b:c") = true) as A by (vm_compute; reflexivity). assert (is_qname (lit "xsl:sort") = true) as B by (vm_compute; reflexivity).
  split; [exact A|]. split; [apply C49_isname_partial; [|exact A]; vm_compute; intuition discriminate|]. split; [vm_compute; reflexivity|]. split; [exact B|]. split; [apply C49_isqname_partial; [|exact B]; vm_compute; intuition discriminate|].
  repeat split; vm_compute; reflexivity.
Qed.
Lemma not_char c s r : s = r ++ [c] -> is_name_char c = false -> ~ name s /\ ~ nmtoken s.
Proof.
  intros -> H. assert (Forall name_char (r ++ [c]) -> False) as X. { intros F. apply Forall_app in F. destruct F as [_ F]. inversion F; subst. apply name_char_ok in H2. congruence. }
  split.
  - intros [a [t [E [L F]]]]. apply X. rewrite E. constructor; [now apply start_is_char|exact F].
  - intros [_ F]. now apply X.
Qed.
(** 'a', a zero character, '<' is accepted as a name. *)
Theorem C49_zero_refuted : let s := [97; 0; 60] in is_name s = true /\ is_ncname s = true /\ is_qname s = true /\ is_nmtoken s = true /\ ~ name s /\ ~ nmtoken s.
Proof.
  intros s. destruct (not_char 60 s [97; 0]) as [A B]; [reflexivity|vm_compute; reflexivity|]. repeat (split; [vm_compute; reflexivity|]). auto.
Qed.
Print Assumptions C49_zero_refuted.
Theorem C49_nmtoken_refuted : is_nmtoken (lit "<") = true /\ ~ nmtoken (lit "<") /\ is_nmtokens (lit "a ") = Err Garbage /\ is_nmtokens (lit "a  b") = Ok true /\ ~ nmtokens (lit "a  b").
Proof.
  split; [vm_compute; reflexivity|]. split; [apply (not_char 60 _ []); vm_compute; reflexivity|]. split; [vm_compute; reflexivity|]. split; [vm_compute; reflexivity|].
  intros H. change (lit "a  b") with (97 :: 32 :: 32 :: 98 :: []) in H. apply (seq_cons nmtoken 97 [32; 32; 98]) in H; [| |intros [X _]; now apply X|discriminate].
  - destruct H as [_ T]. apply tail_space in T. destruct T as [l [NE [F J]]]. destruct l as [|w l]; [contradiction|]. inversion F as [|? ? [WN Fw] _]; subst. destruct w as [|c w]; [contradiction|]. destruct l; cbn in J; injection J as <- _; inversion Fw; subst; now apply space_no_name.
  - intros w. split; [intros [_ G]; inversion G; subst; split; [split; [discriminate|constructor; [assumption|constructor]]|assumption]|]. intros [[_ G] G2]. split; [discriminate|]. inversion G; subst. now constructor.
Qed.
Print Assumptions C49_nmtoken_refuted.

(** ** C50: strip, isspace, splitqname *)
Theorem C50_strip : forall s m, xml_strip true true s = m <-> exists g h, s = g ++ m ++ h /\ Forall white g /\ Forall white h /\ no_white_start m /\ no_white_end m.
Proof.
  intros s m. split.
  - intros <-. destruct (strip_both s) as [g [h H]]. exists g, h. exact H.
  - intros [g [h [E [G [H [S L]]]]]]. now apply (strip_unique s g m h).
Qed.
Print Assumptions C50_strip.
Theorem C50_lstrip_rstrip : forall s,
  (exists g, s = g ++ xml_strip true false s /\ Forall white g /\ no_white_start (xml_strip true false s)) /\
  (exists g, s = xml_strip false true s ++ g /\ Forall white g /\ no_white_end (xml_strip false true s)).
Proof. intros s. split; [apply strip_left|apply strip_right]. Qed.
Print Assumptions C50_lstrip_rstrip.
Theorem C50_isspace : forall s, is_space s = true <-> Forall white s.
Proof. exact is_space_ok. Qed.
Print Assumptions C50_isspace.
(** Splitting is at the first colon. *)
Theorem C50_split : forall q, match split_qname q with
  | (Some p, l) => q = p ++ 58 :: l /\ ~ In 58 p
  | (None, l) => l = q /\ ~ In 58 q
  end.
Proof.
  intros q. unfold split_qname. destruct (break1 58 q) as [[p l]|] eqn:E; [now apply break_some|]. split; [reflexivity|]. now apply break_none.
Qed.
Print Assumptions C50_split.
(** The parts of a qualified name are names without colon, and make the name again. *)
Theorem C50_qname : forall q, qname q -> match split_qname q with
  | (Some p, l) => ncname p /\ ncname l
  | (None, l) => ncname l
  end /\ (let '(p, l) := split_qname q in make_qname p l) = q.
Proof.
  intros q [H|[p [l [P [L ->]]]]].
  - unfold split_qname. rewrite (proj2 (break_none 58 q)) by now apply ncname_no_colon. auto.
  - unfold split_qname. rewrite (proj2 (break_some 58 (p ++ 58 :: l) p l)) by (split; [reflexivity|now apply ncname_no_colon]). split; [auto|]. destruct P as [c [r [-> _]]]. reflexivity.
Qed.
Print Assumptions C50_qname.
Theorem C50_make : forall p l, ~ In 58 p -> p <> [] -> split_qname (make_qname (Some p) l) = (Some p, l).
Proof.
  intros p l H NE. destruct p as [|c p]; [contradiction|]. unfold make_qname, split_qname. now rewrite (proj2 (break_some 58 ((c :: p) ++ 58 :: l) (c :: p) l)).
Qed.
Print Assumptions C50_make.
(** Normalizing the value of xml:id: the words, separated by single spaces. *)
Theorem C50_normalize_partial : forall junk s ws, has_words s ws -> Forall (fun c => white c -> c = 32) s -> normalize_space junk s = join [32] ws.
Proof. exact normalize_ok. Qed.
Print Assumptions C50_normalize_partial.
Theorem C50_words : forall s, exists ws, has_words s ws.
Proof. intros s. destruct (words_exist s) as [ws [H _]]. eauto. Qed.
Print Assumptions C50_words.
Example C50_case : xml_strip true true (9 :: lit " a b ") = lit "a b" /\ normalize_space 0 (lit "  a   b ") = lit "a b" /\ has_words (lit "  a   b ") [lit "a"; lit "b"] /\ normalize_space 32 [] = [] /\ split_qname (lit "a:b:c") = (Some (lit "a"), lit "b:c").
Proof.
  split; [vm_compute; reflexivity|]. split; [vm_compute; reflexivity|]. split; [|split; vm_compute; reflexivity].
  assert (forall n, Forall white (repeat 32 n)) as S by (intros n; apply Forall_forall; intros x X; apply repeat_spec in X; subst; unfold white; auto).
  assert (forall c, c = 97 \/ c = 98 -> word [c]) as W by (intros c C; split; [discriminate|constructor; [unfold white; lia|constructor]]).
  apply (words_more (repeat 32 2) [97] (repeat 32 3 ++ [98] ++ repeat 32 1)); [apply S|apply W; auto| |intros c r [= <- _]; unfold white; auto].
  apply (words_more (repeat 32 3) [98] (repeat 32 1)); [apply S|apply W; auto|apply words_none, S|intros c r [= <- _]; unfold white; auto].
Qed.
(** One tab between the words is kept, though it is replaced if anything else has to be changed. *)
Theorem C50_normalize_refuted : forall junk, has_words [97; 9; 98] [[97]; [98]] /\ normalize_space junk [97; 9; 98] = [97; 9; 98] /\ normalize_space junk [97; 9; 98; 32] = [97; 32; 98].
Proof.
  intros junk. split; [|split; reflexivity]. assert (forall c, c = 97 \/ c = 98 -> word [c]) as W by (intros c C; split; [discriminate|constructor; [unfold white; lia|constructor]]).
  apply (words_more [] [97] [9; 98]); [constructor|apply W; auto| |intros c r [= <- _]; unfold white; auto]. apply (words_more [9] [98] []); [repeat constructor|apply W; auto|apply words_none; constructor|discriminate].
Qed.
Print Assumptions C50_normalize_refuted.
(** ':a' does not come back. *)
Theorem C50_empty_prefix_refuted : let q := lit ":a" in (let '(p, l) := split_qname q in make_qname p l) = lit "a".
Proof. vm_compute. reflexivity. Qed.
Print Assumptions C50_empty_prefix_refuted.

(** ** C51: legalize *)
(** On a wide build: each illegal character is replaced, nothing else changes. *)
Theorem C51_legalize_partial : forall repl s, Forall scalar s ->
  exists f, (forall c, xml_char c -> f c = [c]) /\ (forall c, scalar c -> ~ xml_char c -> f c = repl) /\ legalize repl s = flat_map f s.
Proof.
  intros repl s F. exists (fun c => replaced repl c [c]). split; [|split; [|apply legalize_scalars; exact F]].
  - intros c C. assert (scalar c) as S. { split; unfold xml_char in C; lia. } unfold replaced. destruct (control_dec c S) as [[_ X]|[-> _]]; [contradiction|reflexivity].
  - intros c S C. unfold replaced. destruct (control_dec c S) as [[-> _]|[_ X]]; [reflexivity|contradiction].
Qed.
Print Assumptions C51_legalize_partial.
(** On a narrow build, for well-formed UTF-16. *)
Theorem C51_legalize_utf16_partial : forall repl s, Forall scalar s ->
  exists f, (forall c, xml_char c -> f c = units c) /\ (forall c, scalar c -> ~ xml_char c -> f c = repl) /\ legalize repl (flat_map units s) = flat_map f s.
Proof.
  intros repl s F. exists (fun c => replaced repl c (units c)). split; [|split; [|apply legalize_units; exact F]].
  - intros c C. assert (scalar c) as S. { split; unfold xml_char in C; lia. } unfold replaced. destruct (control_dec c S) as [[_ X]|[-> _]]; [contradiction|reflexivity].
  - intros c S C. unfold replaced. destruct (control_dec c S) as [[-> _]|[_ X]]; [reflexivity|contradiction].
Qed.
Print Assumptions C51_legalize_utf16_partial.
(** The result is legal. *)
Theorem C51_result_partial : forall repl s, Forall scalar s -> Forall xml_char repl -> Forall xml_char (legalize repl s).
Proof.
  intros repl s F R. unfold legalize. rewrite legalize_scalars by exact F. induction F as [|c s C F IH]; [constructor|]. cbn [flat_map]. apply Forall_app. split; [|exact IH]. unfold replaced. destruct (control_dec c C) as [[-> _]|[-> X]]; [exact R|]. constructor; [exact X|constructor].
Qed.
Print Assumptions C51_result_partial.
(** One unpaired surrogate in legal text does not survive (but see below). *)
Theorem C51_surrogate_partial : forall repl a d b, Forall xml_char repl -> Forall xml_char a -> Forall xml_char b -> 0xD800 <= d <= 0xDFFF ->
  Forall xml_char (legalize repl (a ++ d :: b)).
Proof.
  intros repl a d b R A B D.
  assert (SC : forall c, xml_char c -> scalar c) by (intros c C; split; unfold xml_char in C; lia).
  assert (L : forall s, Forall xml_char s -> Forall xml_char (legalize_loop repl false s)).
  { intros s F. rewrite legalize_scalars by (eapply Forall_impl; [|exact F]; exact SC). induction F as [|c s C F IH]; [constructor|]. cbn [flat_map]. apply Forall_app. split; [|exact IH].
    unfold replaced. destruct (control c); [exact R|]. constructor; [exact C|constructor]. }
  assert (CD : control d = false). { unfold control. rewrite !orb_false_iff, !andb_false_iff, !N.leb_gt. lia. }
  assert (HL : (hi d = true /\ lo d = false) \/ (hi d = false /\ lo d = true)).
  { unfold hi, lo. destruct (N.le_gt_cases d 0xDBFF); [left|right]; rewrite ?andb_true_iff, ?andb_false_iff, ?N.leb_le, ?N.leb_gt; lia. }
  assert (H0 : forall start, start = true \/ hi d = true -> Forall xml_char (legalize_loop repl start (d :: b))).
  { intros start HS. cbn [legalize_loop illegal_length]. rewrite CD. destruct b as [|e b'].
    - destruct HL as [[-> _]|[H K]]; [apply Forall_app; split; [exact R|constructor]|]. rewrite H, K. destruct HS as [-> |]; [|congruence]. apply Forall_app. split; [exact R|constructor].
    - inversion B as [|? ? E B']; subst. destruct (scalar_hi e (SC e E)) as [_ LE]. rewrite LE. destruct HL as [[-> _]|[H K]]; [|rewrite H, K]; cbn [andb negb].
      + apply Forall_app. split; [exact R|]. now apply L.
      + destruct HS as [-> |]; [|congruence]. apply Forall_app. split; [exact R|]. now apply L. }
  assert (G : forall a start, Forall xml_char a -> start = true \/ a <> [] -> Forall xml_char (legalize_loop repl start (a ++ d :: b))).
  { clear a A. induction a as [|c a IH]; intros start A HS; [apply H0; destruct HS; [now left|congruence]|]. inversion A as [|? ? C A']; subst.
    destruct (scalar_hi c (SC c C)) as [HC LC]. destruct (control_dec c (SC c C)) as [[_ X]|[KC _]]; [contradiction|].
    destruct a as [|e a].
    - cbn [app]. cbn [legalize_loop]. cbn [illegal_length]. rewrite KC, HC, LC, andb_false_r. cbn [andb negb]. destruct HL as [[Hd Ld]|[Hd Ld]]; rewrite Ld.
      + constructor; [exact C|]. apply (H0 false). now right.
      + apply Forall_app. split; [exact R|]. now apply L.
    - inversion A' as [|? ? E _]; subst. destruct (scalar_hi e (SC e E)) as [_ LE]. change ((c :: e :: a) ++ d :: b) with (c :: (e :: a) ++ d :: b). remember ((e :: a) ++ d :: b) as rest eqn:ER.
      assert (illegal_length start (c :: rest) = 0%nat) as IL.
      { rewrite ER. cbn [app illegal_length]. rewrite KC, HC, LC, LE. destruct start; reflexivity. }
      cbn [legalize_loop]. rewrite IL. constructor; [exact C|]. apply (IH false A'). right. discriminate. }
  apply G; [exact A|now left].
Qed.
Print Assumptions C51_surrogate_partial.
Example C51_case : legalize (lit "?") [65; 26; 66; 0; 67] = lit "A?B?C" /\ Forall scalar [65; 26; 66; 0; 67] /\ legalize (lit "?") [0xD83D; 0xDE00; 1] = [0xD83D; 0xDE00; 63].
Proof. split; [vm_compute; reflexivity|]. split; [|vm_compute; reflexivity]. apply Forall_forall. intros c C. cbn [In] in C. unfold scalar. lia. Qed.
(** Unpaired surrogates: one stays after another illegal character; a pair is torn
    apart; the legal character next to one is lost. *)
Theorem C51_surrogates_refuted : 
  legalize (lit "?") [1; 0xDC00] = [63; 0xDC00] /\ ~ xml_char 0xDC00 /\
  legalize (lit "?") [0xD800; 0xDC00; 0xDC00] = [0xD800; 63] /\
  legalize (lit "?") [0xD800; 65] = lit "?".
Proof. split; [vm_compute; reflexivity|]. split; [unfold xml_char; lia|]. split; vm_compute; reflexivity. Qed.
Print Assumptions C51_surrogates_refuted.

(** ** C52: isxml *)
(** UTF-8 text (without zero characters), with or without a byte order mark. *)
Theorem C52_utf8 : forall utf16 utf32 s, Forall (fun c => 0 < c < 0x110000) s ->
  is_xml utf16 utf32 (utf8_encode s) = true <-> markup (drop_bom s).
Proof. exact is_xml_utf8. Qed.
Print Assumptions C52_utf8.
(** UTF-16 with a byte order mark, for every decoder that decodes the bytes. *)
Theorem C52_utf16 : forall utf16 utf32 (le : bool) bs s,
  (if le then bs = [0xFF; 0xFE] ++ flat_map (fun u => [u mod 256; u / 256]) (flat_map units s)
   else bs = [0xFE; 0xFF] ++ flat_map (fun u => [u / 256; u mod 256]) (flat_map units s)) ->
  utf16 bs = Some s -> markup s -> is_xml utf16 utf32 bs = true.
Proof. exact is_xml_utf16. Qed.
Print Assumptions C52_utf16.
Example C52_case : let d _ := None in is_xml d d (lit " <a/>") = true /\ is_xml d d (lit "doc.xml") = false /\ is_xml d d ([0xEF; 0xBB; 0xBF] ++ lit "<a/>") = true /\ is_xml d d [60] = true /\
  is_xml (fun _ => Some (lit "<a/>")) d [0xFF; 0xFE; 60; 0; 97; 0; 47; 0; 62; 0] = true /\ markup (lit "<a/>").
Proof. intros d. repeat (split; [vm_compute; reflexivity|]). exists [], (lit "a/>"). split; [reflexivity|constructor]. Qed.
